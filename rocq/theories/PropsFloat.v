(** The metrics in float64 arithmetic: C48 - C50. *)
From Coq Require Import Reals Lra.
From Flocq Require Import Core BinarySingleNaN.
From Verif Require Import Base F64 FloatR MathModel HistSpec RingModel NumModel MomentModel MomentSpec MetricProof StdFloat CoreInv FloatMean FloatErr.
Local Open Scope nat_scope.

(** ** C48: the mean lies within the data *)
(** [v] is a finite number between two of the values [l]. *)
Definition within (v : f64) (l : list f64) : Prop :=
  isfin v = true /\ exists a b, In a l /\ In b l /\ fle a v = true /\ fle v b = true.
Definition moderate (x : f64) : Prop := isfin x = true /\ (Rabs (B2R x) <= bpow radix2 1022)%R.

Lemma hist_moderate ops : (forall x, In (OPush x) ops -> moderate x) -> forall x : f64, In x (hist ops) -> moderate x.
Proof.
  intros H x. revert H. induction ops as [|o ops IH] using rev_ind; intros H Hx; [destruct Hx|]. destruct o as [y|].
  - rewrite hist_push in Hx. apply in_app_or in Hx. destruct Hx as [Hx|[->|[]]].
    + apply IH; [|exact Hx]. intros z Hz. apply H, in_or_app. left. exact Hz.
    + apply H, in_or_app. right. left. reflexivity.
  - rewrite hist_clear in Hx. destruct Hx.
Qed.
Lemma ginv_within d h c : ginv d h c -> (forall x, In x h -> moderate x) -> h <> [] -> c_count c = zlen h /\ within (c_mean c) h.
Proof.
  intros ((_ & Hc & Hm) & _) Hmod Hh. split; [exact Hc|]. destruct h as [|y h]; [congruence|]. destruct Hm as ((F & _) & a & b & Ha & Hb & H1 & H2).
  split; [exact F|]. exists a, b. split; [exact Ha|]. split; [exact Hb|]. split; apply fle_R; auto; apply Hmod; assumption.
Qed.
Lemma get_mean_zlen {T} (c : @core T) (h : list f64) : c_count c = zlen h -> h <> [] -> c_get_mean c = Ok (c_mean c).
Proof.
  intros H1 H2. unfold c_get_mean. rewrite H1. destruct (Z.eqb_spec (zlen h) 0) as [E|_]; [|reflexivity].
  destruct h; [congruence|]. unfold zlen in E. cbn [length] in E. lia.
Qed.

(** Without a window: Mean.Value is a finite number not below the smallest and not above
    the largest value pushed since the last Clear, for up to 2^53 operations on finite
    values of magnitude up to 2^1022. Missing: windows, where it is false. *)
Theorem C48_mean_within_partial ops : (forall x, In (OPush x) ops -> moderate x) -> (zlen ops <= 2 ^ 53)%Z ->
  exists m, m_run FN (KMean 0) ops = Ok m /\
    (hist ops <> [] -> exists v, m_value FN m = Ok v /\ within v (hist ops)).
Proof.
  intros Hr Hlen. destruct (ginv_run None (mkCore (fz 0) 0 (fun _ => fz 0) 0 0 None (ring_new 0)) ops) as (c & E & I); [exact Logic.I| |exact Hr|exact Hlen|].
  { apply ginv_nil; try reflexivity. cbn [c_len]. lia. }
  exists (mkM (KMean 0) (Some c)). split.
  - rewrite m_run_eq. replace (new_core FN (kconfig (KMean 0))) with (Ok (mkCore (fz 0) 0 (fun _ => fz 0) 0 0 None (ring_new 0))) by reflexivity.
    cbn [bind]. rewrite E. reflexivity.
  - intros Hh. destruct (ginv_within None _ c I (hist_moderate ops Hr) Hh) as [Hc Hw]. exists (c_mean c). split; [|exact Hw].
    unfold m_value. cbn [m_core m_kind kvalue]. exact (get_mean_zlen c _ Hc Hh).
Qed.
Print Assumptions C48_mean_within_partial.
(** The same for EWMA, with any decay in (0,1). *)
Theorem C48_ewma_within_partial d ops : flt (fz 0) d = true -> flt d (fz 1) = true ->
  (forall x, In (OPush x) ops -> moderate x) -> (zlen ops <= 2 ^ 53)%Z ->
  exists m, m_run FN (KEwma d) ops = Ok m /\
    (hist ops <> [] -> exists v, m_value FN m = Ok v /\ within v (hist ops)).
Proof.
  intros Hd0 Hd1 Hr Hlen.
  assert (Fd : is_finite d = true) by (destruct d as [?|[|]| |? ? ? ?]; try reflexivity; discriminate).
  assert (Hd : (0 < B2R d < 1)%R).
  { destruct (fz_real 0 ltac:(lia)) as [F0 E0']. destruct (fz_real 1 ltac:(lia)) as [F1 E1].
    apply flt_R in Hd0; [|exact F0|exact Fd]. apply flt_R in Hd1; [|exact Fd|exact F1]. rewrite E0' in Hd0. rewrite E1 in Hd1. lra. }
  destruct (ginv_run (Some d) (mkCore (fz 0) 0 (fun _ => fz 0) 0 0 (Some d) (ring_new 0)) ops) as (c & E & I); [split; [exact Fd|exact Hd]| |exact Hr|exact Hlen|].
  { apply ginv_nil; try reflexivity. cbn [c_len]. lia. }
  exists (mkM (KEwma d) (Some c)). split.
  - rewrite m_run_eq. replace (new_core FN (kconfig (KEwma d))) with (Ok (mkCore (fz 0) 0 (fun _ => fz 0) 0 0 (Some d) (ring_new 0))).
    + cbn [bind]. rewrite E. reflexivity.
    + unfold new_core. cbv zeta. unfold validate. cbn [set_defaults kconfig cf_window cf_decay cf_sums sums_of existsb nle nz FN]. change (0 <? 0)%Z with false. cbv iota.
      destruct (fz_real 0 ltac:(lia)) as [F0 E0']. destruct (fz_real 1 ltac:(lia)) as [F1 E1].
      destruct (fle d (fz 0)) eqn:H1; [apply fle_R in H1; [lra|exact Fd|exact F0]|].
      destruct (fle (fz 1) d) eqn:H2; [apply fle_R in H2; [lra|exact F1|exact Fd]|]. reflexivity.
  - intros Hh. destruct (ginv_within (Some d) _ c I (hist_moderate ops Hr) Hh) as [Hc Hw]. exists (c_mean c). split; [|exact Hw].
    unfold m_value. cbn [m_core m_kind kvalue]. exact (get_mean_zlen c _ Hc Hh).
Qed.
Print Assumptions C48_ewma_within_partial.

(** With a window the claim is false: window 2, values 2^60, 1, 1. The window holds 1, 1, yet
    the mean is 1/2. *)
Theorem C48_window_refuted : exists w (xs : list f64) m v, Forall moderate xs /\ m_run FN (KMean w) (map OPush xs) = Ok m /\
  live w xs = [fz 1; fz 1] /\ m_value FN m = Ok v /\ flt v (fz 1) = true.
Proof.
  exists 2%Z, [fdy 1 60; fz 1; fz 1].
  assert (D : rmap (fun v => flt v (fz 1)) (m <- m_run FN (KMean 2) (map OPush [fdy 1 60; fz 1; fz 1]) ;; m_value FN m) = Ok true) by concrete.
  apply rmap_ok in D. destruct D as (v & D & Hv). apply bind_ok in D. destruct D as (m & D1 & D2). exists m, v.
  split; [|split; [exact D1|]; split; [reflexivity|]; split; [exact D2|exact Hv]].
  destruct (fz_real 1 ltac:(lia)) as [F1 E1]. destruct (fdy_exact 1 60 ltac:(lia) ltac:(lia)) as (F2 & E2 & _).
  assert (H1 : moderate (fz 1)). { split; [exact F1|]. rewrite E1, Rabs_R1. apply (bpow_le radix2 0). lia. }
  apply Forall_cons; [|apply Forall_cons; [exact H1|apply Forall_cons; [exact H1|apply Forall_nil]]]. split; [exact F2|]. rewrite E2. unfold F2R. cbn [Fnum Fexp]. rewrite Rmult_1_l.
  rewrite Rabs_pos_eq by apply bpow_ge_0. apply bpow_le. lia.
Qed.
Print Assumptions C48_window_refuted.
(** Three times 0.1: the sum is not exact, the mean is 0.1. *)
Example C48_case : let x := fdy 3602879701896397 (-55) in
  rmap (fun v => fle x v && fle v x) (m <- m_run FN (KMean 0) (map OPush [x; x; x]) ;; m_value FN m) = Ok true /\
  rmap (fun v => fle x v && fle v x) (m <- m_run FN (KEwma (fdy 1 (-2))) (map OPush [x; x; x]) ;; m_value FN m) = Ok true /\ moderate x.
Proof.
  cbv zeta. split; [concrete|]. split; [concrete|]. destruct (fdy_exact 3602879701896397 (-55) ltac:(lia) ltac:(lia)) as (F & E & _).
  split; [exact F|]. rewrite E. unfold F2R. cbn [Fnum Fexp]. rewrite Rabs_mult, !Rabs_pos_eq by (try apply bpow_ge_0; lra).
  apply Rle_trans with (bpow radix2 53 * bpow radix2 (-55))%R; [apply Rmult_le_compat_r; [apply bpow_ge_0|]; change (bpow radix2 53) with 9007199254740992%R; lra|].
  rewrite <- bpow_plus. apply bpow_le. lia.
Qed.

(** ** C49: accuracy of Mean *)
(** All values pushed are finite and at most B in magnitude. *)
Definition bounded (B : R) (ops : list (op f64)) : Prop := forall x, In (OPush x) ops -> isfin x = true /\ (Rabs (B2R x) <= B)%R.
Definition reals (l : list f64) : list R := map (fun x : f64 => B2R x) l.

(** With any window w (0: none), after any history of up to 2^40 operations on values of
    magnitude at most B, Mean.Value is an error exactly if no value is live, and otherwise
    within 34 n 2^-53 B of the mean of the live values, n being the number of values pushed
    since the last Clear: the error does not grow with the size of values that left the
    window beyond B, and not faster than linearly with their number. *)
Theorem C49_mean_error B w ops : (bpow radix2 (-400) <= B <= bpow radix2 400)%R -> (0 <= w)%Z -> bounded B ops -> (zlen ops <= 2 ^ 40)%Z ->
  exists m, m_run FN (KMean w) ops = Ok m /\
    match live w (hist ops) with
    | [] => m_value FN m = Err ENoValues
    | l => exists v, m_value FN m = Ok v /\ isfin v = true /\
        (Rabs (B2R v - rmean (reals l)) <= 34 * INR (length (hist ops)) * (bpow radix2 (-53) * B))%R
    end.
Proof.
  intros HB Hw Hops Hlen. destruct (mean_run B w ops HB Hw Hops Hlen 0 ltac:(lia)) as (c & E & (_ & _ & Hc & Fm & _ & Hm)).
  exists (mkM (KMean w) (Some c)). split.
  - rewrite m_run_eq. replace (new_core FN (kconfig (KMean w))) with (Ok (mkCore (fz 0) 0 (fun _ => fz 0) 0 w None (ring_new w))).
    + cbn [bind]. rewrite E. reflexivity.
    + unfold new_core. cbv zeta. unfold validate. cbn [set_defaults kconfig cf_window cf_decay cf_sums sums_of existsb]. destruct (Z.ltb_spec w 0); [lia|]. reflexivity.
  - unfold m_value. cbn [m_core m_kind kvalue]. destruct (live w (hist ops)) as [|y l] eqn:El.
    + unfold c_get_mean. rewrite Hc. reflexivity.
    + exists (c_mean c). split; [apply (get_mean_zlen c (y :: l) Hc); discriminate|]. split; [exact Fm|exact Hm].
Qed.
Print Assumptions C49_mean_error.

(** ** C50: accuracy of Moment(2) and Std *)
Lemma new_core_2 k w : (0 <= w)%Z -> kconfig k = mkCfg (Some [2%Z]) (Some w) None -> new_core FN (kconfig k) = Ok (mkCore (fz 0) 3 (fun _ => fz 0) 0 w None (ring_new w)).
Proof.
  intros Hw Ek. rewrite Ek. unfold new_core. cbv zeta. unfold validate. cbn [set_defaults cf_window cf_decay cf_sums sums_of]. destruct (Z.ltb_spec w 0); [lia|]. reflexivity.
Qed.
(** The variance of two or more live values is finite and off by at most 1000 n^2 2^-53 B^2. *)
Theorem C50_variance_error B w ops : (bpow radix2 (-400) <= B <= bpow radix2 400)%R -> (0 <= w)%Z -> bounded B ops -> (zlen ops <= 2 ^ 40)%Z ->
  exists m, m_run FN (KMoment 2 w) ops = Ok m /\
    (2 <= length (live w (hist ops)) -> exists v, m_value FN m = Ok v /\ isfin v = true /\
      (Rabs (B2R v - sample_moment 2 (reals (live w (hist ops)))) <= 1000 * INR (length (hist ops)) ^ 2 * (bpow radix2 (-53) * B ^ 2))%R).
Proof.
  intros HB Hw Hops Hlen. destruct (sum2_run B w ops HB Hw Hops Hlen 3 ltac:(lia)) as (c & E & HQ).
  exists (mkM (KMoment 2 w) (Some c)). split.
  - rewrite m_run_eq, (new_core_2 (KMoment 2 w) w Hw eq_refl). cbn [bind]. rewrite E. reflexivity.
  - intros Hl. destruct (var_value B ops HB Hlen c _ _ HQ Hl (hist_le ops)) as (v & Ev & Fv & Hv & _). exists v. split; [exact Ev|]. split; [exact Fv|].
    replace (INR (length (hist ops)) ^ 2)%R with (INR (length (hist ops)) * INR (length (hist ops)))%R by ring. replace (B ^ 2)%R with (B * B)%R by ring. exact Hv.
Qed.
Print Assumptions C50_variance_error.
(** If moreover the variance of the live values exceeds that bound, Std.Value is not NaN and
    its square is within 1100 n^2 2^-53 B^2 of the variance. *)
Theorem C50_std_error B w ops : (bpow radix2 (-400) <= B <= bpow radix2 400)%R -> (0 <= w)%Z -> bounded B ops -> (zlen ops <= 2 ^ 40)%Z ->
  exists m, m_run FN (KStd w) ops = Ok m /\
    (2 <= length (live w (hist ops)) ->
     (1000 * INR (length (hist ops)) ^ 2 * (bpow radix2 (-53) * B ^ 2) < sample_moment 2 (reals (live w (hist ops))))%R ->
     exists v, m_value FN m = Ok v /\ isfin v = true /\ (0 <= B2R v)%R /\
      (Rabs (B2R v ^ 2 - sample_moment 2 (reals (live w (hist ops)))) <= 1100 * INR (length (hist ops)) ^ 2 * (bpow radix2 (-53) * B ^ 2))%R).
Proof.
  intros HB Hw Hops Hlen. destruct (sum2_run B w ops HB Hw Hops Hlen 3 ltac:(lia)) as (c & E & HQ).
  exists (mkM (KStd w) (Some c)). split.
  - rewrite m_run_eq, (new_core_2 (KStd w) w Hw eq_refl). cbn [bind]. rewrite E. reflexivity.
  - intros Hl Hbig. destruct (var_value B ops HB Hlen c _ _ HQ Hl (hist_le ops)) as (v & Ev & Fv & Hv & Bv).
    replace (INR (length (hist ops)) ^ 2)%R with (INR (length (hist ops)) * INR (length (hist ops)))%R in * by ring. replace (B ^ 2)%R with (B * B)%R in * by ring.
    exists (fsqrt v). split; [unfold m_value; cbn [m_core m_kind kvalue]; rewrite Ev; reflexivity|].
    assert (Pv : (0 < B2R v)%R). { pose proof (Rabs_le_inv _ _ Hv) as H. fold eps in Hbig. unfold reals in Hbig. unfold rl in H. lra. }
    destruct (std_err B HB v _ _ Fv Pv Bv ltac:(pose proof (proj1 (proj2 (proj1 HQ))); lia) Hv) as (F & P & Hs). split; [exact F|]. split; [exact P|].
    replace (B2R (fsqrt v) ^ 2)%R with (B2R (fsqrt v) * B2R (fsqrt v))%R by ring. exact Hs.
Qed.
Print Assumptions C50_std_error.
(** The hypotheses are met by 1, 5, 2, 7 in a window of 3. *)
Example C50_case : let ops := map OPush (map fz [1; 5; 2; 7]%Z) in
  (bpow radix2 (-400) <= 8 <= bpow radix2 400)%R /\ bounded 8 ops /\ 2 <= length (live 3 (hist ops)) /\
  (1000 * INR (length (hist ops)) ^ 2 * (bpow radix2 (-53) * 8 ^ 2) < sample_moment 2 (reals (live 3 (hist ops))))%R.
Proof.
  cbv zeta. split.
  { change 8%R with (bpow radix2 3). split; apply bpow_le; lia. }
  split.
  { intros x Hx. apply in_map_iff in Hx. destruct Hx as (y & E & Hy). injection E as ->. apply in_map_iff in Hy. destruct Hy as (n & <- & Hn).
    assert (0 <= n <= 8)%Z by (cbn [In] in Hn; lia). destruct (fz_real n ltac:(lia)) as [F E]. split; [exact F|]. rewrite E.
    assert (0 <= IZR n <= 8)%R by (split; apply IZR_le; lia). apply Rabs_le. lra. }
  change (live 3 (hist (map OPush (map fz [1; 5; 2; 7]%Z)))) with (map fz [5; 2; 7]%Z). split; [cbn; lia|].
  change (length (hist (map OPush (map fz [1; 5; 2; 7]%Z)))) with 4. cbn [map reals].
  rewrite !(fun n H => proj2 (fz_real n H)) by lia.
  change (bpow radix2 (-53)) with (/ 9007199254740992)%R. unfold sample_moment, csum, rmean, rsum, rlen, zlen. cbn [map fold_right length Z.of_nat Pos.of_succ_nat Pos.succ]. cbn [INR]. lra.
Qed.
