(** float64 behaviour of the running mean and of EWMA without a window: they stay between the values pushed. *)
From Coq Require Import ZArith Lia Bool Reals Lra List.
From Flocq Require Import Core Mult_error BinarySingleNaN.
From Verif Require Import Base F64 FloatR HistSpec RingModel MathModel NumModel MomentModel StdFloat CoreInv.
Import ListNotations.
Local Open Scope R_scope.

(** ** A step towards a value does not overshoot it *)
Lemma half_gap y : fmt y -> bpow radix2 (-1021) <= y -> (y - pred radix2 fexp64 y) / 2 < bpow radix2 (-53) * y.
Proof.
  intros Fy Hy. assert (H0 : 0 < y) by (pose proof (bpow_gt_0 radix2 (-1021)); lra).
  rewrite pred_eq_pos by lra. unfold pred_pos. set (e := mag radix2 y).
  assert (He : (-1021 < e)%Z). { apply mag_gt_bpow. rewrite Rabs_pos_eq by lra. exact Hy. }
  pose proof (bpow_gt_0 radix2 (-53)) as Hb.
  destruct (Req_bool_spec y (bpow radix2 (e - 1))) as [E|E].
  - assert (Ef : fexp64 (e - 1) = (e - 1 - 53)%Z) by (rewrite fexp64_FLT; unfold FLT_exp; lia). rewrite Ef.
    unfold Zminus at 1. rewrite bpow_plus, <- E. replace (bpow radix2 (- (53))) with (bpow radix2 (-53)) by reflexivity. nra.
  - rewrite ulp_neq_0 by lra. unfold cexp. fold e.
    assert (Ef : fexp64 e = (e - 1 + 1 + -53)%Z) by (rewrite fexp64_FLT; unfold FLT_exp; lia). rewrite Ef, !bpow_plus. change (bpow radix2 1) with 2.
    assert (Hlt : bpow radix2 (e - 1) < y).
    { pose proof (bpow_mag_le radix2 y ltac:(lra)) as Hm. rewrite Rabs_pos_eq in Hm by lra. fold e in Hm. lra. }
    nra.
Qed.
Lemma rnd_scaled_pred d y : fmt y -> bpow radix2 (-1021) <= y -> d <= 1 - bpow radix2 (-53) -> rnd (d * y) <= pred radix2 fexp64 y.
Proof.
  intros Fy Hy Hd. pose proof (half_gap y Fy Hy) as Hg. assert (H0 : 0 < y) by (pose proof (bpow_gt_0 radix2 (-1021)); lra).
  unfold rnd. cbn [round_mode]. apply round_N_le_midp; [typeclasses eauto|apply generic_format_pred; [typeclasses eauto|exact Fy]|].
  rewrite succ_pred by (typeclasses eauto || exact Fy). nra.
Qed.
Lemma fmt_small_diff (x m : f64) : is_finite x = true -> is_finite m = true -> Rabs (B2R x - B2R m) < bpow radix2 (-1021) -> fmt (B2R x - B2R m).
Proof.
  intros Fx Fm H. rewrite (B2R_fk x Fx), (B2R_fk m Fm) in *.
  replace (IZR (fk x) * bpow radix2 (-1074) - IZR (fk m) * bpow radix2 (-1074)) with (F2R (Float radix2 (fk x - fk m) (-1074))) in *
    by (unfold F2R; cbn [Fnum Fexp]; rewrite minus_IZR; ring).
  apply fmt_F2R; [|lia]. apply le_IZR. rewrite abs_IZR. unfold F2R in H. cbn [Fnum Fexp] in H.
  rewrite Rabs_mult, (Rabs_pos_eq (bpow _ _)) in H by apply bpow_ge_0.
  replace (-1021)%Z with (53 + -1074)%Z in H by lia. rewrite bpow_plus in H. pose proof (bpow_gt_0 radix2 (-1074)).
  change (2 ^ 53)%Z with (Zpower radix2 53). rewrite IZR_Zpower by lia. nra.
Qed.
Lemma step_between (x m : f64) d : is_finite x = true -> is_finite m = true -> 0 <= d <= 1 - bpow radix2 (-53) -> B2R m <= B2R x ->
  0 <= rnd (d * rnd (B2R x - B2R m)) <= B2R x - B2R m.
Proof.
  intros Fx Fm Hd Hle. set (D := B2R x - B2R m). assert (HD : 0 <= D) by (unfold D; lra).
  assert (Hr : 0 <= rnd D) by (apply rnd_nonneg; exact HD). split; [apply rnd_nonneg; nra|]. pose proof (bpow_gt_0 radix2 (-53)) as Hb.
  destruct (Rlt_le_dec D (bpow radix2 (-1021))) as [H|H].
  - assert (FD : fmt D) by (apply fmt_small_diff; auto; rewrite Rabs_pos_eq; auto). rewrite (rnd_fmt D FD).
    rewrite <- (rnd_fmt D FD) at 2. apply rnd_le. nra.
  - assert (Fr : fmt (rnd D)) by (apply generic_format_round; typeclasses eauto).
    assert (Hy : bpow radix2 (-1021) <= rnd D). { rewrite <- (rnd_fmt (bpow radix2 (-1021))) by (apply fmt_bpow; lia). apply rnd_le. exact H. }
    eapply Rle_trans; [apply rnd_scaled_pred; [exact Fr|exact Hy|lra]|]. apply pred_round_le_id; typeclasses eauto.
Qed.
Lemma rnd_above a x : fmt a -> a <= x -> a <= rnd x.
Proof. intros Fa H. rewrite <- (rnd_fmt a Fa). apply rnd_le. exact H. Qed.
Lemma rnd_below a x : fmt a -> x <= a -> rnd x <= a.
Proof. intros Fa H. rewrite <- (rnd_fmt a Fa). apply rnd_le. exact H. Qed.
(** The new mean lies between the old one and the new value. *)
Lemma move_between (x m : f64) d : is_finite x = true -> is_finite m = true -> 0 <= d <= 1 - bpow radix2 (-53) ->
  let m' := rnd (B2R m + rnd (d * rnd (B2R x - B2R m))) in Rmin (B2R m) (B2R x) <= m' <= Rmax (B2R m) (B2R x).
Proof.
  intros Fx Fm Hd m'. destruct (Rle_lt_dec (B2R m) (B2R x)) as [H|H].
  - pose proof (step_between x m d Fx Fm Hd H) as Hs. rewrite Rmin_left, Rmax_right by exact H. unfold m'.
    split; [apply rnd_above|apply rnd_below]; apply fmt_B2R || lra.
  - assert (Fx' : is_finite (Bopp x) = true) by (rewrite is_finite_Bopp; exact Fx). assert (Fm' : is_finite (Bopp m) = true) by (rewrite is_finite_Bopp; exact Fm).
    pose proof (step_between (Bopp x) (Bopp m) d Fx' Fm' Hd) as Hs. rewrite !B2R_Bopp in Hs. specialize (Hs ltac:(lra)).
    replace (- B2R x - - B2R m) with (- (B2R x - B2R m)) in Hs by ring. rewrite rnd_opp in Hs. replace (d * - rnd (B2R x - B2R m)) with (- (d * rnd (B2R x - B2R m))) in Hs by ring.
    rewrite rnd_opp in Hs. rewrite Rmin_right, Rmax_left by lra. unfold m'.
    split; [apply rnd_above|apply rnd_below]; apply fmt_B2R || lra.
Qed.

(** ** The mean of a core without a window *)
Definition in22 (x : f64) : Prop := is_finite x = true /\ Rabs (B2R x) <= bpow radix2 1022.
Lemma diff_23 (x m : f64) : in22 x -> in22 m -> Rabs (B2R x - B2R m) <= bpow radix2 1023.
Proof.
  intros [_ Hx] [_ Hm]. replace 1023%Z with (1 + 1022)%Z by reflexivity. rewrite bpow_plus. change (bpow radix2 1) with 2.
  apply Rabs_le. apply Rabs_le_inv in Hx. apply Rabs_le_inv in Hm. lra.
Qed.
Lemma in22_between (x m : f64) r : in22 x -> in22 m -> Rmin (B2R m) (B2R x) <= r <= Rmax (B2R m) (B2R x) -> Rabs r <= bpow radix2 1022.
Proof.
  intros [_ Hx] [_ Hm] H. apply Rabs_le. apply Rabs_le_inv in Hx. apply Rabs_le_inv in Hm.
  unfold Rmin, Rmax in H. destruct (Rle_dec (B2R m) (B2R x)); lra.
Qed.
Definition between (m x m' : f64) : Prop := in22 m' /\ Rmin (B2R m) (B2R x) <= B2R m' <= Rmax (B2R m) (B2R x).
(** The sum of the old mean and a quantity that is at most the difference *)
Lemma fadd_between (x m q : f64) d : in22 x -> in22 m -> 0 <= d <= 1 - bpow radix2 (-53) -> is_finite q = true ->
  B2R q = rnd (d * rnd (B2R x - B2R m)) -> between m x (fadd m q).
Proof.
  intros Hx Hm Hd Fq Eq. pose proof (move_between x m d (proj1 Hx) (proj1 Hm) Hd) as Hb. cbv zeta in Hb. rewrite <- Eq in Hb.
  pose proof (in22_between x m _ Hx Hm Hb) as Ha.
  pose proof (Bplus_correct 53 1024 _ _ mode_NE m q (proj1 Hm) Fq) as H. fold (rnd (B2R m + B2R q)) in H.
  rewrite Rlt_bool_true in H by (eapply Rle_lt_trans; [exact Ha|apply bpow_lt; lia]). destruct H as (E & F & _).
  unfold between, in22, fadd. rewrite E. auto.
Qed.
Lemma mean_between (x m : f64) n : in22 x -> in22 m -> (2 <= n <= 2 ^ 53)%Z -> between m x (fadd m (fdiv (fsub x m) (fz n))).
Proof.
  intros Hx Hm Hn. destruct (fz_real n ltac:(lia)) as [Fn En]. assert (Hn2 : 2 <= IZR n) by (apply IZR_le; lia).
  destruct (fsub_b x m 1023 (proj1 Hx) (proj1 Hm) ltac:(lia) (diff_23 x m Hx Hm)) as [Fd Ed].
  assert (Hi : 0 <= / IZR n <= 1 / 2). { split; [left; apply Rinv_0_lt_compat; lra|]. unfold Rdiv. rewrite Rmult_1_l. apply Rinv_le_contravar; lra. }
  assert (Hb : bpow radix2 (-53) <= 1 / 2). { replace (1 / 2) with (bpow radix2 (-1)) by (cbn; lra). apply bpow_le. lia. }
  assert (Bd : Rabs (B2R (fsub x m)) <= bpow radix2 1023) by (rewrite Ed; apply rnd_abs_bpow; [lia|apply diff_23; assumption]).
  destruct (fdiv_b (fsub x m) (fz n) 1023 Fd ltac:(lia) ltac:(lra)) as [Fq Eq].
  { rewrite En. unfold Rdiv. rewrite Rabs_mult, (Rabs_pos_eq (/ IZR n)) by lra. pose proof (Rabs_pos (B2R (fsub x m))). nra. }
  apply (fadd_between x m _ (/ IZR n)); auto; [lra|]. rewrite Eq, En, Ed. unfold Rdiv. f_equal. ring.
Qed.
Lemma ewma_between (x m d : f64) : in22 x -> in22 m -> is_finite d = true -> 0 < B2R d < 1 -> between m x (fadd m (fmul d (fsub x m))).
Proof.
  intros Hx Hm Fd' Hd. destruct (fsub_b x m 1023 (proj1 Hx) (proj1 Hm) ltac:(lia) (diff_23 x m Hx Hm)) as [Fd Ed].
  assert (Bd : Rabs (B2R (fsub x m)) <= bpow radix2 1023) by (rewrite Ed; apply rnd_abs_bpow; [lia|apply diff_23; assumption]).
  assert (Hd1 : B2R d <= 1 - bpow radix2 (-53)).
  { assert (H : B2R d <= pred radix2 fexp64 (bpow radix2 0)) by (apply pred_ge_gt; try typeclasses eauto; [apply fmt_B2R|apply fmt_bpow; lia|cbn; lra]).
    rewrite pred_bpow in H. exact H. }
  destruct (fmul_b d (fsub x m) 1023 Fd' Fd ltac:(lia)) as [Fq Eq].
  { rewrite Rabs_mult, (Rabs_pos_eq (B2R d)) by lra. pose proof (Rabs_pos (B2R (fsub x m))). nra. }
  apply (fadd_between x m _ (B2R d)); auto; [lra|]. rewrite Eq, Ed. reflexivity.
Qed.
(** The first value becomes the mean. *)
Lemma first_mean (x : f64) : in22 x -> B2R (fadd (fz 0) (fdiv (fsub x (fz 0)) (fz 1))) = B2R x /\ is_finite (fadd (fz 0) (fdiv (fsub x (fz 0)) (fz 1))) = true.
Proof.
  intros [Fx Hx]. destruct (fz_real 0 ltac:(lia)) as [F0 E0']. destruct (fz_real 1 ltac:(lia)) as [F1 E1].
  destruct (fsub_b x (fz 0) 1022 Fx F0 ltac:(lia)) as [Fd Ed]; [rewrite E0', Rminus_0_r; exact Hx|]. rewrite E0', Rminus_0_r, rnd_fmt in Ed by apply fmt_B2R.
  destruct (fdiv_b (fsub x (fz 0)) (fz 1) 1022 Fd ltac:(lia) ltac:(lra)) as [Fq Eq]; [rewrite E1, Ed; unfold Rdiv; rewrite Rinv_1, Rmult_1_r; exact Hx|].
  rewrite E1, Ed in Eq. unfold Rdiv in Eq. rewrite Rinv_1, Rmult_1_r, rnd_fmt in Eq by apply fmt_B2R.
  destruct (fadd_b (fz 0) (fdiv (fsub x (fz 0)) (fz 1)) 1022 F0 Fq ltac:(lia)) as [Fs Es]; [rewrite E0', Eq, Rplus_0_l; exact Hx|].
  rewrite E0', Eq, Rplus_0_l, rnd_fmt in Es by apply fmt_B2R. auto.
Qed.
Lemma first_ewma (x : f64) : in22 x -> B2R (fadd (fz 0) (fmul (fz 1) (fsub x (fz 0)))) = B2R x /\ is_finite (fadd (fz 0) (fmul (fz 1) (fsub x (fz 0)))) = true.
Proof.
  intros [Fx Hx]. destruct (fz_real 0 ltac:(lia)) as [F0 E0']. destruct (fz_real 1 ltac:(lia)) as [F1 E1].
  destruct (fsub_b x (fz 0) 1022 Fx F0 ltac:(lia)) as [Fd Ed]; [rewrite E0', Rminus_0_r; exact Hx|]. rewrite E0', Rminus_0_r, rnd_fmt in Ed by apply fmt_B2R.
  destruct (fmul_b (fz 1) (fsub x (fz 0)) 1022 F1 Fd ltac:(lia)) as [Fq Eq]; [rewrite E1, Ed, Rmult_1_l; exact Hx|].
  rewrite E1, Ed, Rmult_1_l, rnd_fmt in Eq by apply fmt_B2R.
  destruct (fadd_b (fz 0) (fmul (fz 1) (fsub x (fz 0))) 1022 F0 Fq ltac:(lia)) as [Fs Es]; [rewrite E0', Eq, Rplus_0_l; exact Hx|].
  rewrite E0', Eq, Rplus_0_l, rnd_fmt in Es by apply fmt_B2R. auto.
Qed.

(** ** Histories *)
(** [l]: the values; nothing is known of the sums, which may be infinite or NaN *)
Definition mbetween (m : f64) (l : list f64) : Prop :=
  in22 m /\ exists a b, In a l /\ In b l /\ B2R a <= B2R m <= B2R b.
Definition gmean (l : list f64) (c : @core f64) : Prop :=
  (c_len c <= 66)%nat /\ c_count c = zlen l /\ match l with [] => c_mean c = fz 0 | _ => mbetween (c_mean c) l end.
Lemma mbetween_push m x m' l : mbetween m l -> In x (l ++ [x]) -> between m x m' -> mbetween m' (l ++ [x]).
Proof.
  intros (Hm & a & b & Ha & Hb & H) Hx [Hm' Hr]. split; [exact Hm'|]. unfold Rmin, Rmax in Hr.
  destruct (Rle_dec (B2R m) (B2R x)); [exists a, x|exists x, b]; repeat split; try lra; try exact Hx; apply in_or_app; left; assumption.
Qed.
Lemma last_in {A} (l : list A) x : In x (l ++ [x]).
Proof. apply in_or_app. right. left. reflexivity. Qed.
Lemma gmean_add l c x m' : gmean l c -> (zlen l < 2 ^ 53)%Z -> in22 x ->
  (l = [] -> B2R m' = B2R x /\ is_finite m' = true) -> (l <> [] -> in22 (c_mean c) -> between (c_mean c) x m') -> mbetween m' (l ++ [x]).
Proof.
  intros (Hl & Hc & Hm) Hn Hx H1 H2. destruct l as [|a l].
  - destruct (H1 eq_refl) as [E F]. split; [split; [exact F|]; rewrite E; apply Hx|]. exists x, x. cbn [app In]. rewrite E. repeat split; auto; lra.
  - apply (mbetween_push (c_mean c)); [exact Hm|apply last_in|]. apply H2; [discriminate|apply Hm].
Qed.
(** [h]: all values since the last Clear. The core has no window; [d]: its decay *)
Definition ginv (d : option f64) (h : list f64) (c : @core f64) : Prop := gmean h c /\ c_window c = 0%Z /\ c_decay c = d.
Definition good_decay (d : option f64) : Prop := match d with None => True | Some d => is_finite d = true /\ 0 < B2R d < 1 end.
Lemma ginv_push d h c x : good_decay d -> ginv d h c -> (zlen h < 2 ^ 53)%Z -> in22 x -> exists c', c_push FN c x = Ok c' /\ ginv d (h ++ [x]) c'.
Proof.
  intros Hd ((Hl & Hc & Hm) & Ew & Ed) Hn Hx. unfold c_push. rewrite Ew. cbn [Z.eqb negb bind]. rewrite Ed.
  assert (Hz : (0 <= zlen h)%Z) by (unfold zlen; lia).
  assert (Hlen : zlen (h ++ [x]) = (zlen h + 1)%Z) by (unfold zlen; rewrite app_length; cbn [length]; lia).
  assert (Hnil : h = [] -> zlen h = 0%Z) by (intros ->; reflexivity).
  assert (Hne : h <> [] -> (1 <= zlen h)%Z) by (destruct h; [congruence|intros _; unfold zlen; cbn [length]; lia]).
  destruct d as [d|].
  - destruct (c_add_decay_any FN c d x Hl) as (c' & E & (P1 & P2 & P3 & P4) & Ec & Em). exists c'. split; [exact E|].
    split; [|split; congruence]. split; [rewrite P1; exact Hl|]. split; [rewrite Ec, Hc, Hlen; reflexivity|].
    enough (mbetween (c_mean c') (h ++ [x])) by (destruct (h ++ [x]) eqn:Eh; [destruct h; discriminate|assumption]).
    rewrite Em. apply (gmean_add h c); [split; [exact Hl|split; [exact Hc|exact Hm]]|exact Hn|exact Hx| |].
    + intros Hh. rewrite Hc, (Hnil Hh). rewrite Hh in Hm. rewrite Hm. exact (first_ewma x Hx).
    + intros Hh Hi. rewrite Hc. destruct (Z.eqb_spec (zlen h + 1) 1) as [Hq|_]; [specialize (Hne Hh); lia|]. apply ewma_between; auto; apply Hd.
  - destruct (c_add_any FN c x Hl) as (c' & E & (P1 & P2 & P3 & P4) & Ec & Em). exists c'. split; [exact E|].
    split; [|split; congruence]. split; [rewrite P1; exact Hl|]. split; [rewrite Ec, Hc, Hlen; reflexivity|].
    enough (mbetween (c_mean c') (h ++ [x])) by (destruct (h ++ [x]) eqn:Eh; [destruct h; discriminate|assumption]).
    rewrite Em. unfold add_mean. apply (gmean_add h c); [split; [exact Hl|split; [exact Hc|exact Hm]]|exact Hn|exact Hx| |].
    + intros Hh. rewrite Hc, (Hnil Hh). rewrite Hh in Hm. rewrite Hm. exact (first_mean x Hx).
    + intros Hh Hi. rewrite Hc. apply mean_between; auto. specialize (Hne Hh). lia.
Qed.
Lemma ginv_nil d c : (c_len c <= 66)%nat -> c_count c = 0%Z -> c_mean c = fz 0 -> c_window c = 0%Z -> c_decay c = d -> ginv d [] c.
Proof. intros H1 H2 H3 H4 H5. repeat split; auto. Qed.
Lemma ginv_run d c0 ops : good_decay d -> ginv d [] c0 -> (forall x, In (OPush x) ops -> in22 x) -> (zlen ops <= 2 ^ 53)%Z ->
  exists c, core_run FN c0 ops = Ok c /\ ginv d (hist ops) c.
Proof.
  intros Hd H0 Hr Hlen. unfold core_run.
  assert (H : exists c, run (c_push FN) (c_clear FN) ops c0 = Ok c /\ ginv d (hist ops) c /\ (zlen (hist ops) <= zlen ops)%Z).
  { induction ops as [|o ops IH] using rev_ind.
    - exists c0. split; [reflexivity|]. split; [exact H0|]. apply Z.le_refl.
    - destruct IH as (c & E & I & L).
      { intros x Hx. apply Hr. apply in_or_app. left. exact Hx. }
      { unfold zlen in *. rewrite app_length in Hlen. cbn [length] in Hlen. lia. }
      assert (Hll : (zlen (ops ++ [o]) = zlen ops + 1)%Z) by (unfold zlen; rewrite app_length; cbn [length]; lia).
      rewrite run_app, E. cbn [bind]. destruct o as [x|]; cbn [run].
      + destruct (ginv_push d _ c x Hd I) as (c' & E' & I'); [lia|apply Hr, last_in|]. rewrite E'. cbn [bind].
        exists c'. rewrite hist_push. split; [reflexivity|]. split; [exact I'|]. unfold zlen in *. rewrite !app_length. cbn [length]. lia.
      + rewrite hist_clear. destruct I as ((Hl & _) & Hw & Hdd). eexists. split; [reflexivity|]. split; [|unfold zlen; cbn; lia].
        apply ginv_nil; try reflexivity; [exact Hl|exact Hw|exact Hdd]. }
  destruct H as (c & E & I & _). exists c. auto.
Qed.
