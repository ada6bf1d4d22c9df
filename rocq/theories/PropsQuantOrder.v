(** C55: quantiles lie within the data. C56: quantiles grow with their argument. *)
From Coq Require Import Reals List Lia Lra.
From Flocq Require Import Core BinarySingleNaN.
From Verif Require Import Base F64 FloatR HistSpec OrderSpec RingModel MultisetSpec QuantileModel QuantileSpec FloatMean FloatErr QuantileProof QuantOrder PropsQuantile.
Local Open Scope Z_scope.

(** C55 is false for the default, linear, mode: the 1/3-quantile of 15 and 15 is above 15. It is false
    for the midpoint mode: the median of two large values is infinite. *)
Definition third : f64 := fdiv (fz 1) (fz 3).
Definition huge : f64 := fdy 3 1022.
Theorem C55_within_refuted : forall e,
  (exists ops, pushes_nonnan ops /\ rmap (fun r => map (fun x => flt x r) (hist ops)) (q <- q_run e 0 [] ops ;; q_value e q third) = Ok [true; true]) /\
  (exists ops, (forall x, In (OPush x) ops -> isfin x = true) /\ rmap (fun r => map (fun x => flt x r) (hist ops)) (q <- median_run e 0 [] ops ;; median_value e q) = Ok [true; true]).
Proof.
  intros e. split.
  - exists (pushes [15; 15]). split; [apply pushes_num; repeat constructor; vm_compute; reflexivity|]. vm_compute. reflexivity.
  - exists [OPush huge; OPush huge]. split; [|vm_compute; reflexivity]. intros x [H|[H|[]]]; injection H as <-; vm_compute; reflexivity.
Qed.
Print Assumptions C55_within_refuted.

(** Modes lower, higher and nearest for all values other than NaN; midpoint for values up to 2^1022; linear up to
    rounding. Under the storage conditions of C11 (always met by AVL). Missing: linear exactly, midpoint beyond 2^1022 (false). *)
Lemma quantile_ok e w os ops phi : 0 <= w -> Forall qopt_num os -> Forall qopt_valid os -> pushes_nonnan ops -> impl_cond (chosen_impl os) w ops ->
  nonnan phi -> in_range phi = true -> live w (hist ops) <> [] -> zlen (live w (hist ops)) <= 2 ^ 53 ->
  exists q r, q_run e w os ops = Ok q /\ q_value e q phi = Ok r /\ quantile_result (chosen_interp os) (live w (hist ops)) phi r.
Proof.
  intros Hw Hn Hv Hp Hi Np Hr Hl Hz. destruct (quantile_correct e w os ops Hw Hn Hv Hp Hi) as (q & E & H). destruct (H phi Np) as (_ & _ & H3).
  destruct (H3 Hr Hl Hz) as (r & Er & Q). eauto.
Qed.
Theorem C55_within_partial : forall e w os ops phi, 0 <= w -> Forall qopt_num os -> Forall qopt_valid os -> pushes_nonnan ops -> impl_cond (chosen_impl os) w ops ->
  nonnan phi -> in_range phi = true -> live w (hist ops) <> [] -> zlen (live w (hist ops)) <= 2 ^ 53 ->
  (chosen_interp os = 1 \/ chosen_interp os = 2 \/ chosen_interp os = 3) \/ chosen_interp os = 4 /\ (forall x, In x (live w (hist ops)) -> isfin x = true /\ (Rabs (B2R x) <= bpow radix2 1022)%R) ->
  exists q r, q_run e w os ops = Ok q /\ q_value e q phi = Ok r /\
    (exists a, In a (live w (hist ops)) /\ fle a r = true) /\ exists c, In c (live w (hist ops)) /\ fle r c = true.
Proof.
  intros e w os ops phi Hw Hn Hv Hp Hi Np Hr Hl Hz Hm. destruct (quantile_ok e w os ops phi Hw Hn Hv Hp Hi Np Hr Hl Hz) as (q & r & E & Er & Q).
  exists q, r. split; [exact E|]. split; [exact Er|]. apply (result_within (chosen_interp os) _ phi); [apply pushes_live; exact Hp| |exact Q].
  destruct Hm as [Hm|[Hm Hs]]; [left; exact Hm|right; split; [exact Hm|apply Forall_forall; exact Hs]].
Qed.
Print Assumptions C55_within_partial.
Theorem C55_linear_partial : forall e w os ops phi M, 0 <= w -> Forall qopt_num os -> Forall qopt_valid os -> pushes_nonnan ops -> impl_cond (chosen_impl os) w ops ->
  nonnan phi -> in_range phi = true -> live w (hist ops) <> [] -> zlen (live w (hist ops)) <= 2 ^ 53 ->
  chosen_interp os = 0 -> (forall x, In x (live w (hist ops)) -> isfin x = true /\ (Rabs (B2R x) <= M)%R) -> (M <= bpow radix2 1020)%R ->
  let delta := (8 * (bpow radix2 (-53) * M) + 4 * bpow radix2 (-1074))%R in
  exists q r, q_run e w os ops = Ok q /\ q_value e q phi = Ok r /\ isfin r = true /\
    (exists a, In a (live w (hist ops)) /\ (B2R a - delta <= B2R r)%R) /\ exists c, In c (live w (hist ops)) /\ (B2R r <= B2R c + delta)%R.
Proof.
  intros e w os ops phi M Hw Hn Hv Hp Hi Np Hr Hl Hz Hm Hs HM delta. destruct (quantile_ok e w os ops phi Hw Hn Hv Hp Hi Np Hr Hl Hz) as (q & r & E & Er & Q).
  exists q, r. split; [exact E|]. split; [exact Er|]. rewrite Hm in Q. exact (linear_within _ phi r M (pushes_live w ops Hp) (proj2 (Forall_forall _ _) Hs) HM Q).
Qed.
Print Assumptions C55_linear_partial.
Lemma qsmall : forall x, In x (live 4 (hist qcase)) -> isfin x = true /\ (Rabs (B2R x) <= 16)%R.
Proof.
  assert (G : Forall (fun x => isfin x = true /\ (Rabs (B2R x) <= 16)%R) (map fz [1; 4; 4; 2])).
  { repeat constructor; try (vm_compute; reflexivity); match goal with |- context [fz ?n] => destruct (fz_exact n ltac:(lia)) as [_ ->] end; rewrite Rabs_pos_eq; lra. }
  intros x Hx. rewrite Forall_forall in G. apply G. exact Hx.
Qed.
Example C55_case : (forall x, In x (live 4 (hist qcase)) -> isfin x = true /\ (Rabs (B2R x) <= 16)%R) /\ (16 <= bpow radix2 1020)%R /\ chosen_interp [QInterp 4] = 4 /\ chosen_interp [] = 0 /\
  rmap fbits (q <- q_run env0 4 [QInterp 4] qcase ;; q_value env0 q (fdy 1 (-2))) = Ok (fbits (fdy 3 (-1))) /\
  rmap fbits (q <- q_run env0 0 [] (pushes [15; 15]) ;; q_value env0 q third) = Ok (fbits (fdy (15 * 2 ^ 49 + 1) (-49))).
Proof.
  split; [exact qsmall|]. split; [change 16%R with (bpow radix2 4); apply bpow_le; lia|]. split; [reflexivity|]. split; [reflexivity|]. concrete.
Qed.

(** C56 is false for the linear mode: of 15 and 15, the 1/3-quantile is above the 1/2-quantile. *)
Theorem C56_monotone_refuted : forall e, exists ops, pushes_nonnan ops /\ flt third (fdy 1 (-1)) = true /\
  rmap (fun p => flt (snd p) (fst p)) (q <- q_run e 0 [] ops ;; a <- q_value e q third ;; b <- q_value e q (fdy 1 (-1)) ;; Ok (a, b)) = Ok true.
Proof.
  intros e. exists (pushes [15; 15]). split; [apply pushes_num; repeat constructor; vm_compute; reflexivity|]. split; vm_compute; reflexivity.
Qed.
Print Assumptions C56_monotone_refuted.
(** Missing: the linear mode and midpoint beyond 2^1022. *)
Theorem C56_monotone_partial : forall e w os ops phi1 phi2, 0 <= w -> Forall qopt_num os -> Forall qopt_valid os -> pushes_nonnan ops -> impl_cond (chosen_impl os) w ops ->
  in_range phi1 = true -> in_range phi2 = true -> fle phi1 phi2 = true -> live w (hist ops) <> [] -> zlen (live w (hist ops)) <= 2 ^ 53 ->
  (chosen_interp os = 1 \/ chosen_interp os = 2 \/ chosen_interp os = 3) \/ chosen_interp os = 4 /\ (forall x, In x (live w (hist ops)) -> isfin x = true /\ (Rabs (B2R x) <= bpow radix2 1022)%R) ->
  exists q r1 r2, q_run e w os ops = Ok q /\ q_value e q phi1 = Ok r1 /\ q_value e q phi2 = Ok r2 /\ fle r1 r2 = true.
Proof.
  intros e w os ops p1 p2 Hw Hn Hv Hp Hi R1 R2 Hle Hl Hz Hm.
  assert (G : forall p, in_range p = true -> nonnan p /\ fle p (fz 0) || fge p (fz 1) = false).
  { intros p H. assert (Np : nonnan p) by (destruct p; try reflexivity; discriminate H). split; [exact Np|]. unfold in_range in H. apply andb_true_iff in H. destruct H as [H1 H2].
    assert (N0 : nonnan (fz 0)) by (vm_compute; reflexivity). assert (N1 : nonnan (fz 1)) by (vm_compute; reflexivity).
    rewrite flt_key in H1, H2 by assumption. rewrite fle_key, fge_key by assumption. apply Z.ltb_lt in H1, H2. apply orb_false_iff. split; apply Z.leb_gt; assumption. }
  destruct (G _ R1) as [N1 I1]. destruct (G _ R2) as [N2 I2].
  destruct (quantile_ok e w os ops p1 Hw Hn Hv Hp Hi N1 R1 Hl Hz) as (q & r1 & E & E1 & Q1). destruct (quantile_ok e w os ops p2 Hw Hn Hv Hp Hi N2 R2 Hl Hz) as (q2 & r2 & E' & E2 & Q2).
  assert (q2 = q) by congruence. subst q2. exists q, r1, r2. split; [exact E|]. split; [exact E1|]. split; [exact E2|].
  refine (result_mono (chosen_interp os) _ p1 p2 r1 r2 (pushes_live w ops Hp) _ _ N1 N2 I1 I2 Hle Q1 Q2).
  - destruct Hm as [Hm|[Hm Hs]]; [left; exact Hm|right; split; [exact Hm|apply Forall_forall; exact Hs]].
  - split; [|exact Hz]. destruct (live w (hist ops)); [congruence|]. unfold zlen. cbn [length]. lia.
Qed.
Print Assumptions C56_monotone_partial.
(** Hence IQR is not negative. *)
Theorem C56_iqr_partial : forall e w os ops, 0 <= w -> Forall qopt_num os -> Forall qopt_valid os -> pushes_nonnan ops -> impl_cond (chosen_impl os) w ops ->
  live w (hist ops) <> [] -> zlen (live w (hist ops)) <= 2 ^ 53 -> (forall x, In x (live w (hist ops)) -> isfin x = true /\ (Rabs (B2R x) <= bpow radix2 1022)%R) ->
  exists q r, iqr_run e w os ops = Ok q /\ iqr_value e q = Ok r /\ fle (fz 0) r = true.
Proof.
  intros e w os ops Hw Hn Hv Hp Hi Hl Hz Hs.
  assert (Ec : chosen_interp (os ++ [QInterp 4]) = 4) by (unfold chosen_interp; rewrite fold_left_app; reflexivity).
  assert (Ei : chosen_impl (os ++ [QInterp 4]) = chosen_impl os) by (unfold chosen_impl; rewrite fold_left_app; reflexivity).
  assert (Hn' : Forall qopt_num (os ++ [QInterp 4])) by (apply Forall_app; split; [exact Hn|repeat constructor]).
  assert (Hv' : Forall qopt_valid (os ++ [QInterp 4])) by (apply Forall_app; split; [exact Hv|constructor; [cbn; lia|constructor]]).
  rewrite <- Ei in Hi.
  assert (R1 : in_range (fdy 1 (-2)) = true) by (vm_compute; reflexivity). assert (R2 : in_range (fdy 3 (-2)) = true) by (vm_compute; reflexivity).
  assert (Hle : fle (fdy 1 (-2)) (fdy 3 (-2)) = true) by (vm_compute; reflexivity).
  destruct (C56_monotone_partial e w _ ops _ _ Hw Hn' Hv' Hp Hi R1 R2 Hle Hl Hz (or_intror (conj Ec Hs))) as (q & r1 & r2 & E & E1 & E2 & L).
  assert (N1 : nonnan (fdy 1 (-2))) by (vm_compute; reflexivity). assert (N2 : nonnan (fdy 3 (-2))) by (vm_compute; reflexivity).
  assert (W : forall phi r, nonnan phi -> in_range phi = true -> q_value e q phi = Ok r -> in22 r).
  { intros phi r Np Rp Er. destruct (C55_within_partial e w _ ops phi Hw Hn' Hv' Hp Hi Np Rp Hl Hz (or_intror (conj Ec Hs))) as (q' & r' & E' & Er' & (a & Ia & La) & c & Ic & Lc).
    assert (q' = q) by congruence. subst q'. assert (r' = r) by congruence. subst r'. destruct (Hs a Ia) as [Fa Ba]. destruct (Hs c Ic) as [Fc Bc].
    pose proof (fin_between a r c Fa Fc La Lc) as Fr.
    split; [exact Fr|]. apply fle_R in La, Lc; auto. apply Rabs_le. apply Rabs_le_inv in Ba, Bc. lra. }
  pose proof (W _ _ N1 R1 E1) as [F1 B1]. pose proof (W _ _ N2 R2 E2) as [F2 B2].
  exists q, (fsub r2 r1). split; [exact E|]. unfold iqr_value. rewrite E1, E2. cbn [bind]. split; [reflexivity|].
  apply fle_R in L; auto. destruct (PowFloat.fsub_b r2 r1 1023 F2 F1 ltac:(lia)) as [Fs Rs].
  - replace (bpow radix2 1023) with (2 * bpow radix2 1022)%R by (change 1023 with (1 + 1022); rewrite bpow_plus; reflexivity). apply Rabs_le. apply Rabs_le_inv in B1, B2. lra.
  - destruct (fz_exact 0 ltac:(lia)) as [F0 R0]. apply fle_R; auto. rewrite R0, Rs. apply rnd_above; [apply fmt_0|lra].
Qed.
Print Assumptions C56_iqr_partial.
Example C56_case : in_range (fdy 1 (-2)) = true /\ in_range (fdy 5 (-3)) = true /\ fle (fdy 1 (-2)) (fdy 5 (-3)) = true /\ impl_cond 0 4 qcase /\
  (forall x, In x (live 4 (hist qcase)) -> isfin x = true /\ (Rabs (B2R x) <= bpow radix2 1022)%R) /\
  rmap (fun p => (fbits (fst p), fbits (snd p))) (q <- q_run env0 4 [QInterp 4] qcase ;; a <- q_value env0 q (fdy 1 (-2)) ;; b <- q_value env0 q (fdy 5 (-3)) ;; Ok (a, b)) = Ok (fbits (fdy 3 (-1)), fbits (fz 3)) /\
  rmap fbits (q <- iqr_run env0 4 [] qcase ;; iqr_value env0 q) = Ok (fbits (fdy 5 (-1))).
Proof.
  do 3 (split; [vm_compute; reflexivity|]). split; [left; reflexivity|]. split.
  - intros x Hx. destruct (qsmall x Hx) as [F B]. split; [exact F|]. eapply Rle_trans; [exact B|]. change 16%R with (bpow radix2 4). apply bpow_le. lia.
  - concrete.
Qed.
