(** C85: the quantile at the exact position, and what rounding changes. *)
From Coq Require Import Reals List Lia Lra.
From Flocq Require Import Core BinarySingleNaN.
From Verif Require Import Base F64 FloatR HistSpec OrderSpec RingModel MultisetSpec QuantileModel QuantileSpec FloatMean FloatErr QuantileProof QuantOrder QuantAcc PropsQuantile PropsQuantOrder.
Local Open Scope Z_scope.

(** The default, linear, mode is accurate: against the linear interpolation, at the exact position phi * (n-1), between the ordered values
    in the window, the error is at most 8 * 2^-53 of the largest value and n * 2^-53 of the range of the values (and 4 * 2^-1074).
    [at_position] (QuantAcc.v) is that interpolation, in real arithmetic. *)
Theorem C85_linear : forall e w os ops phi M D, 0 <= w -> Forall qopt_num os -> Forall qopt_valid os -> pushes_nonnan ops -> impl_cond (chosen_impl os) w ops ->
  nonnan phi -> in_range phi = true -> live w (hist ops) <> [] -> zlen (live w (hist ops)) <= 2 ^ 53 -> chosen_interp os = 0 ->
  (forall x, In x (live w (hist ops)) -> isfin x = true /\ (Rabs (B2R x) <= M)%R) -> (M <= bpow radix2 1020)%R ->
  (forall x y, In x (live w (hist ops)) -> In y (live w (hist ops)) -> (B2R x - B2R y <= D)%R) ->
  let t := (B2R phi * IZR (zlen (live w (hist ops)) - 1))%R in
  exists q r, q_run e w os ops = Ok q /\ q_value e q phi = Ok r /\ isfin r = true /\
    (exists v, at_position (live w (hist ops)) t v) /\
    forall v, at_position (live w (hist ops)) t v ->
      (Rabs (B2R r - v) <= 8 * (bpow radix2 (-53) * M) + 4 * bpow radix2 (-1074) + bpow radix2 (-53) * IZR (zlen (live w (hist ops))) * D)%R.
Proof.
  intros e w os ops phi M D Hw Hn Hv Hp Hi Np Hr Hl Hz Hm Hs HM HD t. destruct (quantile_ok e w os ops phi Hw Hn Hv Hp Hi Np Hr Hl Hz) as (q & r & E & Er & Q).
  exists q, r. split; [exact E|]. split; [exact Er|]. rewrite Hm in Q. apply (linear_acc _ phi r M D (pushes_live w ops Hp) (proj2 (Forall_forall _ _) Hs) HM HD Hl Hz Np); [|exact Q].
  rewrite (range_neg phi Np). unfold in_range in Hr. rewrite Hr. reflexivity.
Qed.
Print Assumptions C85_linear.

(** Modes lower, higher and nearest choose what the documentation says at the exact position, except where the position is within n * 2^-53 of
    a place where the choice changes. *)
Theorem C85_choice_partial : forall e w os ops phi k, 0 <= w -> Forall qopt_num os -> Forall qopt_valid os -> pushes_nonnan ops -> impl_cond (chosen_impl os) w ops ->
  nonnan phi -> in_range phi = true -> live w (hist ops) <> [] -> zlen (live w (hist ops)) <= 2 ^ 53 ->
  let b := live w (hist ops) in let t := (B2R phi * IZR (zlen b - 1))%R in let g := (bpow radix2 (-53) * IZR (zlen b))%R in
  (INR k + g < t < INR k + 1 - g)%R ->
  exists q r, q_run e w os ops = Ok q /\ q_value e q phi = Ok r /\
    (chosen_interp os = 1 -> is_kth b k r) /\ (chosen_interp os = 2 -> is_kth b (S k) r) /\
    (chosen_interp os = 3 -> ((t < INR k + / 2 - g)%R -> is_kth b k r) /\ ((INR k + / 2 + g < t)%R -> is_kth b (S k) r)).
Proof.
  intros e w os ops phi k Hw Hn Hv Hp Hi Np Hr Hl Hz b t g Hk. destruct (quantile_ok e w os ops phi Hw Hn Hv Hp Hi Np Hr Hl Hz) as (q & r & E & Er & Q).
  exists q, r. split; [exact E|]. split; [exact Er|]. apply (choice_acc _ b phi r k Hl Hz Np); [|exact Q|exact Hk].
  rewrite (range_neg phi Np). unfold in_range in Hr. rewrite Hr. reflexivity.
Qed.
Print Assumptions C85_choice_partial.

(** At such a place the choice may be another: the float64 nearest to 1/3 is below 1/3, so that its position among 1, 2, 3, 4 is below 1, and the lower
    of the two neighbours is 1; the result is 2. *)
Theorem C85_lower_refuted : forall e, let ops := pushes [1; 2; 3; 4] in
  pushes_nonnan ops /\ in_range third = true /\ (0 <= B2R third * IZR (zlen (hist ops) - 1) < 1)%R /\ is_kth (hist ops) 0 (fz 1) /\
  rmap fbits (q <- q_run e 0 [QInterp 1] ops ;; q_value e q third) = Ok (fbits (fz 2)).
Proof.
  intros e ops. split; [apply pushes_num; repeat constructor; vm_compute; reflexivity|]. split; [vm_compute; reflexivity|]. split; [|split; [|vm_compute; reflexivity]].
  - destruct (fdy_exact 6004799503160661 (-54) ltac:(lia) ltac:(lia)) as (Fd & Ed & _). unfold F2R in Ed. cbn [Fnum Fexp] in Ed. assert (Ft : isfin third = true) by (vm_compute; reflexivity). destruct (fz_exact 0 ltac:(lia)) as [F0 E0].
    assert (U : fle third (fdy 6004799503160661 (-54)) = true) by (vm_compute; reflexivity). assert (L : fle (fz 0) third = true) by (vm_compute; reflexivity). rewrite fle_R in U, L by assumption.
    rewrite Ed in U. rewrite E0 in L. change (IZR (zlen (hist ops) - 1)) with 3%R. change (bpow radix2 (-54)) with (/ IZR (2 ^ 54))%R in U. change (2 ^ 54) with 18014398509481984 in U. lra.
  - split; [vm_compute; reflexivity|]. vm_compute. lia.
Qed.
Print Assumptions C85_lower_refuted.

Example C85_case : let b := live 4 (hist qcase) in map fbits b = map fbits (map fz [1; 4; 4; 2]) /\
  (forall x, In x b -> isfin x = true /\ (Rabs (B2R x) <= 16)%R) /\ (16 <= bpow radix2 1020)%R /\ (forall x y, In x b -> In y b -> (B2R x - B2R y <= 32)%R) /\
  at_position b (B2R (fdy 1 (-1)) * IZR (zlen b - 1)) 3 /\ (INR 1 + bpow radix2 (-53) * IZR (zlen b) < B2R (fdy 1 (-1)) * IZR (zlen b - 1) < INR 1 + 1 - bpow radix2 (-53) * IZR (zlen b))%R /\
  rmap fbits (q <- q_run env0 4 [] qcase ;; q_value env0 q (fdy 1 (-1))) = Ok (fbits (fz 3)).
Proof.
  cbv zeta. split; [vm_compute; reflexivity|]. split; [exact qsmall|]. split; [apply Rle_trans with (bpow radix2 4); [right; reflexivity|apply bpow_le; lia]|]. split.
  { intros x y Hx Hy. destruct (qsmall x Hx) as [_ Bx]. destruct (qsmall y Hy) as [_ By]. apply Rabs_le_inv in Bx, By. lra. }
  destruct (fdy_exact 1 (-1) ltac:(lia) ltac:(lia)) as (_ & E & _). unfold F2R in E. cbn [Fnum Fexp] in E. change (bpow radix2 (-1)) with (/ 2)%R in E. rewrite E. change (zlen (live 4 (hist qcase))) with 4. change (4 - 1) with 3. change (INR 1) with 1%R.
  split; [|split; [|vm_compute; reflexivity]].
  - exists 1%nat, (fz 2). split; [split; [vm_compute; reflexivity|vm_compute; lia]|]. change (INR 1) with 1%R. split; [lra|right]. exists (fz 4). split; [split; [vm_compute; reflexivity|vm_compute; lia]|].
    rewrite (proj2 (fz_exact 2 ltac:(lia))), (proj2 (fz_exact 4 ltac:(lia))). lra.
  - assert (0 < bpow radix2 (-53) <= / 1024)%R by (split; [apply bpow_gt_0|change (/ 1024)%R with (bpow radix2 (-10)); apply bpow_le; lia]). lra.
Qed.
