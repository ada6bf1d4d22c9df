(** One step of the mean and the sum of squares on values multiplied by a power of two. Nothing here models repository code. *)
From Coq Require Import ZArith Lia Bool Reals Lra.
From Flocq Require Import Core BinarySingleNaN.
From Verif Require Import Base F64 FloatR PowFloat StdFloat FloatErr NumModel CoreInv SelfArith ScaleArith.
Local Open Scope R_scope.
Local Notation b2 := (bpow radix2).
Local Ltac abs := repeat match goal with H : Rabs _ <= _ |- _ => apply Rabs_le_inv in H end; try apply Rabs_le.

Lemma rnd_rel' t : low (-1000) t -> Rabs t * (1 - eps) <= Rabs (rnd t).
Proof.
  intros [->|L]; [rewrite rnd_0, Rabs_R0; lra|]. assert (L' : b2 (-1022) <= Rabs t) by (eapply Rle_trans; [apply bpow_le|exact L]; lia).
  destruct (rnd_rel 0%nat t L') as (e & He & ->). rewrite Rabs_mult. apply Rmult_le_compat_l; [apply Rabs_pos|]. assert (0 < eps < 1) by (rewrite eps_val; lra). apply Rabs_le_inv in He. rewrite Rabs_pos_eq; lra.
Qed.
Lemma dyadic_le e e' : (e <= e')%Z -> b2 e <= b2 e'. Proof. apply bpow_le. Qed.
Lemma b2_half e : b2 e = 2 * b2 (e - 1). Proof. replace e with (1 + (e - 1))%Z at 1 by lia. rewrite bpow_plus. reflexivity. Qed.
(** ** The mean *)
Section Mean.
Variable s : Z.
Hypothesis Hs : (-100 <= s <= 100)%Z.
Variables x x' m m' : f64.
Hypothesis Sx : sc s x x'.
Hypothesis Sm : sc s m m'.
Hypothesis Lx : low (-100) (B2R x).
Hypothesis Ux : Rabs (B2R x) <= b2 100.
Hypothesis Lm : low (-240) (B2R m).
Hypothesis Um : Rabs (B2R m) <= b2 101.
Lemma diff_low : low (-292) (B2R x - B2R m).
Proof. apply (low_sub (-240)); try apply fmt_B2R; [eapply low_le; [|exact Lx]; lia|exact Lm|lia]. Qed.
Lemma diff_up : Rabs (B2R x - B2R m) <= b2 102.
Proof. rewrite (b2_half 102). cbn [Z.sub Z.add Z.opp Z.pos_sub Pos.pred_double]. pose proof (dyadic_le 100 101 ltac:(lia)). abs. change (102 - 1)%Z with 101%Z. lra. Qed.
Lemma delta_sc : sc s (fsub x m) (fsub x' m') /\ B2R (fsub x m) = rnd (B2R x - B2R m) /\ low (-292) (B2R (fsub x m)) /\ Rabs (B2R (fsub x m)) <= b2 102.
Proof.
  destruct (sc_sub s ltac:(lia) x x' m m' Sx Sm) as [A E].
  { split; [eapply low_le; [|exact diff_low]; lia|]. eapply Rle_trans; [exact diff_up|apply dyadic_le; lia]. }
  split; [exact A|]. split; [exact E|]. rewrite E. split; [apply low_rnd; [lia|exact diff_low]|apply rnd_abs_bpow; [lia|exact diff_up]].
Qed.
Variable n : Z.
Hypothesis Hn : (1 <= n <= 2 ^ 41)%Z.
Let q := fdiv (fsub x m) (fz n).
Let q' := fdiv (fsub x' m') (fz n).
Lemma n_real : is_finite (fz n) = true /\ B2R (fz n) = IZR n /\ 1 <= IZR n <= b2 41.
Proof. destruct (fz_real n ltac:(lia)) as [F E]. split; [exact F|]. split; [exact E|]. split; [apply (IZR_le 1); lia|]. change (b2 41) with (IZR (2 ^ 41)). apply IZR_le. lia. Qed.
Lemma quot_sc : sc s q q' /\ B2R q = rnd (B2R (fsub x m) / IZR n) /\ low (-333) (B2R q) /\ Rabs (B2R q) <= b2 102.
Proof.
  destruct delta_sc as (A & _ & L & U). destruct n_real as (Fn & En & Bn).
  assert (L' : low (-333) (B2R (fsub x m) / IZR n)) by (apply (low_div (-292) 41); [exact L|lra]).
  assert (U' : Rabs (B2R (fsub x m) / IZR n) <= b2 102).
  { unfold Rdiv. rewrite Rabs_mult, (Rabs_pos_eq (/ IZR n)) by (left; apply Rinv_0_lt_compat; lra). assert (/ IZR n <= 1) by (rewrite <- Rinv_1; apply Rinv_le; lra).
    pose proof (Rabs_pos (B2R (fsub x m))). assert (0 < / IZR n) by (apply Rinv_0_lt_compat; lra). nra. }
  destruct (sc_div s ltac:(lia) (fsub x m) (fsub x' m') (fz n) A Fn ltac:(lra)) as [S E].
  { rewrite En. split; [eapply low_le; [|exact L']; lia|]. eapply Rle_trans; [exact U'|apply dyadic_le; lia]. }
  rewrite En in E. split; [exact S|]. fold q in E |- *. split; [exact E|]. rewrite E. split; [apply low_rnd; [lia|exact L']|apply rnd_abs_bpow; [lia|exact U']].
Qed.
(** The sum of the mean and the step [p], which is the quotient or its opposite *)
Section Sum.
Variable p : R.
Hypothesis Hp : p = B2R q \/ p = - B2R q.
Lemma p_abs : Rabs p = Rabs (B2R q). Proof. destruct Hp as [-> | ->]; [reflexivity|apply Rabs_Ropp]. Qed.
Lemma p_fmt : fmt p. Proof. destruct Hp as [-> | ->]; [apply fmt_B2R|apply fmt_opp, fmt_B2R]. Qed.
Lemma p_low e : low e (B2R q) -> low e p. Proof. intros H. destruct Hp as [-> | ->]; [exact H|apply low_opp, H]. Qed.
Lemma sum_low : low (-385) (B2R m + p).
Proof. apply (low_add (-333)); [apply fmt_B2R|apply p_fmt|eapply low_le; [|exact Lm]; lia|apply p_low, quot_sc|lia]. Qed.
Lemma sum_up : Rabs (B2R m + p) <= b2 103.
Proof.
  destruct quot_sc as (_ & _ & _ & U). rewrite <- p_abs in U. rewrite (b2_half 103). change (103 - 1)%Z with 102%Z. pose proof (dyadic_le 101 102 ltac:(lia)). clear - U H Um. abs. lra.
Qed.
(** A value that is not zero brings the mean back to a size where it cannot underflow. *)
Lemma sum_nonzero : B2R x <> 0 -> low (-196) (B2R m + p).
Proof.
  intros Nx. destruct Lx as [?|Lx']; [contradiction|]. destruct delta_sc as (_ & Ed & _ & _). destruct quot_sc as (_ & Eq & _ & _). destruct n_real as (_ & _ & Bn).
  assert (Q : b2 (-103) <= Rabs (B2R (fsub x m)) -> b2 (-144) <= Rabs p).
  { intros H. rewrite p_abs. assert (L' : low (-144) (B2R (fsub x m) / IZR n)) by (apply (low_div (-103) 41); [right; exact H|lra]).
    apply low_rnd in L'; [|lia]. rewrite <- Eq in L'. destruct L' as [Z|L']; [|exact L']. exfalso.
    assert (L2 : b2 (-144) <= Rabs (B2R (fsub x m) / IZR n)).
    { unfold Rdiv. rewrite Rabs_mult, (Rabs_pos_eq (/ IZR n)) by (left; apply Rinv_0_lt_compat; lra). change (-144)%Z with (-103 + - (41))%Z. rewrite bpow_plus, bpow_opp.
      apply Rmult_le_compat; [apply bpow_ge_0|left; apply Rinv_0_lt_compat, bpow_gt_0|exact H|apply Rinv_le; lra]. }
    pose proof (abs_round_ge_generic radix2 fexp64 ZnearestE _ _ (fmt_bpow (-144) ltac:(lia)) L2) as G. change (round radix2 fexp64 ZnearestE (B2R (fsub x m) / IZR n)) with (rnd (B2R (fsub x m) / IZR n)) in G.
    rewrite <- Eq, Z, Rabs_R0 in G. pose proof (bpow_gt_0 radix2 (-144)). lra. }
  destruct (Rlt_le_dec (Rabs (B2R (fsub x m))) (b2 (-103))) as [Sd|Bd].
  - (* the value is close to the mean, which is then of its size *)
    assert (D : Rabs (B2R x - B2R m) < b2 (-103)).
    { destruct (Rlt_le_dec (Rabs (B2R x - B2R m)) (b2 (-103))) as [?|G]; [assumption|]. exfalso.
      pose proof (abs_round_ge_generic radix2 fexp64 ZnearestE _ _ (fmt_bpow (-103) ltac:(lia)) G) as G'. change (round radix2 fexp64 ZnearestE (B2R x - B2R m)) with (rnd (B2R x - B2R m)) in G'. rewrite <- Ed in G'. lra. }
    assert (P : Rabs p <= b2 (-103)).
    { rewrite p_abs, Eq. apply rnd_abs_bpow; [lia|]. unfold Rdiv. rewrite Rabs_mult, (Rabs_pos_eq (/ IZR n)) by (left; apply Rinv_0_lt_compat; lra).
      assert (0 < / IZR n <= 1) by (split; [apply Rinv_0_lt_compat; lra|rewrite <- Rinv_1; apply Rinv_le; lra]). pose proof (Rabs_pos (B2R (fsub x m))). nra. }
    right. assert (E1 : b2 (-100) = 8 * b2 (-103)) by (rewrite (b2_half (-100)), (b2_half (-100 - 1)), (b2_half (-100 - 1 - 1)); change (-100 - 1 - 1 - 1)%Z with (-103)%Z; ring).
    apply Rle_trans with (b2 (-103)); [apply dyadic_le; lia|]. pose proof (Rabs_triang (B2R x - B2R m) (B2R m + p)) as T1. pose proof (Rabs_triang (B2R x - B2R m + (B2R m + p)) (- p)) as T2. rewrite Rabs_Ropp in T2.
    replace (B2R x - B2R m + (B2R m + p) + - p) with (B2R x) in T2 by ring. pose proof (bpow_gt_0 radix2 (-103)). lra.
  - specialize (Q Bd). destruct (Rlt_le_dec (Rabs (B2R m)) (b2 (-144))) as [Sm'|Bm].
    + (* the step is far larger than the mean *)
      assert (Dx : b2 (-101) <= Rabs (B2R x - B2R m)).
      { assert (E1 : b2 (-100) = 2 * b2 (-101)) by apply (b2_half (-100)). pose proof (dyadic_le (-144) (-101) ltac:(lia)). pose proof (Rabs_triang (B2R x - B2R m) (B2R m)) as T. replace (B2R x - B2R m + B2R m) with (B2R x) in T by ring. lra. }
      assert (Dd : b2 (-101) <= Rabs (B2R (fsub x m))).
      { rewrite Ed. apply abs_round_ge_generic; try typeclasses eauto; [apply fmt_bpow; lia|exact Dx]. }
      assert (P : b2 (-142) <= Rabs p).
      { rewrite p_abs, Eq. apply abs_round_ge_generic; try typeclasses eauto; [apply fmt_bpow; lia|].
        unfold Rdiv. rewrite Rabs_mult, (Rabs_pos_eq (/ IZR n)) by (left; apply Rinv_0_lt_compat; lra). change (-142)%Z with (-101 + - (41))%Z. rewrite bpow_plus, bpow_opp.
        apply Rmult_le_compat; [apply bpow_ge_0|left; apply Rinv_0_lt_compat, bpow_gt_0|exact Dd|apply Rinv_le; lra]. }
      right. apply Rle_trans with (b2 (-143)); [apply dyadic_le; lia|]. assert (E1 : b2 (-142) = 2 * b2 (-143)) by apply (b2_half (-142)). pose proof (dyadic_le (-144) (-143) ltac:(lia)).
      pose proof (Rabs_triang (B2R m + p) (- B2R m)) as T. rewrite Rabs_Ropp in T. replace (B2R m + p + - B2R m) with p in T by ring. lra.
    + apply (low_add (-144)); [apply fmt_B2R|apply p_fmt|right; exact Bm|right; exact Q|lia].
Qed.
End Sum.
(** A zero moves it towards 0 by the factor 1 - 1/n or away by 1 + 1/n. *)
Lemma zero_step : B2R x = 0 -> B2R q = - rnd (B2R m / IZR n) /\ Rabs (rnd (B2R m / IZR n) - B2R m / IZR n) <= eps * Rabs (B2R m / IZR n).
Proof.
  intros Zx. destruct delta_sc as (_ & Ed & _). destruct quot_sc as (_ & Eq & _). destruct n_real as (_ & _ & Bn). rewrite Zx in Ed. unfold Rminus in Ed. rewrite Rplus_0_l, rnd_opp, rnd_B2R in Ed.
  split. { rewrite Eq, Ed. unfold Rdiv. rewrite Ropp_mult_distr_l_reverse. apply rnd_opp. }
  assert (L : low (-281) (B2R m / IZR n)) by (apply (low_div (-240) 41); [exact Lm|lra]). destruct L as [->|L]; [rewrite rnd_0, Rminus_0_r, Rabs_R0; lra|].
  destruct (rnd_rel 0%nat (B2R m / IZR n)) as (e & He & ->); [eapply Rle_trans; [apply dyadic_le|exact L]; lia|]. replace (B2R m / IZR n * (1 + e) - B2R m / IZR n) with (e * (B2R m / IZR n)) by ring. rewrite Rabs_mult. apply Rmult_le_compat_r; [apply Rabs_pos|exact He].
Qed.
Lemma add_mean_sc : sc s (add_mean FN m x n) (add_mean FN m' x' n) /\ (B2R x <> 0 -> low (-196) (B2R (add_mean FN m x n))) /\
  (B2R x = 0 -> (IZR n - 1) * Rabs (B2R m) * (1 - 2 * eps) <= IZR n * Rabs (B2R (add_mean FN m x n))).
Proof.
  unfold add_mean. cbn [nadd ndiv nsub nz FN]. fold q q'. destruct quot_sc as (Sq & _). destruct n_real as (_ & _ & Bn).
  pose proof (sum_low (B2R q) (or_introl eq_refl)) as L. pose proof (sum_up (B2R q) (or_introl eq_refl)) as U.
  destruct (sc_add s ltac:(lia) m m' q q' Sm Sq) as [S E]. { split; [eapply low_le; [|exact L]; lia|eapply Rle_trans; [exact U|apply dyadic_le; lia]]. }
  split; [exact S|]. rewrite E. split.
  - intros Nx. apply low_rnd; [lia|]. apply sum_nonzero; [left; reflexivity|exact Nx].
  - intros Zx. destruct (zero_step Zx) as [Eq Hq]. pose proof (rnd_rel' (B2R m + B2R q) ltac:(eapply low_le; [|exact L]; lia)) as R. rewrite Eq in *. set (u := rnd (B2R m / IZR n)) in *.
    assert (He : 0 < eps < / 1000) by (rewrite eps_val; lra). set (M := B2R m) in *.
    assert (A : (IZR n - 1 - eps) * Rabs M <= IZR n * Rabs (M + - u)).
    { pose proof (Rabs_triang (M + - u) (u - M / IZR n)) as T. replace (M + - u + (u - M / IZR n)) with ((IZR n - 1) * M / IZR n) in T by (field; lra).
      assert (E1 : IZR n * Rabs ((IZR n - 1) * M / IZR n) = (IZR n - 1) * Rabs M). { unfold Rdiv. rewrite !Rabs_mult, (Rabs_pos_eq (/ IZR n)) by (left; apply Rinv_0_lt_compat; lra). rewrite (Rabs_pos_eq (IZR n - 1)) by lra. field. lra. }
      assert (E2 : IZR n * Rabs (M / IZR n) = Rabs M). { unfold Rdiv. rewrite Rabs_mult, (Rabs_pos_eq (/ IZR n)) by (left; apply Rinv_0_lt_compat; lra). field. lra. }
      nra. }
    pose proof (Rabs_pos M). destruct (Z.eq_dec n 1) as [E1|N1]; [rewrite E1 in *; pose proof (Rabs_pos (rnd (M + - u))); lra|]. assert (2 <= IZR n) by (apply (IZR_le 2); lia).
    apply Rle_trans with (IZR n * Rabs (M + - u) * (1 - eps)); [|nra]. apply Rle_trans with ((IZR n - 1 - eps) * Rabs M * (1 - eps)); [|nra].
    assert ((IZR n - 1) * (1 - 2 * eps) <= (IZR n - 1 - eps) * (1 - eps)) by nra. nra.
Qed.
Lemma rem_mean_sc : sc s (rem_mean FN m x n) (rem_mean FN m' x' n) /\ (B2R x <> 0 -> low (-196) (B2R (rem_mean FN m x n))) /\
  (B2R x = 0 -> (IZR n + 1) * Rabs (B2R m) * (1 - 2 * eps) <= IZR n * Rabs (B2R (rem_mean FN m x n))).
Proof.
  unfold rem_mean. cbn [nadd ndiv nsub nz FN]. fold q q'. destruct quot_sc as (Sq & _). destruct n_real as (_ & _ & Bn).
  pose proof (sum_low (- B2R q) (or_intror eq_refl)) as L. pose proof (sum_up (- B2R q) (or_intror eq_refl)) as U. fold (B2R m - B2R q) in L, U.
  destruct (sc_sub s ltac:(lia) m m' q q' Sm Sq) as [S E]. { split; [eapply low_le; [|exact L]; lia|eapply Rle_trans; [exact U|apply dyadic_le; lia]]. }
  split; [exact S|]. rewrite E. split.
  - intros Nx. apply low_rnd; [lia|]. apply (sum_nonzero (- B2R q)); [right; reflexivity|exact Nx].
  - intros Zx. destruct (zero_step Zx) as [Eq Hq]. pose proof (rnd_rel' (B2R m - B2R q) ltac:(eapply low_le; [|exact L]; lia)) as R. rewrite Eq in *. set (u := rnd (B2R m / IZR n)) in *.
    assert (He : 0 < eps < / 1000) by (rewrite eps_val; lra). set (M := B2R m) in *.
    assert (A : (IZR n + 1 - eps) * Rabs M <= IZR n * Rabs (M - - u)).
    { pose proof (Rabs_triang (M - - u) (M / IZR n - u)) as T. replace (M - - u + (M / IZR n - u)) with ((IZR n + 1) * M / IZR n) in T by (field; lra). rewrite (Rabs_minus_sym (M / IZR n) u) in T.
      assert (E1 : IZR n * Rabs ((IZR n + 1) * M / IZR n) = (IZR n + 1) * Rabs M). { unfold Rdiv. rewrite !Rabs_mult, (Rabs_pos_eq (/ IZR n)) by (left; apply Rinv_0_lt_compat; lra). rewrite (Rabs_pos_eq (IZR n + 1)) by lra. field. lra. }
      assert (E2 : IZR n * Rabs (M / IZR n) = Rabs M). { unfold Rdiv. rewrite Rabs_mult, (Rabs_pos_eq (/ IZR n)) by (left; apply Rinv_0_lt_compat; lra). field. lra. }
      nra. }
    pose proof (Rabs_pos M). apply Rle_trans with (IZR n * Rabs (M - - u) * (1 - eps)); [|nra]. apply Rle_trans with ((IZR n + 1 - eps) * Rabs M * (1 - eps)); [|nra].
    assert ((IZR n + 1) * (1 - 2 * eps) <= (IZR n + 1 - eps) * (1 - eps)) by nra. nra.
Qed.
End Mean.
