(** One step of the sum of squares on values multiplied by a power of two. Nothing here models repository code. *)
From Coq Require Import ZArith Lia Bool Reals Lra.
From Flocq Require Import Core BinarySingleNaN.
From Verif Require Import Base F64 FloatR PowFloat StdFloat FloatErr NumModel CoreInv SelfArith ScaleArith ScaleStep.
Local Open Scope R_scope.
Local Notation b2 := (bpow radix2).
Lemma coeff_low a b n : is_finite a = true -> is_finite b = true -> B2R a = IZR (n - 1) -> B2R b = IZR n -> (1 <= n <= 2 ^ 41)%Z ->
  is_finite (coeff a b) = true /\ low (-2) (B2R (coeff a b)) /\ Rabs (B2R (coeff a b)) <= b2 1.
Proof.
  intros Fa Fb Ea Eb Hn. destruct (coeff_err 0%nat a b n Fa Fb Ea Eb Hn) as (Fc & Ec & G). split; [exact Fc|].
  assert (He : 0 < eps <= / 1000) by (rewrite eps_val; lra). apply Rabs_le_inv in Ec. change (b2 (-2)) with (/ 4) in *. change (b2 1) with 2.
  assert (N1 : 1 <= IZR n) by (apply (IZR_le 1); lia).
  destruct (Z.eq_dec n 1) as [E1|N].
  - assert (Z : zero (coeff a b)).
    { subst n. cbn in Ea. unfold coeff. assert (Za : zero a) by (split; assumption). assert (Fp : zero (fdiv a (fpow b 2))). { rewrite (pow2_mul b Fb) by (right; rewrite Eb, Rabs_R1; split; [apply (bpow_le radix2 (-500) 0); lia|apply (bpow_le radix2 0 500); lia]).
      apply zdiv; [exact Za|]. destruct (fmul_b b b 1 Fb Fb ltac:(lia)) as [_ E]; [rewrite Eb, Rmult_1_l, Rabs_R1; change (b2 1) with 2; lra|]. rewrite E, Eb, Rmult_1_l. rewrite (rnd_fmt 1) by (apply (fmt_IZR 1); lia). lra. }
      apply zmul_l; [exact Fp|]. destruct (fadd_b a (fz 1) 1 Fa eq_refl ltac:(lia)) as [F _]; [rewrite Ea; destruct (fz_real 1 ltac:(lia)) as [_ ->]; rewrite Rplus_0_l, Rabs_R1; change (b2 1) with 2; lra|exact F]. }
    destruct Z as [_ ->]. split; [left; reflexivity|rewrite Rabs_R0; lra].
  - assert (2 <= IZR n) by (apply (IZR_le 2); lia). assert (/ 2 <= (IZR n - 1) / IZR n <= 1).
    { split; apply Rmult_le_reg_r with (IZR n); try lra; unfold Rdiv; rewrite Rmult_assoc, Rinv_l by lra; lra. }
    split; [right; change (b2 (-2)) with (/ 4)|]; rewrite Rabs_pos_eq; lra.
Qed.
Section Sum.
Variable s : Z.
Hypothesis Hs : (-100 <= s <= 100)%Z.
Variables d d' a a' cf : f64.
Hypothesis Sd : sc s d d'.
Hypothesis Ld : low (-292) (B2R d).
Hypothesis Ud : Rabs (B2R d) <= b2 102.
Hypothesis Sa : sc (2 * s) a a'.
Hypothesis Ga : grid (-640) (B2R a).
Hypothesis Ua : Rabs (B2R a) <= b2 300.
Hypothesis Fc : is_finite cf = true.
Hypothesis Lc : low (-2) (B2R cf).
Hypothesis Uc : Rabs (B2R cf) <= b2 1.
Lemma sq_pow : fpow d 2 = fmul d d /\ fpow d' 2 = fmul d' d'.
Proof.
  destruct Sd as (Fd & Fd' & E). split; apply pow2_mul; try assumption.
  - destruct Ld as [Z|L]; [left; split; assumption|right]. split; [eapply Rle_trans; [apply bpow_le|exact L]; lia|eapply Rle_trans; [exact Ud|apply bpow_le; lia]].
  - destruct Ld as [Z|L]; [left; split; [assumption|rewrite E, Z; ring]|right]. rewrite E, Rabs_mult, (Rabs_pos_eq (b2 s)) by apply bpow_ge_0. split.
    + apply Rle_trans with (b2 (-292) * b2 s); [rewrite <- bpow_plus; apply bpow_le; lia|]. apply Rmult_le_compat_r; [apply bpow_ge_0|exact L].
    + apply Rle_trans with (b2 102 * b2 s); [apply Rmult_le_compat_r; [apply bpow_ge_0|exact Ud]|]. rewrite <- bpow_plus. apply bpow_le. lia.
Qed.
Let t := fmul cf (fpow d 2).
Let t' := fmul cf (fpow d' 2).
Lemma term_sc : sc (2 * s) t t' /\ grid (-640) (B2R t) /\ Rabs (B2R t) <= b2 205.
Proof.
  unfold t, t'. destruct sq_pow as [-> ->].
  assert (L1 : low (-584) (B2R d * B2R d)) by exact (low_mul _ _ _ _ Ld Ld).
  assert (U1 : Rabs (B2R d * B2R d) <= b2 204) by (rewrite Rabs_mult; change 204%Z with (102 + 102)%Z; rewrite bpow_plus; apply Rmult_le_compat; auto using Rabs_pos).
  destruct (sc_mul (2 * s) ltac:(lia) s s d d' d d' ltac:(lia) Sd Sd) as [S E]. { split; [eapply low_le; [|exact L1]; lia|eapply Rle_trans; [exact U1|apply bpow_le; lia]]. }
  assert (L2 : low (-584) (B2R (fmul d d))) by (rewrite E; apply low_rnd; [lia|exact L1]). assert (U2 : Rabs (B2R (fmul d d)) <= b2 204) by (rewrite E; apply rnd_abs_bpow; [lia|exact U1]).
  assert (L3 : low (-586) (B2R cf * B2R (fmul d d))) by exact (low_mul _ _ _ _ Lc L2).
  assert (U3 : Rabs (B2R cf * B2R (fmul d d)) <= b2 205) by (rewrite Rabs_mult; change 205%Z with (1 + 204)%Z; rewrite bpow_plus; apply Rmult_le_compat; auto using Rabs_pos).
  destruct (sc_mul (2 * s) ltac:(lia) 0 (2 * s) cf cf (fmul d d) (fmul d' d') ltac:(lia) (sc_self cf Fc) S) as [S' E']. { split; [eapply low_le; [|exact L3]; lia|eapply Rle_trans; [exact U3|apply bpow_le; lia]]. }
  split; [exact S'|]. split; [|rewrite E'; apply rnd_abs_bpow; [lia|exact U3]]. apply (grid_le (-586 - 52)); [lia|]. apply fmt_grid; [apply fmt_B2R|rewrite E'; apply low_rnd; [lia|exact L3]|lia].
Qed.
Lemma acc_mid e : e = B2R t \/ e = - B2R t -> grid (-640) (B2R a + e) /\ mid (B2R a + e).
Proof.
  intros He. destruct term_sc as (_ & G & U). assert (Ge : grid (-640) e) by (destruct He as [-> | ->]; [exact G|apply grid_opp, G]). assert (Ue : Rabs e <= b2 205) by (destruct He as [-> | ->]; [exact U|rewrite Rabs_Ropp; exact U]).
  pose proof (grid_add _ _ _ Ga Ge) as Gs. split; [exact Gs|]. split; [eapply low_le; [|apply grid_low, Gs]; lia|]. eapply Rle_trans; [apply Rabs_triang|].
  assert (b2 205 <= b2 300) by (apply bpow_le; lia). assert (E : b2 301 = 2 * b2 300) by apply (b2_half 301). assert (b2 301 <= b2 800) by (apply bpow_le; lia). lra.
Qed.
Lemma acc_add : sc (2 * s) (fadd a t) (fadd a' t') /\ grid (-640) (B2R (fadd a t)).
Proof.
  destruct term_sc as (S & _). destruct (acc_mid (B2R t) (or_introl eq_refl)) as [G M]. destruct (sc_add (2 * s) ltac:(lia) a a' t t' Sa S M) as [S' E]. split; [exact S'|]. rewrite E. apply grid_rnd; [lia|exact G].
Qed.
Lemma acc_sub : sc (2 * s) (fsub a t) (fsub a' t') /\ grid (-640) (B2R (fsub a t)).
Proof.
  destruct term_sc as (S & _). destruct (acc_mid (- B2R t) (or_intror eq_refl)) as [G M]. destruct (sc_sub (2 * s) ltac:(lia) a a' t t' Sa S M) as [S' E]. split; [exact S'|]. rewrite E. apply grid_rnd; [lia|exact G].
Qed.
End Sum.
