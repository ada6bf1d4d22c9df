(** Equally spaced random numbers. *)
From Coq Require Import Permutation.
From Flocq Require Import Core IEEE754.BinarySingleNaN.
From Verif Require Import Base F64 FloatR SkipModel SkipProof SkipProb SkipCost2 SkipExp.
From Coq Require Import Reals Lra.
Local Open Scope nat_scope.

(** Specification: the probability that a random number is below the first i thresholds *)
Definition passes (U : list f64) (pr : nat -> f64) (i : nat) : R := prob U (fun u => forallb (fun j => flt u (pr j)) (seq 1 i)).
(** Specification: the 2^m equally spaced numbers of [0, 1) with m bits *)
Definition uniform (m : nat) : list f64 := map (fun k => fdy (Z.of_nat k) (- Z.of_nat m)) (seq 0 (2 ^ m)).

Lemma rand_level_gt pr u left : forall l i, i < left -> (l + i <? rand_level pr u l left) = forallb (fun j => flt u (pr j)) (seq l (S i)).
Proof.
  induction left as [|left IH]; intros l i Hi; [lia|]. cbn [rand_level seq forallb]. destruct (flt u (pr l)); cbn [andb].
  2:{ apply Nat.ltb_ge. lia. }
  destruct i as [|i].
  - cbn [seq forallb]. pose proof (rand_level_bounds pr u left (S l)). apply Nat.ltb_lt. lia.
  - rewrite <- IH by lia. f_equal. lia.
Qed.
Lemma above_passes U mx pr i : 1 <= mx -> i < mx -> above U (height mx pr) i = passes U pr i.
Proof.
  intros Hm Hi. unfold above, passes, prob. apply mean_ext. intros u _. destruct i as [|i].
  - cbn [seq forallb]. pose proof (height_bounds mx pr u Hm). destruct (Nat.ltb_spec 0 (height mx pr u)); [reflexivity|lia].
  - unfold height. change (S i) with (1 + i) at 1. rewrite (rand_level_gt pr u (mx - 1) 1 i) by lia. reflexivity.
Qed.
Local Open Scope R_scope.
Lemma sum_below (c : nat) : forall N s, (c <= s)%nat \/ (s <= c <= s + N)%nat ->
  fold_right Rplus 0 (map (fun k => if (k <? c)%nat then 1 else 0) (seq s N)) = INR (c - s).
Proof.
  induction N as [|N IH]; intros s H; cbn [seq map fold_right].
  - replace (c - s)%nat with 0%nat by lia. reflexivity.
  - rewrite IH by lia. destruct (Nat.ltb_spec s c).
    + replace (c - s)%nat with (S (c - S s)) by lia. rewrite S_INR. ring.
    + replace (c - S s)%nat with (c - s)%nat by lia. ring.
Qed.
Lemma uniform_len m : length (uniform m) = (2 ^ m)%nat.
Proof. unfold uniform. rewrite map_length. apply seq_length. Qed.
Lemma uniform_ne m : uniform m <> [].
Proof. intros E. apply (f_equal (@length f64)) in E. rewrite uniform_len in E. cbn [length] in E. pose proof (Nat.pow_nonzero 2 m). lia. Qed.
Lemma grid_lt m (k : nat) i : (m <= 53)%nat -> (k < 2 ^ m)%nat -> (2 * i <= m)%nat ->
  flt (fdy (Z.of_nat k) (- Z.of_nat m)) (fdy 1 (- 2 * Z.of_nat i)) = (k <? 2 ^ (m - 2 * i))%nat.
Proof.
  intros Hm Hk Hi.
  assert (HkZ : (Z.of_nat k < 2 ^ Z.of_nat m)%Z) by (apply inj_lt in Hk; rewrite Nat2Z.inj_pow in Hk; exact Hk).
  assert (HmZ : (2 ^ Z.of_nat m <= 2 ^ 53)%Z) by (apply Z.pow_le_mono_r; lia).
  destruct (fdy_exact (Z.of_nat k) (- Z.of_nat m)) as (F1 & R1 & _); [lia|lia|].
  destruct (fdy_exact 1 (- 2 * Z.of_nat i)) as (F2 & R2 & _); [lia|lia|].
  assert (E : B2R (fdy (Z.of_nat k) (- Z.of_nat m)) < B2R (fdy 1 (- 2 * Z.of_nat i)) <-> (k < 2 ^ (m - 2 * i))%nat).
  { rewrite R1, R2. unfold F2R. cbn [Fnum Fexp]. 
    assert (EB : bpow radix2 (- 2 * Z.of_nat i) = IZR (2 ^ (Z.of_nat m - 2 * Z.of_nat i)) * bpow radix2 (- Z.of_nat m)).
    { rewrite (IZR_Zpower radix2) by lia. rewrite <- bpow_plus. f_equal. lia. }
    rewrite EB, Rmult_1_l. pose proof (bpow_gt_0 radix2 (- Z.of_nat m)) as HB.
    assert (EP : Z.of_nat (2 ^ (m - 2 * i)) = (2 ^ (Z.of_nat m - 2 * Z.of_nat i))%Z) by (rewrite Nat2Z.inj_pow, Nat2Z.inj_sub by lia; f_equal; lia).
    split; intros H.
    - apply Rmult_lt_reg_r in H; [|exact HB]. apply lt_IZR in H. lia.
    - apply Rmult_lt_compat_r; [exact HB|]. apply IZR_lt. lia. }
  destruct (Nat.ltb_spec k (2 ^ (m - 2 * i))) as [H|H].
  - apply flt_R; [exact F1|exact F2|]. apply E, H.
  - destruct (flt _ _) eqn:EF; [|reflexivity]. apply flt_R in EF; [|exact F1|exact F2]. apply E in EF. lia.
Qed.
Lemma uniform_passes m pr i : (m <= 53)%nat -> (2 * i <= m)%nat -> (forall j, (1 <= j <= i)%nat -> pr j = fdy 1 (- 2 * Z.of_nat j)) ->
  passes (uniform m) pr i = / 4 ^ i.
Proof.
  intros Hm Hi Hpr. unfold passes, prob, mean. rewrite uniform_len. unfold uniform. rewrite map_map.
  rewrite (map_ext_in _ (fun k => if (k <? 2 ^ (m - 2 * i))%nat then 1 else 0)).
  - rewrite sum_below by (right; split; [lia|]; apply Nat.pow_le_mono_r; lia). rewrite Nat.sub_0_r, !pow_INR.
    replace (INR 2) with 2 by (cbn; lra). replace m with ((m - 2 * i) + 2 * i)%nat at 2 by lia. rewrite pow_add, pow_mult. replace (2 ^ 2) with 4 by ring.
    assert (0 < 2 ^ (m - 2 * i)) by (apply pow_lt; lra). assert (0 < 4 ^ i) by (apply pow_lt; lra). field. lra.
  - intros k Hk. apply in_seq in Hk. assert (Hk' : (k < 2 ^ m)%nat) by lia.
    assert (E : forallb (fun j => flt (fdy (Z.of_nat k) (- Z.of_nat m)) (pr j)) (seq 1 i) = (k <? 2 ^ (m - 2 * i))%nat).
    { destruct (Nat.ltb_spec k (2 ^ (m - 2 * i))) as [H|H].
      - apply forallb_forall. intros j Hj. apply in_seq in Hj. rewrite Hpr, grid_lt by lia. apply Nat.ltb_lt. eapply Nat.lt_le_trans; [exact H|]. apply Nat.pow_le_mono_r; lia.
      - destruct i as [|i]; [replace (m - 2 * 0)%nat with m in H by lia; lia|].
        destruct (forallb _ _) eqn:EF; [|reflexivity]. rewrite forallb_forall in EF. specialize (EF (S i) ltac:(apply in_seq; lia)). cbv beta in EF.
        rewrite Hpr, grid_lt in EF by lia. apply Nat.ltb_lt in EF. lia. }
    rewrite E. reflexivity.
Qed.
