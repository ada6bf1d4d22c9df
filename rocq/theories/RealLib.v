(** Real sums and the binomial expansion of shifted power sums. *)
From Coq Require Import Reals Lra Binomial.
From Verif Require Import Base MathModel MathProof HistSpec NumModel MomentSpec.
Local Open Scope R_scope.

Lemma rsum_app l1 l2 : rsum (l1 ++ l2) = rsum l1 + rsum l2.
Proof. induction l1 as [|x l IH]; cbn [app rsum fold_right]; [unfold rsum; cbn; ring|]. unfold rsum in *. rewrite IH. ring. Qed.
Lemma rsum_cons x l : rsum (x :: l) = x + rsum l.
Proof. reflexivity. Qed.
Lemma rsum_scale {A} c (f : A -> R) l : rsum (map (fun x => c * f x) l) = c * rsum (map f l).
Proof. induction l as [|x l IH]; cbn [map]; [unfold rsum; cbn; ring|]. rewrite !rsum_cons, IH. ring. Qed.
Lemma rsum_plus {A} (f g : A -> R) l : rsum (map (fun x => f x + g x) l) = rsum (map f l) + rsum (map g l).
Proof. induction l as [|x l IH]; cbn [map]; [unfold rsum; cbn; ring|]. rewrite !rsum_cons, IH. ring. Qed.
Lemma rsum_ext {A} (f g : A -> R) l : (forall x, In x l -> f x = g x) -> rsum (map f l) = rsum (map g l).
Proof. intros H. f_equal. apply map_ext_in. exact H. Qed.
Lemma rsum_zero {A} (l : list A) : rsum (map (fun _ => 0) l) = 0.
Proof. induction l as [|x l IH]; cbn [map]; [reflexivity|]. rewrite rsum_cons, IH. ring. Qed.
Lemma rsum_swap {A B} (f : A -> B -> R) la lb :
  rsum (map (fun a => rsum (map (f a) lb)) la) = rsum (map (fun b => rsum (map (fun a => f a b) la)) lb).
Proof.
  induction la as [|a la IH]; cbn [map].
  - unfold rsum at 1. cbn. symmetry. apply rsum_zero.
  - rewrite rsum_cons, IH, <- rsum_plus. reflexivity.
Qed.
Lemma rsum_const {A} c (l : list A) : rsum (map (fun _ => c) l) = IZR (zlen l) * c.
Proof.
  induction l as [|x l IH]; cbn [map]; [unfold rsum, zlen; cbn; ring|]. rewrite rsum_cons, IH. unfold zlen. cbn [length].
  rewrite Nat2Z.inj_succ, succ_IZR. ring.
Qed.

Lemma sum_f_list f n : sum_f_R0 f n = rsum (map f (seq 0 (S n))).
Proof.
  induction n as [|n IH]; [unfold rsum; cbn; ring|]. rewrite seq_S, map_app, rsum_app. cbn [sum_f_R0 map Nat.add]. rewrite IH.
  unfold rsum at 3. cbn. ring.
Qed.

Lemma zfact_fact n : IZR (zfact n) = INR (fact n).
Proof.
  induction n as [|n IH]; [reflexivity|]. cbn [zfact]. rewrite mult_IZR, IH, <- INR_IZR_INZ. change (fact (S n)) with (S n * fact n)%nat.
  rewrite mult_INR. ring.
Qed.
Lemma C_zbin n k : (k <= n)%nat -> C n k = IZR (zbin n k).
Proof.
  intros H. unfold C. pose proof (zbin_fact n k H) as E. apply (f_equal IZR) in E. rewrite !mult_IZR, !zfact_fact in E.
  rewrite <- E. field. split; apply INR_fact_neq_0.
Qed.

(** Weighted points and their power sums about [a]. *)
Definition wpow (L : list (R * R)) (a : R) (k : nat) : R := rsum (map (fun p => fst p * (snd p - a) ^ k) L).

Lemma wpow_shift L a c k : wpow L (a + c) k = rsum (map (fun i => IZR (zbin k i) * (- c) ^ i * wpow L a (k - i)) (seq 0 (S k))).
Proof.
  unfold wpow.
  rewrite (rsum_ext _ (fun i => rsum (map (fun p => IZR (zbin k i) * (- c) ^ i * (fst p * (snd p - a) ^ (k - i))) L)) (seq 0 (S k))).
  2:{ intros i _. rewrite rsum_scale. reflexivity. }
  rewrite <- rsum_swap. apply rsum_ext. intros [w x] _. cbn [fst snd].
  replace (x - (a + c)) with (- c + (x - a)) by ring. rewrite binomial, sum_f_list, <- rsum_scale.
  apply rsum_ext. intros i Hi. apply in_seq in Hi. rewrite C_zbin by lia. ring.
Qed.

(** With vanishing first power sum the terms i = k-1 drop out. *)
Lemma wpow_expand L a c k : (2 <= k)%nat -> wpow L a 1 = 0 ->
  wpow L (a + c) k = wpow L a k + rsum (map (fun i => IZR (zbin k i) * (- c) ^ i * wpow L a (k - i)) (seq 1 (k - 2))) + (- c) ^ k * wpow L a 0.
Proof.
  intros Hk H1. rewrite wpow_shift.
  replace (seq 0 (S k)) with (0%nat :: seq 1 (k - 2) ++ [(k - 1)%nat; k]).
  2:{ destruct k as [|[|k]]; try lia. replace (S (S k) - 2)%nat with k by lia. replace (S (S k) - 1)%nat with (S k) by lia.
      change (seq 0 (S (S (S k)))) with (0%nat :: seq 1 (S (S k))). f_equal. rewrite !seq_S, <- app_assoc. reflexivity. }
  cbn [map]. rewrite rsum_cons, map_app, rsum_app. cbn [map]. unfold rsum at 2. cbn [fold_right].
  replace (k - (k - 1))%nat with 1%nat by lia. rewrite H1, Nat.sub_diag, Nat.sub_0_r, zbin_diag.
  replace (zbin k 0) with 1%Z by (destruct k; reflexivity). cbn [pow]. ring.
Qed.

Lemma wpow_app L1 L2 a k : wpow (L1 ++ L2) a k = wpow L1 a k + wpow L2 a k.
Proof. unfold wpow. rewrite map_app. apply rsum_app. Qed.
Lemma wpow_one p a k : wpow [p] a k = fst p * (snd p - a) ^ k.
Proof. unfold wpow, rsum. cbn. ring. Qed.
Definition wscale (q : R) (L : list (R * R)) : list (R * R) := map (fun p => (q * fst p, snd p)) L.
Lemma wpow_scale q L a k : wpow (wscale q L) a k = q * wpow L a k.
Proof. unfold wpow, wscale. rewrite map_map, <- rsum_scale. apply rsum_ext. intros [w x] _. cbn. ring. Qed.

Lemma IZR_sign i : IZR (sign (Z.of_nat i)) = (-1) ^ i.
Proof. rewrite sign_pow, <- pow_IZR. reflexivity. Qed.
Lemma pow_opp c i : (- c) ^ i = (-1) ^ i * c ^ i.
Proof. rewrite <- Rpow_mult_distr. f_equal. ring. Qed.
