(** Proofs about util/math. *)
From Verif Require Import Base MathModel.
Local Open Scope Z_scope.

(** Binomial coefficients by Pascal's triangle, and factorials over the integers. *)
Fixpoint zbin (n k : nat) : Z :=
  match n, k with
  | _, O => 1
  | O, S _ => 0
  | S n', S k' => zbin n' k' + zbin n' (S k')
  end.
Fixpoint zfact (n : nat) : Z := match n with O => 1 | S m => zfact m * Z.of_nat n end.

Lemma zfact_pos n : 0 < zfact n.
Proof. induction n; [reflexivity|]. cbn [zfact]. lia. Qed.
Lemma zbin_gt n : forall k, (n < k)%nat -> zbin n k = 0.
Proof. induction n as [|n IH]; intros [|k] H; cbn [zbin]; try lia. rewrite !IH by lia. lia. Qed.
Lemma zbin_diag n : zbin n n = 1.
Proof. induction n as [|n IH]; cbn [zbin]; [reflexivity|]. rewrite IH, zbin_gt by lia. lia. Qed.

(** The usual quotient. *)
Lemma zbin_fact n : forall k, (k <= n)%nat -> zbin n k * (zfact k * zfact (n - k)) = zfact n.
Proof.
  induction n as [|n IH]; intros [|k] H; cbn [zbin]; try lia.
  - reflexivity.
  - cbn [zfact Nat.sub]. lia.
  - destruct (Nat.eq_dec k n) as [->|Hne].
    + rewrite (zbin_gt n (S n)) by lia. rewrite Nat.sub_diag. specialize (IH n ltac:(lia)). rewrite Nat.sub_diag in IH. cbn [zfact] in *. rewrite <- IH at 2. ring.
    + pose proof (IH k ltac:(lia)) as H1. pose proof (IH (S k) ltac:(lia)) as H2.
      replace (S n - S k)%nat with (S (n - S k)) by lia. replace (n - k)%nat with (S (n - S k)) in H1 by lia.
      cbn [zfact] in *. replace (Z.of_nat (S n)) with (Z.of_nat (S k) + Z.of_nat (S (n - S k))) by lia.
      rewrite Z.mul_add_distr_l. rewrite <- H1 at 1. rewrite <- H2. ring.
Qed.

Lemma wrap_id z : - 2 ^ 63 <= z < 2 ^ 63 -> wrap z = z.
Proof. intros H. unfold wrap. rewrite Z.mod_small; lia. Qed.
Lemma wrap_range z : - 2 ^ 63 <= wrap z < 2 ^ 63.
Proof. unfold wrap. pose proof (Z.mod_pos_bound (z + 9223372036854775808) 18446744073709551616 ltac:(lia)). lia. Qed.
Lemma wrap_mod z : wrap z mod 2 ^ 64 = z mod 2 ^ 64.
Proof.
  unfold wrap. change (2 ^ 64) with 18446744073709551616. rewrite Zminus_mod, Zmod_mod, <- Zminus_mod. f_equal. lia.
Qed.
Lemma wrap_cong a b : a mod 2 ^ 64 = b mod 2 ^ 64 -> wrap a = wrap b.
Proof. intros H. unfold wrap. change (2 ^ 64) with 18446744073709551616 in H. rewrite Zplus_mod, H, <- Zplus_mod. reflexivity. Qed.

(** factorial(n) is n! reduced to 64 bits. *)
Lemma factw_wrap n : factw n = wrap (zfact n).
Proof.
  induction n as [|n IH]; [reflexivity|]. cbn [factw zfact]. apply wrap_cong. rewrite Z.mul_mod by lia.
  rewrite IH, wrap_mod, <- Z.mul_mod by lia. reflexivity.
Qed.

(** States of the cache: the first so many values. *)
Definition cache_ok (c : list Z) : Prop := exists m, c = map factw (seq 0 (S m)).

Lemma cache0_ok : cache_ok factorials0.
Proof. exists 7%nat. vm_compute. reflexivity. Qed.

Lemma fact_grow_ok c : cache_ok c -> cache_ok (fact_grow c) /\ zlen (fact_grow c) = zlen c + 1.
Proof.
  intros [m ->]. split.
  - exists (S m). unfold fact_grow. rewrite (seq_S (S m)), (map_app factw (seq 0 (S m))). f_equal. cbn [map Nat.add].
    replace (last (map factw (seq 0 (S m))) 0) with (factw m) by (rewrite seq_S, map_app; symmetry; apply last_last).
    unfold zlen. rewrite map_length, seq_length. reflexivity.
  - unfold fact_grow, zlen. rewrite app_length. cbn [length]. lia.
Qed.

Lemma fact_fill_ok n fuel c : cache_ok c -> (Z.to_nat (n + 1 - zlen c) <= fuel)%nat ->
  exists c', fact_fill fuel c n = Ok c' /\ cache_ok c' /\ n < zlen c'.
Proof.
  revert c. induction fuel as [|f IH]; intros c Hc Hf; cbn [fact_fill]; rewrite Z.geb_leb; destruct (Z.leb_spec (zlen c) n) as [Hle|Hgt].
  - lia.
  - exists c. auto.
  - destruct (fact_grow_ok c Hc) as [H1 H2]. apply IH; [exact H1|]. rewrite H2. lia.
  - exists c. auto.
Qed.

Lemma factorial_c_ok c n : cache_ok c -> match factorial n with
  | Ok v => exists c', factorial_c c n = Ok (c', v) /\ cache_ok c'
  | _ => factorial_c c n = Panic
  end.
Proof.
  intros Hc. unfold factorial, factorial_c.
  destruct (fact_fill_ok n (Z.to_nat (n + 1)) c Hc) as (c' & E & Hc' & Hn).
  { destruct Hc as [m ->]. unfold zlen. rewrite map_length, seq_length. lia. }
  rewrite E. cbn [bind]. destruct (Z.ltb_spec n 0) as [Hlt|Hge]; [reflexivity|].
  exists c'. split; [|exact Hc']. destruct Hc' as [m ->]. unfold zlen in Hn. rewrite map_length, seq_length in Hn.
  rewrite nth_error_map, nth_error_nth' with (d := 0%nat) by (rewrite seq_length; lia).
  rewrite seq_nth by lia. reflexivity.
Qed.

(** The cache is unobservable: Binom is a function of its arguments. *)
Lemma binom_c_ok c n k : cache_ok c -> match binom n k with
  | Ok v => exists c', binom_c c n k = Ok (c', v) /\ cache_ok c'
  | _ => binom_c c n k = Panic
  end.
Proof.
  intros Hc. unfold binom, binom_c. destruct ((k =? 0) || (k =? n)); [exists c; auto|].
  pose proof (factorial_c_ok c n Hc) as H1. destruct (factorial n) as [fn|e| | |] eqn:E1;
    try (unfold factorial in E1; destruct (n <? 0); discriminate); [|rewrite H1; reflexivity].
  destruct H1 as (c1 & E1' & Hc1). rewrite E1'. cbn [bind].
  pose proof (factorial_c_ok c1 k Hc1) as H2. destruct (factorial k) as [fk|e| | |] eqn:E2;
    try (unfold factorial in E2; destruct (k <? 0); discriminate); [|rewrite H2; reflexivity].
  destruct H2 as (c2 & E2' & Hc2). rewrite E2'. cbn [bind].
  pose proof (factorial_c_ok c2 (n - k) Hc2) as H3. destruct (factorial (n - k)) as [fnk|e| | |] eqn:E3;
    try (unfold factorial in E3; destruct (n - k <? 0); discriminate); [|rewrite H3; reflexivity].
  destruct H3 as (c3 & E3' & Hc3). rewrite E3'. cbn [bind].
  unfold idiv. destruct (wrap (fk * fnk) =? 0); cbn [bind]; [reflexivity|]. exists c3. auto.
Qed.

Lemma zfact_mono n m : (n <= m)%nat -> zfact n <= zfact m.
Proof.
  intros H. induction H as [|m H IH]; [lia|]. cbn [zfact]. pose proof (zfact_pos m). nia.
Qed.
Lemma zbin_pos n : forall k, (k <= n)%nat -> 0 < zbin n k.
Proof.
  induction n as [|n IH]; intros [|k] H; cbn [zbin]; try lia. destruct (Nat.eq_dec k n) as [->|Hne].
  - rewrite (zbin_gt n (S n)) by lia. specialize (IH n ltac:(lia)). lia.
  - pose proof (IH k ltac:(lia)). pose proof (IH (S k) ltac:(lia)). lia.
Qed.

(** Binom is exact while n! fits into 63 bits. *)
Lemma binom_exact n k : (k <= n)%nat -> zfact n < 2 ^ 63 -> binom (Z.of_nat n) (Z.of_nat k) = Ok (zbin n k).
Proof.
  intros Hk Hf. unfold binom.
  destruct (Z.eqb_spec (Z.of_nat k) 0) as [E0|E0]; cbn [orb]; [replace k with 0%nat by lia; destruct n; reflexivity|].
  destruct (Z.eqb_spec (Z.of_nat k) (Z.of_nat n)) as [E1|E1]; [replace k with n by lia; rewrite zbin_diag; reflexivity|].
  unfold factorial. destruct (Z.ltb_spec (Z.of_nat n) 0); [lia|]. destruct (Z.ltb_spec (Z.of_nat k) 0); [lia|].
  destruct (Z.ltb_spec (Z.of_nat n - Z.of_nat k) 0); [lia|]. cbn [bind].
  rewrite <- Nat2Z.inj_sub by lia. rewrite !Nat2Z.id, !factw_wrap.
  pose proof (zbin_fact n k Hk) as HB. pose proof (zbin_pos n k Hk) as HP.
  pose proof (zfact_pos k) as P1. pose proof (zfact_pos (n - k)) as P2.
  pose proof (zfact_mono k n Hk) as M1. pose proof (zfact_mono (n - k) n ltac:(lia)) as M2.
  assert (HD : zfact k * zfact (n - k) <= zfact n) by nia.
  rewrite (wrap_id (zfact n)), (wrap_id (zfact k)), (wrap_id (zfact (n - k))), (wrap_id (zfact k * zfact (n - k))) by nia.
  unfold idiv. destruct (Z.eqb_spec (zfact k * zfact (n - k)) 0); [nia|]. f_equal.
  rewrite <- HB. rewrite Z.quot_mul by nia. apply wrap_id. nia.
Qed.

Lemma zfact_20 n : (n <= 20)%nat -> zfact n < 2 ^ 63.
Proof. intros H. apply Z.le_lt_trans with (zfact 20); [apply zfact_mono; exact H|]. vm_compute. reflexivity. Qed.
Lemma binom_20 n k : (k <= n <= 20)%nat -> binom (Z.of_nat n) (Z.of_nat k) = Ok (zbin n k).
Proof. intros H. apply binom_exact; [lia|apply zfact_20; lia]. Qed.

(** No panic up to n = 65. *)
Definition binom_total_upto (m : nat) : bool :=
  let t := map factw (seq 0 (S m)) in
  forallb (fun n => forallb (fun k => negb (wrap (nth k t 0 * nth (n - k) t 0) =? 0)) (seq 0 (S n))) (seq 0 (S m)).
Lemma tbl_nth m k : (k <= m)%nat -> nth k (map factw (seq 0 (S m))) 0 = factw k.
Proof.
  intros H. rewrite nth_indep with (d' := factw 0) by (rewrite map_length, seq_length; lia). rewrite map_nth, seq_nth by lia. reflexivity.
Qed.
Lemma binom_total_spec m : binom_total_upto m = true -> forall n k, (k <= n <= m)%nat -> exists b, binom (Z.of_nat n) (Z.of_nat k) = Ok b.
Proof.
  intros E n k H. unfold binom_total_upto in E. cbv zeta in E. rewrite forallb_forall in E. specialize (E n ltac:(apply in_seq; lia)). cbv beta in E.
  rewrite forallb_forall in E. specialize (E k ltac:(apply in_seq; lia)). cbv beta in E.
  rewrite !tbl_nth in E by lia. unfold binom. destruct (_ || _); [eexists; reflexivity|].
  unfold factorial. destruct (Z.ltb_spec (Z.of_nat n) 0); [lia|]. destruct (Z.ltb_spec (Z.of_nat k) 0); [lia|].
  destruct (Z.ltb_spec (Z.of_nat n - Z.of_nat k) 0); [lia|]. cbn [bind]. rewrite <- Nat2Z.inj_sub by lia. rewrite !Nat2Z.id.
  unfold idiv. destruct (wrap (factw k * factw (n - k)) =? 0); [discriminate|]. eexists. reflexivity.
Qed.
Lemma binom_total_65 : binom_total_upto 65 = true.
Proof. vm_compute. reflexivity. Qed.
Lemma binom_65 n k : (k <= n <= 65)%nat -> exists b, binom (Z.of_nat n) (Z.of_nat k) = Ok b.
Proof. exact (binom_total_spec 65 binom_total_65 n k). Qed.

(** From n = 66 on the factorial is a multiple of 2^64: the wrapped value is 0. *)
Lemma zfact_add n d : exists q, zfact (n + d) = zfact n * q.
Proof.
  induction d as [|d [q IH]]; [exists 1; rewrite Nat.add_0_r; lia|]. exists (q * Z.of_nat (n + S d)).
  replace (n + S d)%nat with (S (n + d)) by lia. cbn [zfact]. rewrite IH. ring.
Qed.
Lemma factw_66 n : (66 <= n)%nat -> factw n = 0.
Proof.
  intros H. rewrite factw_wrap. destruct (zfact_add 66 (n - 66)) as [q E]. replace (66 + (n - 66))%nat with n in E by lia.
  rewrite E. assert (E66 : zfact 66 = 2 ^ 64 * (zfact 66 / 2 ^ 64)) by (vm_compute; reflexivity).
  rewrite E66. rewrite <- Z.mul_assoc. replace 0 with (wrap 0) by reflexivity. apply wrap_cong. rewrite Z.mul_comm, Z_mod_mult. reflexivity.
Qed.
(** Binom(n, 2) panics for every n from 66 on: the denominator is a multiple of 2^64. *)
Lemma binom_66 n : (66 <= n)%nat -> binom (Z.of_nat n) 2 = Panic.
Proof.
  intros H. unfold binom. destruct (Z.eqb_spec 2 0); [lia|]. destruct (Z.eqb_spec 2 (Z.of_nat n)); [lia|]. cbn [orb].
  unfold factorial. destruct (Z.ltb_spec (Z.of_nat n) 0); [lia|]. destruct (Z.ltb_spec (Z.of_nat n - 2) 0); [lia|]. cbn [bind Z.ltb Z.compare].
  replace (Z.to_nat (Z.of_nat n - 2)) with (n - 2)%nat by lia.
  change (factw (Z.to_nat 2)) with 2. unfold idiv.
  assert (E : wrap (2 * factw (n - 2)) = 0); [|rewrite E; reflexivity].
  replace 0 with (wrap 0) by reflexivity. apply wrap_cong. rewrite factw_wrap.
  rewrite Z.mul_mod by lia. rewrite wrap_mod, <- Z.mul_mod by lia.
  destruct (zfact_add 64 (n - 66)) as [q E]. replace (64 + (n - 66))%nat with (n - 2)%nat in E by lia. rewrite E.
  assert (E64 : zfact 64 = 2 ^ 63 * (zfact 64 / 2 ^ 63)) by (vm_compute; reflexivity). rewrite E64.
  replace (2 * (2 ^ 63 * (zfact 64 / 2 ^ 63) * q)) with ((zfact 64 / 2 ^ 63 * q) * 2 ^ 64) by lia. rewrite Z_mod_mult. reflexivity.
Qed.

Lemma sign_pow n : sign (Z.of_nat n) = (-1) ^ Z.of_nat n.
Proof.
  unfold sign.
  destruct (Nat.Even_or_Odd n) as [[m E]|[m E]]; subst n.
  - replace (Z.of_nat (2 * m)) with (2 * Z.of_nat m) by lia. rewrite Z.mul_comm, Z.rem_mul by lia. cbn [Z.eqb].
    rewrite Z.mul_comm, Z.pow_mul_r by lia. change ((-1) ^ 2) with 1. rewrite Z.pow_1_l by lia. reflexivity.
  - replace (Z.of_nat (2 * m + 1)) with (2 * Z.of_nat m + 1) by lia.
    replace (Z.rem (2 * Z.of_nat m + 1) 2) with 1.
    + cbn [Z.eqb]. rewrite Z.pow_add_r, Z.pow_mul_r by lia. change ((-1) ^ 2) with 1. rewrite Z.pow_1_l by lia. reflexivity.
    + rewrite Z.add_comm, Z.mul_comm. rewrite Z.rem_add by lia. reflexivity.
Qed.
