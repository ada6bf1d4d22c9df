(** Proofs about HeapModel: container/heap keeps the heap order, the multiset and the
    recorded indices. *)
From Coq Require Import String Permutation.
From Verif Require Import Base F64 OrderSpec HeapModel.
Local Open Scope nat_scope.
Local Open Scope list_scope.

Definition par (i : nat) : nat := Nat.div2 (i - 1).
Lemma par_lt i : 0 < i -> par i < i.
Proof. intros H. unfold par. pose proof (Nat.div2_decr (i - 1) (i - 1) ltac:(lia)). lia. Qed.
Lemma par_child i j : 0 < j -> par j = i <-> j = 2 * i + 1 \/ j = 2 * i + 2.
Proof.
  intros Hj. unfold par. split.
  - intros H. pose proof (Nat.div2_odd (j - 1)) as E. rewrite H in E. destruct (Nat.odd (j - 1)); cbn in E; lia.
  - intros [->| ->].
    + replace (2 * i + 1 - 1) with (2 * i) by lia. apply Nat.div2_double.
    + replace (2 * i + 2 - 1) with (S (2 * i)) by lia. apply Nat.div2_succ_double.
Qed.

(** ** Arrays of keys *)
Definition hord (A : nat -> Z) (n : nat) : Prop := forall i, 0 < i < n -> (A (par i) <= A i)%Z.
Definition Uinv (A : nat -> Z) (j n : nat) : Prop :=
  (forall i, 0 < i < n -> i <> j -> (A (par i) <= A i)%Z) /\
  (forall c, 0 < c < n -> par c = j -> 0 < j -> (A (par j) <= A c)%Z).
(** Heap order among the positions whose parent is at least [b]. *)
Definition hordb (b : nat) (A : nat -> Z) (n : nat) : Prop := forall i, 0 < i < n -> b <= par i -> (A (par i) <= A i)%Z.
Definition Dinv (b : nat) (A : nat -> Z) (i n : nat) : Prop :=
  (forall k, 0 < k < n -> b <= par k -> par k <> i -> (A (par k) <= A k)%Z) /\
  (forall c, 0 < c < n -> par c = i -> 0 < i -> b <= par i -> (A (par i) <= A c)%Z).
Definition aswap (A : nat -> Z) (i j : nat) : nat -> Z := fun k => if k =? i then A j else if k =? j then A i else A k.

Lemma hord_ext A B n : (forall i, i < n -> A i = B i) -> hord A n -> hord B n.
Proof. intros H Ho i Hi. pose proof (par_lt i ltac:(lia)). rewrite <- !H by lia. apply Ho. exact Hi. Qed.
Lemma Uinv_ext A B j n : j < n -> (forall i, i < n -> A i = B i) -> Uinv A j n -> Uinv B j n.
Proof.
  intros Hj H [H1 H2]. split.
  - intros i Hi Hne. pose proof (par_lt i ltac:(lia)). rewrite <- !H by lia. apply H1; assumption.
  - intros c Hc Hp H0. pose proof (par_lt j ltac:(lia)). rewrite <- !H by lia. apply H2; assumption.
Qed.
Lemma Dinv_ext b A B j n : j < n -> (forall i, i < n -> A i = B i) -> Dinv b A j n -> Dinv b B j n.
Proof.
  intros Hj H [H1 H2]. split.
  - intros i Hi Hb Hne. pose proof (par_lt i ltac:(lia)). rewrite <- !H by lia. apply H1; assumption.
  - intros c Hc Hp H0 Hb. pose proof (par_lt j ltac:(lia)). rewrite <- !H by lia. apply H2; assumption.
Qed.
Lemma hordb_0 A n : hordb 0 A n <-> hord A n.
Proof. split; intros H i Hi; [apply H; [exact Hi|lia]|]. intros _. apply H. exact Hi. Qed.

Lemma hord_U A j n : hord A n -> Uinv A j n.
Proof.
  intros H. split; [intros i Hi _; apply H; exact Hi|].
  intros c Hc Hp H0. pose proof (par_lt c ltac:(lia)). pose proof (H c Hc). rewrite Hp in *.
  pose proof (H j ltac:(lia)). lia.
Qed.
Lemma U_done A j n : j < n -> Uinv A j n -> (j = 0 \/ (A (par j) <= A j)%Z) -> hord A n.
Proof.
  intros Hj [H1 H2] H i Hi. destruct (Nat.eq_dec i j) as [->|Hne]; [|apply H1; assumption].
  destruct H as [->|H]; [lia|exact H].
Qed.

Lemma U_step A j n : 0 < j < n -> Uinv A j n -> (A j < A (par j))%Z -> Uinv (aswap A (par j) j) (par j) n.
Proof.
  intros Hj [H1 H2] Hlt. pose proof (par_lt j ltac:(lia)) as Hp. unfold aswap. split.
  - intros i Hi Hne. destruct (Nat.eqb_spec i (par j)); [contradiction|].
    pose proof (par_lt i ltac:(lia)) as Hpi.
    destruct (Nat.eqb_spec i j) as [->|Hij].
    + rewrite Nat.eqb_refl. lia.
    + destruct (Nat.eqb_spec (par i) (par j)) as [E|E].
      * pose proof (H1 i Hi Hij) as H. rewrite E in H. lia.
      * destruct (Nat.eqb_spec (par i) j) as [E2|E2]; [apply H2; auto; lia|]. apply H1; assumption.
  - intros c Hc Hpc H0. pose proof (par_lt (par j) H0).
    destruct (Nat.eqb_spec (par (par j)) (par j)); [lia|]. destruct (Nat.eqb_spec (par (par j)) j); [lia|].
    destruct (Nat.eqb_spec c (par j)) as [E|E]; [pose proof (par_lt c ltac:(lia)); lia|].
    pose proof (H1 (par j) ltac:(lia) ltac:(lia)) as H3.
    destruct (Nat.eqb_spec c j) as [->|Hcj]; [exact H3|].
    pose proof (H1 c Hc Hcj) as H4. rewrite Hpc in H4. lia.
Qed.

Lemma D_done b A i n : Dinv b A i n -> (forall c, 0 < c < n -> par c = i -> (A i <= A c)%Z) -> hordb b A n.
Proof.
  intros [H1 H2] H k Hk Hb. destruct (Nat.eq_dec (par k) i) as [E|E]; [rewrite E; apply H; assumption|apply H1; assumption].
Qed.

Lemma D_step b A i j n : 0 < j < n -> par j = i -> b <= i -> Dinv b A i n -> (A j < A i)%Z ->
  (forall c, 0 < c < n -> par c = i -> (A j <= A c)%Z) -> Dinv b (aswap A i j) j n.
Proof.
  intros Hj Hp Hbi [H1 H2] Hlt Hmin. pose proof (par_lt j ltac:(lia)) as Hpj. rewrite Hp in Hpj. unfold aswap. split.
  - intros k Hk Hb Hpk. pose proof (par_lt k ltac:(lia)) as Hpk'.
    destruct (Nat.eqb_spec (par k) j) as [E|E]; [contradiction|].
    destruct (Nat.eqb_spec (par k) i) as [E2|E2].
    + destruct (Nat.eqb_spec k i); [lia|]. destruct (Nat.eqb_spec k j) as [->|Hkj]; [lia|]. apply Hmin; assumption.
    + destruct (Nat.eqb_spec k i) as [->|Hki]; [apply H2; auto; lia|].
      destruct (Nat.eqb_spec k j) as [->|Hkj]; [contradiction|]. apply H1; assumption.
  - intros c Hc Hpc H0 Hb. rewrite Hp, Nat.eqb_refl. pose proof (par_lt c ltac:(lia)).
    destruct (Nat.eqb_spec c i); [lia|]. destruct (Nat.eqb_spec c j); [lia|].
    pose proof (H1 c Hc ltac:(lia) ltac:(lia)) as H3. rewrite Hpc in H3. exact H3.
Qed.

Lemma hord_root A n : hord A n -> forall i, i < n -> (A 0%nat <= A i)%Z.
Proof.
  intros H i. induction i as [i IH] using lt_wf_ind. intros Hi. destruct (Nat.eq_dec i 0) as [->|Hne]; [lia|].
  pose proof (par_lt i ltac:(lia)). specialize (IH (par i) ltac:(lia) ltac:(lia)). specialize (H i ltac:(lia)). lia.
Qed.

(** ** Lists of addresses *)
Lemma lset_length l : forall i x, length (lset l i x) = length l.
Proof. induction l as [|a l IH]; intros [|i] x; cbn [lset length]; auto. Qed.
Lemma lset_nth l : forall i x k, i < length l -> nth k (lset l i x) 0 = if k =? i then x else nth k l 0.
Proof.
  induction l as [|a l IH]; intros i x k H; [cbn in H; lia|].
  destruct i as [|i], k as [|k]; cbn [lset nth Nat.eqb]; try reflexivity. apply IH. cbn in H. lia.
Qed.
Lemma lset_lset_perm l : forall i j, i < length l -> j < length l ->
  Permutation l (lset (lset l i (nth j l 0)) j (nth i l 0)).
Proof.
  intros i j Hi Hj. apply (Permutation_nth l _ 0). split; [rewrite !lset_length; reflexivity|].
  exists (fun k => if k =? i then j else if k =? j then i else k). split; [|split].
  - intros k Hk. destruct (k =? i); [assumption|]. destruct (k =? j); assumption.
  - intros x y Hx Hy. destruct (Nat.eqb_spec x i), (Nat.eqb_spec y i), (Nat.eqb_spec x j), (Nat.eqb_spec y j); subst; lia.
  - intros k Hk. rewrite lset_nth by (rewrite lset_length; exact Hj). rewrite lset_nth by exact Hi.
    destruct (Nat.eqb_spec k j) as [->|]; [destruct (Nat.eqb_spec j i) as [->|]; reflexivity|].
    destruct (Nat.eqb_spec k i); reflexivity.
Qed.
Lemma hget_ok l i : i < length l -> hget l i = Ok (nth i l 0).
Proof. intros H. unfold hget. rewrite (nth_error_nth' l 0 H). reflexivity. Qed.

(** Recorded positions are right. *)
Definition idx_ok (st : istore) (l : list nat) : Prop :=
  NoDup l /\ forall i, i < length l -> it_index (st (nth i l 0)) = Z.of_nat i.

(** What every rearrangement guarantees. *)
Definition moved (st : istore) (l : list nat) (st' : istore) (l' : list nat) : Prop :=
  Permutation l l' /\
  (forall a, it_val (st' a) = it_val (st a) /\ it_hid (st' a) = it_hid (st a)) /\
  (forall a, ~ In a l -> st' a = st a) /\
  (idx_ok st l -> idx_ok st' l').

Lemma moved_refl st l : moved st l st l.
Proof. split; [reflexivity|]. split; auto. Qed.
Lemma moved_trans st l st1 l1 st2 l2 : moved st l st1 l1 -> moved st1 l1 st2 l2 -> moved st l st2 l2.
Proof.
  intros [P1 [V1 [F1 I1]]] [P2 [V2 [F2 I2]]]. split; [etransitivity; eassumption|]. split; [|split].
  - intros a. destruct (V1 a), (V2 a). split; congruence.
  - intros a Ha. rewrite F2, F1; auto. intros H. apply Ha. eapply Permutation_in; [symmetry; exact P1|exact H].
  - auto.
Qed.
Lemma moved_len st l st' l' : moved st l st' l' -> length l' = length l.
Proof. intros [P _]. symmetry. apply Permutation_length. exact P. Qed.

Lemma h_swap_ok st l i j : i < length l -> j < length l ->
  exists st', h_swap st l i j = Ok (st', lset (lset l i (nth j l 0)) j (nth i l 0)) /\
    moved st l st' (lset (lset l i (nth j l 0)) j (nth i l 0)).
Proof.
  intros Hi Hj. unfold h_swap. rewrite !hget_ok by assumption. cbn [bind]. eexists. split; [reflexivity|].
  split; [apply lset_lset_perm; assumption|]. split; [|split].
  - intros a. unfold iupd. destruct (Nat.eqb_spec a (nth i l 0)) as [->|].
    + destruct (Nat.eqb_spec (nth i l 0) (nth j l 0)) as [->|]; auto.
    + destruct (Nat.eqb_spec a (nth j l 0)) as [->|]; auto.
  - intros a Ha. unfold iupd. destruct (Nat.eqb_spec a (nth i l 0)) as [->|]; [exfalso; apply Ha, nth_In; assumption|].
    destruct (Nat.eqb_spec a (nth j l 0)) as [->|]; [exfalso; apply Ha, nth_In; assumption|reflexivity].
  - intros [Hn Hx]. split; [eapply Permutation_NoDup; [apply lset_lset_perm; assumption|exact Hn]|].
    rewrite !lset_length. intros k Hk. rewrite lset_nth by (rewrite lset_length; exact Hj). rewrite lset_nth by exact Hi.
    assert (Hinj : forall p q, p < length l -> q < length l -> nth p l 0 = nth q l 0 -> p = q).
    { intros p q Hp Hq E. apply (proj1 (NoDup_nth l 0) Hn); assumption. }
    unfold iupd. destruct (Nat.eqb_spec k j) as [->|Hkj].
    + rewrite Nat.eqb_refl. reflexivity.
    + destruct (Nat.eqb_spec k i) as [->|Hki].
      * destruct (Nat.eqb_spec (nth j l 0) (nth i l 0)) as [E|E]; [apply Hinj in E; auto; lia|].
        rewrite Nat.eqb_refl. reflexivity.
      * destruct (Nat.eqb_spec (nth k l 0) (nth i l 0)) as [E|E]; [apply Hinj in E; auto; lia|].
        destruct (Nat.eqb_spec (nth k l 0) (nth j l 0)) as [E2|E2]; [apply Hinj in E2; auto; lia|]. apply Hx. exact Hk.
Qed.

(** Comparators given by a key: fmin by [fk], fmax by its opposite. *)
Definition cmp_key (cmp : f64 -> f64 -> bool) (g : f64 -> Z) : Prop :=
  forall x y, nonnan x -> nonnan y -> cmp x y = (g x <? g y)%Z.

(** Key of the i-th item. *)
Definition hkey (g : f64 -> Z) (st : istore) (l : list nat) : nat -> Z := fun i => g (it_val (st (nth i l 0))).
Definition hnum (st : istore) (l : list nat) : Prop := Forall (fun a => nonnan (it_val (st a))) l.

Lemma hnum_nth st l i : hnum st l -> i < length l -> nonnan (it_val (st (nth i l 0))).
Proof. intros H Hi. unfold hnum in H. rewrite Forall_forall in H. apply H. apply nth_In. exact Hi. Qed.
Lemma moved_hnum st l st' l' : moved st l st' l' -> hnum st l -> hnum st' l'.
Proof.
  intros [P [V _]] H. unfold hnum in *. rewrite Forall_forall in *. intros a Ha. rewrite (proj1 (V a)).
  apply H. eapply Permutation_in; [symmetry; exact P|exact Ha].
Qed.

Lemma h_less_ok cmp g st l i j : cmp_key cmp g -> hnum st l -> i < length l -> j < length l ->
  h_less cmp st l i j = Ok (hkey g st l i <? hkey g st l j)%Z.
Proof.
  intros Hc Hn Hi Hj. unfold h_less. rewrite !hget_ok by assumption. cbn [bind]. unfold hkey.
  rewrite Hc by (apply hnum_nth; assumption). reflexivity.
Qed.

Lemma hkey_swap g st l st' i j : i < length l -> j < length l ->
  moved st l st' (lset (lset l i (nth j l 0)) j (nth i l 0)) ->
  forall k, hkey g st' (lset (lset l i (nth j l 0)) j (nth i l 0)) k = aswap (hkey g st l) j i k.
Proof.
  intros Hi Hj [_ [V _]] k. unfold hkey, aswap. rewrite (proj1 (V _)).
  rewrite lset_nth by (rewrite lset_length; exact Hj). rewrite lset_nth by exact Hi.
  destruct (k =? j), (k =? i); reflexivity.
Qed.
Lemma aswap_comm A i j k : aswap A i j k = aswap A j i k.
Proof. unfold aswap. destruct (Nat.eqb_spec k i), (Nat.eqb_spec k j); subst; reflexivity. Qed.

Lemma h_up_ok cmp g : cmp_key cmp g -> forall fuel st l j n,
  j < fuel -> j < n -> n <= length l -> hnum st l -> Uinv (hkey g st l) j n ->
  exists st' l', h_up fuel cmp st l j = Ok (st', l') /\ moved st l st' l' /\ hord (hkey g st' l') n /\
    (forall k, n <= k -> nth k l' 0 = nth k l 0).
Proof.
  intros Hc. induction fuel as [|f IH]; intros st l j n Hf Hj Hl Hn HU; [lia|]. cbn [h_up].
  fold (par j). destruct (Nat.eqb_spec (par j) j) as [E|E].
  - assert (j = 0) by (destruct j; [reflexivity|]; pose proof (par_lt (S j) ltac:(lia)); lia). subst j.
    exists st, l. split; [reflexivity|]. split; [apply moved_refl|]. split; [|auto].
    eapply U_done; eauto.
  - assert (H0 : 0 < j) by (destruct j; [unfold par in E; cbn in E; lia|lia]).
    pose proof (par_lt j H0) as Hp.
    rewrite (h_less_ok cmp g) by (auto; lia). cbn [bind].
    destruct (Z.ltb_spec (hkey g st l j) (hkey g st l (par j))) as [Hlt|Hge].
    + destruct (h_swap_ok st l (par j) j) as [st1 [E1 M1]]; [lia|lia|]. rewrite E1. cbn [bind].
      destruct (IH st1 (lset (lset l (par j) (nth j l 0)) j (nth (par j) l 0)) (par j) n) as [st2 [l2 [E2 [M2 [O2 T2]]]]].
      * lia.
      * lia.
      * rewrite !lset_length. exact Hl.
      * eapply moved_hnum; eassumption.
      * eapply Uinv_ext; [lia| |apply U_step; eauto; lia]. intros k _.
        rewrite (hkey_swap g st l st1 (par j) j) by (auto; lia). apply aswap_comm.
      * exists st2, l2. split; [exact E2|]. split; [eapply moved_trans; eassumption|]. split; [exact O2|].
        intros k Hk. rewrite T2 by exact Hk. rewrite lset_nth by (rewrite lset_length; lia). rewrite lset_nth by lia.
        destruct (Nat.eqb_spec k j); [lia|]. destruct (Nat.eqb_spec k (par j)); [lia|]. reflexivity.
    + exists st, l. split; [reflexivity|]. split; [apply moved_refl|]. split; [|auto].
      eapply U_done; eauto.
Qed.

(** The child that down compares with. *)
Lemma h_down_child cmp g st l i n : cmp_key cmp g -> n <= length l -> hnum st l -> 2 * i + 1 < n ->
  exists j, (if S (2 * i + 1) <? n then b <- h_less cmp st l (S (2 * i + 1)) (2 * i + 1) ;; Ok (if b : bool then S (2 * i + 1) else 2 * i + 1)
             else Ok (2 * i + 1)) = Ok j /\ 0 < j < n /\ par j = i /\
    (forall c, 0 < c < n -> par c = i -> (hkey g st l j <= hkey g st l c)%Z).
Proof.
  intros Hc Hl Hn Hi. destruct (Nat.ltb_spec (S (2 * i + 1)) n) as [H|H].
  - rewrite (h_less_ok cmp g) by (auto; lia). cbn [bind].
    destruct (Z.ltb_spec (hkey g st l (S (2 * i + 1))) (hkey g st l (2 * i + 1))) as [Hlt|Hge].
    + exists (S (2 * i + 1)). split; [reflexivity|]. split; [lia|]. split; [apply par_child; lia|].
      intros c Hc' Hp. apply par_child in Hp; [|lia]. destruct Hp as [-> | ->]; [lia|].
      replace (2 * i + 2) with (S (2 * i + 1)) by lia. lia.
    + exists (2 * i + 1). split; [reflexivity|]. split; [lia|]. split; [apply par_child; lia|].
      intros c Hc' Hp. apply par_child in Hp; [|lia]. destruct Hp as [-> | ->]; [lia|].
      replace (2 * i + 2) with (S (2 * i + 1)) by lia. lia.
  - exists (2 * i + 1). split; [reflexivity|]. split; [lia|]. split; [apply par_child; lia|].
    intros c Hc' Hp. apply par_child in Hp; [|lia]. destruct Hp as [-> | ->]; [lia|]. lia.
Qed.

(** down with a position outside the range stops at once. *)
Lemma h_down_ok cmp g b : cmp_key cmp g -> forall fuel st l i n,
  n < fuel + i -> n <= length l -> hnum st l -> b <= i -> Dinv b (hkey g st l) i n ->
  0 < fuel ->
  exists st' l' k, h_down fuel cmp st l i n = Ok (st', l', k) /\ moved st l st' l' /\ hordb b (hkey g st' l') n /\
    (forall k, n <= k -> nth k l' 0 = nth k l 0) /\ i <= k /\ (k = i -> st' = st /\ l' = l).
Proof.
  intros Hc. induction fuel as [|f IH]; intros st l i n Hf Hl Hn Hb HD H0; [lia|]. cbn [h_down].
  destruct (Nat.leb_spec n (2 * i + 1)) as [Hle|Hgt].
  - exists st, l, i. split; [reflexivity|]. split; [apply moved_refl|]. split; [|auto].
    eapply D_done; [exact HD|]. intros c Hc' Hp. apply par_child in Hp; lia.
  - destruct (h_down_child cmp g st l i n Hc Hl Hn Hgt) as [j [Ej [Hj [Hpj Hmin]]]]. rewrite Ej. cbn [bind].
    pose proof (par_lt j ltac:(lia)) as Hij. rewrite Hpj in Hij.
    rewrite (h_less_ok cmp g) by (auto; lia). cbn [bind].
    destruct (Z.ltb_spec (hkey g st l j) (hkey g st l i)) as [Hlt|Hge].
    + destruct (h_swap_ok st l i j) as [st1 [E1 M1]]; [lia|lia|]. rewrite E1. cbn [bind].
      destruct (IH st1 (lset (lset l i (nth j l 0)) j (nth i l 0)) j n) as [st2 [l2 [k [E2 [M2 [O2 [T2 [K2 _]]]]]]]].
      * lia.
      * rewrite !lset_length. exact Hl.
      * eapply moved_hnum; eassumption.
      * lia.
      * eapply Dinv_ext; [lia| |eapply D_step; eauto]. intros k _.
        rewrite (hkey_swap g st l st1 i j) by (auto; lia). apply aswap_comm.
      * lia.
      * exists st2, l2, k. split; [exact E2|]. split; [eapply moved_trans; eassumption|]. split; [exact O2|].
        split; [|lia]. intros p Hp. rewrite T2 by exact Hp. rewrite lset_nth by (rewrite lset_length; lia).
        rewrite lset_nth by lia. destruct (Nat.eqb_spec p j); [lia|]. destruct (Nat.eqb_spec p i); [lia|]. reflexivity.
    + exists st, l, i. split; [reflexivity|]. split; [apply moved_refl|]. split; [|auto].
      eapply D_done; [exact HD|]. intros c Hc' Hp. specialize (Hmin c Hc' Hp). lia.
Qed.

(** ** Whole operations *)
Lemma D_changed A B k n : hord A n -> (forall i, i < n -> i <> k -> B i = A i) -> k < n ->
  (k = 0 \/ (B (par k) <= B k)%Z) -> Dinv 0 B k n.
Proof.
  intros HA HB Hk H. split.
  - intros m Hm _ Hp. pose proof (par_lt m ltac:(lia)). destruct (Nat.eq_dec m k) as [->|Hne].
    + destruct H as [->|H]; [lia|exact H].
    + rewrite !HB by lia. apply HA. exact Hm.
  - intros c Hc Hp H0 _. pose proof (par_lt c ltac:(lia)). pose proof (par_lt k H0).
    rewrite !HB by lia. pose proof (HA c Hc) as Hac. rewrite Hp in Hac. pose proof (HA k ltac:(lia)). lia.
Qed.
Lemma U_changed A B k n : hord A n -> (forall i, i < n -> i <> k -> B i = A i) -> k < n ->
  0 < k -> (B k <= B (par k))%Z -> Uinv B k n.
Proof.
  intros HA HB Hk Hk0 H. split.
  - intros i Hi Hne. pose proof (par_lt i ltac:(lia)). rewrite (HB i) by lia.
    destruct (Nat.eq_dec (par i) k) as [E|E].
    + pose proof (HA i Hi) as Hai. rewrite E in *. pose proof (par_lt k ltac:(lia)). rewrite (HB (par k)) in H by lia.
      pose proof (HA k ltac:(lia)). lia.
    + rewrite HB by lia. apply HA. exact Hi.
  - intros c Hc Hp H0. pose proof (par_lt c ltac:(lia)). pose proof (par_lt k H0).
    rewrite !HB by lia. pose proof (HA c Hc) as Hac. rewrite Hp in Hac. pose proof (HA k ltac:(lia)). lia.
Qed.

Lemma h_fix_ok cmp g st l k n A : cmp_key cmp g -> k < n -> n <= length l -> hnum st l ->
  hord A n -> (forall i, i < n -> i <> k -> hkey g st l i = A i) ->
  exists st' l', h_fix cmp st l k n = Ok (st', l') /\ moved st l st' l' /\ hord (hkey g st' l') n /\
    (forall p, n <= p -> nth p l' 0 = nth p l 0).
Proof.
  intros Hc Hk Hl Hn HA HB. unfold h_fix.
  assert (Hcase : (k = 0 \/ (hkey g st l (par k) <= hkey g st l k)%Z) \/ (0 < k /\ (hkey g st l k < hkey g st l (par k))%Z)) by lia.
  destruct Hcase as [Hcase|[H0 Hlt]].
  - destruct (h_down_ok cmp g 0 Hc (S (length l)) st l k n) as [st1 [l1 [k' [E [M [O [T [Hk' Hsame]]]]]]]]; try lia; auto.
    { eapply D_changed; eauto. }
    rewrite E. cbn [bind]. apply hordb_0 in O.
    destruct (Nat.ltb_spec k k') as [Hlt|Hge].
    + exists st1, l1. auto.
    + destruct Hsame as [-> ->]; [lia|].
      destruct (h_up_ok cmp g Hc (S (length l)) st l k n) as [st2 [l2 [E2 [M2 [O2 T2]]]]]; try lia; auto.
      { apply hord_U. exact O. }
      exists st2, l2. auto.
  - assert (Ed : h_down (S (length l)) cmp st l k n = Ok (st, l, k)).
    { cbn [h_down]. destruct (Nat.leb_spec n (2 * k + 1)) as [Hle|Hgt]; [reflexivity|].
      destruct (h_down_child cmp g st l k n Hc Hl Hn Hgt) as [j [Ej [Hj [Hpj Hmin]]]]. rewrite Ej. cbn [bind].
      rewrite (h_less_ok cmp g) by (auto; lia). cbn [bind].
      destruct (Z.ltb_spec (hkey g st l j) (hkey g st l k)) as [Hlt2|Hge]; [|reflexivity]. exfalso.
      pose proof (par_lt j ltac:(lia)). pose proof (par_lt k H0).
      rewrite HB in Hlt2 by lia. rewrite (HB (par k)) in Hlt by lia. pose proof (HA j Hj) as H2. rewrite Hpj in H2.
      pose proof (HA k ltac:(lia)). lia. }
    rewrite Ed. cbn [bind]. rewrite Nat.ltb_irrefl.
    destruct (h_up_ok cmp g Hc (S (length l)) st l k n) as [st2 [l2 [E2 [M2 [O2 T2]]]]]; try lia; auto.
    { eapply U_changed; eauto. lia. }
    exists st2, l2. auto.
Qed.

Lemma h_init_ok cmp g : cmp_key cmp g -> forall k st l, hnum st l -> hordb k (hkey g st l) (length l) ->
  exists st' l', h_init k cmp st l = Ok (st', l') /\ moved st l st' l' /\ hord (hkey g st' l') (length l').
Proof.
  intros Hc. induction k as [|k IH]; intros st l Hn Ho; cbn [h_init].
  - exists st, l. split; [reflexivity|]. split; [apply moved_refl|]. apply hordb_0. exact Ho.
  - destruct (h_down_ok cmp g k Hc (S (length l)) st l k (length l)) as [st1 [l1 [k' [E [M [O _]]]]]]; try lia; auto.
    { split.
      - intros m Hm Hb Hne. apply Ho; [exact Hm|lia].
      - intros c Hc' Hp H0 Hb. pose proof (par_lt k H0). lia. }
    rewrite E. cbn [bind]. rewrite <- (moved_len _ _ _ _ M) in O.
    destruct (IH st1 l1 (moved_hnum _ _ _ _ M Hn) O) as [st2 [l2 [E2 [M2 O2]]]].
    exists st2, l2. split; [exact E2|]. split; [eapply moved_trans; eassumption|exact O2].
Qed.

(** The state of one heap. *)
Definition heap_ok (g : f64 -> Z) (st : istore) (h : heap) : Prop :=
  cmp_key (h_cmp h) g /\ idx_ok st (h_items h) /\ (forall a, In a (h_items h) -> it_hid (st a) = h_id h) /\
  hnum st (h_items h) /\ hord (hkey g st (h_items h)) (length (h_items h)).

Lemma heap_ok_frame g st st' h : heap_ok g st h -> (forall a, In a (h_items h) -> st' a = st a) -> heap_ok g st' h.
Proof.
  intros [H1 [[H2 H2'] [H3 [H4 H5]]]] H. split; [exact H1|]. split; [|split; [|split]].
  - split; [exact H2|]. intros i Hi. rewrite H by (apply nth_In; exact Hi). apply H2'. exact Hi.
  - intros a Ha. rewrite H by exact Ha. apply H3. exact Ha.
  - unfold hnum in *. rewrite Forall_forall in *. intros a Ha. rewrite H by exact Ha. apply H4. exact Ha.
  - eapply hord_ext; [|exact H5]. intros i Hi. unfold hkey. rewrite H by (apply nth_In; exact Hi). reflexivity.
Qed.

(** Post-condition shared by the operations: values and heap names are kept, nothing
    outside the named addresses changes. *)
Definition keeps (st st' : istore) (L : list nat) : Prop :=
  (forall a, it_val (st' a) = it_val (st a)) /\ (forall a, ~ In a L -> st' a = st a).

Lemma NoDup_app_snoc (l : list nat) a : NoDup l -> ~ In a l -> NoDup (l ++ [a]).
Proof.
  intros H Ha. eapply Permutation_NoDup; [apply Permutation_cons_append|]. constructor; assumption.
Qed.
Lemma idx_ok_snoc st l a i : idx_ok st l -> ~ In a l -> it_index (st a) = i -> i = Z.of_nat (length l) -> idx_ok st (l ++ [a]).
Proof.
  intros [H1 H2] Ha Hi ->. split.
  - apply NoDup_app_snoc; assumption.
  - intros k Hk. rewrite app_length in Hk. cbn [length] in Hk. destruct (Nat.eq_dec k (length l)) as [->|Hne].
    + rewrite nth_middle. exact Hi.
    + rewrite app_nth1 by lia. apply H2. lia.
Qed.

Lemma h_push_ok g st h a : heap_ok g st h -> ~ In a (h_items h) -> nonnan (it_val (st a)) ->
  exists st' h', h_push st h a = Ok (st', h') /\ heap_ok g st' h' /\ h_id h' = h_id h /\
    Permutation (a :: h_items h) (h_items h') /\ keeps st st' (a :: h_items h).
Proof.
  intros [Hc [Hi [Hh [Hn Ho]]]] Ha Hv. unfold h_push.
  set (st1 := iupd st a (mkItem (it_val (st a)) (h_id h) (Z.of_nat (length (h_items h))))).
  assert (Hst : forall b, b <> a -> st1 b = st b) by (intros b Hb; unfold st1, iupd; destruct (Nat.eqb_spec b a); congruence).
  assert (Hsa : st1 a = mkItem (it_val (st a)) (h_id h) (Z.of_nat (length (h_items h)))) by (unfold st1, iupd; rewrite Nat.eqb_refl; reflexivity).
  assert (Hin : forall b, In b (h_items h) -> st1 b = st b) by (intros b Hb; apply Hst; congruence).
  destruct (h_up_ok (h_cmp h) g Hc (S (length (h_items h ++ [a]))) st1 (h_items h ++ [a]) (length (h_items h ++ [a]) - 1)
    (length (h_items h ++ [a]))) as [st2 [l2 [E [M [O T]]]]]; rewrite ?app_length in *; cbn [length] in *; try lia.
  - unfold hnum in *. apply Forall_app. split.
    + rewrite Forall_forall in *. intros b Hb. rewrite Hin by exact Hb. apply Hn. exact Hb.
    + repeat constructor. rewrite Hsa. exact Hv.
  - split.
    + intros i Hi' Hne. pose proof (par_lt i ltac:(lia)). unfold hkey. rewrite !app_nth1 by lia.
      rewrite !Hin by (apply nth_In; lia). apply Ho. lia.
    + intros c Hc' Hp H0. pose proof (par_lt c ltac:(lia)). lia.
  - rewrite E. cbn [bind]. eexists st2, _. split; [reflexivity|]. destruct M as [P [V [F I]]].
    assert (P' : Permutation (a :: h_items h) l2) by (etransitivity; [apply Permutation_cons_append|exact P]).
    split; [|split; [reflexivity|split; [exact P'|]]].
    + split; [exact Hc|]. cbn [h_items h_id h_cmp]. split; [|split; [|split]].
      * apply I. eapply idx_ok_snoc; [|exact Ha|rewrite Hsa; reflexivity|reflexivity].
        destruct Hi as [Hi1 Hi2]. split; [exact Hi1|]. intros i Hi'. rewrite Hin by (apply nth_In; exact Hi'). apply Hi2. exact Hi'.
      * intros b Hb. rewrite (proj2 (V b)). apply (Permutation_in b (Permutation_sym P')) in Hb.
        destruct Hb as [<-|Hb]; [rewrite Hsa; reflexivity|rewrite Hin by exact Hb; apply Hh; exact Hb].
      * unfold hnum in *. rewrite Forall_forall in *. intros b Hb. rewrite (proj1 (V b)).
        apply (Permutation_in b (Permutation_sym P')) in Hb.
        destruct Hb as [<-|Hb]; [rewrite Hsa; exact Hv|rewrite Hin by exact Hb; apply Hn; exact Hb].
      * rewrite <- (Permutation_length P), app_length. exact O.
    + split.
      * intros b. rewrite (proj1 (V b)). destruct (Nat.eq_dec b a) as [->|Hb]; [rewrite Hsa; reflexivity|rewrite Hst by exact Hb; reflexivity].
      * intros b Hb. rewrite F, Hst; [reflexivity| |].
        -- intros ->. apply Hb. left. reflexivity.
        -- intros H. apply in_app_or in H. apply Hb. destruct H as [H|[H|[]]]; [right; exact H|left; exact H].
Qed.

Lemma h_pop_last_ok st l n : length l = S n -> 
  exists l0, l = l0 ++ [nth n l 0] /\ length l0 = n /\
   h_pop_last st l = Ok (iupd st (nth n l 0) (set_index (st (nth n l 0)) (-1)), l0, nth n l 0).
Proof.
  intros Hl. destruct (exists_last (l := l)) as [l0 [a E]]; [intros ->; discriminate|].
  assert (Hl0 : length l0 = n) by (rewrite E, app_length in Hl; cbn in Hl; lia).
  assert (Ea : nth n l 0 = a) by (rewrite E, <- Hl0; apply nth_middle).
  rewrite Ea. exists l0. split; [exact E|]. split; [exact Hl0|].
  unfold h_pop_last. rewrite E, rev_app_distr. cbn [rev app]. rewrite rev_involutive. reflexivity.
Qed.

(** Dropping the last item after a rearrangement that restored the order before it. *)
Lemma drop_last_ok g st h st2 l2 n : heap_ok g st h -> moved st (h_items h) st2 l2 -> length l2 = S n ->
  hord (hkey g st2 l2) n ->
  exists st' h', h_pop_last st2 l2 = Ok (st', h_items h', nth n l2 0) /\ h' = mkHeap (h_id h) (h_items h') (h_cmp h) /\
    heap_ok g st' h' /\ Permutation (nth n l2 0 :: h_items h') (h_items h) /\ keeps st st' (h_items h) /\
    (forall b, it_hid (st' b) = it_hid (st b)).
Proof.
  intros [Hc [Hi [Hh [Hn Ho]]]] [P [V [F I]]] Hl O.
  destruct (h_pop_last_ok st2 l2 n Hl) as [l0 [E [Hl0 Ep]]]. set (a := nth n l2 0) in *.
  eexists _, (mkHeap (h_id h) l0 (h_cmp h)). split; [exact Ep|]. split; [reflexivity|].
  specialize (I Hi). destruct I as [I1 I2].
  assert (Ha : ~ In a l0).
  { rewrite E in I1. apply NoDup_remove_2 in I1. rewrite app_nil_r in I1. exact I1. }
  set (st3 := iupd st2 a (set_index (st2 a) (-1))).
  assert (Hst : forall b, b <> a -> st3 b = st2 b) by (intros b Hb; unfold st3, iupd; destruct (Nat.eqb_spec b a); congruence).
  assert (Hin : forall b, In b l0 -> st3 b = st2 b) by (intros b Hb; apply Hst; congruence).
  assert (Hval : forall b, it_val (st3 b) = it_val (st2 b) /\ it_hid (st3 b) = it_hid (st2 b)).
  { intros b. unfold st3, iupd. destruct (Nat.eqb_spec b a) as [->|]; auto. }
  assert (P' : Permutation (a :: l0) (h_items h)).
  { etransitivity; [apply Permutation_cons_append|]. rewrite <- E. symmetry. exact P. }
  cbn [h_items]. split; [|split; [exact P'|split; [split|]]].
  - split; [exact Hc|]. cbn [h_items h_id]. split; [|split; [|split]].
    + split; [rewrite E in I1; apply NoDup_remove_1 in I1; rewrite app_nil_r in I1; exact I1|].
      intros i Hi'. rewrite Hin by (apply nth_In; exact Hi'). specialize (I2 i). rewrite E, app_length in I2. cbn [length] in I2.
      rewrite app_nth1 in I2 by lia. apply I2. lia.
    + intros b Hb. rewrite (proj2 (Hval b)), (proj2 (V b)). apply Hh. eapply Permutation_in; [exact P'|right; exact Hb].
    + unfold hnum in *. rewrite Forall_forall in *. intros b Hb. rewrite (proj1 (Hval b)), (proj1 (V b)). apply Hn.
      eapply Permutation_in; [exact P'|right; exact Hb].
    + rewrite Hl0. eapply hord_ext; [|exact O]. intros i Hi'. unfold hkey. rewrite (proj1 (Hval _)). rewrite E at 1.
      rewrite app_nth1 by lia. reflexivity.
  - intros b. rewrite (proj1 (Hval b)). apply V.
  - intros b Hb. rewrite Hst; [apply F; exact Hb|]. intros ->. apply Hb. eapply Permutation_in; [exact P'|left; reflexivity].
  - intros b. rewrite (proj2 (Hval b)). apply V.
Qed.

Lemma aswap_other A i j k : k <> i -> k <> j -> aswap A i j k = A k.
Proof. intros H1 H2. unfold aswap. destruct (Nat.eqb_spec k i); [contradiction|]. destruct (Nat.eqb_spec k j); [contradiction|reflexivity]. Qed.

Lemma h_pop_ok g st h : heap_ok g st h -> h_items h <> [] ->
  exists st' h' a, h_pop st h = Ok (st', h', a) /\ heap_ok g st' h' /\ h_id h' = h_id h /\
    Permutation (a :: h_items h') (h_items h) /\ keeps st st' (h_items h) /\ (forall b, it_hid (st' b) = it_hid (st b)) /\
    (forall b, In b (h_items h) -> (g (it_val (st a)) <= g (it_val (st b)))%Z) /\ nth 0 (h_items h) 0 = a.
Proof.
  intros Hok Hne. pose proof Hok as [Hc [Hi [Hh [Hn Ho]]]].
  assert (Hl : 0 < length (h_items h)) by (destruct (h_items h); [congruence|cbn; lia]).
  set (n := length (h_items h) - 1).
  destruct (h_swap_ok st (h_items h) 0 n) as [st1 [E1 M1]]; [lia|lia|].
  set (l1 := lset (lset (h_items h) 0 (nth n (h_items h) 0)) n (nth 0 (h_items h) 0)) in *.
  assert (Hl1 : length l1 = S n) by (unfold l1; rewrite !lset_length; lia).
  assert (HD : Dinv 0 (hkey g st1 l1) 0 n).
  { destruct (Nat.eq_dec n 0) as [E0|E0]; [rewrite E0; split; intros; lia|].
    apply (D_changed (hkey g st (h_items h))); [|intros i Hi' Hne'|lia|left; reflexivity].
    - intros i Hi'. apply Ho. lia.
    - unfold l1 in *. rewrite (hkey_swap g st (h_items h) st1 0 n) by (auto; lia). apply aswap_other; lia. }
  destruct (h_down_ok (h_cmp h) g 0 Hc (S (length l1)) st1 l1 0 n) as [st2 [l2 [k [E2 [M2 [O2 [T2 _]]]]]]]; try lia.
  { eapply moved_hnum; eassumption. }
  { exact HD. }
  apply hordb_0 in O2. pose proof (moved_trans _ _ _ _ _ _ M1 M2) as M.
  assert (Hl2 : length l2 = S n) by (rewrite (moved_len _ _ _ _ M2); exact Hl1).
  destruct (drop_last_ok g st h st2 l2 n Hok M Hl2 O2) as [st3 [h3 [E3 [Eh [Hok3 [P3 [K3 I3]]]]]]].
  assert (Ea : nth n l2 0 = nth 0 (h_items h) 0).
  { rewrite T2 by lia. unfold l1. rewrite lset_nth by (rewrite lset_length; lia). rewrite Nat.eqb_refl. reflexivity. }
  exists st3, h3, (nth n l2 0). split.
  - unfold h_pop, h_len. fold n. destruct (h_items h) as [|x t] eqn:Ex; [congruence|]. rewrite E1. cbn [bind]. rewrite E2. cbn [bind].
    rewrite E3. cbn [bind]. rewrite <- Eh. reflexivity.
  - split; [exact Hok3|]. split; [rewrite Eh; reflexivity|]. split; [exact P3|]. split; [exact K3|]. split; [exact I3|].
    split; [|symmetry; exact Ea]. intros b Hb. rewrite Ea. apply (In_nth _ _ 0) in Hb. destruct Hb as [i [Hi' <-]].
    apply (hord_root _ _ Ho i Hi').
Qed.

Lemma idx_pos st h g a : heap_ok g st h -> In a (h_items h) ->
  exists k, k < length (h_items h) /\ nth k (h_items h) 0 = a /\ it_index (st a) = Z.of_nat k.
Proof.
  intros [_ [[_ Hi] _]] Ha. apply (In_nth _ _ 0) in Ha. destruct Ha as [k [Hk E]]. exists k. split; [exact Hk|].
  split; [exact E|]. rewrite <- E. apply Hi. exact Hk.
Qed.

Lemma h_remove_ok g st h a : heap_ok g st h -> In a (h_items h) ->
  exists st' h', h_remove st h a = Ok (st', h') /\ heap_ok g st' h' /\ h_id h' = h_id h /\
    Permutation (a :: h_items h') (h_items h) /\ keeps st st' (h_items h) /\ (forall b, it_hid (st' b) = it_hid (st b)).
Proof.
  intros Hok Ha. pose proof Hok as [Hc [Hi [Hh [Hn Ho]]]].
  destruct (idx_pos st h g a Hok Ha) as [k [Hk [Ek Ei]]].
  set (n := length (h_items h) - 1). unfold h_remove, h_len. fold n. rewrite Ei.
  destruct (Z.ltb_spec (Z.of_nat k) 0); [lia|]. rewrite Nat2Z.id.
  assert (G : exists st2 l2, (if negb (n =? k) then '(st1, l1) <- h_swap st (h_items h) k n ;; h_fix (h_cmp h) st1 l1 k n
                     else Ok (st, h_items h)) = Ok (st2, l2) /\ moved st (h_items h) st2 l2 /\ hord (hkey g st2 l2) n /\
                     nth n l2 0 = a).
  { destruct (Nat.eqb_spec n k) as [E|E]; cbn [negb].
    - exists st, (h_items h). split; [reflexivity|]. split; [apply moved_refl|]. split; [|congruence].
      intros i Hi'. apply Ho. lia.
    - destruct (h_swap_ok st (h_items h) k n) as [st1 [E1 M1]]; [lia|lia|]. rewrite E1. cbn [bind].
      set (l1 := lset (lset (h_items h) k (nth n (h_items h) 0)) n (nth k (h_items h) 0)) in *.
      assert (Hl1 : length l1 = S n) by (unfold l1; rewrite !lset_length; lia).
      destruct (h_fix_ok (h_cmp h) g st1 l1 k n (hkey g st (h_items h)) Hc) as [st2 [l2 [E2 [M2 [O2 T2]]]]]; try lia.
      + eapply moved_hnum; eassumption.
      + intros i Hi'. apply Ho. lia.
      + intros i Hi' Hne. unfold l1 in *. rewrite (hkey_swap g st (h_items h) st1 k n) by (auto; lia). apply aswap_other; lia.
      + exists st2, l2. split; [exact E2|]. split; [eapply moved_trans; eassumption|]. split; [exact O2|].
        rewrite T2 by lia. unfold l1. rewrite lset_nth by (rewrite lset_length; lia). rewrite Nat.eqb_refl. exact Ek. }
  destruct G as [st2 [l2 [E2 [M2 [O2 Ea]]]]].
  assert (Hl2 : length l2 = S n) by (rewrite (moved_len _ _ _ _ M2); lia).
  destruct (drop_last_ok g st h st2 l2 n Hok M2 Hl2 O2) as [st3 [h3 [E3 [Eh [Hok3 [P3 [K3 I3]]]]]]].
  rewrite Ea in *. exists st3, h3. split.
  - destruct (h_items h) as [|x t] eqn:Ex; [destruct Ha|]. rewrite E2. cbn [bind]. rewrite E3. cbn [bind]. rewrite <- Eh. reflexivity.
  - split; [exact Hok3|]. split; [rewrite Eh; reflexivity|]. split; [exact P3|]. split; [exact K3|exact I3].
Qed.

Lemma h_update_ok g st h a v : heap_ok g st h -> In a (h_items h) -> nonnan v ->
  exists st' h', h_update st h a v = Ok (st', h') /\ heap_ok g st' h' /\ h_id h' = h_id h /\
    Permutation (h_items h) (h_items h') /\ it_val (st' a) = v /\ (forall b, b <> a -> it_val (st' b) = it_val (st b)) /\
    (forall b, ~ In b (h_items h) -> st' b = st b) /\ (forall b, it_hid (st' b) = it_hid (st b)).
Proof.
  intros Hok Ha Hv. pose proof Hok as [Hc [Hi [Hh [Hn Ho]]]].
  destruct (idx_pos st h g a Hok Ha) as [k [Hk [Ek Ei]]]. unfold h_update, h_len.
  set (st1 := iupd st a (set_val (st a) v)).
  assert (Hst : forall b, b <> a -> st1 b = st b) by (intros b Hb; unfold st1, iupd; destruct (Nat.eqb_spec b a); congruence).
  assert (Hsa : st1 a = set_val (st a) v) by (unfold st1, iupd; rewrite Nat.eqb_refl; reflexivity).
  assert (Hsi : forall b, it_index (st1 b) = it_index (st b) /\ it_hid (st1 b) = it_hid (st b)).
  { intros b. destruct (Nat.eq_dec b a) as [->|Hb]; [rewrite Hsa; auto|rewrite Hst by exact Hb; auto]. }
  rewrite (proj1 (Hsi a)), Ei. destruct (Z.ltb_spec (Z.of_nat k) 0); [lia|]. rewrite Nat2Z.id.
  assert (Hn1 : hnum st1 (h_items h)).
  { unfold hnum in *. rewrite Forall_forall in *. intros b Hb. destruct (Nat.eq_dec b a) as [->|Hne]; [rewrite Hsa; exact Hv|].
    rewrite Hst by exact Hne. apply Hn. exact Hb. }
  destruct (h_fix_ok (h_cmp h) g st1 (h_items h) k (length (h_items h)) (hkey g st (h_items h)) Hc) as [st2 [l2 [E2 [M2 [O2 T2]]]]]; auto.
  - intros i Hi' Hne. unfold hkey. rewrite Hst; [reflexivity|]. intros E. apply Hne.
    apply (proj1 (NoDup_nth (h_items h) 0) (proj1 Hi)); auto. congruence.
  - rewrite E2. cbn [bind]. eexists st2, _. split; [reflexivity|].
    pose proof (moved_hnum _ _ _ _ M2 Hn1) as Hn2. destruct M2 as [P [V [F I]]].
    split; [|split; [reflexivity|split; [exact P|split; [|split; [|split]]]]]; cbn [h_items].
    + split; [exact Hc|]. cbn [h_items h_id]. split; [|split; [|split]].
      * apply I. destruct Hi as [Hi1 Hi2]. split; [exact Hi1|]. intros i Hi'. rewrite (proj1 (Hsi _)). apply Hi2. exact Hi'.
      * intros b Hb. rewrite (proj2 (V b)), (proj2 (Hsi b)). apply Hh. eapply Permutation_in; [symmetry; exact P|exact Hb].
      * exact Hn2.
      * rewrite <- (Permutation_length P). exact O2.
    + rewrite (proj1 (V a)), Hsa. reflexivity.
    + intros b Hb. rewrite (proj1 (V b)), Hst by exact Hb. reflexivity.
    + intros b Hb. rewrite F by exact Hb. apply Hst. intros ->. contradiction.
    + intros b. rewrite (proj2 (V b)). apply Hsi.
Qed.

Lemma h_alloc_ok id base vals : forall st i,
  (forall k, k < length vals -> h_alloc st id base i vals (base + i + k) = mkItem (nth k vals (fz 0)) id (Z.of_nat (i + k))) /\
  (forall b, b < base + i \/ base + i + length vals <= b -> h_alloc st id base i vals b = st b).
Proof.
  induction vals as [|v vals IH]; intros st i; cbn [h_alloc length]; [split; [intros; lia|reflexivity]|].
  destruct (IH (iupd st (base + i) (mkItem v id (Z.of_nat i))) (S i)) as [H1 H2]. split.
  - intros [|k] Hk.
    + rewrite H2 by lia. unfold iupd. rewrite Nat.add_0_r, Nat.eqb_refl, Nat.add_0_r. reflexivity.
    + replace (base + i + S k) with (base + S i + k) by lia. rewrite H1 by lia. cbn [nth]. f_equal. lia.
  - intros b Hb. rewrite H2 by lia. unfold iupd. destruct (Nat.eqb_spec b (base + i)); [lia|reflexivity].
Qed.

Lemma h_new_ok g st base id vals cmp : cmp_key cmp g -> Forall nonnan vals ->
  exists st' h, h_new st base id vals cmp = Ok (st', h) /\ heap_ok g st' h /\ h_id h = id /\ h_cmp h = cmp /\
    Permutation (seq base (length vals)) (h_items h) /\
    (forall k, k < length vals -> it_val (st' (base + k)) = nth k vals (fz 0)) /\
    (forall b, ~ In b (h_items h) -> st' b = st b).
Proof.
  intros Hc Hv. unfold h_new. set (st1 := h_alloc st id base 0 vals). destruct (h_alloc_ok id base vals st 0) as [A1 A2].
  fold st1 in A1, A2. rewrite Nat.add_0_r in A1, A2. cbn [Nat.add] in A1.
  assert (Hn : hnum st1 (seq base (length vals))).
  { unfold hnum. rewrite Forall_forall in *. intros b Hb. apply in_seq in Hb.
    replace b with (base + (b - base)) by lia. rewrite A1 by lia. cbn [it_val]. apply Hv. apply nth_In. lia. }
  destruct (h_init_ok cmp g Hc (Nat.div2 (length vals)) st1 (seq base (length vals)) Hn) as [st2 [l2 [E [M O]]]].
  { rewrite seq_length. intros i Hi Hb. exfalso. remember (par i) as p. symmetry in Heqp. apply par_child in Heqp; [|lia].
    pose proof (Nat.div2_odd (length vals)) as Ho. destruct (Nat.odd (length vals)); cbn [Nat.b2n] in Ho; lia. }
  rewrite E. cbn [bind]. pose proof (moved_hnum _ _ _ _ M Hn) as Hn2. destruct M as [P [V [F I]]].
  eexists st2, _. split; [reflexivity|]. split; [|split; [reflexivity|split; [reflexivity|split; [exact P|split]]]].
  - split; [exact Hc|]. cbn [h_items h_id]. split; [|split; [|split]].
    + apply I. split; [apply seq_NoDup|]. rewrite seq_length. intros i Hi. rewrite seq_nth by exact Hi. rewrite A1 by exact Hi. reflexivity.
    + intros b Hb. rewrite (proj2 (V b)). apply (Permutation_in b (Permutation_sym P)) in Hb. apply in_seq in Hb.
      replace b with (base + (b - base)) by lia. rewrite A1 by lia. reflexivity.
    + exact Hn2.
    + exact O.
  - intros k Hk. rewrite (proj1 (V _)), A1 by exact Hk. reflexivity.
  - cbn [h_items]. intros b Hb. assert (Hb' : ~ In b (seq base (length vals))) by (intros H; apply Hb; eapply Permutation_in; eassumption).
    rewrite F by exact Hb'. apply A2. rewrite in_seq in Hb'. lia.
Qed.
