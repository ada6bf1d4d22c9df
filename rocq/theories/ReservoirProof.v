(** Reservoir sampling: invariants, uniformity, independence of client writes. *)
From Verif Require Import Base ReservoirModel.
From Coq Require Import QArith Permutation Setoid Lqa Factorial.
Local Open Scope nat_scope.

(** ** Expectations *)
Definition expect {A} (f : A -> Q) (d : dist A) : Q := fold_right (fun p s => (fst p * f (snd p) + s)%Q) 0%Q d.
Definition supp {A} (d : dist A) (a : A) : Prop := exists q, In (q, a) d.

Lemma expect_cons {A} (f : A -> Q) p d : expect f (p :: d) = (fst p * f (snd p) + expect f d)%Q.
Proof. reflexivity. Qed.
Lemma expect_nil {A} (f : A -> Q) : expect f [] = 0%Q.
Proof. reflexivity. Qed.
Lemma expect_app {A} (f : A -> Q) d e : (expect f (d ++ e) == expect f d + expect f e)%Q.
Proof. induction d as [|p d IH]; cbn [app]; rewrite ?expect_cons, ?expect_nil; [ring|]. rewrite IH. ring. Qed.
Lemma expect_scale {A} (f : A -> Q) q (d : dist A) : (expect f (map (fun p => ((q * fst p)%Q, snd p)) d) == q * expect f d)%Q.
Proof. induction d as [|p d IH]; cbn [map]; rewrite ?expect_cons, ?expect_nil; [ring|]. rewrite IH. cbn [fst snd]. ring. Qed.
Lemma expect_bind {A B} (f : B -> Q) d (k : A -> dist B) : (expect f (dbind d k) == expect (fun a => expect f (k a)) d)%Q.
Proof. induction d as [|p d IH]; [reflexivity|]. unfold dbind in *. cbn [flat_map]. rewrite expect_app, IH, expect_scale, expect_cons. reflexivity. Qed.
Lemma expect_ret {A} (f : A -> Q) a : (expect f (dret a) == f a)%Q.
Proof. unfold dret. rewrite expect_cons, expect_nil. cbn [fst snd]. ring. Qed.
Lemma expect_ext {A} (f g : A -> Q) d : (forall a, supp d a -> (f a == g a)%Q) -> (expect f d == expect g d)%Q.
Proof.
  induction d as [|p d IH]; intros H; [reflexivity|]. rewrite !expect_cons. rewrite IH; [|intros a [q Hq]; apply H; exists q; cbn; auto]. rewrite (H (snd p)); [reflexivity|]. exists (fst p). left. destruct p; reflexivity.
Qed.
Lemma expect_mul {A} (f : A -> Q) q d : (expect (fun a => q * f a)%Q d == q * expect f d)%Q.
Proof. induction d as [|p d IH]; rewrite ?expect_cons, ?expect_nil; [ring|]. rewrite IH. ring. Qed.
Lemma expect_plus {A} (f g : A -> Q) d : (expect (fun a => f a + g a)%Q d == expect f d + expect g d)%Q.
Proof. induction d as [|p d IH]; rewrite ?expect_cons, ?expect_nil; [ring|]. rewrite IH. ring. Qed.
Definition qsum {B} (f : B -> Q) (l : list B) : Q := fold_right (fun b s => (f b + s)%Q) 0%Q l.
Lemma expect_qsum {A B} (f : B -> A -> Q) l d : (expect (fun a => qsum (fun b => f b a) l) d == qsum (fun b => expect (f b) d) l)%Q.
Proof.
  induction l as [|b l IH]; cbn [qsum fold_right].
  - induction d as [|p d IHd]; rewrite ?expect_cons, ?expect_nil; [reflexivity|]. rewrite IHd. ring.
  - rewrite expect_plus. fold (qsum (fun b => expect (f b) d) l). rewrite <- IH. reflexivity.
Qed.
Lemma qsum_cons {B} (f : B -> Q) b l : qsum f (b :: l) = (f b + qsum f l)%Q.
Proof. reflexivity. Qed.
Lemma qsum_nil {B} (f : B -> Q) : qsum f [] = 0%Q.
Proof. reflexivity. Qed.
Lemma qsum_app {B} (f : B -> Q) l1 l2 : (qsum f (l1 ++ l2) == qsum f l1 + qsum f l2)%Q.
Proof. induction l1 as [|a l1 IH]; cbn [app]; rewrite ?qsum_cons, ?qsum_nil; [ring|]. rewrite IH. ring. Qed.
Lemma qsum_plus {B} (f g : B -> Q) l : (qsum (fun i => f i + g i)%Q l == qsum f l + qsum g l)%Q.
Proof. induction l as [|a l IH]; rewrite ?qsum_cons, ?qsum_nil; [ring|]. rewrite IH. ring. Qed.
Lemma qsum_const {B} (f : B -> Q) q l : (forall b, In b l -> (f b == q)%Q) -> (qsum f l == inject_Z (Z.of_nat (length l)) * q)%Q.
Proof.
  induction l as [|b l IH]; intros H; cbn [qsum fold_right length]; [ring|]. fold (qsum f l). rewrite IH by (intros; apply H; cbn; auto). rewrite (H b) by (cbn; auto).
  rewrite Nat2Z.inj_succ. unfold Z.succ. rewrite inject_Z_plus. ring.
Qed.
Lemma qsum_ext {B} (f g : B -> Q) l : (forall b, In b l -> (f b == g b)%Q) -> (qsum f l == qsum g l)%Q.
Proof. induction l as [|b l IH]; intros H; cbn [qsum fold_right]; [reflexivity|]. fold (qsum f l) (qsum g l). rewrite IH by (intros; apply H; cbn; auto). rewrite (H b) by (cbn; auto). reflexivity. Qed.
Lemma qsum_map {B C} (f : C -> Q) (g : B -> C) l : qsum f (map g l) = qsum (fun b => f (g b)) l.
Proof. induction l as [|b l IH]; [reflexivity|]. unfold qsum in *. cbn [map fold_right]. rewrite IH. reflexivity. Qed.
Lemma supp_bind {A B} (d : dist A) (k : A -> dist B) b : supp (dbind d k) b <-> exists a, supp d a /\ supp (k a) b.
Proof.
  split.
  - intros [q H]. unfold dbind in H. apply in_flat_map in H. destruct H as ((q1 & a) & H1 & H2). apply in_map_iff in H2. destruct H2 as ((q2 & b') & E & H2). cbn in *. injection E as _ <-. exists a. split; eexists; eauto.
  - intros (a & [q1 H1] & [q2 H2]). exists (q1 * q2)%Q. unfold dbind. apply in_flat_map. exists (q1, a). split; [exact H1|]. apply in_map_iff. exists (q2, b). auto.
Qed.
Lemma supp_ret {A} (a b : A) : supp (dret a) b <-> b = a.
Proof. split; [intros [q [H|[]]]; congruence|intros ->; exists 1%Q; left; reflexivity]. Qed.
Lemma supp_intn n o : (0 < n)%Z -> supp (intn n) o <-> exists i, o = Ok (Z.of_nat i) /\ i < Z.to_nat n.
Proof.
  intros Hn. unfold intn. destruct (Z.leb_spec n 0) as [|_]; [lia|]. split.
  - intros [q H]. apply in_map_iff in H. destruct H as (i & E & Hi). apply in_seq in Hi. injection E as _ <-. exists i. split; [reflexivity|lia].
  - intros (i & -> & Hi). eexists. apply in_map_iff. exists i. split; [reflexivity|]. apply in_seq. lia.
Qed.
Lemma expect_intn f n : (0 < n)%Z -> (expect f (intn n) == (1 # Z.to_pos n) * qsum (fun i => f (Ok (Z.of_nat i))) (seq 0 (Z.to_nat n)))%Q.
Proof.
  intros Hn. unfold intn. destruct (Z.leb_spec n 0) as [|_]; [lia|]. generalize (seq 0 (Z.to_nat n)). intros l. induction l as [|i l IH]; cbn [map expect fold_right qsum fst snd]; [ring|].
  fold (expect f (map (fun i => ((1 # Z.to_pos n)%Q, Ok (Z.of_nat i))) l)). fold (qsum (fun i => f (Ok (Z.of_nat i))) l). rewrite IH. ring.
Qed.

(** ** One push *)
Definition put {A} (s : list A) (i : nat) (x : A) : list A := firstn i s ++ x :: skipn (S i) s.
Lemma put_len {A} (s : list A) i x : i < length s -> length (put s i x) = length s.
Proof. intros H. unfold put. rewrite app_length, firstn_length. cbn [length]. rewrite skipn_length. lia. Qed.
Lemma put_split {A} (s : list A) i x : i < length s -> exists y, nth_error s i = Some y /\ Permutation s (y :: firstn i s ++ skipn (S i) s) /\ Permutation (put s i x) (x :: firstn i s ++ skipn (S i) s).
Proof.
  intros H. destruct (nth_error s i) as [y|] eqn:E; [|apply nth_error_None in E; lia]. exists y. split; [reflexivity|].
  destruct (nth_error_split s i E) as (l1 & l2 & -> & <-). unfold put.
  rewrite firstn_app, Nat.sub_diag, firstn_all, firstn_O, app_nil_r. replace (skipn (S (length l1)) (l1 ++ y :: l2)) with l2.
  - split; symmetry; apply Permutation_middle.
  - rewrite skipn_app, skipn_all2 by lia. replace (S (length l1) - length l1) with 1 by lia. reflexivity.
Qed.
Lemma slice_set_ok {A} (s : list A) i x : i < length s -> slice_set s (Z.of_nat i) x = Ok (put s i x).
Proof.
  intros H. unfold slice_set, zlen. destruct (Z.leb_spec 0 (Z.of_nat i)); [|lia]. destruct (Z.ltb_spec (Z.of_nat i) (Z.of_nat (length s))); [|lia]. cbn [andb]. rewrite Nat2Z.id. reflexivity.
Qed.
(** [n] values pushed, Size [k]. *)
Definition rshape {A} (k n : nat) (z : Z) (r : reservoir A) : Prop := rv_size r = z /\ k = Z.to_nat z /\ rv_count r = Z.of_nat n /\ length (rv_sample r) = Nat.min n k.
Lemma push_fill {A} (x : A) k n z r : rshape k n z r -> n < k -> rv_push x r = dret (Ok (mkRv z (rv_sample r ++ [x]) (Z.of_nat (S n)))).
Proof.
  intros (Hs & Hk & Hc & Hl) H. unfold rv_push. rewrite Hs, Hc. destruct (Z.leb_spec (Z.of_nat n + 1) z); [|lia]. do 3 f_equal. lia.
Qed.
Definition draw {A} (x : A) k (z : Z) n (s : list A) i : reservoir A := mkRv z (if i <? k then put s i x else s) (Z.of_nat (S n)).
Lemma push_full {A} (x : A) k n z r : rshape k n z r -> k <= n ->
  rv_push x r = dbind (intn (Z.of_nat (S n))) (fun i => dret (index <- i ;; if (index <? z)%Z then s <- slice_set (rv_sample r) index x ;; Ok (mkRv z s (Z.of_nat (S n))) else Ok (mkRv z (rv_sample r) (Z.of_nat (S n))))).
Proof.
  intros (Hs & Hk & Hc & Hl) H. unfold rv_push. rewrite Hs, Hc. replace (Z.of_nat n + 1)%Z with (Z.of_nat (S n)) by lia. destruct (Z.leb_spec (Z.of_nat (S n)) z); [lia|reflexivity].
Qed.
Lemma draw_ok {A} (x : A) k n z r i : rshape k n z r -> k <= n ->
  (index <- Ok (Z.of_nat i) ;; if (index <? z)%Z then s <- slice_set (rv_sample r) index x ;; Ok (mkRv z s (Z.of_nat (S n))) else Ok (mkRv z (rv_sample r) (Z.of_nat (S n)))) = Ok (draw x k z n (rv_sample r) i).
Proof.
  intros (Hs & Hk & Hc & Hl) H. cbn [bind]. unfold draw. destruct (Z.ltb_spec (Z.of_nat i) z), (Nat.ltb_spec i k); try lia; [|reflexivity]. rewrite slice_set_ok by lia. reflexivity.
Qed.
Lemma push_supp {A} (x : A) k n z r o : rshape k n z r -> supp (rv_push x r) o ->
  (n < k /\ o = Ok (mkRv z (rv_sample r ++ [x]) (Z.of_nat (S n)))) \/ (k <= n /\ exists i, i < S n /\ o = Ok (draw x k z n (rv_sample r) i)).
Proof.
  intros HR HS. destruct (Nat.lt_ge_cases n k) as [H|H].
  - left. split; [exact H|]. rewrite (push_fill x k n z r HR H) in HS. apply supp_ret in HS. exact HS.
  - right. split; [exact H|]. rewrite (push_full x k n z r HR H) in HS. apply supp_bind in HS. destruct HS as (i & Hi & HS). apply supp_intn in Hi; [|lia]. destruct Hi as (j & -> & Hj).
    apply supp_ret in HS. rewrite (draw_ok x k n z r j HR H) in HS. exists j. split; [lia|exact HS].
Qed.
Lemma push_expect {A} (x : A) k n z r f : rshape k n z r -> k <= n ->
  (expect f (rv_push x r) == (1 # Pos.of_nat (S n)) * qsum (fun i => f (Ok (draw x k z n (rv_sample r) i))) (seq 0 (S n)))%Q.
Proof.
  intros HR H. rewrite (push_full x k n z r HR H), expect_bind, expect_intn by lia. rewrite Nat2Z.id. replace (Z.to_pos (Z.of_nat (S n))) with (Pos.of_nat (S n)) by lia.
  apply Qmult_comp; [reflexivity|]. apply qsum_ext. intros i _. rewrite expect_ret, (draw_ok x k n z r i HR H). reflexivity.
Qed.

(** ** Streams *)
(** The samples are drawn from distinct positions: some rearrangement of the stream starts with the sample. *)
Definition rinv {A} (k : nat) (z : Z) (l : list A) (r : reservoir A) : Prop := rshape k (length l) z r /\ exists rest, Permutation l (rv_sample r ++ rest).
Lemma draw_inv {A} (x : A) k z l r i : rinv k z l r -> k <= length l -> rinv k z (l ++ [x]) (draw x k z (length l) (rv_sample r) i).
Proof.
  intros (HR & rest & HP) H. pose proof HR as (Hs & Hk & Hc & Hl). assert (L : length (rv_sample r) = k) by lia. unfold rinv, draw, rshape. cbn [rv_size rv_sample rv_count]. rewrite app_length. cbn [length].
  replace (length l + 1) with (S (length l)) by lia. destruct (Nat.ltb_spec i k) as [Hi|Hi].
  - split; [repeat split; try assumption; rewrite put_len; lia|]. destruct (put_split (rv_sample r) i x) as (y & _ & P1 & P2); [lia|]. exists (y :: rest).
    transitivity (x :: y :: (firstn i (rv_sample r) ++ skipn (S i) (rv_sample r)) ++ rest).
    + rewrite Permutation_app_comm. cbn [app]. apply perm_skip. rewrite HP. change (y :: (firstn i (rv_sample r) ++ skipn (S i) (rv_sample r)) ++ rest) with ((y :: firstn i (rv_sample r) ++ skipn (S i) (rv_sample r)) ++ rest).
      apply Permutation_app_tail. exact P1.
    + symmetry. etransitivity; [apply Permutation_app_tail; exact P2|]. cbn [app]. apply perm_skip. symmetry. apply Permutation_middle.
  - split; [repeat split; try assumption; lia|]. exists (rest ++ [x]). rewrite HP, app_assoc. reflexivity.
Qed.
Lemma fill_inv {A} (x : A) k z l r : rinv k z l r -> length l < k -> rinv k z (l ++ [x]) (mkRv z (rv_sample r ++ [x]) (Z.of_nat (S (length l)))).
Proof.
  intros (HR & rest & HP) H. pose proof HR as (Hs & Hk & Hc & Hl). unfold rinv, rshape. cbn [rv_size rv_sample rv_count]. rewrite !app_length. cbn [length]. split; [repeat split; try assumption; lia|].
  exists rest. rewrite HP, <- !app_assoc. apply Permutation_app_head. apply Permutation_app_comm.
Qed.
Lemma push_inv {A} (x : A) k z l r o : rinv k z l r -> supp (rv_push x r) o -> exists r', o = Ok r' /\ rinv k z (l ++ [x]) r'.
Proof.
  intros I HS. destruct (push_supp x k (length l) z r o (proj1 I) HS) as [(H & ->)|(H & i & _ & ->)]; eexists; (split; [reflexivity|]); [apply fill_inv; assumption|apply draw_inv; assumption].
Qed.
Lemma pushes_inv {A} k z (l : list A) : forall h r o, rinv k z h r -> supp (rv_pushes l r) o -> exists r', o = Ok r' /\ rinv k z (h ++ l) r'.
Proof.
  induction l as [|x l IH]; intros h r o I HS; cbn [rv_pushes] in HS.
  - apply supp_ret in HS. exists r. rewrite app_nil_r. auto.
  - apply supp_bind in HS. destruct HS as (a & Ha & HS). destruct (push_inv x k z h r a I Ha) as (r1 & -> & I1). destruct (IH _ _ _ I1 HS) as (r' & -> & I'). exists r'. rewrite <- app_assoc in I'. auto.
Qed.
Lemma new_inv {A} z : rinv (Z.to_nat z) z [] (@rv_new A z).
Proof. split; [repeat split|]. exists []. constructor. Qed.

Lemma share n q : ((1 # Pos.of_nat (S n)) * (inject_Z (Z.of_nat (S n)) * q) == q)%Q.
Proof. replace (Z.of_nat (S n)) with (Zpos (Pos.of_nat (S n))) by lia. generalize (Pos.of_nat (S n)). intros p. unfold Qeq. cbn [Qnum Qden Qmult inject_Z]. rewrite !Pos2Z.inj_mul. ring. Qed.
(** Splitting off the last push. *)
Definition after {A B} (d : dist (res A)) (k : A -> dist (res B)) : dist (res B) :=
  dbind d (fun o => match o with Ok a => k a | Err e => dret (Err e) | Panic => dret Panic | Hang => dret Hang | NoFuel => dret NoFuel end).
Lemma pushes_cons {A} (x : A) l r : rv_pushes (x :: l) r = after (rv_push x r) (rv_pushes l).
Proof. unfold after. cbn [rv_pushes]. unfold dbind. apply flat_map_ext. intros (q, [r'|e| | |]); reflexivity. Qed.
Lemma pushes_snoc {A} (x : A) l f : forall r, (expect f (rv_pushes (l ++ [x]) r) == expect f (after (rv_pushes l r) (rv_push x)))%Q.
Proof.
  induction l as [|y l IH]; intros r.
  - cbn [app rv_pushes]. unfold after. rewrite !expect_bind, expect_ret. apply expect_ext. intros [a|e| | |] _; rewrite expect_ret; reflexivity.
  - cbn [app rv_pushes]. unfold after. rewrite !expect_bind. apply expect_ext. intros [a|e| | |] _; [rewrite IH; unfold after; rewrite !expect_bind; reflexivity| | | |]; rewrite !expect_ret; reflexivity.
Qed.
Lemma expect_one {A} k z (l : list A) : forall h r, rinv k z h r -> (expect (fun _ => 1%Q) (rv_pushes l r) == 1)%Q.
Proof.
  induction l as [|x l IH]; intros h r I; cbn [rv_pushes]; [reflexivity|]. rewrite expect_bind. transitivity (expect (fun _ => 1%Q) (rv_push x r)).
  - apply expect_ext. intros o Ho. destruct (push_inv x k z h r o I Ho) as (r1 & -> & I1). apply (IH _ _ I1).
  - destruct (Nat.lt_ge_cases (length h) k) as [H|H]; [rewrite (push_fill x k (length h) z r (proj1 I) H); reflexivity|]. rewrite (push_expect x k (length h) z r _ (proj1 I) H).
    rewrite (qsum_const _ 1%Q) by reflexivity. rewrite seq_length. apply share.
Qed.


(** ** Uniformity over the positions [0 .. n-1] *)
Definition mem (x : nat) (s : list nat) : bool := existsb (Nat.eqb x) s.
Definition indicator (b : bool) : Q := if b then 1%Q else 0%Q.
(** The sample consists of the positions [t]. *)
Definition sample_is (t : list nat) (o : res (reservoir nat)) : bool :=
  match o with Ok r => (length (rv_sample r) =? length t) && forallb (fun x => mem x (rv_sample r)) t | _ => false end.
Lemma mem_In x s : mem x s = true <-> In x s.
Proof. unfold mem. rewrite existsb_exists. split; [intros (y & H & E); apply Nat.eqb_eq in E; congruence|intros H; exists x; split; [exact H|apply Nat.eqb_refl]]. Qed.
Lemma sub_eq (s t : list nat) : NoDup t -> length s = length t -> (forall x, In x t -> In x s) -> Permutation s t.
Proof. intros N L H. symmetry. apply NoDup_Permutation_bis; [exact N|lia|exact H]. Qed.
Definition sub (t s : list nat) : bool := forallb (fun x => mem x s) t.
Lemma sub_spec t s : sub t s = true <-> (forall x, In x t -> In x s).
Proof. unfold sub. rewrite forallb_forall. split; intros H x Hx; apply mem_In, H, Hx. Qed.
Lemma bool_iff a b : (a = true <-> b = true) -> a = b.
Proof. destruct a, b; intuition congruence. Qed.
Lemma positions_inv n r z k : rinv k z (seq 0 n) r -> NoDup (rv_sample r) /\ (forall x, In x (rv_sample r) -> x < n) /\ length (rv_sample r) = Nat.min n k.
Proof.
  intros ((_ & _ & _ & L) & rest & P). rewrite seq_length in L. split; [|split; [|exact L]].
  - assert (N : NoDup (rv_sample r ++ rest)) by (eapply Permutation_NoDup; [exact P|apply seq_NoDup]). clear -N. induction (rv_sample r) as [|x s IH]; [constructor|]. inversion N as [|? ? H N']; subst. constructor; [intros Hx; apply H; apply in_or_app; auto|auto].
  - intros x Hx. assert (In x (seq 0 n)) by (eapply Permutation_in; [symmetry; exact P|apply in_or_app; auto]). apply in_seq in H. lia.
Qed.

(** A draw leaves a sample of old positions alone unless it hits. *)
Lemma step_old k z n s (t : list nat) : length s = k -> k <= n -> length t = k -> (forall x, In x t -> x < n) -> NoDup t -> NoDup s -> (forall x, In x s -> x < n) ->
  (qsum (fun i => indicator (sample_is t (Ok (draw n k z n s i)))) (seq 0 (S n)) == inject_Z (Z.of_nat (S n - k)) * indicator (sub t s))%Q.
Proof.
  intros Ls Hk Lt Ht Nt Ns Hs. replace (seq 0 (S n)) with (seq 0 k ++ seq k (S n - k)) by (rewrite <- seq_app; f_equal; lia).
  rewrite qsum_app. rewrite (qsum_const _ 0%Q), (qsum_const _ (indicator (sub t s))).
  - rewrite !seq_length. ring.
  - intros i Hi. apply in_seq in Hi. unfold draw. destruct (Nat.ltb_spec i k); [lia|]. cbn [sample_is rv_sample]. rewrite Ls, Lt, Nat.eqb_refl. reflexivity.
  - intros i Hi. apply in_seq in Hi. unfold draw. destruct (Nat.ltb_spec i k); [|lia]. cbn [sample_is rv_sample].
    destruct (put_split s i n) as (y & Ey & P1 & P2); [lia|]. destruct (_ && _) eqn:E; [|reflexivity]. exfalso. apply andb_prop in E. destruct E as [E1 E2]. apply Nat.eqb_eq in E1.
    fold (sub t (put s i n)) in E2. rewrite sub_spec in E2. assert (P : Permutation (put s i n) t) by (apply sub_eq; assumption).
    assert (In n t) by (eapply Permutation_in; [exact P|]; eapply Permutation_in; [symmetry; exact P2|]; left; reflexivity). specialize (Ht n H0). lia.
Qed.
Lemma qsum_single (f : nat -> Q) i0 l : NoDup l -> In i0 l -> (forall i, In i l -> i <> i0 -> (f i == 0)%Q) -> (qsum f l == f i0)%Q.
Proof.
  induction l as [|a l IH]; intros N Hi H; [destruct Hi|]. inversion N as [|? ? Ha N']; subst. cbn [qsum fold_right]. fold (qsum f l). destruct (Nat.eq_dec a i0) as [->|D].
  - rewrite (qsum_const f 0%Q l); [ring|]. intros b Hb. apply H; [right; exact Hb|intros ->; contradiction].
  - destruct Hi as [Hi|Hi]; [contradiction|]. rewrite (H a) by (cbn; auto). rewrite IH; auto; [ring|]. intros; apply H; cbn; auto.
Qed.
Lemma extra (u s : list nat) : NoDup u -> NoDup s -> length s = S (length u) -> (forall x, In x u -> In x s) -> exists y, In y s /\ ~ In y u /\ Permutation s (y :: u).
Proof.
  intros Nu Ns L H. destruct (existsb (fun y => negb (mem y u)) s) eqn:E.
  - apply existsb_exists in E. destruct E as (y & Hy & E). assert (Hn : ~ In y u) by (intros X; apply mem_In in X; rewrite X in E; discriminate). exists y. repeat split; auto.
    apply sub_eq; [constructor; assumption|cbn; lia|]. intros x [<-|Hx]; auto.
  - exfalso. assert (I : incl s u). { intros x Hx. apply mem_In. destruct (mem x u) eqn:M; [reflexivity|]. assert (X : existsb (fun y => negb (mem y u)) s = true) by (apply existsb_exists; exists x; rewrite M; auto). congruence. }
    apply NoDup_incl_length in I; [lia|exact Ns].
Qed.
Lemma sample_is_spec t r : NoDup t -> sample_is t (Ok r) = true <-> Permutation (rv_sample r) t.
Proof.
  intros N. cbn [sample_is]. rewrite andb_true_iff, Nat.eqb_eq. fold (sub t (rv_sample r)). rewrite sub_spec. split.
  - intros [L H]. apply sub_eq; assumption.
  - intros P. split; [apply Permutation_length; exact P|]. intros x Hx. eapply Permutation_in; [symmetry; exact P|exact Hx].
Qed.
Lemma sample_is_not t r : NoDup t -> ~ Permutation (rv_sample r) t -> sample_is t (Ok r) = false.
Proof. intros N H. destruct (sample_is t (Ok r)) eqn:E; [|reflexivity]. apply sample_is_spec in E; [contradiction|exact N]. Qed.
Lemma step_new k z n s (u : list nat) : length s = k -> k <= n -> S (length u) = k -> (forall x, In x u -> x < n) -> NoDup u -> NoDup s -> (forall x, In x s -> x < n) ->
  (qsum (fun i => indicator (sample_is (n :: u) (Ok (draw n k z n s i)))) (seq 0 (S n)) == indicator (sub u s))%Q.
Proof.
  intros Ls Hk Lu Hu Nu Ns Hs. assert (Nt : NoDup (n :: u)) by (constructor; [intros X; apply Hu in X; lia|exact Nu]).
  assert (Hbig : forall i, k <= i -> sample_is (n :: u) (Ok (draw n k z n s i)) = false).
  { intros i Hi. apply sample_is_not; [exact Nt|]. unfold draw. destruct (Nat.ltb_spec i k); [lia|]. cbn [rv_sample]. intros P.
    assert (X : In n s) by (eapply Permutation_in; [symmetry; exact P|left; reflexivity]). apply Hs in X. lia. }
  destruct (sub u s) eqn:E.
  - rewrite sub_spec in E. destruct (extra u s Nu Ns) as (y & Hy & Hyu & P); [lia|exact E|]. apply In_nth_error in Hy. destruct Hy as (i0 & Ei). assert (L0 : i0 < length s) by (apply nth_error_Some; congruence).
    rewrite (qsum_single _ i0); [|apply seq_NoDup|apply in_seq; lia|].
    + replace (sample_is (n :: u) (Ok (draw n k z n s i0))) with true; [reflexivity|]. symmetry. apply sample_is_spec; [exact Nt|]. unfold draw. destruct (Nat.ltb_spec i0 k); [|lia]. cbn [rv_sample].
      destruct (put_split s i0 n L0) as (y' & Ey' & P1 & P2). assert (y' = y) by congruence. subst y'. rewrite P2. apply perm_skip. apply (Permutation_cons_inv (a := y)). rewrite <- P1. exact P.
    + intros i Hi Hne. apply in_seq in Hi. replace (sample_is (n :: u) (Ok (draw n k z n s i))) with false; [reflexivity|]. symmetry. destruct (Nat.lt_ge_cases i k) as [Hik|Hik]; [|apply Hbig; exact Hik].
      apply sample_is_not; [exact Nt|]. unfold draw. destruct (Nat.ltb_spec i k); [|lia]. cbn [rv_sample]. intros PX. destruct (put_split s i n) as (y' & Ey' & P1 & P2); [lia|].
      assert (D : y' <> y). { intros ->. apply Hne. apply (proj1 (NoDup_nth_error s) Ns); [lia|congruence]. }
      assert (Iu : In y' u). { assert (X : In y' (y :: u)) by (eapply Permutation_in; [exact P|eapply nth_error_In; exact Ey']). destruct X as [X|X]; [congruence|exact X]. }
      assert (X : In y' (n :: firstn i s ++ skipn (S i) s)) by (eapply Permutation_in; [exact P2|]; eapply Permutation_in; [symmetry; exact PX|right; exact Iu]).
      assert (NN : NoDup (y' :: firstn i s ++ skipn (S i) s)) by (eapply Permutation_NoDup; [exact P1|exact Ns]). inversion NN; subst. destruct X as [X|X]; [|contradiction]. subst y'. apply Hu in Iu. lia.
  - rewrite (qsum_const _ 0%Q); [cbn [indicator]; ring|]. intros i Hi. apply in_seq in Hi. replace (sample_is (n :: u) (Ok (draw n k z n s i))) with false; [reflexivity|]. symmetry.
    destruct (Nat.lt_ge_cases i k) as [Hik|Hik]; [|apply Hbig; exact Hik]. apply sample_is_not; [exact Nt|]. unfold draw. destruct (Nat.ltb_spec i k); [|lia]. cbn [rv_sample]. intros PX.
    destruct (put_split s i n) as (y' & Ey' & P1 & P2); [lia|]. assert (X : sub u s = true); [|congruence]. apply sub_spec. intros x Hx.
    assert (X : In x (n :: firstn i s ++ skipn (S i) s)) by (eapply Permutation_in; [exact P2|]; eapply Permutation_in; [symmetry; exact PX|right; exact Hx]).
    eapply Permutation_in; [symmetry; exact P1|]. right. destruct X as [X|X]; [subst x; apply Hu in Hx; lia|exact X].
Qed.
(** Which positions can complete [u]. *)
Definition others (n : nat) (u : list nat) : list nat := filter (fun y => negb (mem y u)) (seq 0 n).
Lemma others_len n u : NoDup u -> (forall x, In x u -> x < n) -> length (others n u) + length u = n.
Proof.
  intros Nu Hu. unfold others. assert (P : Permutation (seq 0 n) (filter (fun y => negb (mem y u)) (seq 0 n) ++ u)).
  { apply NoDup_Permutation; [apply seq_NoDup| |].
    - assert (ND : forall l1 l2 : list nat, NoDup l1 -> NoDup l2 -> (forall x, In x l1 -> ~ In x l2) -> NoDup (l1 ++ l2)).
      { induction l1 as [|a l1 IH]; intros l2 N1 N2 D; [exact N2|]. inversion N1; subst. cbn [app]. constructor; [intros X; apply in_app_or in X; destruct X; [contradiction|exact (D a (or_introl eq_refl) H)]|]. apply IH; auto. intros x Hx; apply D; right; exact Hx. }
      apply ND; [apply NoDup_filter, seq_NoDup|exact Nu|]. intros x Hx X. apply filter_In in Hx. apply mem_In in X. rewrite X in Hx. destruct Hx as [_ Hx]. discriminate.
    - intros x. rewrite in_app_iff, filter_In, in_seq. destruct (mem x u) eqn:M.
      + apply mem_In in M. pose proof (Hu x M). cbn. intuition lia.
      + assert (~ In x u) by (intros X; apply mem_In in X; congruence). cbn. intuition. }
  apply Permutation_length in P. rewrite seq_length, app_length in P. lia.
Qed.
Lemma complete k n r (u : list nat) : NoDup (rv_sample r) -> length (rv_sample r) = k -> (forall x, In x (rv_sample r) -> x < n) -> S (length u) = k -> NoDup u -> (forall x, In x u -> x < n) ->
  (indicator (sub u (rv_sample r)) == qsum (fun y => indicator (sample_is (y :: u) (Ok r))) (others n u))%Q.
Proof.
  intros Ns Ls Hs Lu Nu Hu. assert (HN : forall y, In y (others n u) -> NoDup (y :: u)).
  { intros y Hy. constructor; [|exact Nu]. intros X. apply filter_In in Hy. apply mem_In in X. rewrite X in Hy. destruct Hy; discriminate. }
  destruct (sub u (rv_sample r)) eqn:E.
  - rewrite sub_spec in E. destruct (extra u (rv_sample r) Nu Ns) as (y & Hy & Hyu & P); [lia|exact E|].
    assert (Ho : In y (others n u)). { apply filter_In. split; [apply in_seq; pose proof (Hs y Hy); lia|]. destruct (mem y u) eqn:M; [apply mem_In in M; contradiction|reflexivity]. }
    rewrite (qsum_single _ y); [|apply NoDup_filter, seq_NoDup|exact Ho|].
    + replace (sample_is (y :: u) (Ok r)) with true; [reflexivity|]. symmetry. apply sample_is_spec; [apply HN; exact Ho|exact P].
    + intros x Hx D. rewrite sample_is_not; [reflexivity|apply HN; exact Hx|]. intros P'. assert (X : In x (y :: u)) by (eapply Permutation_in; [exact P|]; eapply Permutation_in; [symmetry; exact P'|left; reflexivity]).
      destruct X as [X|X]; [congruence|]. specialize (HN x Hx). inversion HN; contradiction.
  - rewrite (qsum_const _ 0%Q); [cbn [indicator]; ring|]. intros y Hy. rewrite sample_is_not; [reflexivity|apply HN; exact Hy|]. intros P. assert (X : sub u (rv_sample r) = true); [|congruence].
    apply sub_spec. intros x Hx. eapply Permutation_in; [symmetry; exact P|right; exact Hx].
Qed.
Lemma sample_is_perm t t' o : Permutation t t' -> NoDup t -> sample_is t o = sample_is t' o.
Proof.
  intros P N. destruct o as [r|e| | |]; try reflexivity. apply bool_iff. rewrite !sample_is_spec; [|eapply Permutation_NoDup; eauto|exact N]. split; intros H; rewrite H; [exact P|symmetry; exact P].
Qed.

Definition psample (z : Z) (n : nat) (t : list nat) : Q := expect (fun o => indicator (sample_is t o)) (rv_pushes (seq 0 n) (rv_new z)).
Lemma support z n o : supp (rv_pushes (seq 0 n) (rv_new z)) o -> exists r, o = Ok r /\ rinv (Z.to_nat z) z (seq 0 n) r.
Proof. intros H. exact (pushes_inv _ z (seq 0 n) [] _ o (new_inv z) H). Qed.
Lemma last_push z n f (g : res (reservoir nat) -> Q) : Z.to_nat z <= n ->
  (forall r, rinv (Z.to_nat z) z (seq 0 n) r -> (qsum (fun i => f (Ok (draw n (Z.to_nat z) z n (rv_sample r) i))) (seq 0 (S n)) == g (Ok r))%Q) ->
  (expect f (rv_pushes (seq 0 (S n)) (rv_new z)) == (1 # Pos.of_nat (S n)) * expect g (rv_pushes (seq 0 n) (rv_new z)))%Q.
Proof.
  intros Hk H. rewrite seq_S. cbn [Nat.add]. rewrite pushes_snoc. unfold after. rewrite expect_bind, <- expect_mul. apply expect_ext. intros o Ho.
  destruct (support z n o Ho) as (r & -> & I). destruct I as [HR I']. rewrite (push_expect n (Z.to_nat z) n z r f); [|rewrite seq_length in HR; exact HR|exact Hk]. rewrite H by (split; assumption). reflexivity.
Qed.
Lemma psample_step z n t : NoDup t -> length t = Z.to_nat z -> Z.to_nat z <= n -> (forall x, In x t -> x < S n) ->
  forall w, (forall u, NoDup u -> length u = Z.to_nat z -> (forall x, In x u -> x < n) -> (psample z n u == w)%Q) ->
  (psample z (S n) t == (1 # Pos.of_nat (S n)) * (inject_Z (Z.of_nat (S n - Z.to_nat z)) * w))%Q.
Proof.
  intros Nt Lt Hk Ht w Hw. destruct (in_dec Nat.eq_dec n t) as [Hin|Hin].
  - apply in_split in Hin. destruct Hin as (t1 & t2 & ->). assert (P : Permutation (t1 ++ n :: t2) (n :: t1 ++ t2)) by (symmetry; apply Permutation_middle). set (u := t1 ++ t2) in *.
    assert (N' : NoDup (n :: u)) by (eapply Permutation_NoDup; eauto). assert (L' : S (length u) = Z.to_nat z) by (apply Permutation_length in P; cbn [length] in P; lia).
    assert (Nn : ~ In n u) by (inversion N'; assumption). assert (Nu : NoDup u) by (inversion N'; assumption).
    assert (Hu : forall x, In x u -> x < n). { intros x Hx. assert (x < S n) by (apply Ht; eapply Permutation_in; [symmetry; exact P|right; exact Hx]). assert (x <> n) by (intros ->; contradiction). lia. }
    unfold psample at 1. rewrite (expect_ext _ (fun o => indicator (sample_is (n :: u) o))) by (intros o _; rewrite (sample_is_perm _ _ o P Nt); reflexivity).
    rewrite (last_push z n _ (fun o => qsum (fun y => indicator (sample_is (y :: u) o)) (others n u)) Hk).
    + apply Qmult_comp; [reflexivity|]. rewrite expect_qsum. rewrite (qsum_const _ w).
      * pose proof (others_len n u Nu Hu). replace (S n - Z.to_nat z) with (length (others n u)) by lia. reflexivity.
      * intros y Hy. apply filter_In in Hy. destruct Hy as [Hy1 Hy2]. apply in_seq in Hy1. apply (Hw (y :: u)).
        -- constructor; [|exact Nu]. intros X. apply mem_In in X. rewrite X in Hy2. discriminate.
        -- cbn [length]. exact L'.
        -- intros x [<-|Hx]; [lia|apply Hu; exact Hx].
    + intros r I. destruct (positions_inv n r z _ I) as (Ns & Hs & Ls). rewrite step_new; try assumption; try lia. apply (complete (Z.to_nat z) n); try assumption; lia.
  - assert (Hu : forall x, In x t -> x < n). { intros x Hx. pose proof (Ht x Hx). assert (x <> n) by (intros ->; contradiction). lia. }
    unfold psample at 1. rewrite (last_push z n _ (fun o => (inject_Z (Z.of_nat (S n - Z.to_nat z)) * indicator (sample_is t o))%Q) Hk).
    + rewrite expect_mul. apply Qmult_comp; [reflexivity|]. apply Qmult_comp; [reflexivity|]. apply (Hw t Nt Lt Hu).
    + intros r I. destruct (positions_inv n r z _ I) as (Ns & Hs & Ls). rewrite step_old; try assumption; try lia. apply Qmult_comp; [reflexivity|]. cbn [sample_is]. rewrite Lt, Ls.
      replace (Nat.min n (Z.to_nat z)) with (Z.to_nat z) by lia. rewrite Nat.eqb_refl. reflexivity.
Qed.
(** k! (n-k)! / n!, the inverse of the number of subsets. *)
Definition one_in_choose (n k : nat) : Q := (inject_Z (Z.of_nat (fact k * fact (n - k))) / inject_Z (Z.of_nat (fact n)))%Q.
Lemma uniform z n t : NoDup t -> length t = Z.to_nat z -> Z.to_nat z <= n -> (forall x, In x t -> x < n) -> (psample z n t == one_in_choose n (Z.to_nat z))%Q.
Proof.
  intros Nt Lt Hk Ht. set (k := Z.to_nat z) in *. replace n with ((n - k) + k) in * by lia. generalize dependent t. clear Hk. induction (n - k) as [|m IH]; intros t Nt Lt Ht.
  - cbn [Nat.add] in *. unfold psample. rewrite (expect_ext _ (fun _ => 1%Q)).
    + rewrite (expect_one k z _ [] _ (new_inv z)). unfold one_in_choose. rewrite Nat.sub_diag. change (fact 0) with 1. rewrite Nat.mul_1_r. symmetry. apply Qmult_inv_r.
      pose proof (fact_neq_0 k). unfold Qeq. cbn [inject_Z Qnum Qden]. lia.
    + intros o Ho. destruct (support z k o Ho) as (r & -> & I). destruct (positions_inv k r z _ I) as (Ns & Hs & Ls). fold k in Ls. rewrite Nat.min_id in Ls.
      replace (sample_is t (Ok r)) with true; [reflexivity|]. symmetry. apply sample_is_spec; [exact Nt|]. assert (A : forall l : list nat, NoDup l -> length l = k -> (forall x, In x l -> x < k) -> Permutation l (seq 0 k)).
      { intros l N L H. apply NoDup_Permutation_bis; [exact N|rewrite seq_length; lia|]. intros x Hx. apply in_seq. specialize (H x Hx). lia. }
      rewrite (A t), (A (rv_sample r)); auto.
  - cbn [Nat.add] in *. rewrite (psample_step z (m + k) t Nt Lt) with (w := one_in_choose (m + k) k); fold k; [|lia|exact Ht|exact IH].
    replace (S (m + k) - k) with (S m) by lia. unfold one_in_choose. replace (S (m + k) - k) with (S m) by lia. replace (m + k - k) with m by lia.
    change (fact (S m)) with (S m * fact m). change (fact (S (m + k))) with (S (m + k) * fact (m + k)).
    replace (1 # Pos.of_nat (S (m + k)))%Q with (/ inject_Z (Z.of_nat (S (m + k))))%Q; [|replace (Z.of_nat (S (m + k))) with (Zpos (Pos.of_nat (S (m + k)))) by lia; reflexivity].
    rewrite !Nat2Z.inj_mul, !inject_Z_mult. pose proof (fact_neq_0 (m + k)). field. split; unfold Qeq; cbn [inject_Z Qnum Qden]; lia.
Qed.

(** The probability of a position being sampled. *)
Definition pos_in (p : nat) (o : res (reservoir nat)) : bool := match o with Ok r => mem p (rv_sample r) | _ => false end.
Lemma put_In {A} (s : list A) i x y : i < length s -> NoDup s -> In y (put s i x) <-> y = x \/ (In y s /\ nth_error s i <> Some y).
Proof.
  intros H N. destruct (put_split s i x H) as (y0 & E & P1 & P2). rewrite E. assert (N1 : NoDup (y0 :: firstn i s ++ skipn (S i) s)) by (eapply Permutation_NoDup; eauto). inversion N1 as [|? ? N2 _]; subst. split.
  - intros Hy. assert (X : In y (x :: firstn i s ++ skipn (S i) s)) by (eapply Permutation_in; eauto). destruct X as [X|X]; [auto|]. right. split; [eapply Permutation_in; [symmetry; exact P1|right; exact X]|]. intros Y. injection Y as ->. contradiction.
  - intros [->|[Hy D]]; (eapply Permutation_in; [symmetry; exact P2|]); [left; reflexivity|]. right. assert (X : In y (y0 :: firstn i s ++ skipn (S i) s)) by (eapply Permutation_in; eauto). destruct X as [->|X]; [contradiction|exact X].
Qed.
Lemma step_pos k z n s p : length s = k -> k <= n -> NoDup s -> (forall x, In x s -> x < n) -> p < n ->
  (qsum (fun i => indicator (pos_in p (Ok (draw n k z n s i)))) (seq 0 (S n)) == inject_Z (Z.of_nat n) * indicator (mem p s))%Q.
Proof.
  intros Ls Hk Ns Hs Hp. destruct (mem p s) eqn:M.
  - pose proof M as M'. apply mem_In in M. apply In_nth_error in M. destruct M as (i0 & E0). assert (L0 : i0 < length s) by (apply nth_error_Some; congruence).
    rewrite (qsum_ext _ (fun i => (1 + indicator (i =? i0) * (-1))%Q)).
    + rewrite qsum_plus, (qsum_const _ 1%Q) by reflexivity. rewrite (qsum_single _ i0); [|apply seq_NoDup|apply in_seq; lia|intros i _ D; apply Nat.eqb_neq in D; rewrite D; cbn [indicator]; ring].
      rewrite Nat.eqb_refl, seq_length, Nat2Z.inj_succ. unfold Z.succ. rewrite inject_Z_plus. cbn [indicator]. ring.
    + intros i Hi. apply in_seq in Hi. cbn [pos_in]. unfold draw. destruct (Nat.ltb_spec i k) as [H|H]; cbn [rv_sample].
      * destruct (Nat.eqb_spec i i0) as [->|D].
        -- replace (mem p (put s i0 n)) with false; [cbn [indicator]; ring|]. symmetry. destruct (mem p (put s i0 n)) eqn:X; [|reflexivity]. apply mem_In in X. apply put_In in X; [|lia|exact Ns]. destruct X as [->|[_ X]]; [lia|contradiction].
        -- replace (mem p (put s i n)) with true; [cbn [indicator]; ring|]. symmetry. apply mem_In. apply put_In; [lia|exact Ns|]. right. split; [apply mem_In; exact M'|]. intros X. apply D. apply (proj1 (NoDup_nth_error s) Ns); [lia|congruence].
      * rewrite M'. destruct (Nat.eqb_spec i i0); [lia|]. cbn [indicator]. ring.
  - rewrite (qsum_const _ 0%Q); [cbn [indicator]; ring|]. intros i Hi. apply in_seq in Hi. cbn [pos_in]. unfold draw. destruct (Nat.ltb_spec i k) as [H|H]; cbn [rv_sample]; [|rewrite M; reflexivity].
    replace (mem p (put s i n)) with false; [reflexivity|]. symmetry. destruct (mem p (put s i n)) eqn:X; [|reflexivity]. apply mem_In in X. apply put_In in X; [|lia|exact Ns]. destruct X as [->|[X _]]; [lia|]. apply mem_In in X. congruence.
Qed.
Lemma step_last k z n s : length s = k -> k <= n -> NoDup s -> (forall x, In x s -> x < n) ->
  (qsum (fun i => indicator (pos_in n (Ok (draw n k z n s i)))) (seq 0 (S n)) == inject_Z (Z.of_nat k))%Q.
Proof.
  intros Ls Hk Ns Hs. replace (seq 0 (S n)) with (seq 0 k ++ seq k (S n - k)) by (rewrite <- seq_app; f_equal; lia).
  rewrite qsum_app. rewrite (qsum_const _ 1%Q), (qsum_const _ 0%Q).
  - rewrite !seq_length. ring.
  - intros i Hi. apply in_seq in Hi. cbn [pos_in]. unfold draw. destruct (Nat.ltb_spec i k); [lia|]. cbn [rv_sample]. replace (mem n s) with false; [reflexivity|]. symmetry. destruct (mem n s) eqn:X; [|reflexivity]. apply mem_In in X. apply Hs in X. lia.
  - intros i Hi. apply in_seq in Hi. cbn [pos_in]. unfold draw. destruct (Nat.ltb_spec i k); [|lia]. cbn [rv_sample]. replace (mem n (put s i n)) with true; [reflexivity|]. symmetry. apply mem_In. apply put_In; [lia|exact Ns|auto].
Qed.
Lemma incl_prob z n p : 0 < Z.to_nat z -> Z.to_nat z <= n -> p < n ->
  (expect (fun o => indicator (pos_in p o)) (rv_pushes (seq 0 n) (rv_new z)) == inject_Z (Z.of_nat (Z.to_nat z)) / inject_Z (Z.of_nat n))%Q.
Proof.
  intros H0 Hk. set (k := Z.to_nat z) in *. replace n with ((n - k) + k) by lia. generalize (n - k). clear n Hk. intros m. revert p. induction m as [|m IH]; intros p Hp.
  - cbn [Nat.add] in *. rewrite (expect_ext _ (fun _ => 1%Q)).
    + rewrite (expect_one k z _ [] _ (new_inv z)). symmetry. apply Qmult_inv_r. unfold Qeq. cbn [inject_Z Qnum Qden]. lia.
    + intros o Ho. destruct (support z k o Ho) as (r & -> & I). destruct (positions_inv k r z _ I) as (Ns & Hs & Ls). fold k in Ls. rewrite Nat.min_id in Ls.
      cbn [pos_in]. replace (mem p (rv_sample r)) with true; [reflexivity|]. symmetry. apply mem_In.
      assert (P : Permutation (rv_sample r) (seq 0 k)). { apply NoDup_Permutation_bis; [exact Ns|rewrite seq_length; lia|]. intros x Hx. apply in_seq. specialize (Hs x Hx). lia. }
      eapply Permutation_in; [symmetry; exact P|apply in_seq; lia].
  - cbn [Nat.add] in *. replace (inject_Z (Z.of_nat k) / inject_Z (Z.of_nat (S (m + k))))%Q with (inject_Z (Z.of_nat k) * (1 # Pos.of_nat (S (m + k))))%Q.
    2: { unfold Qdiv. f_equal. replace (Z.of_nat (S (m + k))) with (Zpos (Pos.of_nat (S (m + k)))) by lia. reflexivity. }
    destruct (Nat.eq_dec p (m + k)) as [->|D].
    + rewrite (last_push z (m + k) _ (fun _ => (inject_Z (Z.of_nat k) * 1)%Q)); fold k; [|lia|].
      * rewrite expect_mul, (expect_one k z _ [] _ (new_inv z)). ring.
      * intros r I. destruct (positions_inv _ r z _ I) as (Ns & Hs & Ls). fold k in Ls. rewrite step_last; try assumption; try lia. ring.
    + rewrite (last_push z (m + k) _ (fun o => (inject_Z (Z.of_nat (m + k)) * indicator (pos_in p o))%Q)); fold k; [|lia|].
      * rewrite expect_mul, IH by lia. field. unfold Qeq. cbn [inject_Z Qnum Qden]. lia.
      * intros r I. destruct (positions_inv _ r z _ I) as (Ns & Hs & Ls). fold k in Ls. rewrite step_pos; try assumption; try lia. reflexivity.
Qed.
