(** Specification vocabulary, independent of any model: histories of calls and
    the window of values a metric is supposed to describe. *)
From Verif Require Import Base.

(** A call that changes the state of a metric. *)
Inductive op (A : Type) := OPush (x : A) | OClear.
Arguments OPush {A} x. Arguments OClear {A}.

(** Values pushed since the last Clear, oldest first. *)
Definition hist {A} (ops : list (op A)) : list A :=
  fold_left (fun h o => match o with OPush x => h ++ [x] | OClear => [] end) ops [].

(** The last [n] elements of a list (all of them if it is shorter). *)
Definition lastn {A} (n : nat) (l : list A) : list A := skipn (length l - n) l.

(** The values covered by a metric with window [w]: window 0 means the entire
    stream, otherwise the last [w] values. *)
Definition live {A} (w : Z) (h : list A) : list A :=
  if (w =? 0)%Z then h else lastn (Z.to_nat w) h.

(** Executing a history against a state machine whose calls may fail; the run
    stops at the first call that does not return normally. *)
Fixpoint run {S A} (push : S -> A -> res S) (clear : S -> res S) (ops : list (op A)) (s : S) : res S :=
  match ops with
  | [] => Ok s
  | OPush x :: t => s' <- push s x ;; run push clear t s'
  | OClear :: t => s' <- clear s ;; run push clear t s'
  end.

(** ** Facts *)

Lemma hist_app {A} (ops1 ops2 : list (op A)) :
  hist (ops1 ++ ops2) =
  fold_left (fun h o => match o with OPush x => h ++ [x] | OClear => [] end) ops2 (hist ops1).
Proof. unfold hist. rewrite fold_left_app. reflexivity. Qed.

Lemma hist_push {A} (ops : list (op A)) x : hist (ops ++ [OPush x]) = hist ops ++ [x].
Proof. rewrite hist_app. reflexivity. Qed.
Lemma hist_clear {A} (ops : list (op A)) : hist (ops ++ [OClear]) = [].
Proof. rewrite hist_app. reflexivity. Qed.

Lemma hist_pushes {A} (xs : list A) : hist (map OPush xs) = xs.
Proof.
  induction xs as [|x xs IH] using rev_ind; [reflexivity|].
  rewrite map_app. cbn [map]. rewrite hist_push, IH. reflexivity.
Qed.

Lemma run_app {S A} push clear (ops1 ops2 : list (op A)) (s : S) :
  run push clear (ops1 ++ ops2) s = bind (run push clear ops1 s) (run push clear ops2).
Proof.
  revert s. induction ops1 as [|o t IH]; intros s; [reflexivity|].
  destruct o as [x|]; cbn [run app].
  - destruct (push s x); cbn; auto.
  - destruct (clear s); cbn; auto.
Qed.

(** Invariant principle: to show that every reachable state satisfies [Inv]
    together with its history, it suffices to treat the initial state and one call. *)
Lemma run_inv {S A} (push : S -> A -> res S) (clear : S -> res S) (Inv : list A -> S -> Prop) s0 :
  Inv [] s0 ->
  (forall h s x, Inv h s -> exists s', push s x = Ok s' /\ Inv (h ++ [x]) s') ->
  (forall h s, Inv h s -> exists s', clear s = Ok s' /\ Inv [] s') ->
  forall ops, exists s, run push clear ops s0 = Ok s /\ Inv (hist ops) s.
Proof.
  intros H0 Hp Hc ops. induction ops as [|o ops IH] using rev_ind.
  - exists s0. split; [reflexivity | exact H0].
  - destruct IH as [s [Hs Hi]]. rewrite run_app, Hs. cbn [bind].
    destruct o as [x|]; cbn [run].
    + destruct (Hp _ _ x Hi) as [s' [Hs' Hi']]. rewrite Hs'. cbn [bind].
      rewrite hist_push. eauto.
    + destruct (Hc _ _ Hi) as [s' [Hs' Hi']]. rewrite Hs'. cbn [bind].
      rewrite hist_clear. eauto.
Qed.

(** Same, when the invariant only holds for histories satisfying a predicate
    on each value (e.g. "not NaN"). *)
Lemma run_inv_on {S A} (push : S -> A -> res S) (clear : S -> res S) (P : A -> Prop)
      (Inv : list A -> S -> Prop) s0 :
  Inv [] s0 ->
  (forall h s x, Inv h s -> P x -> exists s', push s x = Ok s' /\ Inv (h ++ [x]) s') ->
  (forall h s, Inv h s -> exists s', clear s = Ok s' /\ Inv [] s') ->
  forall ops, (forall x, In (OPush x) ops -> P x) ->
  exists s, run push clear ops s0 = Ok s /\ Inv (hist ops) s.
Proof.
  intros H0 Hp Hc ops. induction ops as [|o ops IH] using rev_ind; intros HP.
  - exists s0. split; [reflexivity | exact H0].
  - destruct IH as [s [Hs Hi]]. { intros x Hx. apply HP. apply in_or_app. auto. }
    rewrite run_app, Hs. cbn [bind].
    destruct o as [x|]; cbn [run].
    + destruct (Hp _ _ x Hi) as [s' [Hs' Hi']].
      { apply HP. apply in_or_app. right. left. reflexivity. }
      rewrite Hs'. cbn [bind]. rewrite hist_push. eauto.
    + destruct (Hc _ _ Hi) as [s' [Hs' Hi']]. rewrite Hs'. cbn [bind].
      rewrite hist_clear. eauto.
Qed.

Lemma hist_In {A} (ops : list (op A)) x : In x (hist ops) -> In (OPush x) ops.
Proof.
  revert x. induction ops as [|o ops IH] using rev_ind; intros x Hx.
  - destruct Hx.
  - apply in_or_app. destruct o as [y|].
    + rewrite hist_push in Hx. apply in_app_or in Hx.
      destruct Hx as [Hx|[->|[]]]; [left; auto | right; left; reflexivity].
    + rewrite hist_clear in Hx. destruct Hx.
Qed.

Lemma lastn_all {A} n (l : list A) : length l <= n -> lastn n l = l.
Proof. intros H. unfold lastn. replace (length l - n) with 0 by lia. reflexivity. Qed.

Lemma lastn_length {A} n (l : list A) : length (lastn n l) = Nat.min n (length l).
Proof. unfold lastn. rewrite skipn_length. lia. Qed.

Lemma lastn_snoc_full {A} n (l : list A) x :
  n <= length l -> 0 < n -> lastn n (l ++ [x]) = tl (lastn n l) ++ [x].
Proof.
  intros H Hn. unfold lastn. rewrite app_length. cbn [length].
  replace (length l + 1 - n) with (S (length l - n)) by lia.
  rewrite skipn_app. replace (S (length l - n) - length l) with 0 by lia.
  cbn [skipn]. f_equal.
  assert (Hgen : forall k (m : list A), skipn (S k) m = tl (skipn k m)).
  { induction k as [|k IH]; intros [|a m]; try reflexivity.
    change (skipn (S (S k)) (a :: m)) with (skipn (S k) m). rewrite IH. reflexivity. }
  apply Hgen.
Qed.

Lemma lastn_snoc_short {A} n (l : list A) x :
  length l < n -> lastn n (l ++ [x]) = lastn n l ++ [x].
Proof.
  intros H. rewrite !lastn_all; [reflexivity | lia | rewrite app_length; cbn; lia].
Qed.

Lemma lastn_incl {A} n (l : list A) x : In x (lastn n l) -> In x l.
Proof.
  unfold lastn. intros H. rewrite <- (firstn_skipn (length l - n) l).
  apply in_or_app. auto.
Qed.

Lemma live_incl {A} w (l : list A) x : In x (live w l) -> In x l.
Proof. unfold live. destruct (w =? 0)%Z; eauto using lastn_incl. Qed.

Lemma live_nil {A} w : live w (@nil A) = [].
Proof. unfold live, lastn. destruct (w =? 0)%Z; [reflexivity|]. destruct (Z.to_nat w); reflexivity. Qed.

Lemma live_empty {A} w (l : list A) : (0 <= w)%Z -> live w l = [] -> l = [].
Proof.
  unfold live. intros Hw. destruct (Z.eqb_spec w 0) as [->|Hne]; [auto|].
  intros H. apply (f_equal (@length A)) in H. rewrite lastn_length in H. cbn in H.
  destruct l; [reflexivity | cbn in H; lia].
Qed.

(** One push: the window either grows or drops its oldest element. *)
Lemma live_push {A} w (h : list A) x : (0 < w)%Z ->
  live w (h ++ [x]) =
  (if (zlen (live w h) =? w)%Z then tl (live w h) else live w h) ++ [x].
Proof.
  intros Hw. unfold live. destruct (Z.eqb_spec w 0); [lia|].
  unfold zlen. rewrite lastn_length.
  destruct (Z.eqb_spec (Z.of_nat (Nat.min (Z.to_nat w) (length h))) w) as [He|He].
  - apply lastn_snoc_full; lia.
  - apply lastn_snoc_short; lia.
Qed.

Lemma live_zlen_le {A} w (h : list A) : (0 < w)%Z -> (zlen (live w h) <= w)%Z.
Proof.
  intros Hw. unfold live, zlen. destruct (Z.eqb_spec w 0); [lia|]. rewrite lastn_length. lia.
Qed.
