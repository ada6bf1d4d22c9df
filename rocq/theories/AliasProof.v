(** Proofs about aliasing: for every number type. *)
From Verif Require Import Base HistSpec RingModel NumModel JointModel AliasModel.
Section Alias.
Context {T : Type} (N : Num T).
(** Two cores that differ in their queues only. *)
Definition same_but {A B} (Q : ring A -> ring B -> Prop) (c : @jcore T A) (d : @jcore T B) : Prop :=
  j_means c = j_means d /\ j_tuples c = j_tuples d /\ j_sums c = j_sums d /\ j_new c = j_new d /\ j_count c = j_count d /\ j_window c = j_window d /\ j_decay c = j_decay d /\ Q (j_queue c) (j_queue d).
Definition rsame {A B} (P : A -> B -> Prop) (r : res A) (s : res B) : Prop :=
  match r, s with Ok a, Ok b => P a b | Err e, Err e' => e = e' | Panic, Panic | Hang, Hang | NoFuel, NoFuel => True | _, _ => False end.
Lemma rsame_bind {A B A' B'} (P : A -> B -> Prop) (P' : A' -> B' -> Prop) r s f g : rsame P r s -> (forall a b, P a b -> rsame P' (f a) (g b)) -> rsame P' (bind r f) (bind s g).
Proof. intros H Hf. destruct r, s; cbn in *; auto; contradiction. Qed.
Lemma rsame_refl {A} (r : res A) : rsame eq r r. Proof. destruct r; cbn; auto. Qed.
Ltac sb := cbn [rsame]; unfold same_but; cbn [j_means j_tuples j_sums j_new j_count j_window j_decay j_queue]; do 7 (split; [congruence|]); auto.

Section Q.
Context {A B : Type} (Q : ring A -> ring B -> Prop).
Lemma add_same c d x : same_but Q c d -> rsame (same_but Q) (j_add N c x) (j_add N d x).
Proof.
  intros (H1 & H2 & H3 & H4 & H5 & H6 & H7 & H8). unfold j_add. rewrite H1, H2, H3, H4, H5. eapply rsame_bind; [apply rsame_refl|]. intros m ? <-. sb.
Qed.
Lemma add_decay_same c d e x : same_but Q c d -> rsame (same_but Q) (j_add_decay N c e x) (j_add_decay N d e x).
Proof.
  intros (H1 & H2 & H3 & H4 & H5 & H6 & H7 & H8). unfold j_add_decay. rewrite H1, H2, H3, H4, H5. eapply rsame_bind; [apply rsame_refl|]. intros m ? <-. sb.
Qed.
Lemma remove_same c d x : same_but Q c d -> rsame (same_but Q) (j_remove N c x) (j_remove N d x).
Proof.
  intros (H1 & H2 & H3 & H4 & H5 & H6 & H7 & H8). unfold j_remove. rewrite H1, H2, H3, H4, H5. destruct (_ >? _)%Z; [|sb].
  eapply rsame_bind; [apply rsame_refl|]. intros [s m] ? <-. sb.
Qed.
Lemma end_same c d x : same_but Q c d -> rsame (same_but Q)
  (match j_decay c with None => j_add N c x | Some e => j_add_decay N c e x end) (match j_decay d with None => j_add N d x | Some e => j_add_decay N d e x end).
Proof. intros H. pose proof H as (_ & _ & _ & _ & _ & _ & H7 & _). rewrite <- H7. destruct (j_decay c); [apply add_decay_same|apply add_same]; exact H. Qed.
End Q.

(** Window 0: the queue is not used. *)
Definition anyq {A B} (_ : ring A) (_ : ring B) : Prop := True.
Lemma push_same0 (m : memory) c (d : @vcore T) p : same_but anyq c d -> j_window c = 0%Z -> rsame (fun c d => same_but anyq c d /\ j_window c = 0%Z) (j_push N m c p) (jpush N d (m p)).
Proof.
  intros H Hw. pose proof H as (H1 & H2 & H3 & H4 & H5 & H6 & H7 & H8). unfold jpush, j_push. rewrite <- H6, Hw, <- H1. destruct (negb (Nat.eqb _ _)); [reflexivity|]. cbn [Z.eqb negb bind].
  rewrite <- H7. destruct (j_decay c) as [e|] eqn:E.
  - unfold j_add_decay. rewrite <- H1, <- H2, <- H3, <- H4, <- H5. destruct (upd_tuples _ _ _ _ _); cbn [bind rsame]; auto. split; [sb|exact Hw].
  - unfold j_add. rewrite <- H1, <- H2, <- H3, <- H4, <- H5. destruct (upd_tuples _ _ _ _ _); cbn [bind rsame]; auto. split; [sb|exact Hw].
Qed.
Lemma clear_same {A B} (Q : ring A -> ring B -> Prop) c d : same_but Q c d -> (forall w, Q (ring_new w) (ring_new w)) -> rsame (same_but Q) (j_clear N c) (j_clear N d).
Proof. intros (H1 & H2 & H3 & H4 & H5 & H6 & H7 & H8) HQ. unfold j_clear. cbn [rsame]. rewrite H1, H3, H4, H6. sb. Qed.
Lemma arun_window0 ops : forall m c (d : @vcore T), same_but anyq c d -> j_window c = 0%Z -> rsame (same_but anyq) (arun N ops m c) (jcore_run N d (captured ops m)).
Proof.
  unfold jcore_run. induction ops as [|[p|p i x|] ops IH]; intros m c d H Hw; cbn [arun captured run]; [exact H| | |].
  - eapply rsame_bind; [apply push_same0; assumption|]. intros c' d' [H' Hw']. apply IH; assumption.
  - apply IH; assumption.
  - unfold j_clear. cbn [bind]. destruct H as (H1 & H2 & H3 & H4 & H5 & H6 & H7 & H8). apply IH; [|exact Hw]. rewrite H1, H3, H4, H6. sb.
Qed.

(** Slices that are left alone after they are pushed. *)
Definition qof (m : memory) (used : list nat) (q : ring nat) (r : ring (list T)) : Prop := rcap q = rcap r /\ ritems r = map m (ritems q) /\ incl (ritems q) used.
Lemma push_sameq (m : memory) used c (d : @vcore T) p : same_but (qof m used) c d -> rsame (same_but (qof m (p :: used))) (j_push N m c p) (jpush N d (m p)).
Proof.
  intros H. pose proof H as (H1 & H2 & H3 & H4 & H5 & H6 & H7 & (Q1 & Q2 & Q3)). unfold jpush, j_push. rewrite <- H6, <- H1. destruct (negb (Nat.eqb _ _)); [reflexivity|].
  eapply (rsame_bind (same_but (qof m (p :: used)))); [|intros c' d' H'; apply end_same; exact H'].
  destruct (negb (j_window c =? 0)%Z). 2:{ sb. split; [exact Q1|]. split; [exact Q2|]. intros y Hy. right. apply Q3. exact Hy. }
  eapply (rsame_bind (same_but (qof m used))).
  - assert (EL : ring_len (j_queue d) = ring_len (j_queue c)) by (unfold ring_len, zlen; rewrite Q2, map_length; reflexivity). rewrite EL.
    destruct (_ =? _)%Z; [|exact H]. unfold ring_get. rewrite Q2. destruct (ritems (j_queue c)) as [|y q] eqn:Eq; cbn [map bind]; [exact I|].
    apply remove_same. sb. split; [exact Q1|]. split; [reflexivity|]. intros z Hz. apply Q3. right. exact Hz.
  - intros c1 d1 (A1 & A2 & A3 & A4 & A5 & A6 & A7 & (B1 & B2 & B3)). unfold ring_put. rewrite <- B1.
    assert (EL : ring_len (j_queue d1) = ring_len (j_queue c1)) by (unfold ring_len, zlen; rewrite B2, map_length; reflexivity). rewrite EL.
    destruct (_ <? _)%Z; cbn [bind]; [|exact I]. sb. split; [reflexivity|]. cbn [ritems]. split; [rewrite B2, map_app; reflexivity|].
    intros z Hz. apply in_app_or in Hz. destruct Hz as [Hz|[<-|[]]]; [right; apply B3; exact Hz|left; reflexivity].
Qed.
Lemma arun_untouched ops : forall used m c (d : @vcore T), untouched used ops -> same_but (qof m used) c d -> rsame (same_but anyq) (arun N ops m c) (jcore_run N d (captured ops m)).
Proof.
  unfold jcore_run. induction ops as [|[p|p i x|] ops IH]; intros used m c d U H; cbn [arun captured run untouched] in *.
  - destruct H as (H1 & H2 & H3 & H4 & H5 & H6 & H7 & H8). sb.
  - eapply rsame_bind; [apply push_sameq; exact H|]. intros c' d' H'. eapply IH; eassumption.
  - destruct U as [U1 U2]. apply (IH used); [exact U2|]. destruct H as (H1 & H2 & H3 & H4 & H5 & H6 & H7 & (Q1 & Q2 & Q3)). sb. split; [exact Q1|]. split; [|exact Q3].
    rewrite Q2. apply map_ext_in. intros q Hq. unfold mem_set. destruct (Nat.eqb_spec q p) as [->|]; [|reflexivity]. exfalso. apply U1. apply Q3. exact Hq.
  - eapply rsame_bind; [apply clear_same; [exact H|]|].
    + intros w. split; [reflexivity|]. split; [reflexivity|]. intros z [].
    + intros c' d' H'. eapply IH; eassumption.
Qed.
End Alias.
