(** Proofs about the String methods. *)
From Coq Require Import String Ascii DecimalString Decimal DecimalZ.
From Verif Require Import Base F64 NumModel RingModel MinMaxModel HeapModel QuantileModel MomentModel JointModel NameModel.
Local Open Scope string_scope.

Lemma zshow_inj a b : zshow a = zshow b -> a = b.
Proof.
  unfold zshow. intros H. apply (f_equal NilEmpty.int_of_string) in H. rewrite !NilEmpty.isi in H.
  injection H as H. apply (f_equal Z.of_int) in H. now rewrite !DecimalZ.of_to in H.
Qed.

(** No comma. *)
Fixpoint nocomma (s : string) : Prop := match s with "" => True | String c s => c <> ","%char /\ nocomma s end.
Lemma uint_nocomma u : nocomma (NilEmpty.string_of_uint u).
Proof. induction u; cbn; try split; auto; discriminate. Qed.
Lemma zshow_nocomma z : nocomma (zshow z).
Proof. unfold zshow. destruct (Z.to_int z); cbn; [| split; [discriminate |]]; apply uint_nocomma. Qed.
Lemma append_length a b : String.length (a ++ b) = (String.length a + String.length b)%nat.
Proof. induction a; cbn; auto. Qed.
Lemma app_inj_r a b s : a ++ s = b ++ s -> a = b.
Proof.
  intros H. assert (L : String.length a = String.length b).
  { apply (f_equal String.length) in H. rewrite !append_length in H. lia. }
  revert b H L. induction a as [| x a IH]; intros [| y b] H L; cbn in *; auto; try discriminate.
  injection H as -> H. f_equal. apply IH; auto.
Qed.
Lemma comma_split a : forall b x y, nocomma a -> nocomma b -> a ++ String "," x = b ++ String "," y -> a = b /\ x = y.
Proof.
  induction a as [| c a IH]; intros [| d b] x y Ha Hb H; cbn in *.
  - now injection H as ->.
  - injection H as <- _. now destruct Hb.
  - injection H as -> _. now destruct Ha.
  - injection H as -> H. destruct (IH b x y) as [-> ->]; tauto.
Qed.

Section Show.
Variable fshow : f64 -> string.
Lemma show1_inj n p v v' : show1 n p v = show1 n p v' -> v = v'.
Proof.
  unfold show1. intros H.
  assert (D : forall s a b, s ++ a = s ++ b -> a = b) by (induction s; cbn; auto; intros a0 b [=]; auto).
  apply D in H. apply D in H. apply D in H. apply D in H. now apply app_inj_r in H.
Qed.
Lemma show2_inj n p v q w v' w' : nocomma v -> nocomma v' -> show2 n p v q w = show2 n p v' q w' -> v = v' /\ w = w'.
Proof.
  unfold show2. intros Hv Hv' H.
  assert (D : forall s a b, s ++ a = s ++ b -> a = b) by (induction s; cbn; auto; intros a0 b [=]; auto).
  apply D in H. apply D in H. apply D in H. apply D in H.
  change ("," ++ q ++ ":" ++ w ++ "}") with (String "," (q ++ ":" ++ w ++ "}")) in H.
  change ("," ++ q ++ ":" ++ w' ++ "}") with (String "," (q ++ ":" ++ w' ++ "}")) in H.
  apply comma_split in H as [-> H]; auto. split; auto. apply D in H. apply D in H. now apply app_inj_r in H.
Qed.

(** Equal strings: same kind and same integer parameters; the decays print the same. *)
Definition same_descr (a b : descr) : Prop :=
  match a, b with
  | DEWMA d, DEWMA d' | DEWMStd d, DEWMStd d' | DEWMCov d, DEWMCov d' | DEWMCorr d, DEWMCorr d' => fshow d = fshow d'
  | DEWMMoment k d, DEWMMoment k' d' => k = k' /\ fshow d = fshow d'
  | _, _ => a = b
  end.
Lemma show_same a b : show fshow a = show fshow b -> same_descr a b.
Proof.
  destruct a, b; cbn [show]; intros H;
    try (exfalso; unfold show1, show2 in H; cbn in H; discriminate H);
    first [ apply show1_inj in H | apply show2_inj in H as [H H']; [| apply zshow_nocomma ..] ];
    repeat match goal with
    | H : zshow _ = zshow _ |- _ => apply zshow_inj in H
    | H : show2 _ _ _ _ _ = show2 _ _ _ _ _ |- _ => apply show2_inj in H as [? ?]; [| apply zshow_nocomma ..]
    end; subst; cbn [same_descr]; auto.
Qed.
Lemma show_inj a b : (forall x y, fshow x = fshow y -> x = y) -> show fshow a = show fshow b -> a = b.
Proof.
  intros Hf H. apply show_same in H. destruct a, b; cbn [same_descr] in H; auto; try discriminate H;
    try (now apply Hf in H as ->). destruct H as [-> H]. now apply Hf in H as ->.
Qed.
End Show.

Lemma rmap_ok {A B} (f : A -> B) r b : rmap f r = Ok b -> exists a, r = Ok a /\ b = f a.
Proof. destruct r; cbn; intros [=]; eauto. Qed.

Section Stable.
Variable fN : Num f64.
Ltac okall := repeat match goal with
  | H : Ok _ = Ok _ |- _ => injection H as H; subst
  | H : Err _ = Ok _ |- _ => discriminate H
  | H : Panic = Ok _ |- _ => discriminate H
  | H : Hang = Ok _ |- _ => discriminate H
  | H : bind _ _ = Ok _ |- _ => apply bind_ok in H as (? & ? & H)
  | H : context [let '(_, _) := ?p in _] |- _ => destruct p
  | H : context [if ?b then _ else _] |- _ => destruct b
  | H : context [match ?b with _ => _ end] |- _ => destruct b
  end.
Lemma hm_push_window m x m' : hm_push m x = Ok m' -> hm_window m' = hm_window m.
Proof. unfold hm_push. intros H. okall; auto. Qed.
Lemma q_push_params q x q' : q_push q x = Ok q' -> q_window q' = q_window q /\ q_interp q' = q_interp q.
Proof. unfold q_push. intros H. okall; cbn; auto. Qed.
Lemma s_push_descr m x m' : s_push fN m x = Ok m' -> sdescr m' = sdescr m.
Proof.
  destruct m; cbn [s_push]; intros H; apply rmap_ok in H as (a0 & H & ->); cbn [sdescr].
  - unfold min_push in H. okall; auto.
  - unfold max_push in H. okall; auto.
  - unfold m_push in H. okall; auto.
  - apply q_push_params in H as [-> ->]. auto.
  - apply q_push_params in H as [-> ->]. auto.
  - apply hm_push_window in H as ->. auto.
  - unfold auto_push in H. okall; auto.
Qed.
Lemma s_clear_descr m m' : s_clear fN m = Ok m' -> sdescr m' = sdescr m.
Proof.
  destruct m; cbn [s_clear]; intros H; apply rmap_ok in H as (a0 & H & ->); cbn [sdescr].
  - unfold min_clear in H. okall; auto.
  - unfold max_clear in H. okall; auto.
  - unfold m_clear in H. okall; auto.
  - unfold q_clear in H. okall; auto.
  - unfold q_clear in H. okall; auto.
  - unfold hm_clear in H. okall; auto.
  - unfold auto_clear in H. okall; auto.
Qed.
Lemma jm_push_kind (m : jsmetric) xs m' : jm_push fN m xs = Ok m' -> jm_kind m' = jm_kind m.
Proof. unfold jm_push. intros H. okall; auto. Qed.
Lemma jm_clear_kind (m : jsmetric) m' : jm_clear fN m = Ok m' -> jm_kind m' = jm_kind m.
Proof. unfold jm_clear. intros H. okall; auto. Qed.
End Stable.
