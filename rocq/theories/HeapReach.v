(** Proofs about the histories of a heap. *)
From Coq Require Import String Permutation.
From Verif Require Import Base F64 HistSpec OrderSpec HeapModel HeapProof HeapMedProof HeapSpec.
Local Open Scope nat_scope.
Local Open Scope list_scope.

Lemma drop_perm_in a c l (f : nat -> f64) : NoDup (a :: l) -> Permutation (map (fun a => (a, f a)) (a :: l)) c ->
  Permutation (map (fun a => (a, f a)) l) (drop_item a c).
Proof.
  intros Hnd P. assert (Pf : forall l1 l2, Permutation l1 l2 -> Permutation (drop_item a l1) (drop_item a l2)).
  { intros l1 l2 H. unfold drop_item. induction H; cbn [filter]; auto.
    - destruct (negb (fst x =? a)); auto.
    - destruct (negb (fst x =? a)), (negb (fst y =? a)); auto; constructor.
    - etransitivity; eassumption. }
  apply Pf in P. etransitivity; [|exact P]. unfold drop_item. cbn [map filter fst]. rewrite Nat.eqb_refl. cbn [negb].
  inversion Hnd as [|? ? Hni Hnd']; subst. clear - Hni. induction l as [|b l IH]; cbn [map filter fst]; [constructor|].
  destruct (Nat.eqb_spec b a); [exfalso; apply Hni; left; exact e|]. cbn [negb]. constructor. apply IH. intros H. apply Hni. right. exact H.
Qed.

Lemma map_fst_pairs (f : nat -> f64) l : map fst (map (fun a => (a, f a)) l) = l.
Proof. rewrite map_map. apply map_id. Qed.

Lemma reach_ok cmp g : cmp_key cmp g -> forall st h c, hreach cmp st h c ->
  heap_ok g st h /\ Permutation (map (fun a => (a, it_val (st a))) (h_items h)) c.
Proof.
  intros Hk st h c H. induction H as [st base id vals st' h Hn E | st h c a x st' h' _ [IH P] Ha Hx E | st h c st' h' a _ [IH P] E
    | st h c a v st' h' _ [IH P] Ha Hv E | st h c a st' h' _ [IH P] Ha E].
  - destruct (h_new_ok g st base id vals cmp Hk Hn) as (s & h0 & E' & Ok' & _ & _ & P & V & _). rewrite E in E'.
    apply (f_equal (fun o => match o with Ok (a, b) => Some (a, b) | _ => None end)) in E'. cbn in E'.
    assert (st' = s /\ h = h0) as [-> ->] by (split; congruence). split; [exact Ok'|].
    etransitivity; [apply Permutation_map; symmetry; exact P|]. apply Permutation_refl'. clear - V.
    assert (G : forall b vs, (forall k, k < length vs -> it_val (s (b + k)) = nth k vs (fz 0)) ->
       map (fun a => (a, it_val (s a))) (seq b (length vs)) = combine (seq b (length vs)) vs).
    { intros b vs. revert b. induction vs as [|v vs IH]; intros b H; cbn [length seq map combine]; [reflexivity|].
      f_equal; [f_equal; specialize (H 0 ltac:(cbn; lia)); rewrite Nat.add_0_r in H; exact H|]. apply IH. intros k Hk.
      specialize (H (S k) ltac:(cbn; lia)). replace (S b + k) with (b + S k) by lia. exact H. }
    apply G. exact V.
  - assert (Hni : ~ In a (h_items h)).
    { intros H. apply Ha. eapply Permutation_in; [apply Permutation_map; exact P|]. rewrite map_fst_pairs. exact H. }
    set (s1 := iupd st a x) in *.
    assert (Hs : forall b, b <> a -> s1 b = st b) by (intros b Hb; unfold s1, iupd; destruct (Nat.eqb_spec b a); congruence).
    assert (Hsa : s1 a = x) by (unfold s1, iupd; rewrite Nat.eqb_refl; reflexivity).
    assert (Ok1 : heap_ok g s1 h) by (eapply heap_ok_frame; [exact IH|]; intros b Hb; apply Hs; congruence).
    destruct (h_push_ok g s1 h a Ok1 Hni ltac:(rewrite Hsa; exact Hx)) as (s & h0 & E' & Ok' & _ & P' & K1 & _). rewrite E in E'.
    apply (f_equal (fun o => match o with Ok (a, b) => Some (a, b) | _ => None end)) in E'. cbn in E'.
    assert (st' = s /\ h' = h0) as [-> ->] by (split; congruence). split; [exact Ok'|].
    etransitivity; [apply Permutation_map; symmetry; exact P'|]. cbn [map]. rewrite K1, Hsa. constructor.
    etransitivity; [|exact P]. apply Permutation_refl'. apply map_ext_in. intros b Hb. rewrite K1, Hs by congruence. reflexivity.
  - assert (Hne : h_items h <> []).
    { intros H. unfold h_pop in E. rewrite H in E. discriminate. }
    destruct (h_pop_ok g st h IH Hne) as (s & h0 & a0 & E' & Ok' & _ & P' & [K1 _] & _). rewrite E in E'.
    apply (f_equal (fun o => match o with Ok (a, b, c) => Some (a, b, c) | _ => None end)) in E'. cbn in E'.
    assert (st' = s /\ h' = h0 /\ a = a0) as (-> & -> & ->) by (repeat split; congruence). split; [exact Ok'|].
    erewrite map_ext; [|intros b; rewrite K1; reflexivity]. apply drop_perm_in.
    + destruct IH as (_ & [Hnd _] & _). eapply Permutation_NoDup; [symmetry; exact P'|exact Hnd].
    + etransitivity; [|exact P]. apply Permutation_map. exact P'.
  - assert (Hi : In a (h_items h)).
    { apply (Permutation_in a (Permutation_sym (Permutation_map fst P))) in Ha. rewrite map_fst_pairs in Ha. exact Ha. }
    destruct (h_update_ok g st h a v IH Hi Hv) as (s & h0 & E' & Ok' & _ & P' & Va & Vo & _). rewrite E in E'.
    apply (f_equal (fun o => match o with Ok (a, b) => Some (a, b) | _ => None end)) in E'. cbn in E'.
    assert (st' = s /\ h' = h0) as [-> ->] by (split; congruence). split; [exact Ok'|].
    destruct (Add_inv a _ Hi) as [l0 A]. apply Permutation_Add in A.
    assert (Hnd : NoDup (a :: l0)).
    { destruct IH as (_ & [Hnd _] & _). eapply Permutation_NoDup; [symmetry; exact A|exact Hnd]. }
    etransitivity; [apply Permutation_map; symmetry; etransitivity; [exact A|exact P']|]. cbn [map]. rewrite Va. constructor.
    erewrite map_ext_in; [|intros b Hb; rewrite Vo; [reflexivity|inversion Hnd; congruence]].
    apply drop_perm_in; [exact Hnd|]. etransitivity; [|exact P]. apply Permutation_map. exact A.
  - assert (Hi : In a (h_items h)).
    { apply (Permutation_in a (Permutation_sym (Permutation_map fst P))) in Ha. rewrite map_fst_pairs in Ha. exact Ha. }
    destruct (h_remove_ok g st h a IH Hi) as (s & h0 & E' & Ok' & _ & P' & [K1 _] & _). rewrite E in E'.
    apply (f_equal (fun o => match o with Ok (a, b) => Some (a, b) | _ => None end)) in E'. cbn in E'.
    assert (st' = s /\ h' = h0) as [-> ->] by (split; congruence). split; [exact Ok'|].
    erewrite map_ext; [|intros b; rewrite K1; reflexivity]. apply drop_perm_in.
    + destruct IH as (_ & [Hnd _] & _). eapply Permutation_NoDup; [symmetry; exact P'|exact Hnd].
    + etransitivity; [|exact P]. apply Permutation_map. exact P'.
Qed.

Lemma key_ge cmp g x y : cmp_key cmp g -> nonnan x -> nonnan y -> (g x <= g y)%Z -> cmp y x = false.
Proof. intros H Hx Hy Hle. rewrite (H y x Hy Hx). apply Z.ltb_ge. exact Hle. Qed.

Lemma reach_spec cmp g : cmp_key cmp g -> forall st h c, hreach cmp st h c -> heap_spec cmp st h c /\ heap_progress cmp st h c.
Proof.
  intros Hk st h c H. destruct (reach_ok cmp g Hk st h c H) as [Hok P]. pose proof Hok as (_ & [Hnd Hi] & Hh & Hn & Ho).
  assert (Hin : forall a v, In (a, v) c <-> In a (h_items h) /\ v = it_val (st a)).
  { intros a v. split.
    - intros Ha. apply (Permutation_in _ (Permutation_sym P)) in Ha. apply in_map_iff in Ha. destruct Ha as (b & E & Hb).
      inversion E; subst. auto.
    - intros [Ha ->]. eapply Permutation_in; [exact P|]. apply in_map_iff. exists a. auto. }
  assert (Hfst : forall a, In a (map fst c) <-> In a (h_items h)).
  { intros a. rewrite in_map_iff. split; [intros ([b v] & <- & Hb); apply Hin in Hb; apply Hb|].
    intros Ha. exists (a, it_val (st a)). split; [reflexivity|]. apply Hin. auto. }
  assert (Hnil : c = [] -> h_items h = []).
  { intros ->. apply Permutation_sym, Permutation_nil in P. destruct (h_items h); [reflexivity|discriminate]. }
  assert (Hcons : c <> [] -> h_items h <> []).
  { intros Hc E. rewrite E in P. cbn in P. apply Permutation_nil in P. contradiction. }
  assert (Hnum : forall a, In a (h_items h) -> nonnan (it_val (st a))) by (unfold hnum in Hn; rewrite Forall_forall in Hn; exact Hn).
  split; [split; [exact P|split; [|split]]|split; [|split; [|split; [|split]]]].
  - intros i a E. assert (Hl : i < length (h_items h)) by (apply nth_error_Some; congruence).
    apply (nth_error_nth _ _ 0) in E. subst a. split; [apply Hi; exact Hl|apply Hh, nth_In; exact Hl].
  - intros Hc. unfold h_peek, hget. rewrite (Hnil Hc). reflexivity.
  - intros Hc. destruct (peek_ok g st h Hok (Hcons Hc)) as (t & Ht & E & Hm). exists (val st t). split; [exact E|]. split.
    + apply in_map_iff. exists (t, val st t). split; [reflexivity|]. apply Hin. auto.
    + intros a v Ha. apply Hin in Ha. destruct Ha as [Ha ->]. eapply key_ge; [exact Hk| | |]; [apply Hnum; exact Ht|apply Hnum; exact Ha|apply Hm; exact Ha].
  - intros a x Ha Hx. rewrite Hfst in Ha.
    destruct (h_push_ok g (iupd st a x) h a) as (s & h0 & E & _).
    + eapply heap_ok_frame; [exact Hok|]. intros b Hb. unfold iupd. destruct (Nat.eqb_spec b a); congruence.
    + exact Ha.
    + unfold iupd. rewrite Nat.eqb_refl. exact Hx.
    + exists s, h0. exact E.
  - intros Hc. destruct (h_pop_ok g st h Hok (Hcons Hc)) as (s & h0 & a & E & _ & _ & P' & _ & _ & Hm & _).
    assert (Ha : In a (h_items h)) by (eapply Permutation_in; [exact P'|left; reflexivity]).
    exists s, h0, a, (it_val (st a)). split; [exact E|]. split; [apply Hin; auto|].
    intros b u Hb. apply Hin in Hb. destruct Hb as [Hb ->]. eapply key_ge; [exact Hk| | |]; [apply Hnum; exact Ha|apply Hnum; exact Hb|apply Hm; exact Hb].
  - intros Hc. unfold h_pop. rewrite (Hnil Hc). reflexivity.
  - intros a v Ha Hv. rewrite Hfst in Ha. destruct (h_update_ok g st h a v Hok Ha Hv) as (s & h0 & E & _). exists s, h0. exact E.
  - intros a Ha. rewrite Hfst in Ha. destruct (h_remove_ok g st h a Hok Ha) as (s & h0 & E & _). exists s, h0. exact E.
Qed.
