(** Proofs about SkipModel.v. *)
From Coq Require Import Permutation.
From Verif Require Import Base F64 OrderSpec MultisetSpec SortLib AvlProof SkipModel.

(** ** Specification of links and widths from the list of nodes *)

(** First node of [B] that has level [i]. *)
Fixpoint nexti (lv : nat -> nat) (i : nat) (B : list nat) : option nat :=
  match B with [] => None | b :: t => if i <? lv b then Some b else nexti lv i t end.

(** Number of steps to that node, or to the end of the list. *)
Fixpoint dist (lv : nat -> nat) (i : nat) (B : list nat) : Z :=
  match B with [] => 1 | b :: t => if i <? lv b then 1 else (1 + dist lv i t)%Z end.

Definition lvs (st : nat -> snode) (a : nat) : nat := n_lvl (st a).
Definition vals (st : nat -> snode) (L : list nat) : list f64 := map (fun a => n_val (st a)) L.

Definition links (st : nat -> snode) (M : list nat) : Prop :=
  forall A a B, M = A ++ a :: B -> forall i, i < lvs st a -> n_next (st a) i = nexti (lvs st) i B.
Definition widths (st : nat -> snode) (M : list nat) : Prop :=
  forall A a B, M = A ++ a :: B -> forall i, i < lvs st a -> n_width (st a) i = dist (lvs st) i B.

Lemma nexti_ext lv lv' i B : (forall b, In b B -> lv b = lv' b) -> nexti lv i B = nexti lv' i B.
Proof.
  induction B as [|b B IH]; cbn [nexti dist app In]; intros H; [reflexivity|].
  rewrite (H b) by auto. rewrite IH by (intros; apply H; right; assumption). reflexivity.
Qed.
Lemma dist_ext lv lv' i B : (forall b, In b B -> lv b = lv' b) -> dist lv i B = dist lv' i B.
Proof.
  induction B as [|b B IH]; cbn [nexti dist app In]; intros H; [reflexivity|].
  rewrite (H b) by auto. rewrite IH by (intros; apply H; right; assumption). reflexivity.
Qed.

Lemma nexti_some lv i B b : nexti lv i B = Some b ->
  exists B1 B2, B = B1 ++ b :: B2 /\ i < lv b /\ nexti lv i B1 = None.
Proof.
  induction B as [|c B IH]; cbn [nexti dist app In]; [discriminate|].
  destruct (Nat.ltb_spec i (lv c)) as [H|H].
  - intros E. injection E as <-. exists [], B. auto.
  - intros E. destruct (IH E) as [B1 [B2 [-> [Hb Hn]]]]. exists (c :: B1), B2.
    split; [reflexivity|]. split; [exact Hb|]. cbn [nexti dist app In]. destruct (Nat.ltb_spec i (lv c)); [lia|exact Hn].
Qed.
Lemma nexti_none lv i B : nexti lv i B = None -> forall b, In b B -> lv b <= i.
Proof.
  induction B as [|c B IH]; cbn [nexti dist app In]; [tauto|].
  destruct (Nat.ltb_spec i (lv c)) as [H|H]; [discriminate|].
  intros E b [<-|Hb]; auto.
Qed.
Lemma nexti_none_intro lv i B : (forall b, In b B -> lv b <= i) -> nexti lv i B = None.
Proof.
  induction B as [|c B IH]; cbn [nexti dist app In]; [reflexivity|]. intros H.
  destruct (Nat.ltb_spec i (lv c)) as [H'|H']; [specialize (H c); lia|auto].
Qed.
Lemma nexti_app_none lv i A B : nexti lv i A = None -> nexti lv i (A ++ B) = nexti lv i B.
Proof.
  induction A as [|c A IH]; cbn [nexti dist app In]; [reflexivity|]. destruct (i <? lv c); [discriminate|exact IH].
Qed.
Lemma nexti_app_some lv i A B b : nexti lv i A = Some b -> nexti lv i (A ++ B) = Some b.
Proof.
  induction A as [|c A IH]; cbn [nexti dist app In]; [discriminate|]. destruct (i <? lv c); [auto|exact IH].
Qed.
Lemma dist_app_none lv i A B : nexti lv i A = None -> dist lv i (A ++ B) = (zlen A + dist lv i B)%Z.
Proof.
  unfold zlen. induction A as [|c A IH]; cbn [app nexti dist length]; [lia|]. destruct (i <? lv c); [discriminate|].
  intros E. rewrite IH by exact E. lia.
Qed.
Lemma dist_app_some lv i A B b : nexti lv i A = Some b -> dist lv i (A ++ B) = dist lv i A.
Proof.
  induction A as [|c A IH]; cbn [nexti dist app In]; [discriminate|]. destruct (i <? lv c); [auto|]. intros E. rewrite IH by exact E. reflexivity.
Qed.
Lemma dist_pos lv i B : (1 <= dist lv i B)%Z.
Proof. induction B as [|c B IH]; cbn [nexti dist app In]; [lia|]. destruct (i <? lv c); lia. Qed.
Lemma dist_none lv i B : nexti lv i B = None -> dist lv i B = (zlen B + 1)%Z.
Proof.
  intros H. rewrite <- (app_nil_r B) at 1. rewrite dist_app_none by exact H. reflexivity.
Qed.
Lemma dist_hit lv i B1 b B2 : nexti lv i B1 = None -> i < lv b -> dist lv i (B1 ++ b :: B2) = (zlen B1 + 1)%Z.
Proof.
  intros H1 H2. rewrite dist_app_none by exact H1. cbn [nexti dist app In]. destruct (Nat.ltb_spec i (lv b)); [reflexivity|lia].
Qed.
Lemma nexti_le_none lv i j B : i <= j -> nexti lv i B = None -> nexti lv j B = None.
Proof. intros H E. apply nexti_none_intro. intros b Hb. pose proof (nexti_none _ _ _ E b Hb). lia. Qed.

Lemma NoDup_tail {A} (l1 l2 : list A) : NoDup (l1 ++ l2) -> NoDup l2.
Proof. induction l1 as [|a l1 IH]; cbn [app]; [auto|]. intros H. inversion H; auto. Qed.

(** Two splits of the same list. *)
Lemma split_cmp {A} (P P' Q Q' : list A) a c : P ++ a :: Q = P' ++ c :: Q' ->
  (P = P' /\ a = c /\ Q = Q') \/ (exists M, Q = M ++ c :: Q' /\ P' = P ++ a :: M) \/
  (exists M, Q' = M ++ a :: Q /\ P = P' ++ c :: M).
Proof.
  revert P'. induction P as [|p P IH]; intros [|p' P']; cbn; intros E.
  - injection E as -> ->. auto.
  - injection E as -> ->. right. left. exists P'. auto.
  - injection E as -> <-. right. right. exists P. auto.
  - injection E as -> E. destruct (IH P' E) as [[-> [-> ->]]|[[M [-> ->]]|[M [-> ->]]]]; eauto 7.
Qed.

(** [a] is the last node of [M] with level [i]. *)
Definition is_prev (lv : nat -> nat) (i : nat) (M : list nat) (a : nat) : Prop :=
  exists P Q, M = P ++ a :: Q /\ i < lv a /\ nexti lv i Q = None.

Lemma prev_iff lv i M p P c Q : NoDup M -> is_prev lv i M p -> M = P ++ c :: Q -> i < lv c ->
  (nexti lv i Q = None <-> c = p).
Proof.
  intros Hd [P' [Q' [E [Hp Hn]]]] E' Hc. rewrite E' in E.
  destruct (split_cmp _ _ _ _ _ _ E) as [[-> [-> ->]]|[[X [-> ->]]|[X [-> ->]]]].
  - tauto.
  - split.
    + intros H. pose proof (nexti_none _ _ _ H p ltac:(apply in_or_app; right; left; reflexivity)). lia.
    + intros ->. exfalso. subst M. apply NoDup_remove_2 in Hd. apply Hd.
      apply in_or_app. right. apply in_or_app. right. left. reflexivity.
  - pose proof (nexti_none _ _ _ Hn c ltac:(apply in_or_app; right; left; reflexivity)). lia.
Qed.

Lemma prev_in lv i M p : is_prev lv i M p -> In p M.
Proof. intros [P [Q [-> _]]]. apply in_or_app. right. left. reflexivity. Qed.

(** ** getPrevs *)
Lemma walk_prev_spec st M v B i : links st (M ++ B) ->
  (forall b, In b (tl M) -> flt (n_val (st b)) v = true) ->
  (forall b, In b B -> flt (n_val (st b)) v = false) ->
  forall fuel P a Q, M = P ++ a :: Q -> i < lvs st a -> length Q < fuel ->
  exists p, walk_prev fuel st i v a = Ok p /\ is_prev (lvs st) i M p.
Proof.
  intros HL HA HB. induction fuel as [|fuel IH]; [lia|]. intros P a Q E Ha Hf.
  cbn [walk_prev]. unfold get_next at 1. change (n_lvl (st a)) with (lvs st a).
  destruct (Nat.ltb_spec i (lvs st a)) as [_|]; [|lia]. cbn [bind].
  assert (EM : M ++ B = P ++ a :: (Q ++ B)) by (rewrite E, <- app_assoc; reflexivity).
  rewrite (HL _ _ _ EM i Ha).
  destruct (nexti (lvs st) i Q) as [b|] eqn:EQ.
  - rewrite (nexti_app_some _ _ _ _ _ EQ).
    destruct (nexti_some _ _ _ _ EQ) as [Q1 [Q2 [-> [Hb _]]]].
    rewrite HA.
    2:{ rewrite E. destruct P; cbn [app tl]; apply in_or_app; right; [|right; apply in_or_app; right];
        left; reflexivity. }
    apply (IH (P ++ a :: Q1) b Q2); [rewrite E, <- app_assoc; reflexivity|exact Hb|].
    rewrite app_length in Hf. cbn [length] in Hf. lia.
  - rewrite nexti_app_none by exact EQ.
    assert (Hp : is_prev (lvs st) i M a) by (exists P, Q; auto).
    destruct (nexti (lvs st) i B) as [b|] eqn:EB; [|eauto].
    rewrite HB; [eauto|]. destruct (nexti_some _ _ _ _ EB) as [B1 [B2 [-> _]]].
    apply in_or_app. right. left. reflexivity.
Qed.

Lemma get_prevs_spec st M v B : links st (M ++ B) ->
  (forall b, In b (tl M) -> flt (n_val (st b)) v = true) ->
  (forall b, In b B -> flt (n_val (st b)) v = false) ->
  forall i fuel P a Q, M = P ++ a :: Q -> i <= lvs st a -> length M <= fuel ->
  exists r, get_prevs fuel st i v a = Ok r /\ forall j, j < i -> is_prev (lvs st) j M (r j).
Proof.
  intros HL HA HB. induction i as [|i IH]; intros fuel P a Q E Ha Hf.
  - eexists. split; [reflexivity|]. lia.
  - cbn [get_prevs].
    destruct (walk_prev_spec st M v B i HL HA HB fuel P a Q E ltac:(lia)) as [p [Ep Hp]].
    { rewrite E, app_length in Hf. cbn [length] in Hf. lia. }
    rewrite Ep. cbn [bind]. destruct Hp as [P' [Q' [E' [Hp Hn]]]].
    destruct (IH fuel P' p Q' E' ltac:(lia) Hf) as [r [Er Hr]].
    rewrite Er. cbn [bind]. eexists. split; [reflexivity|].
    intros j Hj. unfold upd. destruct (Nat.eqb_spec j i) as [->|Hne].
    + exists P', Q'. auto.
    + apply Hr. lia.
Qed.

(** ** Pointwise effect of the loops *)
Definition same_shape (st st' : nat -> snode) : Prop :=
  forall a, n_lvl (st' a) = n_lvl (st a) /\ n_val (st' a) = n_val (st a).

Lemma same_shape_refl st : same_shape st st.
Proof. split; reflexivity. Qed.
Lemma same_shape_trans st1 st2 st3 : same_shape st1 st2 -> same_shape st2 st3 -> same_shape st1 st3.
Proof. intros H1 H2 a. destruct (H1 a), (H2 a). split; congruence. Qed.

Definition inr (i n j : nat) : bool := (i <=? j) && (j <? i + n).
Lemma inr_S i n j : inr i (S n) j = (j =? i) || inr (S i) n j.
Proof.
  unfold inr. destruct (Nat.leb_spec i j), (Nat.ltb_spec j (i + S n)), (Nat.eqb_spec j i), (Nat.leb_spec (S i) j),
    (Nat.ltb_spec j (S i + n)); cbn; try reflexivity; lia.
Qed.
Lemma inr_self i n : inr (S i) n i = false.
Proof. unfold inr. destruct (Nat.leb_spec (S i) i); [lia|reflexivity]. Qed.

Lemma set_next_ok st a i p : i < n_lvl (st a) -> exists st', set_next st a i p = Ok st' /\ same_shape st st' /\
  (forall c j, n_next (st' c) j = if (c =? a) && (j =? i) then p else n_next (st c) j) /\
  (forall c j, n_width (st' c) j = n_width (st c) j).
Proof.
  intros H. unfold set_next. destruct (Nat.ltb_spec i (n_lvl (st a))); [|lia].
  eexists. split; [reflexivity|]. unfold upd, same_shape.
  split; [|split]; [intros c|intros c j|intros c j]; destruct (Nat.eqb_spec c a) as [->|]; cbn [n_lvl n_val n_next n_width andb];
    auto.
Qed.
Lemma set_width_ok st a i w : i < n_lvl (st a) -> exists st', set_width st a i w = Ok st' /\ same_shape st st' /\
  (forall c j, n_width (st' c) j = if (c =? a) && (j =? i) then w else n_width (st c) j) /\
  (forall c j, n_next (st' c) j = n_next (st c) j).
Proof.
  intros H. unfold set_width. destruct (Nat.ltb_spec i (n_lvl (st a))); [|lia].
  eexists. split; [reflexivity|]. unfold upd, same_shape.
  split; [|split]; [intros c|intros c j|intros c j]; destruct (Nat.eqb_spec c a) as [->|]; cbn [n_lvl n_val n_next n_width andb];
    auto.
Qed.
Lemma get_next_ok st a i : i < n_lvl (st a) -> get_next st a i = Ok (n_next (st a) i).
Proof. intros H. unfold get_next. destruct (Nat.ltb_spec i (n_lvl (st a))); [reflexivity|lia]. Qed.
Lemma get_width_ok st a i : i < n_lvl (st a) -> get_width st a i = Ok (n_width (st a) i).
Proof. intros H. unfold get_width. destruct (Nat.ltb_spec i (n_lvl (st a))); [reflexivity|lia]. Qed.

Lemma link_levels_ok prevs x n : forall i st,
  (forall j, i <= j < i + n -> j < n_lvl (st x) /\ j < n_lvl (st (prevs j)) /\ prevs j <> x) ->
  exists st', link_levels n i prevs x st = Ok st' /\ same_shape st st' /\
    (forall c j, n_next (st' c) j = if inr i n j then if c =? x then n_next (st (prevs j)) j
                                                   else if c =? prevs j then Some x else n_next (st c) j
                                    else n_next (st c) j) /\
    (forall c j, n_width (st' c) j = n_width (st c) j).
Proof.
  induction n as [|n IH]; intros i st H.
  - exists st. split; [reflexivity|]. split; [apply same_shape_refl|]. split; [|reflexivity].
    intros c j. unfold inr. destruct (Nat.leb_spec i j), (Nat.ltb_spec j (i + 0)); cbn; try reflexivity. lia.
  - cbn [link_levels]. destruct (H i ltac:(lia)) as [H1 [H2 H3]].
    rewrite get_next_ok by exact H2. cbn [bind].
    destruct (set_next_ok st x i (n_next (st (prevs i)) i) H1) as [st1 [E1 [S1 [N1 W1]]]]. rewrite E1. cbn [bind].
    destruct (set_next_ok st1 (prevs i) i (Some x)) as [st2 [E2 [S2 [N2 W2]]]].
    { rewrite (proj1 (S1 _)). exact H2. }
    rewrite E2. cbn [bind].
    pose proof (same_shape_trans _ _ _ S1 S2) as S12.
    destruct (IH (S i) st2) as [st' [E' [S' [N' W']]]].
    { intros j Hj. rewrite !(proj1 (S12 _)). apply H. lia. }
    exists st'. split; [exact E'|]. split; [eapply same_shape_trans; eassumption|]. split.
    + intros c j. rewrite N'. rewrite inr_S. destruct (Nat.eqb_spec j i) as [->|Hne].
      * rewrite inr_self. cbn [orb]. rewrite N2, Nat.eqb_refl, !andb_true_r.
        destruct (Nat.eqb_spec c (prevs i)) as [->|Hc].
        -- destruct (Nat.eqb_spec (prevs i) x); [contradiction|]. reflexivity.
        -- rewrite N1, Nat.eqb_refl, andb_true_r. reflexivity.
      * cbn [orb]. assert (HN : forall c, n_next (st2 c) j = n_next (st c) j).
        { intros c0. rewrite N2, N1. destruct (Nat.eqb_spec j i); [contradiction|]. rewrite !andb_false_r. reflexivity. }
        rewrite !HN. reflexivity.
    + intros c j. rewrite W', W2, W1. reflexivity.
Qed.

Lemma incr_widths_ok prevs n : forall i st,
  (forall j, i <= j < i + n -> j < n_lvl (st (prevs j))) ->
  exists st', incr_widths n i prevs st = Ok st' /\ same_shape st st' /\
    (forall c j, n_width (st' c) j = if inr i n j && (c =? prevs j) then (n_width (st c) j + 1)%Z else n_width (st c) j) /\
    (forall c j, n_next (st' c) j = n_next (st c) j).
Proof.
  induction n as [|n IH]; intros i st H.
  - exists st. split; [reflexivity|]. split; [apply same_shape_refl|]. split; [|reflexivity].
    intros c j. unfold inr. destruct (Nat.leb_spec i j), (Nat.ltb_spec j (i + 0)); cbn; try reflexivity. lia.
  - cbn [incr_widths]. pose proof (H i ltac:(lia)) as H1.
    rewrite get_width_ok by exact H1. cbn [bind].
    destruct (set_width_ok st (prevs i) i (n_width (st (prevs i)) i + 1)%Z H1) as [st1 [E1 [S1 [W1 N1]]]]. rewrite E1. cbn [bind].
    destruct (IH (S i) st1) as [st' [E' [S' [W' N']]]].
    { intros j Hj. rewrite !(proj1 (S1 _)). apply H. lia. }
    exists st'. split; [exact E'|]. split; [eapply same_shape_trans; eassumption|]. split.
    + intros c j. rewrite W', inr_S. destruct (Nat.eqb_spec j i) as [->|Hne].
      * rewrite inr_self. cbn [orb andb]. rewrite W1, Nat.eqb_refl, !andb_true_r.
        destruct (Nat.eqb_spec c (prevs i)) as [->|Hc]; reflexivity.
      * cbn [orb]. rewrite W1. destruct (Nat.eqb_spec j i); [contradiction|]. rewrite !andb_false_r. reflexivity.
    + intros c j. rewrite N', N1. reflexivity.
Qed.

(** ** The width walk *)
Lemma width_walk_spec st M j : links st M -> (forall a, In a M -> nonnan (n_val (st a))) ->
  forall fuel P a Q acc, M = P ++ a :: Q -> j < lvs st a -> length Q + 1 < fuel ->
  exists w, width_walk fuel st j (nexti (lvs st) (S j) Q) (Some a) acc = Ok w /\
    (NoDup (keys (vals st (a :: Q))) ->
     (forall P' c Q', a :: Q = P' ++ c :: Q' -> j < lvs st c -> n_width (st c) j = dist (lvs st) j Q') ->
     w = (acc + dist (lvs st) (S j) Q)%Z).
Proof.
  intros HL Hnn. induction fuel as [|fuel IH]; [lia|]. intros P a Q acc E Ha Hf.
  cbn [width_walk]. destruct (node_equals st (Some a) (nexti (lvs st) (S j) Q)) eqn:Eeq.
  - exists acc. split; [reflexivity|]. intros Hd _. exfalso.
    destruct (nexti (lvs st) (S j) Q) as [t|] eqn:Et; cbn [node_equals] in Eeq; [|discriminate].
    destruct (nexti_some _ _ _ _ Et) as [Q1 [Q2 [EQ _]]].
    assert (Hin : In t Q) by (rewrite EQ; apply in_or_app; right; left; reflexivity).
    rewrite feq_key in Eeq.
    2:{ apply Hnn. rewrite E. apply in_or_app. right. left. reflexivity. }
    2:{ apply Hnn. rewrite E. apply in_or_app. right. right. exact Hin. }
    apply Z.eqb_eq in Eeq. cbn [vals map keys] in Hd. inversion Hd as [|z l Hni Hd' Ez]; subst.
    apply Hni. rewrite Eeq. unfold keys. apply in_map. apply (in_map (fun a => n_val (st a))). exact Hin.
  - rewrite get_width_ok, get_next_ok by exact Ha. cbn [bind]. rewrite (HL _ _ _ E j Ha).
    destruct (nexti (lvs st) j Q) as [b|] eqn:Eb.
    + destruct (nexti_some _ _ _ _ Eb) as [Q1 [Q2 [EQ [Hb Hn1]]]].
      pose proof (nexti_le_none _ j (S j) _ ltac:(lia) Hn1) as Hn1'.
      destruct (Nat.ltb_spec (S j) (lvs st b)) as [Hlb|Hlb].
      * assert (Et : nexti (lvs st) (S j) Q = Some b).
        { rewrite EQ, nexti_app_none by exact Hn1'. cbn [nexti]. destruct (Nat.ltb_spec (S j) (lvs st b)); [reflexivity|lia]. }
        rewrite Et in *. destruct fuel as [|fuel]; [lia|]. cbn [width_walk node_equals].
        assert (Hvb : nonnan (n_val (st b))).
        { apply Hnn. rewrite E, EQ. apply in_or_app. right. right. apply in_or_app. right. left. reflexivity. }
        rewrite feq_key, Z.eqb_refl by exact Hvb. eexists. split; [reflexivity|].
        intros _ Hw. rewrite (Hw [] a Q eq_refl Ha). f_equal. rewrite EQ.
        rewrite !dist_hit by assumption. reflexivity.
      * assert (Et : nexti (lvs st) (S j) Q = nexti (lvs st) (S j) Q2).
        { rewrite EQ, nexti_app_none by exact Hn1'. cbn [nexti]. destruct (Nat.ltb_spec (S j) (lvs st b)); [lia|reflexivity]. }
        rewrite Et. destruct (IH (P ++ a :: Q1) b Q2 (acc + n_width (st a) j)%Z) as [w [Ew Hw]].
        { rewrite E, EQ, <- app_assoc. reflexivity. }
        { exact Hb. }
        { rewrite EQ, app_length in Hf. cbn [length] in Hf. lia. }
        rewrite Ew. exists w. split; [reflexivity|]. intros Hd Hwd. rewrite Hw.
        -- rewrite (Hwd [] a Q eq_refl Ha), EQ, dist_hit by assumption.
           rewrite dist_app_none by assumption. cbn [dist]. destruct (Nat.ltb_spec (S j) (lvs st b)); lia.
        -- cbn [vals map keys] in Hd. inversion Hd as [|z l Hni Hd' Ez]; subst z l. rewrite EQ in Hd'.
           unfold vals in Hd'. rewrite map_app in Hd'. fold (vals st Q1) (vals st (b :: Q2)) in Hd'.
           rewrite map_app in Hd'. apply NoDup_tail in Hd'. exact Hd'.
        -- intros P' c Q' Ec Hc. apply (Hwd (a :: Q1 ++ P') c Q'); [|exact Hc].
           rewrite EQ, Ec. cbn [app]. rewrite <- app_assoc. reflexivity.
    + assert (Et : nexti (lvs st) (S j) Q = None) by (eapply nexti_le_none; [|exact Eb]; lia).
      rewrite Et. destruct fuel as [|fuel]; [lia|]. cbn [width_walk node_equals].
      eexists. split; [reflexivity|]. intros _ Hw. rewrite (Hw [] a Q eq_refl Ha).
      rewrite !dist_none by assumption. reflexivity.
Qed.

Lemma links_ext st st' M : same_shape st st' -> (forall c j, In c M -> n_next (st' c) j = n_next (st c) j) ->
  links st M -> links st' M.
Proof.
  intros Hs Hn HL A a B E i Hi. unfold lvs in Hi. rewrite (proj1 (Hs a)) in Hi.
  rewrite Hn by (rewrite E; apply in_or_app; right; left; reflexivity).
  rewrite (HL A a B E i Hi). apply nexti_ext. intros b _. symmetry. apply Hs.
Qed.
Lemma lvs_same st st' a : same_shape st st' -> lvs st' a = lvs st a.
Proof. intros H. apply H. Qed.
Lemma vals_same st st' L : same_shape st st' -> vals st' L = vals st L.
Proof. intros H. unfold vals. apply map_ext. intros a. apply H. Qed.

Lemma new_widths_ok prevs x P B fuel : length B + 1 < fuel -> forall n i st, 1 <= i ->
  links st (P ++ x :: B) -> (forall a, In a (P ++ x :: B) -> nonnan (n_val (st a))) ->
  (forall j, i <= j < i + n -> j < n_lvl (st x) /\ j < n_lvl (st (prevs j)) /\ prevs j <> x) ->
  exists st', new_widths fuel n i prevs x st = Ok st' /\ same_shape st st' /\
    (forall c j, n_next (st' c) j = n_next (st c) j) /\
    (forall c j, inr i n j = false \/ (c <> x /\ c <> prevs j) -> n_width (st' c) j = n_width (st c) j) /\
    (NoDup (keys (vals st (x :: B))) ->
     (forall j, i <= j < i + n -> n_width (st x) j = 0%Z /\ ~ In (prevs j) B) ->
     (forall j, j < i -> j < lvs st x -> n_width (st x) j = dist (lvs st) j B) ->
     (forall P' c Q' j, B = P' ++ c :: Q' -> j < lvs st c -> n_width (st c) j = dist (lvs st) j Q') ->
     forall j, i <= j < i + n -> n_width (st' x) j = dist (lvs st) j B /\
       n_width (st' (prevs j)) j = (n_width (st (prevs j)) j - dist (lvs st) j B)%Z).
Proof.
  intros Hf. induction n as [|n IH]; intros i st Hi HL Hnn H.
  - exists st. split; [reflexivity|]. split; [apply same_shape_refl|]. repeat split; auto; lia.
  - cbn [new_widths]. destruct (H i ltac:(lia)) as [H1 [H2 H3]].
    rewrite get_next_ok, get_width_ok by exact H1. cbn [bind].
    rewrite (HL P x B eq_refl i H1).
    destruct (width_walk_spec st _ (i - 1) HL Hnn fuel P x B (n_width (st x) i) eq_refl ltac:(unfold lvs; lia) Hf)
      as [w [Ew Hw]].
    replace (S (i - 1)) with i in Ew, Hw by lia. rewrite Ew. cbn [bind].
    destruct (set_width_ok st x i w H1) as [st1 [E1 [S1 [W1 N1]]]]. rewrite E1. cbn [bind].
    rewrite get_width_ok by (rewrite (proj1 (S1 _)); exact H2). cbn [bind].
    assert (Wp : n_width (st1 (prevs i)) i = n_width (st (prevs i)) i).
    { rewrite W1. destruct (Nat.eqb_spec (prevs i) x); [contradiction|reflexivity]. }
    destruct (set_width_ok st1 (prevs i) i (n_width (st1 (prevs i)) i - w)%Z) as [st2 [E2 [S2 [W2 N2]]]].
    { rewrite (proj1 (S1 _)). exact H2. }
    rewrite E2. cbn [bind]. pose proof (same_shape_trans _ _ _ S1 S2) as S12.
    assert (N12 : forall c j, n_next (st2 c) j = n_next (st c) j) by (intros; rewrite N2, N1; reflexivity).
    assert (W12 : forall c j, j <> i \/ (c <> x /\ c <> prevs i) -> n_width (st2 c) j = n_width (st c) j).
    { intros c j Hc. rewrite W2, !W1. destruct (Nat.eqb_spec j i) as [->|]; rewrite ?andb_false_r; [|reflexivity].
      destruct Hc as [Hc|[Hc1 Hc2]]; [congruence|].
      destruct (Nat.eqb_spec c x); [congruence|]. destruct (Nat.eqb_spec c (prevs i)); [congruence|]. reflexivity. }
    destruct (IH (S i) st2) as [st' [E' [S' [N' [W' D']]]]]; [lia| | | |].
    { eapply links_ext; [exact S12| |exact HL]. intros; apply N12. }
    { intros a Ha. rewrite (proj2 (S12 a)). auto. }
    { intros j Hj. rewrite !(proj1 (S12 _)). apply H. lia. }
    exists st'. split; [exact E'|]. split; [eapply same_shape_trans; eassumption|].
    split; [intros; rewrite N', N12; reflexivity|]. split.
    + intros c j Hc. rewrite inr_S in Hc. rewrite W'.
      * apply W12. destruct Hc as [Hc|Hc]; [|destruct (Nat.eq_dec j i); subst; tauto].
        apply orb_false_elim in Hc. destruct Hc as [Hc _]. apply Nat.eqb_neq in Hc. auto.
      * destruct Hc as [Hc|Hc]; [|auto]. apply orb_false_elim in Hc. tauto.
    + intros Hd Hz Hlow HB.
      assert (Ewd : w = dist (lvs st) i B).
      { rewrite Hw; [|exact Hd|].
        - rewrite (proj1 (Hz i ltac:(lia))). lia.
        - intros P' c Q' Ec Hc. destruct P' as [|p P']; cbn [app] in Ec.
          + injection Ec as <- <-. apply Hlow; [lia|exact Hc].
          + injection Ec as <- Ec. apply (HB P' c Q' (i - 1)); assumption. }
      assert (Elv : forall j C, dist (lvs st2) j C = dist (lvs st) j C).
      { intros j C. apply dist_ext. intros b _. apply lvs_same. exact S12. }
      intros j Hj. destruct (Nat.eq_dec j i) as [->|Hne].
      * rewrite !W' by (left; apply inr_self).
        rewrite !W2, !Nat.eqb_refl, !andb_true_r.
        destruct (Nat.eqb_spec x (prevs i)); [congruence|]. rewrite W1, !Nat.eqb_refl. cbn [andb].
        split; [exact Ewd|]. rewrite Wp, Ewd. reflexivity.
      * assert (Hpre : forall k, S i <= k < S i + n -> n_width (st2 x) k = 0%Z /\ ~ In (prevs k) B).
        { intros k Hk. rewrite W12 by lia. apply Hz. lia. }
        destruct (D') with (j := j) as [D1 D2]; [| exact Hpre | | |lia|].
        { rewrite (vals_same _ _ _ S12). exact Hd. }
        { intros k Hk1 Hk2. rewrite Elv. rewrite (lvs_same _ _ _ S12) in Hk2.
          destruct (Nat.eq_dec k i) as [->|Hki].
          - rewrite W2, !W1, !Nat.eqb_refl, !andb_true_r.
            destruct (Nat.eqb_spec x (prevs i)); [congruence|]. exact Ewd.
          - rewrite W12 by lia. apply Hlow; [lia|exact Hk2]. }
        { intros P' c Q' k Ec Hc. rewrite Elv. rewrite (lvs_same _ _ _ S12) in Hc.
          rewrite W12; [apply (HB P' c Q'); assumption|].
          destruct (Nat.eq_dec k i) as [->|]; [|auto]. right.
          assert (Hin : In c B) by (rewrite Ec; apply in_or_app; right; left; reflexivity).
          split.
          - intros ->. cbn [vals map keys] in Hd. apply NoDup_cons_iff in Hd. destruct Hd as [Hni _]. apply Hni.
            apply (in_map fk). apply (in_map (fun a => n_val (st a))). exact Hin.
          - intros ->. destruct (Hz i ltac:(lia)) as [_ Hni]. contradiction. }
        rewrite D1, D2, !Elv. split; [reflexivity|]. f_equal. apply W12. auto.
Qed.

(** ** Inserting and deleting one node *)
Lemma dist0 lv B : (forall b, In b B -> 1 <= lv b) -> dist lv 0 B = 1%Z.
Proof.
  destruct B as [|b B]; cbn [dist]; [reflexivity|]. intros H.
  destruct (Nat.ltb_spec 0 (lv b)); [reflexivity|]. specialize (H b ltac:(left; reflexivity)). lia.
Qed.

Lemma in_mid {A} (a : A) P Q : In a (P ++ a :: Q).
Proof. apply in_or_app. right. left. reflexivity. Qed.
Lemma nodup_app_disj {A} (l1 l2 : list A) a : NoDup (l1 ++ l2) -> In a l1 -> In a l2 -> False.
Proof.
  intros H H1 H2. apply in_split in H1. destruct H1 as [x [y ->]].
  rewrite <- app_assoc in H. cbn [app] in H. apply NoDup_remove_2 in H. apply H.
  apply in_or_app. right. apply in_or_app. right. exact H2.
Qed.
Lemma nodup_head {A} (l1 l2 : list A) : NoDup (l1 ++ l2) -> NoDup l1.
Proof.
  induction l1 as [|a l1 IH]; cbn [app]; intros H; [constructor|].
  apply NoDup_cons_iff in H. destruct H as [H1 H2]. constructor; [|auto].
  intros Hi. apply H1. apply in_or_app. left. exact Hi.
Qed.

Lemma ins_ext st st' (N : list nat) x i C : ~ In x N -> (forall c, c <> x -> lvs st' c = lvs st c) ->
  (forall c, In c C -> In c N) -> nexti (lvs st') i C = nexti (lvs st) i C /\ dist (lvs st') i C = dist (lvs st) i C.
Proof.
  intros Hx Hlv H. assert (E : forall b, In b C -> lvs st' b = lvs st b) by (intros b Hb; apply Hlv; intros ->; auto).
  split; [apply nexti_ext|apply dist_ext]; exact E.
Qed.

Lemma insert_links st st' M B x k prevs : NoDup (M ++ B) -> ~ In x (M ++ B) ->
  (forall j, j < k -> is_prev (lvs st) j M (prevs j)) ->
  (forall c, c <> x -> lvs st' c = lvs st c) -> lvs st' x = k ->
  links st (M ++ B) ->
  (forall c j, c <> x -> n_next (st' c) j = if (j <? k) && (c =? prevs j) then Some x else n_next (st c) j) ->
  (forall j, j < k -> n_next (st' x) j = n_next (st (prevs j)) j) ->
  links st' (M ++ x :: B).
Proof.
  intros Hnd Hx Hpv Hlv Hlx.
  assert (ins_ne : forall c, In c (M ++ B) -> c <> x) by (intros c H ->; contradiction).
  assert (ins_next_ext : forall i C, (forall c, In c C -> In c (M ++ B)) -> nexti (lvs st') i C = nexti (lvs st) i C)
    by (intros i C H; apply (ins_ext st st' (M ++ B) x i C Hx Hlv H)).
  assert (ins_dist_ext : forall i C, (forall c, In c C -> In c (M ++ B)) -> dist (lvs st') i C = dist (lvs st) i C)
    by (intros i C H; apply (ins_ext st st' (M ++ B) x i C Hx Hlv H)).
  intros HL Hn Hnx P a Q E i Hi.
  destruct (split_cmp _ _ _ _ _ _ E) as [[-> [-> ->]]|[[X [-> ->]]|[X [-> ->]]]].
  - rewrite Hlx in Hi. rewrite Hnx by exact Hi. destruct (Hpv i Hi) as [P' [Q' [EM [Hp Hn']]]].
    rewrite (HL P' (prevs i) (Q' ++ Q)); [|rewrite EM, <- app_assoc; reflexivity|exact Hp].
    rewrite nexti_app_none by exact Hn'. symmetry. apply ins_next_ext. intros c Hc. apply in_or_app. auto.
  - assert (Ha : In a (M ++ X ++ a :: Q)) by (apply in_or_app; right; apply in_mid).
    pose proof (ins_ne a Ha) as Hax. rewrite Hlv in Hi by exact Hax.
    rewrite Hn by exact Hax.
    destruct (Nat.ltb_spec i k) as [Hik|Hik]; cbn [andb].
    + destruct (Nat.eqb_spec a (prevs i)) as [Eap|].
      { exfalso. apply (nodup_app_disj M (X ++ a :: Q) a Hnd).
        - rewrite Eap. eapply prev_in. apply Hpv. exact Hik.
        - apply in_mid. }
      rewrite (HL (M ++ X) a Q); [|rewrite <- app_assoc; reflexivity|exact Hi].
      symmetry. apply ins_next_ext. intros c Hc. apply in_or_app. right. apply in_or_app. right. right. exact Hc.
    + rewrite (HL (M ++ X) a Q); [|rewrite <- app_assoc; reflexivity|exact Hi].
      symmetry. apply ins_next_ext. intros c Hc. apply in_or_app. right. apply in_or_app. right. right. exact Hc.
  - assert (Ha : In a ((P ++ a :: X) ++ B)) by (apply in_or_app; left; apply in_mid).
    assert (HX : forall c, In c X -> In c ((P ++ a :: X) ++ B)).
    { intros c Hc. apply in_or_app. left. apply in_or_app. right. right. exact Hc. }
    assert (HB : forall c, In c B -> In c ((P ++ a :: X) ++ B)) by (intros c Hc; apply in_or_app; auto).
    pose proof (ins_ne a Ha) as Hax. rewrite Hlv in Hi by exact Hax. rewrite Hn by exact Hax.
    pose proof (HL P a (X ++ B) ltac:(rewrite <- app_assoc; reflexivity) i Hi) as Hold.
    destruct (nexti (lvs st) i X) as [b|] eqn:EX.
    + assert (Hne : (i <? k) && (a =? prevs i) = false).
      { destruct (Nat.ltb_spec i k) as [Hik|]; [|reflexivity]. cbn [andb]. apply Nat.eqb_neq. intros Eap.
        apply (prev_iff (lvs st) i _ _ P a X (nodup_head _ _ Hnd) (Hpv i Hik) eq_refl Hi) in Eap. congruence. }
      rewrite Hne, Hold, (nexti_app_some _ _ _ _ _ EX).
      symmetry. apply nexti_app_some. rewrite ins_next_ext by exact HX. exact EX.
    + rewrite nexti_app_none by (rewrite ins_next_ext by exact HX; exact EX).
      cbn [nexti]. rewrite Hlx.
      destruct (Nat.ltb_spec i k) as [Hik|Hik].
      * assert (Eap : a = prevs i).
        { apply (prev_iff (lvs st) i _ _ P a X (nodup_head _ _ Hnd) (Hpv i Hik) eq_refl Hi). exact EX. }
        rewrite Eap at 1. rewrite Nat.eqb_refl. reflexivity.
      * cbn [andb]. rewrite Hold, nexti_app_none by exact EX. symmetry. apply ins_next_ext. exact HB.
Qed.

Lemma insert_widths mx st st' M B x k prevs : NoDup (M ++ B) -> ~ In x (M ++ B) ->
  (forall j, j < k -> is_prev (lvs st) j M (prevs j)) ->
  (forall c, c <> x -> lvs st' c = lvs st c) -> lvs st' x = k ->
  widths st (M ++ B) ->
  (forall j, j < mx -> is_prev (lvs st) j M (prevs j)) ->
  (forall c, In c (M ++ B) -> 1 <= lvs st c <= mx) -> 1 <= k ->
  (forall c j, In c (M ++ B) -> j < lvs st c -> n_width (st' c) j =
     if (1 <=? j) && (c =? prevs j)
     then if j <? k then (n_width (st c) j + 1 - dist (lvs st) j B)%Z else (n_width (st c) j + 1)%Z
     else n_width (st c) j) ->
  (forall j, j < k -> n_width (st' x) j = dist (lvs st) j B) ->
  widths st' (M ++ x :: B).
Proof.
  intros Hnd Hx Hpv Hlv Hlx.
  assert (ins_ne : forall c, In c (M ++ B) -> c <> x) by (intros c H ->; contradiction).
  assert (ins_next_ext : forall i C, (forall c, In c C -> In c (M ++ B)) -> nexti (lvs st') i C = nexti (lvs st) i C)
    by (intros i C H; apply (ins_ext st st' (M ++ B) x i C Hx Hlv H)).
  assert (ins_dist_ext : forall i C, (forall c, In c C -> In c (M ++ B)) -> dist (lvs st') i C = dist (lvs st) i C)
    by (intros i C H; apply (ins_ext st st' (M ++ B) x i C Hx Hlv H)).
  intros HW Hpv2 Hlvb Hk1 Hw Hwx P a Q E i Hi.
  destruct (split_cmp _ _ _ _ _ _ E) as [[-> [-> ->]]|[[X [-> ->]]|[X [-> ->]]]].
  - rewrite Hlx in Hi. rewrite Hwx by exact Hi. symmetry. apply ins_dist_ext. intros c Hc. apply in_or_app. auto.
  - assert (Ha : In a (M ++ X ++ a :: Q)) by (apply in_or_app; right; apply in_mid).
    pose proof (ins_ne a Ha) as Hax. rewrite Hlv in Hi by exact Hax.
    rewrite Hw by assumption.
    assert (Hne : (a =? prevs i) = false).
    { apply Nat.eqb_neq. intros Eap. apply (nodup_app_disj M (X ++ a :: Q) a Hnd).
      - rewrite Eap. eapply prev_in. apply Hpv2. specialize (Hlvb a Ha). lia.
      - apply in_mid. }
    rewrite Hne, andb_false_r.
    rewrite (HW (M ++ X) a Q); [|rewrite <- app_assoc; reflexivity|exact Hi].
    symmetry. apply ins_dist_ext. intros c Hc. apply in_or_app. right. apply in_or_app. right. right. exact Hc.
  - assert (Ha : In a ((P ++ a :: X) ++ B)) by (apply in_or_app; left; apply in_mid).
    assert (HX : forall c, In c X -> In c ((P ++ a :: X) ++ B)).
    { intros c Hc. apply in_or_app. left. apply in_or_app. right. right. exact Hc. }
    assert (HB : forall c, In c B -> In c ((P ++ a :: X) ++ B)) by (intros c Hc; apply in_or_app; auto).
    pose proof (ins_ne a Ha) as Hax. rewrite Hlv in Hi by exact Hax. rewrite Hw by assumption.
    pose proof (HW P a (X ++ B) ltac:(rewrite <- app_assoc; reflexivity) i Hi) as Hold.
    assert (Him : i < mx) by (specialize (Hlvb a Ha); lia).
    destruct i as [|i].
    { cbn [Nat.leb andb]. rewrite Hold. rewrite !dist0; [reflexivity| |].
      - intros b Hb. apply in_app_or in Hb. destruct Hb as [Hb|[<-|Hb]]; [|lia|].
        + rewrite Hlv by (apply ins_ne; auto). apply Hlvb. auto.
        + rewrite Hlv by (apply ins_ne; auto). apply Hlvb. auto.
      - intros b Hb. apply Hlvb. apply in_app_or in Hb. destruct Hb; auto. }
    change (1 <=? S i) with true. cbn [andb].
    destruct (nexti (lvs st) (S i) X) as [b|] eqn:EX.
    + assert (Hne : (a =? prevs (S i)) = false).
      { apply Nat.eqb_neq. intros Eap.
        apply (prev_iff (lvs st) (S i) _ _ P a X (nodup_head _ _ Hnd) (Hpv2 _ Him) eq_refl Hi) in Eap. congruence. }
      rewrite Hne, Hold. rewrite !(dist_app_some _ _ _ _ b) by (rewrite ?ins_next_ext by exact HX; exact EX).
      symmetry. apply ins_dist_ext. exact HX.
    + assert (Eap : a = prevs (S i)).
      { apply (prev_iff (lvs st) (S i) _ _ P a X (nodup_head _ _ Hnd) (Hpv2 _ Him) eq_refl Hi). exact EX. }
      rewrite <- Eap, Nat.eqb_refl, Hold. rewrite !dist_app_none by (rewrite ?ins_next_ext by exact HX; exact EX).
      cbn [dist]. rewrite Hlx. rewrite ins_dist_ext by exact HB.
      destruct (Nat.ltb_spec (S i) k); lia.
Qed.

Section Delete.
Variables (st st' : nat -> snode) (M B : list nat) (x mx : nat) (prevs : nat -> nat).
Hypothesis Hnd : NoDup (M ++ x :: B).
Hypothesis Hpv : forall j, j < mx -> is_prev (lvs st) j M (prevs j).
Hypothesis Hlv : forall c, lvs st' c = lvs st c.
Hypothesis Hmx : forall c, In c (M ++ x :: B) -> lvs st c <= mx.

Lemma del_next_ext i C : nexti (lvs st') i C = nexti (lvs st) i C.
Proof. apply nexti_ext. intros b _. apply Hlv. Qed.
Lemma del_dist_ext i C : dist (lvs st') i C = dist (lvs st) i C.
Proof. apply dist_ext. intros b _. apply Hlv. Qed.

Lemma del_B_prev a j X Q : B = X ++ a :: Q -> j < mx -> a <> prevs j.
Proof.
  intros E Hj Eap. apply (nodup_app_disj M (x :: B) a Hnd).
  - rewrite Eap. eapply prev_in, Hpv, Hj.
  - right. rewrite E. apply in_mid.
Qed.

Lemma delete_links : links st (M ++ x :: B) ->
  (forall c j, In c (M ++ B) -> j < mx -> n_next (st' c) j =
     if (j <? lvs st x) && (c =? prevs j) then n_next (st x) j else n_next (st c) j) ->
  links st' (M ++ B).
Proof.
  intros HL Hn P a Q E i Hi. rewrite Hlv in Hi. rewrite del_next_ext.
  assert (HinMB : In a (M ++ B)) by (rewrite E; apply in_mid).
  assert (Him : i < mx).
  { specialize (Hmx a). assert (In a (M ++ x :: B)); [|specialize (Hmx H); lia].
    apply in_app_or in HinMB. apply in_or_app. destruct HinMB; cbn; auto. }
  rewrite Hn by assumption.
  assert (Hcase : (exists X, B = X ++ a :: Q /\ P = M ++ X) \/ (exists X, M = P ++ a :: X /\ Q = X ++ B)).
  { clear - E. revert P E. induction M as [|m M' IH]; intros P E.
    - left. exists P. auto.
    - destruct P as [|p P]; cbn [app] in E; injection E as -> E.
      + right. exists M'. auto.
      + destruct (IH P E) as [[X [-> ->]]|[X [-> ->]]]; [left|right]; exists X; auto. }
  destruct Hcase as [[X [EB EP]]|[X [EM EQ]]].
  - assert (Hne : (a =? prevs i) = false) by (apply Nat.eqb_neq; eapply del_B_prev; eassumption).
    rewrite Hne, andb_false_r. apply (HL (M ++ x :: X) a Q); [|exact Hi].
    rewrite EB, <- app_assoc. reflexivity.
  - pose proof (HL P a (X ++ x :: B) ltac:(rewrite EM, <- app_assoc; reflexivity) i Hi) as Hold.
    pose proof (prev_iff (lvs st) i _ _ P a X (nodup_head _ _ Hnd) (Hpv i Him) EM Hi) as Hiff.
    subst Q. destruct (nexti (lvs st) i X) as [b|] eqn:EX.
    + assert (Hne : (a =? prevs i) = false) by (apply Nat.eqb_neq; intros Eap; apply Hiff in Eap; congruence).
      rewrite Hne, andb_false_r, Hold. rewrite !(nexti_app_some _ _ _ _ _ EX). reflexivity.
    + assert (Eap : a = prevs i) by (apply Hiff; reflexivity).
      rewrite <- Eap, Nat.eqb_refl, andb_true_r.
      rewrite nexti_app_none by exact EX.
      destruct (Nat.ltb_spec i (lvs st x)) as [Hix|Hix].
      * apply (HL M x B eq_refl i Hix).
      * rewrite Hold, nexti_app_none by exact EX. cbn [nexti].
        destruct (Nat.ltb_spec i (lvs st x)); [lia|reflexivity].
Qed.

Lemma delete_widths : widths st (M ++ x :: B) ->
  (forall c j, In c (M ++ B) -> j < mx -> n_width (st' c) j =
     if c =? prevs j then if j <? lvs st x then (n_width (st c) j + (n_width (st x) j - 1))%Z else (n_width (st c) j - 1)%Z
     else n_width (st c) j) ->
  widths st' (M ++ B).
Proof.
  intros HL Hn P a Q E i Hi. rewrite Hlv in Hi. rewrite del_dist_ext.
  assert (HinMB : In a (M ++ B)) by (rewrite E; apply in_mid).
  assert (Him : i < mx).
  { specialize (Hmx a). assert (In a (M ++ x :: B)); [|specialize (Hmx H); lia].
    apply in_app_or in HinMB. apply in_or_app. destruct HinMB; cbn; auto. }
  rewrite Hn by assumption.
  assert (Hcase : (exists X, B = X ++ a :: Q /\ P = M ++ X) \/ (exists X, M = P ++ a :: X /\ Q = X ++ B)).
  { clear - E. revert P E. induction M as [|m M' IH]; intros P E.
    - left. exists P. auto.
    - destruct P as [|p P]; cbn [app] in E; injection E as -> E.
      + right. exists M'. auto.
      + destruct (IH P E) as [[X [-> ->]]|[X [-> ->]]]; [left|right]; exists X; auto. }
  destruct Hcase as [[X [EB EP]]|[X [EM EQ]]].
  - assert (Hne : (a =? prevs i) = false) by (apply Nat.eqb_neq; eapply del_B_prev; eassumption).
    rewrite Hne. apply (HL (M ++ x :: X) a Q); [|exact Hi].
    rewrite EB, <- app_assoc. reflexivity.
  - pose proof (HL P a (X ++ x :: B) ltac:(rewrite EM, <- app_assoc; reflexivity) i Hi) as Hold.
    pose proof (prev_iff (lvs st) i _ _ P a X (nodup_head _ _ Hnd) (Hpv i Him) EM Hi) as Hiff.
    subst Q. destruct (nexti (lvs st) i X) as [b|] eqn:EX.
    + assert (Hne : (a =? prevs i) = false) by (apply Nat.eqb_neq; intros Eap; apply Hiff in Eap; congruence).
      rewrite Hne, Hold. rewrite !(dist_app_some _ _ _ _ _ EX). reflexivity.
    + assert (Eap : a = prevs i) by (apply Hiff; reflexivity).
      rewrite <- Eap, Nat.eqb_refl. rewrite Hold. rewrite !dist_app_none by exact EX. cbn [dist].
      destruct (Nat.ltb_spec i (lvs st x)) as [Hix|Hix].
      * rewrite (HL M x B eq_refl i Hix). lia.
      * lia.
Qed.
End Delete.

(** ** Loop of Remove *)
Lemma unlink_levels_ok prevs a n : forall i st,
  (forall j, i <= j < i + n -> j < n_lvl (st (prevs j)) /\ prevs j <> a) ->
  exists st', unlink_levels n i prevs a st = Ok st' /\ same_shape st st' /\
    (forall c j, n_next (st' c) j = if inr i n j && (j <? lvs st a) && (c =? prevs j) then n_next (st a) j else n_next (st c) j) /\
    (forall c j, n_width (st' c) j = if inr i n j && (c =? prevs j)
        then if j <? lvs st a then (n_width (st c) j + (n_width (st a) j - 1))%Z else (n_width (st c) j - 1)%Z
        else n_width (st c) j).
Proof.
  induction n as [|n IH]; intros i st H.
  - exists st. split; [reflexivity|]. split; [apply same_shape_refl|].
    assert (Hr : forall j, inr i 0 j = false).
    { intros j. unfold inr. destruct (Nat.leb_spec i j), (Nat.ltb_spec j (i + 0)); cbn; try reflexivity. lia. }
    split; intros c j; rewrite Hr; reflexivity.
  - cbn [unlink_levels]. destruct (H i ltac:(lia)) as [H1 H2].
    change (n_lvl (st a)) with (lvs st a).
    destruct (Nat.ltb_spec i (lvs st a)) as [Hi|Hi].
    + rewrite get_next_ok by exact Hi. cbn [bind].
      destruct (set_next_ok st (prevs i) i (n_next (st a) i) H1) as [st1 [E1 [S1 [N1 W1]]]]. rewrite E1. cbn [bind].
      rewrite !get_width_ok by (rewrite (proj1 (S1 _)); assumption). cbn [bind].
      destruct (set_width_ok st1 (prevs i) i (n_width (st1 (prevs i)) i + (n_width (st1 a) i - 1))%Z)
        as [st2 [E2 [S2 [W2 N2]]]].
      { rewrite (proj1 (S1 _)). exact H1. }
      rewrite E2. cbn [bind]. pose proof (same_shape_trans _ _ _ S1 S2) as S12.
      destruct (IH (S i) st2) as [st' [E' [S' [N' W']]]].
      { intros j Hj. rewrite !(proj1 (S12 _)). apply H. lia. }
      exists st'. split; [exact E'|]. split; [eapply same_shape_trans; eassumption|].
      pose proof (lvs_same _ _ a S12) as La. split; intros c j.
      * rewrite N', La, inr_S. destruct (Nat.eqb_spec j i) as [->|Hne].
        -- rewrite inr_self. cbn [orb andb]. rewrite N2, N1, Nat.eqb_refl, andb_true_r.
           destruct (Nat.ltb_spec i (lvs st a)); [|lia]. cbn [andb]. reflexivity.
        -- cbn [orb]. rewrite !N2, !N1. destruct (Nat.eqb_spec j i); [contradiction|]. rewrite !andb_false_r. reflexivity.
      * rewrite W', La, inr_S. destruct (Nat.eqb_spec j i) as [->|Hne].
        -- rewrite inr_self. cbn [orb andb]. rewrite W2, !W1, Nat.eqb_refl, andb_true_r.
           destruct (Nat.ltb_spec i (lvs st a)); [|lia].
           destruct (Nat.eqb_spec c (prevs i)) as [->|]; reflexivity.
        -- cbn [orb]. rewrite !W2, !W1. destruct (Nat.eqb_spec j i); [contradiction|]. rewrite !andb_false_r. reflexivity.
    + rewrite get_width_ok by exact H1. cbn [bind].
      destruct (set_width_ok st (prevs i) i (n_width (st (prevs i)) i - 1)%Z H1) as [st2 [E2 [S12 [W2 N2]]]].
      rewrite E2. cbn [bind].
      destruct (IH (S i) st2) as [st' [E' [S' [N' W']]]].
      { intros j Hj. rewrite !(proj1 (S12 _)). apply H. lia. }
      exists st'. split; [exact E'|]. split; [eapply same_shape_trans; eassumption|].
      pose proof (lvs_same _ _ a S12) as La. split; intros c j.
      * rewrite N', La, inr_S. destruct (Nat.eqb_spec j i) as [->|Hne].
        -- rewrite inr_self. cbn [orb andb]. rewrite N2.
           destruct (Nat.ltb_spec i (lvs st a)); [lia|]. reflexivity.
        -- cbn [orb]. rewrite !N2. reflexivity.
      * rewrite W', La, inr_S. destruct (Nat.eqb_spec j i) as [->|Hne].
        -- rewrite inr_self. cbn [orb andb]. rewrite W2, Nat.eqb_refl, andb_true_r.
           destruct (Nat.ltb_spec i (lvs st a)); [lia|].
           destruct (Nat.eqb_spec c (prevs i)) as [->|]; reflexivity.
        -- cbn [orb]. rewrite !W2. destruct (Nat.eqb_spec j i); [contradiction|]. rewrite !andb_false_r. reflexivity.
Qed.

(** ** Invariants between calls *)
Record LInv (s : skip) (L : list nat) : Prop := {
  li_max : 1 <= sk_max s;
  li_nd : NoDup (0 :: L);
  li_fresh : forall a, In a (0 :: L) -> a < sk_fresh s;
  li_head : lvs (sk_store s) 0 = sk_max s;
  li_lv : forall a, In a L -> 1 <= lvs (sk_store s) a <= sk_max s;
  li_nn : forall a, In a (0 :: L) -> nonnan (n_val (sk_store s a));
  li_sorted : sortedz (keys (vals (sk_store s) L));
  li_len : sk_len s = zlen L;
  li_links : links (sk_store s) (0 :: L) }.

Definition skeys (s : skip) (L : list nat) : list Z := keys (vals (sk_store s) L).

Lemma skeys_app s A B : skeys s (A ++ B) = skeys s A ++ skeys s B.
Proof. unfold skeys, vals. rewrite map_app. apply map_app. Qed.

(** Splitting at a value. *)
Lemma split_at s L v : LInv s L -> nonnan v ->
  exists A B, L = A ++ B /\
    (forall a, In a A -> flt (n_val (sk_store s a)) v = true) /\
    (forall b, In b B -> flt (n_val (sk_store s b)) v = false) /\
    (forall a, In a (skeys s A) -> (a < fk v)%Z) /\ (forall b, In b (skeys s B) -> (fk v <= b)%Z).
Proof.
  intros [_ _ _ _ _ Hnn Hs _ _] Hv.
  assert (Hnn' : forall a, In a L -> nonnan (n_val (sk_store s a))) by (intros; apply Hnn; right; assumption).
  clear Hnn. unfold skeys.
  assert (Hex : exists A B, L = A ++ B /\
    (forall a, In a A -> (fk (n_val (sk_store s a)) < fk v)%Z) /\
    (forall b, In b B -> (fk v <= fk (n_val (sk_store s b)))%Z)).
  { induction L as [|a L IH].
    - exists [], []. split; [reflexivity|]. split; intros ? [].
    - destruct (Z.ltb_spec (fk (n_val (sk_store s a))) (fk v)) as [H|H].
      + cbn [vals map keys] in Hs. apply sortedz_cons in Hs. destruct Hs as [Hs _].
        destruct IH as [A [B [-> [HA HB]]]]; [exact Hs|intros; apply Hnn'; right; assumption|].
        exists (a :: A), B. split; [reflexivity|]. split; [|exact HB]. intros c [<-|Hc]; auto.
      + exists [], (a :: L). split; [reflexivity|]. split; [intros ? []|].
        cbn [vals map keys] in Hs. apply sortedz_cons in Hs. destruct Hs as [_ Hs].
        intros c [<-|Hc]; [exact H|].
        assert ((fk (n_val (sk_store s a)) <= fk (n_val (sk_store s c)))%Z); [|lia].
        apply Hs. apply (in_map fk). apply (in_map (fun a => n_val (sk_store s a))). exact Hc. }
  destruct Hex as [A [B [-> [HA HB]]]]. exists A, B. split; [reflexivity|]. repeat split.
  - intros a Ha. rewrite flt_key by (auto; apply Hnn'; apply in_or_app; auto). apply Z.ltb_lt. auto.
  - intros b Hb. rewrite flt_key by (auto; apply Hnn'; apply in_or_app; auto). apply Z.ltb_ge. auto.
  - unfold keys, vals. intros z Hz. rewrite map_map in Hz. apply in_map_iff in Hz. destruct Hz as [a [<- Ha]]. auto.
  - unfold keys, vals. intros z Hz. rewrite map_map in Hz. apply in_map_iff in Hz. destruct Hz as [a [<- Ha]]. auto.
Qed.

Lemma linv_fuel s L : LInv s L -> length (0 :: L) <= sk_fresh s.
Proof.
  intros I. rewrite <- (seq_length (sk_fresh s) 0). apply NoDup_incl_length; [apply I|].
  intros a Ha. apply in_seq. pose proof (li_fresh _ _ I a Ha). lia.
Qed.

Lemma rand_level_bounds probs r left : forall level,
  level <= rand_level probs r level left <= level + left.
Proof.
  induction left as [|k IH]; intros level; cbn [rand_level]; [lia|].
  destruct (flt r (probs level)); [|lia]. specialize (IH (S level)). lia.
Qed.

Lemma linv_prevs s A B v : LInv s (A ++ B) ->
  (forall a, In a A -> flt (n_val (sk_store s a)) v = true) ->
  (forall b, In b B -> flt (n_val (sk_store s b)) v = false) ->
  exists r, get_prevs (sfuel s) (sk_store s) (sk_max s) v 0 = Ok r /\
    forall j, j < sk_max s -> is_prev (lvs (sk_store s)) j (0 :: A) (r j).
Proof.
  intros I HA HB.
  apply (get_prevs_spec (sk_store s) (0 :: A) v B (li_links _ _ I) HA HB (sk_max s) (sfuel s) [] 0 A eq_refl).
  - rewrite (li_head _ _ I). lia.
  - pose proof (linv_fuel _ _ I) as H. unfold sfuel. cbn [length] in *. rewrite app_length in H. lia.
Qed.

Lemma sorted_insert s A B v z : sortedz (skeys s (A ++ B)) -> z = fk v ->
  (forall a, In a (skeys s A) -> (a < fk v)%Z) -> (forall b, In b (skeys s B) -> (fk v <= b)%Z) ->
  skeys s A ++ z :: skeys s B = insz (fk v) (skeys s (A ++ B)).
Proof.
  intros Hs -> HA HB. rewrite skeys_app in *. apply sortedz_app in Hs. destruct Hs as [H1 [H2 H3]].
  apply sortedz_unique.
  - apply sortedz_app. split; [exact H1|]. split; [apply sortedz_cons; auto|].
    intros a b Ha [<-|Hb]; [specialize (HA a Ha); lia|auto].
  - apply insz_sorted. apply sortedz_app. auto.
  - rewrite insz_perm. symmetry. apply Permutation_middle.
Qed.

Definition same_params (s s' : skip) : Prop := sk_max s' = sk_max s /\ sk_probs s' = sk_probs s /\ sk_rnd s' = sk_rnd s.

(** Everything known about one Add: where the node goes, and the store just before the new widths are set. *)
Definition added (s s' : skip) (L L' : list nat) (v : f64) : Prop :=
  exists A B prevs k st3, let x := sk_fresh s in
    L = A ++ B /\ L' = A ++ x :: B /\ (forall a, In a (skeys s A) -> (a < fk v)%Z) /\ (forall b, In b (skeys s B) -> (fk v <= b)%Z) /\
    1 <= k <= sk_max s /\ ~ In x ((0 :: A) ++ B) /\ NoDup ((0 :: A) ++ B) /\
    (forall j, j < sk_max s -> is_prev (lvs (sk_store s)) j (0 :: A) (prevs j)) /\
    (forall c, c <> x -> lvs st3 c = lvs (sk_store s) c /\ n_val (st3 c) = n_val (sk_store s c)) /\ lvs st3 x = k /\ n_val (st3 x) = v /\
    links st3 ((0 :: A) ++ x :: B) /\ (forall c, In c ((0 :: A) ++ x :: B) -> nonnan (n_val (st3 c))) /\
    (forall c j, c <> x -> j < sk_max s -> n_width (st3 c) j = if (1 <=? j) && (c =? prevs j) then (n_width (sk_store s c) j + 1)%Z else n_width (sk_store s c) j) /\
    (forall j, j < k -> n_width (st3 x) j = if j =? 0 then 1%Z else 0%Z) /\
    new_widths (S (sfuel s)) (k - 1) 1 prevs x st3 = Ok (sk_store s').

Lemma skip_add_full s L v : LInv s L -> nonnan v ->
  exists s' L', (skip_add s v = Ok s' /\ LInv s' L' /\ sk_max s' = sk_max s /\
    skeys s' L' = insz (fk v) (skeys s L) /\
    (widths (sk_store s) (0 :: L) -> NoDup (insz (fk v) (skeys s L)) \/ sk_max s = 1 -> widths (sk_store s') (0 :: L'))) /\
    added s s' L L' v.
Proof.
  intros I Hv. destruct (split_at s L v I Hv) as [A [B [-> [HA [HB [HkA HkB]]]]]].
  destruct (linv_prevs s A B v I HA HB) as [prevs [Eprev Hpv]].
  unfold skip_add. rewrite Eprev. cbn [bind]. set (k := skip_rand_level s). set (x := sk_fresh s).
  assert (Hk : 1 <= k <= sk_max s).
  { unfold k, skip_rand_level. pose proof (rand_level_bounds (sk_probs s) (sk_rnd s (sk_draws s)) (sk_max s - 1) 1).
    pose proof (li_max _ _ I). lia. }
  pose proof (li_head _ _ I) as Hhead. set (st := sk_store s) in *.
  set (st0 := upd st x (SNode k (fun _ => None) (fun _ => 0%Z) v)).
  assert (Hxn : ~ In x ((0 :: A) ++ B)).
  { intros H. apply (li_fresh _ _ I) in H. unfold x in H. lia. }
  assert (Hx0 : forall c, c <> x -> st0 c = st c).
  { intros c Hc. unfold st0, upd. destruct (Nat.eqb_spec c x); [contradiction|reflexivity]. }
  assert (Hxx : st0 x = SNode k (fun _ => None) (fun _ => 0%Z) v) by (unfold st0, upd; rewrite Nat.eqb_refl; reflexivity).
  assert (Hin : forall j, j < sk_max s -> In (prevs j) (0 :: A)) by (intros j Hj; eapply prev_in, Hpv, Hj).
  assert (Hpx : forall j, j < sk_max s -> prevs j <> x).
  { intros j Hj E. apply Hxn. apply in_or_app. left. rewrite <- E. auto. }
  assert (Hplv : forall j, j < sk_max s -> j < n_lvl (st (prevs j))).
  { intros j Hj. destruct (Hpv j Hj) as [P [Q [_ [H _]]]]. exact H. }
  destruct (link_levels_ok prevs x k 0 st0) as [st1 [E1 [S1 [N1 W1]]]].
  { intros j Hj. rewrite Hxx. cbn [n_lvl]. split; [lia|]. split; [|apply Hpx; lia].
    rewrite Hx0 by (apply Hpx; lia). apply Hplv. lia. }
  rewrite E1. cbn [bind].
  destruct (set_width_ok st1 x 0 1%Z) as [st2 [E2 [S2 [W2 N2]]]].
  { rewrite (proj1 (S1 x)), Hxx. cbn [n_lvl]. lia. }
  rewrite E2. cbn [bind]. pose proof (same_shape_trans _ _ _ S1 S2) as S02.
  destruct (incr_widths_ok prevs (sk_max s - 1) 1 st2) as [st3 [E3 [S3 [W3 N3]]]].
  { intros j Hj. rewrite (proj1 (S02 _)), Hx0 by (apply Hpx; lia). apply Hplv. lia. }
  rewrite E3. cbn [bind]. pose proof (same_shape_trans _ _ _ S02 S3) as S03.
  assert (Nxt3 : forall c j, n_next (st3 c) j = n_next (st1 c) j) by (intros; rewrite N3, N2; reflexivity).
  assert (Lv3 : forall c, c <> x -> lvs st3 c = lvs st c).
  { intros c Hc. unfold lvs. rewrite (proj1 (S03 c)), Hx0 by exact Hc. reflexivity. }
  assert (Lx3 : lvs st3 x = k) by (unfold lvs; rewrite (proj1 (S03 x)), Hxx; reflexivity).
  assert (Ndm : NoDup ((0 :: A) ++ B)) by apply (li_nd _ _ I).
  assert (HL3 : links st3 ((0 :: A) ++ x :: B)).
  { apply (insert_links st st3 (0 :: A) B x k prevs); auto.
    - intros j Hj. apply Hpv. lia.
    - apply (li_links _ _ I).
    - intros c j Hc. rewrite Nxt3, N1. unfold inr. cbn [Nat.leb Nat.add andb].
      rewrite (Hx0 c Hc). destruct (Nat.ltb_spec j k); cbn [andb]; [|reflexivity].
      destruct (Nat.eqb_spec c x); [contradiction|]. reflexivity.
    - intros j Hj. rewrite Nxt3, N1. unfold inr. cbn [Nat.leb Nat.add andb].
      destruct (Nat.ltb_spec j k); [|lia]. rewrite Nat.eqb_refl.
      rewrite Hx0 by (apply Hpx; lia). reflexivity. }
  assert (Hv0 : forall c, In c ((0 :: A) ++ x :: B) -> nonnan (n_val (st3 c))).
  { intros c Hc. rewrite (proj2 (S03 c)). destruct (Nat.eq_dec c x) as [->|Hne].
    - rewrite Hxx. exact Hv.
    - rewrite Hx0 by exact Hne. apply (li_nn _ _ I). apply in_app_or in Hc.
      change (In c ((0 :: A) ++ B)). apply in_or_app. destruct Hc as [Hc|[Hc|Hc]]; [auto|congruence|auto]. }
  destruct (new_widths_ok prevs x (0 :: A) B (S (sfuel s))) with (n := k - 1) (i := 1) (st := st3)
    as [st4 [E4 [S4 [N4 [W4 D4]]]]]; auto.
  { pose proof (linv_fuel _ _ I) as H. unfold sfuel. cbn [length] in H. rewrite app_length in H. lia. }
  { intros j Hj. change (n_lvl (st3 x)) with (lvs st3 x). rewrite Lx3. split; [lia|].
    split; [|apply Hpx; lia]. rewrite (proj1 (S03 _)), Hx0 by (apply Hpx; lia). apply Hplv. lia. }
  fold x. rewrite E4. cbn [bind].
  pose proof (same_shape_trans _ _ _ S03 S4) as S04.
  assert (Lv4 : forall c, c <> x -> lvs st4 c = lvs st c).
  { intros c Hc. unfold lvs. rewrite (proj1 (S04 c)), Hx0 by exact Hc. reflexivity. }
  assert (Lx4 : lvs st4 x = k) by (unfold lvs; rewrite (proj1 (S04 x)), Hxx; reflexivity).
  assert (Hvals : forall C, (forall c, In c C -> c <> x) -> vals st4 C = vals st C).
  { intros C HC. unfold vals. apply map_ext_in. intros c Hc. rewrite (proj2 (S04 c)), Hx0 by auto. reflexivity. }
  assert (HAx : forall c, In c A -> c <> x) by (intros c Hc ->; apply Hxn; apply in_or_app; left; right; exact Hc).
  assert (HBx : forall c, In c B -> c <> x) by (intros c Hc ->; apply Hxn; apply in_or_app; right; exact Hc).
  assert (HLx : forall c, In c (A ++ B) -> c <> x) by (intros c Hc; apply in_app_or in Hc; destruct Hc; auto).
  assert (Hkeys : keys (vals st4 (A ++ x :: B)) = insz (fk v) (skeys s (A ++ B))).
  { rewrite <- (sorted_insert s A B v (fk v) (li_sorted _ _ I) eq_refl HkA HkB).
    unfold vals. rewrite map_app. cbn [map]. fold (vals st4 A) (vals st4 B). rewrite !Hvals by assumption.
    rewrite (proj2 (S04 x)), Hxx. cbn [n_val]. rewrite keys_app. reflexivity. }
  exists (Skip (sk_max s) st4 (S x) (sk_len s + 1)%Z (sk_probs s) (sk_rnd s) (S (sk_draws s))), (A ++ x :: B).
  split.
  2:{ exists A, B, prevs, k, st3. fold x. cbn zeta. cbn [sk_store]. repeat (split; [first [assumption | reflexivity | exact Hk] |]). split.
      { intros c Hc. split; [apply Lv3; exact Hc |]. rewrite (proj2 (S03 c)), Hx0 by exact Hc. reflexivity. }
      split; [exact Lx3 |]. split; [rewrite (proj2 (S03 x)), Hxx; reflexivity |]. split; [exact HL3 |]. split; [exact Hv0 |]. split; [| split; [| exact E4]].
      - intros c j Hc Hj. rewrite W3. unfold inr. replace (j <? 1 + (sk_max s - 1)) with true by (symmetry; apply Nat.ltb_lt; lia).
        rewrite andb_true_r. rewrite W2. destruct (Nat.eqb_spec c x); [contradiction|]. cbn [andb].
        rewrite W1, Hx0 by exact Hc. reflexivity.
      - intros j Hj. rewrite W3. destruct (Nat.eqb_spec x (prevs j)) as [E|]; [exfalso; apply (Hpx j); [lia|congruence]|].
        rewrite andb_false_r, W2, Nat.eqb_refl. cbn [andb]. destruct (Nat.eqb_spec j 0); [reflexivity |]. rewrite W1, Hxx. reflexivity. }
  split; [reflexivity|]. split; [|split; [reflexivity|split; [exact Hkeys|]]].
  - constructor; cbn [sk_max sk_store sk_fresh sk_len].
    + apply I.
    + change (0 :: A ++ x :: B) with ((0 :: A) ++ x :: B). apply NoDup_Add with (a := x) (l := (0 :: A) ++ B).
      * apply Add_app.
      * split; assumption.
    + intros a Ha. change (In a ((0 :: A) ++ x :: B)) in Ha. destruct (Nat.eq_dec a x) as [->|Hne]; [lia|].
      assert (Hao : In a ((0 :: A) ++ B)).
      { apply in_app_or in Ha. apply in_or_app. destruct Ha as [Ha|[Ha|Ha]]; [auto|congruence|auto]. }
      apply (li_fresh _ _ I) in Hao. unfold x. lia.
    + rewrite Lv4; [apply (li_head _ _ I)|]. intros E. apply Hxn. rewrite <- E. left. reflexivity.
    + intros a Ha. destruct (Nat.eq_dec a x) as [->|Hne]; [rewrite Lx4; exact Hk|].
      rewrite Lv4 by exact Hne. apply (li_lv _ _ I).
      apply in_app_or in Ha. apply in_or_app. destruct Ha as [Ha|[Ha|Ha]]; [auto|congruence|auto].
    + intros a Ha. change (In a ((0 :: A) ++ x :: B)) in Ha. rewrite (proj2 (S4 a)). apply Hv0. exact Ha.
    + rewrite Hkeys. apply insz_sorted, (li_sorted _ _ I).
    + rewrite (li_len _ _ I). unfold zlen. rewrite !app_length. cbn [length]. lia.
    + eapply links_ext; [exact S4| |exact HL3]. intros; apply N4.
  - intros HW Hdist. cbn [sk_store].
    assert (HW4 : forall c j, c <> x -> j < sk_max s -> n_width (st4 c) j =
       if (1 <=? j) && (c =? prevs j)
       then if j <? k then (n_width (st c) j + 1 - dist (lvs st) j B)%Z else (n_width (st c) j + 1)%Z
       else n_width (st c) j).
    { intros c j Hc Hj.
      assert (Hw3 : n_width (st3 c) j = if (1 <=? j) && (c =? prevs j) then (n_width (st c) j + 1)%Z else n_width (st c) j).
      { rewrite W3. unfold inr. replace (j <? 1 + (sk_max s - 1)) with true by (symmetry; apply Nat.ltb_lt; lia).
        rewrite andb_true_r. rewrite W2. destruct (Nat.eqb_spec c x); [contradiction|]. cbn [andb].
        rewrite W1, Hx0 by exact Hc. reflexivity. }
      destruct (inr 1 (k - 1) j) eqn:Ein.
      - unfold inr in Ein. apply andb_prop in Ein. destruct Ein as [Ein1 Ein2].
        apply Nat.leb_le in Ein1. apply Nat.ltb_lt in Ein2.
        assert (Hkk : 1 <= j < 1 + (k - 1)) by lia.
        destruct (Nat.eqb_spec c (prevs j)) as [->|Hcp].
        + destruct (D4) with (j := j) as [_ D]; auto.
          * destruct Hdist as [Hd|Hm]; [|lia].
            rewrite <- Hkeys in Hd. rewrite <- (vals_same _ _ (x :: B) S4).
            unfold vals in Hd. rewrite map_app in Hd. unfold keys in Hd. rewrite map_app in Hd.
            apply NoDup_tail in Hd. exact Hd.
          * intros j' Hj'. split.
            -- rewrite W3. destruct (Nat.eqb_spec x (prevs j')) as [E|]; [exfalso; apply (Hpx j'); [lia|congruence]|].
               rewrite andb_false_r, W2. destruct (Nat.eqb_spec j' 0); [lia|]. rewrite andb_false_r, W1, Hxx. reflexivity.
            -- intros H. apply (nodup_app_disj (0 :: A) B (prevs j') Ndm); [apply Hin; lia|exact H].
          * intros j' Hj' Hj2. assert (j' = 0) by lia. subst j'.
            rewrite W3. unfold inr. cbn [Nat.leb andb]. rewrite W2, Nat.eqb_refl. cbn [andb].
            symmetry. apply dist0. intros b Hb. rewrite Lv3 by (apply HBx; exact Hb). apply (li_lv _ _ I).
            apply in_or_app. auto.
          * intros P' c Q' j' EB Hj'. assert (Hcx : c <> x) by (apply HBx; rewrite EB; apply in_mid).
            rewrite Lv3 in Hj' by exact Hcx.
            assert (Hcb : In c (A ++ B)) by (apply in_or_app; right; rewrite EB; apply in_mid).
            assert (Hj'm : j' < sk_max s) by (pose proof (li_lv _ _ I c Hcb) as H; fold st in H; lia).
            rewrite W3. destruct (Nat.eqb_spec c (prevs j')) as [E|].
            { exfalso. apply (nodup_app_disj (0 :: A) B c Ndm); [rewrite E; apply Hin; exact Hj'm|].
              rewrite EB. apply in_mid. }
            rewrite andb_false_r, W2. destruct (Nat.eqb_spec c x); [contradiction|]. cbn [andb].
            rewrite W1, Hx0 by exact Hcx.
            rewrite (HW ((0 :: A) ++ P') c Q'); [| |exact Hj'].
            ** apply dist_ext. intros b Hb. symmetry. apply Lv3. apply HBx. rewrite EB.
               apply in_or_app. right. right. exact Hb.
            ** rewrite EB. change (0 :: A ++ P' ++ c :: Q') with ((0 :: A) ++ P' ++ c :: Q').
               rewrite <- app_assoc. reflexivity.
          * rewrite D, Hw3. destruct (Nat.leb_spec 1 j); [|lia]. cbn [andb].
            destruct (Nat.ltb_spec j k); [|lia]. f_equal. apply dist_ext.
            intros b Hb. apply Lv3, HBx, Hb.
        + rewrite W4 by auto. rewrite Hw3. destruct (Nat.eqb_spec c (prevs j)); [contradiction|].
          rewrite andb_false_r. reflexivity.
      - rewrite W4 by auto. rewrite Hw3.
        destruct ((1 <=? j) && (c =? prevs j)) eqn:Ec; [|reflexivity].
        apply andb_prop in Ec. destruct Ec as [Ec _]. apply Nat.leb_le in Ec.
        destruct (Nat.ltb_spec j k) as [Hjk|]; [|reflexivity].
        unfold inr in Ein. destruct (Nat.leb_spec 1 j), (Nat.ltb_spec j (1 + (k - 1))); cbn in Ein; try discriminate; lia. }
    change (0 :: A ++ x :: B) with ((0 :: A) ++ x :: B).
    apply (insert_widths (sk_max s) st st4 (0 :: A) B x k prevs); auto.
    + intros j Hj. apply Hpv. lia.
    + intros c [<-|Hc]; [rewrite Hhead; pose proof (li_max _ _ I); lia|apply (li_lv _ _ I); exact Hc].
    + lia.
    + intros c j Hc Hj. apply HW4.
      * intros ->. contradiction.
      * destruct Hc as [<-|Hc]; [rewrite Hhead in Hj; lia|]. pose proof (li_lv _ _ I c Hc) as H. fold st in H. lia.
    + intros j Hj. destruct j as [|j].
      * rewrite W4 by (left; reflexivity). rewrite W3. unfold inr. cbn [Nat.leb andb]. rewrite W2, Nat.eqb_refl. cbn [andb].
        symmetry. apply dist0. intros b Hb. apply (li_lv _ _ I). apply in_or_app. auto.
      * destruct D4 with (j := S j) as [D _]; [| | | |lia|].
        -- destruct Hdist as [Hd|Hm]; [|lia].
           rewrite <- Hkeys in Hd. rewrite <- (vals_same _ _ (x :: B) S4).
           unfold vals in Hd. rewrite map_app in Hd. unfold keys in Hd. rewrite map_app in Hd.
           apply NoDup_tail in Hd. exact Hd.
        -- intros j' Hj'. split.
            ++ rewrite W3. destruct (Nat.eqb_spec x (prevs j')) as [E|]; [exfalso; apply (Hpx j'); [lia|congruence]|].
               rewrite andb_false_r, W2. destruct (Nat.eqb_spec j' 0); [lia|]. rewrite andb_false_r, W1, Hxx. reflexivity.
            ++ intros H. apply (nodup_app_disj (0 :: A) B (prevs j') Ndm); [apply Hin; lia|exact H].
        -- intros j' Hj' Hj2. assert (j' = 0) by lia. subst j'.
           rewrite W3. unfold inr. cbn [Nat.leb andb]. rewrite W2, Nat.eqb_refl. cbn [andb].
           symmetry. apply dist0. intros b Hb. rewrite Lv3 by (apply HBx; exact Hb). apply (li_lv _ _ I).
           apply in_or_app. auto.
        -- intros P' c Q' j' EB Hj'. assert (Hcx : c <> x) by (apply HBx; rewrite EB; apply in_mid).
           rewrite Lv3 in Hj' by exact Hcx.
           assert (Hcb : In c (A ++ B)) by (apply in_or_app; right; rewrite EB; apply in_mid).
           assert (Hj'm : j' < sk_max s) by (pose proof (li_lv _ _ I c Hcb) as H; fold st in H; lia).
           rewrite W3. destruct (Nat.eqb_spec c (prevs j')) as [E|].
           { exfalso. apply (nodup_app_disj (0 :: A) B c Ndm); [rewrite E; apply Hin; exact Hj'm|].
             rewrite EB. apply in_mid. }
           rewrite andb_false_r, W2. destruct (Nat.eqb_spec c x); [contradiction|]. cbn [andb].
           rewrite W1, Hx0 by exact Hcx.
           rewrite (HW ((0 :: A) ++ P') c Q'); [| |exact Hj'].
           ** apply dist_ext. intros b Hb. symmetry. apply Lv3. apply HBx. rewrite EB.
              apply in_or_app. right. right. exact Hb.
           ** rewrite EB. change (0 :: A ++ P' ++ c :: Q') with ((0 :: A) ++ P' ++ c :: Q').
              rewrite <- app_assoc. reflexivity.
        -- rewrite D. apply dist_ext. intros b Hb. apply Lv3, HBx, Hb.
Qed.

Lemma skip_add_spec s L v : LInv s L -> nonnan v ->
  exists s' L', skip_add s v = Ok s' /\ LInv s' L' /\ sk_max s' = sk_max s /\
    skeys s' L' = insz (fk v) (skeys s L) /\
    (widths (sk_store s) (0 :: L) -> NoDup (insz (fk v) (skeys s L)) \/ sk_max s = 1 -> widths (sk_store s') (0 :: L')).
Proof. intros I Hv. destruct (skip_add_full s L v I Hv) as (s' & L' & H & _). exists s', L'. exact H. Qed.

(** Everything known about one Remove that finds its value *)
Definition removed (s s' : skip) (L L' : list nat) (v : f64) : Prop :=
  s' = s /\ L' = L \/
  exists A x B prevs, L = A ++ x :: B /\ L' = A ++ B /\ (forall a, In a (skeys s A) -> (a < fk v)%Z) /\ fk (n_val (sk_store s x)) = fk v /\
    (forall b, In b (skeys s B) -> (fk v <= b)%Z) /\
    (forall j, j < sk_max s -> is_prev (lvs (sk_store s)) j (0 :: A) (prevs j)) /\ same_shape (sk_store s) (sk_store s') /\
    (forall c j, j < sk_max s -> n_width (sk_store s' c) j = if c =? prevs j
        then if j <? lvs (sk_store s) x then (n_width (sk_store s c) j + (n_width (sk_store s x) j - 1))%Z else (n_width (sk_store s c) j - 1)%Z
        else n_width (sk_store s c) j).

Lemma skip_remove_full s L v : LInv s L -> nonnan v ->
  exists s' L', (skip_remove s v = Ok s' /\ LInv s' L' /\ sk_max s' = sk_max s /\
    skeys s' L' = remz (fk v) (skeys s L) /\
    (widths (sk_store s) (0 :: L) -> widths (sk_store s') (0 :: L'))) /\ removed s s' L L' v.
Proof.
  intros I Hv. destruct (split_at s L v I Hv) as [A [B [-> [HA [HB [HkA HkB]]]]]].
  destruct (linv_prevs s A B v I HA HB) as [prevs [Eprev Hpv]].
  unfold skip_remove. rewrite Eprev. cbn [bind]. pose proof (li_max _ _ I) as Hmax.
  destruct (Hpv 0 ltac:(lia)) as [P [Q [EM [Hp0 HnQ]]]].
  rewrite get_next_ok by exact Hp0. cbn [bind].
  rewrite (li_links _ _ I P (prevs 0) (Q ++ B)); [|change (0 :: A ++ B) with ((0 :: A) ++ B); rewrite EM, <- app_assoc; reflexivity|exact Hp0].
  rewrite nexti_app_none by exact HnQ.
  destruct B as [|x B].
  { cbn [nexti]. exists s, (A ++ []). split; [|left; auto]. split; [reflexivity|]. split; [exact I|]. split; [reflexivity|]. split; [|auto].
    symmetry. apply remz_notin. rewrite app_nil_r. intros H. specialize (HkA _ H). lia. }
  assert (HxL : In x (A ++ x :: B)) by apply in_mid.
  pose proof (li_lv _ _ I x HxL) as Hlx.
  cbn [nexti]. destruct (Nat.ltb_spec 0 (lvs (sk_store s) x)) as [_|]; [|lia].
  assert (Hnx : nonnan (n_val (sk_store s x))) by (apply (li_nn _ _ I); right; exact HxL).
  rewrite feq_key by assumption.
  destruct (Z.eqb_spec (fk (n_val (sk_store s x))) (fk v)) as [Heq|Hne].
  2:{ exists s, (A ++ x :: B). split; [|left; auto]. split; [reflexivity|]. split; [exact I|]. split; [reflexivity|]. split; [|auto].
      symmetry. apply remz_notin. rewrite skeys_app. intros H. apply in_app_or in H. destruct H as [H|H].
      - specialize (HkA _ H). lia.
      - cbn [skeys vals map keys] in H. destruct H as [H|H]; [congruence|].
        pose proof (li_sorted _ _ I) as Hs. unfold vals in Hs. rewrite map_app in Hs. cbn [map] in Hs.
        rewrite keys_app in Hs. cbn [keys map] in Hs.
        pose proof (sorted_parts _ _ _ Hs) as [_ [_ [_ Hhi]]]. specialize (Hhi _ H).
        specialize (HkB (fk (n_val (sk_store s x)))). cbn [skeys vals map keys In] in HkB.
        specialize (HkB ltac:(left; reflexivity)). lia. }
  pose proof (li_nd _ _ I) as Hnd. change (0 :: A ++ x :: B) with ((0 :: A) ++ x :: B) in Hnd.
  assert (Hin : forall j, j < sk_max s -> In (prevs j) (0 :: A)) by (intros j Hj; eapply prev_in, Hpv, Hj).
  destruct (unlink_levels_ok prevs x (sk_max s) 0 (sk_store s)) as [st' [E' [S' [N' W']]]].
  { intros j Hj. destruct (Hpv j ltac:(lia)) as [P' [Q' [_ [H _]]]]. split; [exact H|].
    intros Exx. apply (nodup_app_disj (0 :: A) (x :: B) x Hnd); [rewrite <- Exx; apply Hin; lia|left; reflexivity]. }
  rewrite E'. cbn [bind].
  assert (Hmx : forall c, In c ((0 :: A) ++ x :: B) -> lvs (sk_store s) c <= sk_max s).
  { intros c [<-|Hc]; [rewrite (li_head _ _ I); lia|apply (li_lv _ _ I); exact Hc]. }
  assert (Hsub : forall c, In c (A ++ B) -> In c (A ++ x :: B)).
  { intros c Hc. apply in_app_or in Hc. apply in_or_app. destruct Hc; cbn; auto. }
  assert (Hkeys : keys (vals st' (A ++ B)) = remz (fk v) (skeys s (A ++ x :: B))).
  { rewrite (vals_same _ _ _ S'). change (keys (vals (sk_store s) (A ++ B))) with (skeys s (A ++ B)).
    pose proof (li_sorted _ _ I) as Hs. fold (skeys s (A ++ x :: B)) in Hs.
    assert (Ek : skeys s (A ++ x :: B) = skeys s A ++ fk v :: skeys s B) by (rewrite skeys_app, <- Heq; reflexivity).
    rewrite Ek in *. rewrite skeys_app, remz_mid; [reflexivity| |].
    - apply (sorted_parts _ _ _ Hs).
    - intros a Ha. specialize (HkA a Ha). lia. }
  eexists (Skip (sk_max s) st' (sk_fresh s) (sk_len s - 1)%Z (sk_probs s) (sk_rnd s) (sk_draws s)), (A ++ B).
  split.
  2:{ right. exists A, x, B, prevs. cbn [sk_store]. repeat (split; [first [assumption | reflexivity] |]). split; [| split; [| split]]; auto.
      - intros b Hb. apply HkB. unfold skeys, vals, keys in *. cbn [map]. now right.
      - intros c j Hj. rewrite W'. unfold inr. cbn [Nat.leb Nat.add andb]. destruct (Nat.ltb_spec j (sk_max s)); [|lia]. reflexivity. }
  split; [reflexivity|]. split; [|split; [reflexivity|split; [exact Hkeys|]]].
  - constructor; cbn [sk_max sk_store sk_fresh sk_len].
    + exact Hmax.
    + change (0 :: A ++ B) with ((0 :: A) ++ B). eapply NoDup_remove_1. exact Hnd.
    + intros a [<-|Ha]; apply (li_fresh _ _ I); [left; reflexivity|right; auto].
    + rewrite (lvs_same _ _ _ S'). apply I.
    + intros a Ha. rewrite (lvs_same _ _ _ S'). apply (li_lv _ _ I). auto.
    + intros a Ha. rewrite (proj2 (S' a)). apply (li_nn _ _ I). destruct Ha as [<-|Ha]; [left; reflexivity|right; auto].
    + rewrite Hkeys. apply remz_sorted, (li_sorted _ _ I).
    + rewrite (li_len _ _ I). unfold zlen. rewrite !app_length. cbn [length]. lia.
    + change (0 :: A ++ B) with ((0 :: A) ++ B).
      apply (delete_links (sk_store s) st' (0 :: A) B x (sk_max s) prevs); auto.
      * intros c. apply (lvs_same _ _ _ S').
      * apply (li_links _ _ I).
      * intros c j Hc Hj. rewrite N'. unfold inr. cbn [Nat.leb Nat.add andb].
        destruct (Nat.ltb_spec j (sk_max s)); [|lia]. reflexivity.
  - intros HW. cbn [sk_store]. change (0 :: A ++ B) with ((0 :: A) ++ B).
    apply (delete_widths (sk_store s) st' (0 :: A) B x (sk_max s) prevs); auto.
    + intros c. apply (lvs_same _ _ _ S').
    + intros c j Hc Hj. rewrite W'. unfold inr. cbn [Nat.leb Nat.add andb].
      destruct (Nat.ltb_spec j (sk_max s)); [|lia]. reflexivity.
Qed.

Lemma skip_remove_spec s L v : LInv s L -> nonnan v ->
  exists s' L', skip_remove s v = Ok s' /\ LInv s' L' /\ sk_max s' = sk_max s /\
    skeys s' L' = remz (fk v) (skeys s L) /\
    (widths (sk_store s) (0 :: L) -> widths (sk_store s') (0 :: L')).
Proof. intros I Hv. destruct (skip_remove_full s L v I Hv) as (s' & L' & H & _). exists s', L'. exact H. Qed.

Lemma skip_empty_inv s : 1 <= sk_max s -> sk_store s 0 = empty_head (sk_max s) -> 0 < sk_fresh s -> sk_len s = 0%Z ->
  LInv s [] /\ widths (sk_store s) [0].
Proof.
  intros Hm Hh Hf Hl.
  assert (Hsp : forall A a B, [0] = A ++ a :: B -> a = 0 /\ B = []).
  { intros A a B E. destruct A as [|y A]; cbn in E; injection E as <- E; [auto|]. destruct A; discriminate. }
  split; [constructor|]; auto.
  - constructor; [intros []|constructor].
  - intros a [<-|[]]. exact Hf.
  - unfold lvs. rewrite Hh. reflexivity.
  - intros a [].
  - intros a [<-|[]]. rewrite Hh. reflexivity.
  - apply sortedz_nil.
  - intros A a B E i Hi. destruct (Hsp _ _ _ E) as [-> ->]. rewrite Hh. reflexivity.
  - intros A a B E i Hi. destruct (Hsp _ _ _ E) as [-> ->]. rewrite Hh. reflexivity.
Qed.

(** ** Histories *)
Definition SkInv (mx : nat) (ks : list Z) (s : skip) : Prop :=
  sk_max s = mx /\ exists L, LInv s L /\ skeys s L = ks.
Definition SkWInv (mx : nat) (ks : list Z) (s : skip) : Prop :=
  sk_max s = mx /\ exists L, LInv s L /\ skeys s L = ks /\ widths (sk_store s) (0 :: L).

Lemma skip_reach mx probs rnd ops : 1 <= mx -> Forall sop_nonnan ops ->
  exists s, skip_run mx probs rnd ops = Ok s /\ SkInv mx (sortz (keys (bag ops))) s.
Proof.
  intros Hm Hn. unfold skip_run. apply (srun_inv skip_add skip_remove skip_clear (SkInv mx)); [| | | |exact Hn].
  - split; [reflexivity|]. exists []. split; [|reflexivity]. apply skip_empty_inv; cbn; auto.
  - intros ks s v _ [Em [L [I <-]]] Hv. destruct (skip_add_spec s L v I Hv) as [s' [L' [E [I' [Em' [Hk _]]]]]].
    exists s'. split; [exact E|]. split; [congruence|]. eauto.
  - intros ks s v _ [Em [L [I <-]]] Hv. destruct (skip_remove_spec s L v I Hv) as [s' [L' [E [I' [Em' [Hk _]]]]]].
    exists s'. split; [exact E|]. split; [congruence|]. eauto.
  - intros ks s _ [Em [L [I <-]]]. eexists. split; [reflexivity|]. split; [exact Em|]. exists [].
    split; [|reflexivity]. apply skip_empty_inv; cbn [sk_max sk_store sk_fresh sk_len upd]; auto.
    + apply I.
    + apply (li_fresh _ _ I). left. reflexivity.
Qed.

(** Every Add stores a value not stored yet. *)
Definition distinct_adds (ops : list sop) : Prop :=
  forall p v q, ops = p ++ SAdd v :: q -> count_eq v (bag p) = 0.

Lemma remz_nodup z l : NoDup l -> NoDup (remz z l).
Proof.
  intros H. destruct (in_dec Z.eq_dec z l) as [Hi|Hn]; [|rewrite remz_notin; auto].
  pose proof (Permutation_NoDup (remz_perm_in z l Hi) H) as H'. apply NoDup_cons_iff in H'. tauto.
Qed.

Lemma skip_reach_w mx probs rnd ops : 1 <= mx -> Forall sop_nonnan ops -> distinct_adds ops \/ mx = 1 ->
  exists s, skip_run mx probs rnd ops = Ok s /\ SkWInv mx (sortz (keys (bag ops))) s /\
    (NoDup (sortz (keys (bag ops))) \/ mx = 1).
Proof.
  intros Hm. induction ops as [|o ops IH] using rev_ind; intros Hn H1.
  - exists (skip_new mx probs rnd). split; [reflexivity|]. split; [split; [reflexivity|]|left; constructor].
    exists []. destruct (skip_empty_inv (skip_new mx probs rnd)); cbn; auto.
  - apply Forall_app in Hn. destruct Hn as [Hn Ho]. apply Forall_inv in Ho.
    destruct IH as [s [Hs [[Em [L [I [Hk HW]]]] Hnd]]]; [exact Hn| |].
    { destruct H1 as [H1|H1]; [left|right; exact H1].
      intros p v q E. apply (H1 p v (q ++ [o])). rewrite E, <- app_assoc. reflexivity. }
    unfold skip_run in *. rewrite srun_snoc, Hs, bag_snoc. cbn [bind].
    destruct o as [v|v|]; cbn [srun bag_step].
    + destruct (skip_add_spec s L v I Ho) as [s' [L' [E [I' [Em' [Hk' HW']]]]]]. rewrite E. cbn [bind].
      assert (Hnd' : NoDup (insz (fk v) (skeys s L)) \/ mx = 1).
      { destruct H1 as [H1|H1]; [|auto]. destruct Hnd as [Hnd|]; [left|auto].
        apply (Permutation_NoDup (Permutation_sym (insz_perm (fk v) (skeys s L)))). rewrite Hk. constructor; [|exact Hnd].
        intros Hi. specialize (H1 ops v [] eq_refl). rewrite count_eq_keys in H1 by (auto using bag_nonnan).
        apply length_zero_iff_nil in H1.
        apply (Permutation_in _ (sortz_perm _)) in Hi.
        assert (Hf : In (fk v) (filter (fun z => z =? fk v)%Z (keys (bag ops)))).
        { apply filter_In. split; [exact Hi|apply Z.eqb_refl]. }
        rewrite H1 in Hf. destruct Hf. }
      exists s'. split; [reflexivity|]. cbn [keys map]. rewrite sortz_ins. rewrite Hk in *. split; [|exact Hnd'].
      split; [congruence|]. exists L'. split; [exact I'|]. split; [exact Hk'|]. apply HW'; [exact HW|]. rewrite Em. exact Hnd'.
    + destruct (skip_remove_spec s L v I Ho) as [s' [L' [E [I' [Em' [Hk' HW']]]]]]. rewrite E. cbn [bind].
      exists s'. split; [reflexivity|]. rewrite remove_one_keys, sortz_rem by (auto using bag_nonnan).
      rewrite Hk in *. split.
      * split; [congruence|]. exists L'. auto.
      * destruct Hnd; [left; apply remz_nodup; assumption|auto].
    + eexists. split; [reflexivity|]. split; [|left; constructor]. split; [exact Em|]. exists [].
      destruct (skip_empty_inv (Skip (sk_max s) (upd (sk_store s) 0 (empty_head (sk_max s))) (sk_fresh s) 0
           (sk_probs s) (sk_rnd s) (sk_draws s))); cbn [sk_max sk_store sk_fresh sk_len upd]; auto.
      * apply I.
      * apply (li_fresh _ _ I). left. reflexivity.
Qed.

(** ** Bottom level *)
Lemma bottom_walk_ok st : forall L fuel P a, links st (P ++ a :: L) -> 1 <= lvs st a ->
  (forall b, In b L -> 1 <= lvs st b) -> length L < fuel -> bottom_walk fuel st a = Ok (vals st L).
Proof.
  induction L as [|b L IH]; intros [|fuel] P a HL Ha Hb Hf; cbn [length] in Hf; try lia; cbn [bottom_walk];
    rewrite get_next_ok by exact Ha; cbn [bind]; rewrite (HL P a _ eq_refl 0 Ha); cbn [nexti]; [reflexivity|].
  destruct (Nat.ltb_spec 0 (lvs st b)) as [_|H]; [|specialize (Hb b ltac:(left; reflexivity)); lia].
  rewrite (IH fuel (P ++ [a]) b).
  - reflexivity.
  - rewrite <- app_assoc. exact HL.
  - apply Hb. left. reflexivity.
  - intros c Hc. apply Hb. right. exact Hc.
  - lia.
Qed.

(** [es] lists the bag [b] in nondecreasing order. *)
Definition sorted_list_of (b es : list f64) : Prop :=
  same_values b es /\ forall i j x y, i < j -> nth_error es i = Some x -> nth_error es j = Some y -> fle x y = true.

Lemma sorted_list_keys b es : Forall nonnan b -> Forall nonnan es -> keys es = sortz (keys b) -> sorted_list_of b es.
Proof.
  intros Hb He Hk. split.
  - intros v Hv. rewrite !count_eq_keys by assumption. rewrite Hk.
    symmetry. apply Permutation_length, filter_perm, sortz_perm.
  - intros i j x y Hij Hi Hj.
    assert (Hx : nonnan x) by (rewrite Forall_forall in He; apply He; eapply nth_error_In; eassumption).
    assert (Hy : nonnan y) by (rewrite Forall_forall in He; apply He; eapply nth_error_In; eassumption).
    rewrite fle_key by assumption. apply Z.leb_le.
    pose proof (sortz_sorted (keys b)) as Hs. rewrite <- Hk in Hs.
    clear - Hij Hi Hj Hs. revert i j Hij Hi Hj. induction es as [|e es IH]; intros i j Hij Hi Hj; [destruct i; discriminate|].
    cbn [keys map] in Hs. apply sortedz_cons in Hs. destruct Hs as [Hs H1].
    destruct j as [|j]; [lia|]. cbn [nth_error] in Hj. destruct i as [|i]; cbn [nth_error] in Hi.
    + injection Hi as <-. apply H1. apply in_map. eapply nth_error_In. eassumption.
    + apply (IH Hs i j); auto. lia.
Qed.

Lemma linv_vals_nn s L : LInv s L -> Forall nonnan (vals (sk_store s) L).
Proof.
  intros I. apply Forall_forall. intros x Hx. unfold vals in Hx. apply in_map_iff in Hx. destruct Hx as [a [<- Ha]].
  apply (li_nn _ _ I). right. exact Ha.
Qed.

Lemma linv_len s L b : LInv s L -> skeys s L = sortz (keys b) -> length L = length b.
Proof.
  intros I Hk. rewrite <- (keys_length b), <- (Permutation_length (sortz_perm (keys b))), <- Hk.
  unfold skeys, keys, vals. rewrite !map_length. reflexivity.
Qed.

Lemma linv_bottom s L : LInv s L -> skip_bottom s = Ok (vals (sk_store s) L).
Proof.
  intros I. apply (bottom_walk_ok (sk_store s) L (sfuel s) [] 0).
  - apply (li_links _ _ I).
  - rewrite (li_head _ _ I). apply I.
  - intros b Hb. apply (li_lv _ _ I b Hb).
  - pose proof (linv_fuel _ _ I) as H. unfold sfuel. cbn [length] in H. lia.
Qed.

Lemma skip_correct mx probs rnd ops : 1 <= mx -> Forall sop_nonnan ops ->
  exists s es, skip_run mx probs rnd ops = Ok s /\ skip_size s = zlen (bag ops) /\
    skip_bottom s = Ok es /\ sorted_list_of (bag ops) es.
Proof.
  intros Hm Hn. destruct (skip_reach mx probs rnd ops Hm Hn) as [s [Hs [Em [L [I Hk]]]]].
  exists s, (vals (sk_store s) L). split; [exact Hs|]. split.
  - unfold skip_size. rewrite (li_len _ _ I). unfold zlen. rewrite (linv_len _ _ _ I Hk). reflexivity.
  - split; [apply linv_bottom; exact I|]. apply sorted_list_keys; auto using bag_nonnan, linv_vals_nn.
Qed.

(** ** Select *)
Lemma select_walk_ok st M i k : links st M -> widths st M -> (k < zlen M)%Z ->
  forall fuel P a Q, M = P ++ a :: Q -> i < lvs st a -> (zlen P <= k)%Z -> length Q < fuel ->
  exists P' a' Q', select_walk fuel st i k (Some a) (zlen P) = Ok (Some a', zlen P') /\ M = P' ++ a' :: Q' /\
    i < lvs st a' /\ (zlen P' <= k < zlen P' + dist (lvs st) i Q')%Z.
Proof.
  intros HL HW Hk. induction fuel as [|fuel IH]; [lia|]. intros P a Q E Ha Hp Hf.
  cbn [select_walk]. rewrite get_width_ok by exact Ha. cbn [bind]. rewrite (HW _ _ _ E i Ha).
  destruct (Z.leb_spec (zlen P + dist (lvs st) i Q) k) as [H|H].
  - rewrite get_next_ok by exact Ha. cbn [bind]. rewrite (HL _ _ _ E i Ha).
    destruct (nexti (lvs st) i Q) as [b|] eqn:Eb.
    + destruct (nexti_some _ _ _ _ Eb) as [Q1 [Q2 [EQ [Hb Hn]]]].
      rewrite EQ in *. rewrite dist_hit in * by assumption.
      replace (zlen P + (zlen Q1 + 1))%Z with (zlen (P ++ a :: Q1)) in *
        by (unfold zlen; rewrite app_length; cbn [length]; lia).
      apply (IH (P ++ a :: Q1) b Q2); auto.
      * rewrite E, <- app_assoc. reflexivity.
      * rewrite app_length in Hf. cbn [length] in Hf. lia.
    + rewrite dist_none in H by exact Eb. rewrite E in Hk. unfold zlen in *. rewrite app_length in Hk. cbn [length] in Hk. lia.
  - exists P, a, Q. repeat split; auto; lia.
Qed.

Lemma select_levels_ok st M k fuel : links st M -> widths st M -> (0 <= k < zlen M)%Z ->
  (forall a, In a M -> 1 <= lvs st a) -> length M <= fuel ->
  forall i P a Q, M = P ++ a :: Q -> i <= lvs st a -> (zlen P <= k)%Z ->
  (i = 0 -> zlen P = k) ->
  exists b, select_levels fuel st i k (Some a) (zlen P) = Ok (Some b) /\ nth_error M (Z.to_nat k) = Some b.
Proof.
  intros HL HW Hk Hlv Hf. induction i as [|i IH]; intros P a Q E Ha Hp H0.
  - exists a. split; [reflexivity|]. rewrite E, <- H0 by reflexivity. unfold zlen. rewrite Nat2Z.id.
    rewrite nth_error_app2, Nat.sub_diag by lia. reflexivity.
  - cbn [select_levels].
    destruct (select_walk_ok st M i k HL HW (proj2 Hk) fuel P a Q E ltac:(lia) Hp) as [P' [a' [Q' [Ew [E' [Ha' Hk']]]]]].
    { rewrite E, app_length in Hf. cbn [length] in Hf. lia. }
    rewrite Ew. cbn [bind fst snd]. apply (IH P' a' Q' E'); [lia|lia|].
    intros ->. rewrite dist0 in Hk'; [lia|]. intros b Hb. apply Hlv. rewrite E'. apply in_or_app. right. right. exact Hb.
Qed.

Lemma winv_select s L k : LInv s L -> widths (sk_store s) (0 :: L) ->
  skip_select s k = Ok (if ((k <? 0) || (k >=? zlen L))%Z then None else nth_error (vals (sk_store s) L) (Z.to_nat k)).
Proof.
  intros I HW. unfold skip_select. rewrite (li_len _ _ I).
  destruct (Z.ltb_spec k 0) as [H|H]; [reflexivity|]. destruct (Z.geb_spec k (zlen L)) as [H'|H']; [reflexivity|].
  cbn [orb].
  destruct (select_levels_ok (sk_store s) (0 :: L) (k + 1) (sfuel s) (li_links _ _ I) HW) with
    (i := sk_max s) (P := @nil nat) (a := 0) (Q := L) as [b [Eb Hb]].
  - unfold zlen in *. cbn [length]. lia.
  - intros a [<-|Ha]; [rewrite (li_head _ _ I); apply I|apply (li_lv _ _ I a Ha)].
  - pose proof (linv_fuel _ _ I). unfold sfuel. lia.
  - reflexivity.
  - rewrite (li_head _ _ I). lia.
  - unfold zlen. cbn [length]. lia.
  - intros E0. pose proof (li_max _ _ I). lia.
  - change (zlen (@nil nat)) with 0%Z in Eb. rewrite Eb. cbn [bind]. do 2 f_equal.
    replace (Z.to_nat (k + 1)) with (S (Z.to_nat k)) in Hb by lia. cbn [nth_error] in Hb.
    unfold vals. symmetry. apply (map_nth_error (fun a => n_val (sk_store s a))). exact Hb.
Qed.

(** ** Rank *)
Lemma rank_walk_ok st M B v i : links st (M ++ B) -> widths st (M ++ B) ->
  (forall b, In b (tl M) -> flt (n_val (st b)) v = true) ->
  (forall b, In b B -> flt (n_val (st b)) v = false) ->
  forall fuel P a Q, M = P ++ a :: Q -> i < lvs st a -> length Q < fuel ->
  exists P' a' Q', rank_walk fuel st i v a (zlen P) = Ok (a', zlen P') /\ M = P' ++ a' :: Q' /\
    i < lvs st a' /\ nexti (lvs st) i Q' = None.
Proof.
  intros HL HW HA HB. induction fuel as [|fuel IH]; [lia|]. intros P a Q E Ha Hf.
  cbn [rank_walk]. rewrite get_next_ok by exact Ha. cbn [bind].
  assert (EM : M ++ B = P ++ a :: (Q ++ B)) by (rewrite E, <- app_assoc; reflexivity).
  rewrite (HL _ _ _ EM i Ha).
  destruct (nexti (lvs st) i Q) as [b|] eqn:EQ.
  - rewrite (nexti_app_some _ _ _ _ _ EQ).
    destruct (nexti_some _ _ _ _ EQ) as [Q1 [Q2 [EQ2 [Hb Hn]]]].
    assert (HbM : In b (tl M)).
    { rewrite E, EQ2. destruct P; cbn [app tl]; apply in_or_app; right; [|right; apply in_or_app; right];
        left; reflexivity. }
    rewrite HA by exact HbM. rewrite get_width_ok by exact Ha. cbn [bind]. rewrite (HW _ _ _ EM i Ha).
    rewrite (dist_app_some _ _ _ _ _ EQ), EQ2, dist_hit by assumption.
    replace (zlen P + (zlen Q1 + 1))%Z with (zlen (P ++ a :: Q1)) by (unfold zlen; rewrite app_length; cbn [length]; lia).
    apply (IH (P ++ a :: Q1) b Q2); [rewrite E, EQ2, <- app_assoc; reflexivity|exact Hb|].
    rewrite EQ2, app_length in Hf. cbn [length] in Hf. lia.
  - rewrite nexti_app_none by exact EQ.
    destruct (nexti (lvs st) i B) as [b|] eqn:EB.
    + rewrite HB; [exists P, a, Q; auto|]. destruct (nexti_some _ _ _ _ EB) as [B1 [B2 [-> _]]]. apply in_mid.
    + exists P, a, Q. auto.
Qed.

Lemma rank_levels_ok st M B v fuel : links st (M ++ B) -> widths st (M ++ B) ->
  (forall b, In b (tl M) -> flt (n_val (st b)) v = true) ->
  (forall b, In b B -> flt (n_val (st b)) v = false) ->
  (forall a, In a M -> 1 <= lvs st a) -> length M <= fuel ->
  forall i P a Q, M = P ++ a :: Q -> i <= lvs st a -> (i = 0 -> Q = []) ->
  rank_levels fuel st i v a (zlen P) = Ok (zlen M - 1)%Z.
Proof.
  intros HL HW HA HB Hlv Hf. induction i as [|i IH]; intros P a Q E Ha H0.
  - cbn [rank_levels]. f_equal. rewrite E, (H0 eq_refl). unfold zlen. rewrite app_length. cbn [length]. lia.
  - cbn [rank_levels].
    destruct (rank_walk_ok st M B v i HL HW HA HB fuel P a Q E ltac:(lia)) as [P' [a' [Q' [Ew [E' [Ha' Hn]]]]]].
    { rewrite E, app_length in Hf. cbn [length] in Hf. lia. }
    rewrite Ew. cbn [bind fst snd]. apply (IH P' a' Q' E'); [lia|]. intros ->.
    destruct Q' as [|q Q']; [reflexivity|]. pose proof (nexti_none _ _ _ Hn q ltac:(left; reflexivity)).
    specialize (Hlv q). rewrite E' in Hlv. assert (In q (P' ++ a' :: q :: Q')); [|specialize (Hlv H1); lia].
    apply in_or_app. right. right. left. reflexivity.
Qed.

Lemma winv_rank s L b v : LInv s L -> widths (sk_store s) (0 :: L) -> nonnan v -> Forall nonnan b ->
  skeys s L = sortz (keys b) -> skip_rank s v = Ok (Z.of_nat (count_lt v b)).
Proof.
  intros I HW Hv Hb Hk. destruct (split_at s L v I Hv) as [A [B [-> [HA [HB [HkA HkB]]]]]].
  unfold skip_rank. change 0%Z with (zlen (@nil nat)).
  rewrite (rank_levels_ok (sk_store s) (0 :: A) B v (sfuel s)) with (Q := A); auto.
  - f_equal. rewrite count_lt_keys by assumption.
    rewrite <- (Permutation_length (filter_perm _ _ _ (sortz_perm (keys b)))), <- Hk, skeys_app, filter_app.
    rewrite filter_all by (intros z Hz; apply Z.ltb_lt; auto).
    rewrite filter_none by (intros z Hz; apply Z.ltb_ge; auto).
    rewrite app_nil_r. unfold skeys, keys, vals. rewrite !map_length. unfold zlen. cbn [length]. lia.
  - apply (li_links _ _ I).
  - intros a [<-|Ha]; [rewrite (li_head _ _ I); apply I|apply (li_lv _ _ I a)]. apply in_or_app. auto.
  - pose proof (linv_fuel _ _ I) as H. unfold sfuel. cbn [length] in *. rewrite app_length in H. lia.
  - rewrite (li_head _ _ I). lia.
  - intros E0. pose proof (li_max _ _ I). lia.
Qed.

(** [select] with a possible panic. *)
Definition rselect_ok (b : list f64) (select : Z -> res (option f64)) : Prop :=
  forall k, (0 <= k < zlen b)%Z /\ (exists v, select k = Ok (Some v) /\ is_kth b (Z.to_nat k) v) \/
            ~ (0 <= k < zlen b)%Z /\ select k = Ok None.

Lemma skip_select_correct mx probs rnd ops : 1 <= mx -> Forall sop_nonnan ops -> distinct_adds ops \/ mx = 1 ->
  exists s, skip_run mx probs rnd ops = Ok s /\ rselect_ok (bag ops) (skip_select s) /\
    forall v, nonnan v -> skip_rank s v = Ok (Z.of_nat (count_lt v (bag ops))).
Proof.
  intros Hm Hn Hd. destruct (skip_reach_w mx probs rnd ops Hm Hn Hd) as [s [Hs [[Em [L [I [Hk HW]]]] _]]].
  exists s. split; [exact Hs|]. split.
  - assert (Hsel : select_ok (bag ops) (fun k => if ((k <? 0) || (k >=? zlen L))%Z then None
                                       else nth_error (vals (sk_store s) L) (Z.to_nat k))).
    { apply (select_from_sorted _ (vals (sk_store s) L)); auto using bag_nonnan, linv_vals_nn.
      - intros k Hk0. destruct (Z.ltb_spec k 0); [lia|]. destruct (Z.geb_spec k (zlen L)) as [H1|H1]; [|reflexivity].
        symmetry. apply nth_error_None. unfold vals. rewrite map_length. unfold zlen in H1. lia.
      - intros k Hk0. destruct (Z.ltb_spec k 0); [reflexivity|lia]. }
    intros k. rewrite (winv_select s L k I HW). destruct (Hsel k) as [[H1 [v [H2 H3]]]|[H1 H2]].
    + left. split; [exact H1|]. exists v. split; [f_equal; exact H2|exact H3].
    + right. split; [exact H1|]. f_equal. exact H2.
  - intros v Hv. apply (winv_rank s L (bag ops) v); auto using bag_nonnan.
Qed.
