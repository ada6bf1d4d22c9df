(** Proofs about RbModel.v. *)
From Coq Require Import Permutation.
From Verif Require Import Base F64 OrderSpec MultisetSpec SortLib AvlProof RbModel.

(** ** Shape specification *)
Fixpoint relems (t : rb) : list f64 :=
  match t with RLeaf => [] | RNode l r v _ _ => relems l ++ v :: relems r end.

Fixpoint rtrue_height (t : rb) : Z :=
  match t with RLeaf => -1 | RNode l r _ _ _ => Z.max (rtrue_height l) (rtrue_height r) + 1 end.

(** [llrb t c h]: root colour [c], [h] black nodes on every path to nil, no red
    right child, no two reds in a row. *)
Inductive llrb : rb -> color -> nat -> Prop :=
| ll_leaf : llrb RLeaf Black 0
| ll_red l r v s h : llrb l Black h -> llrb r Black h -> llrb (RNode l r v Red s) Red h
| ll_black l r v s c h : llrb l c h -> llrb r Black h -> llrb (RNode l r v Black s) Black (S h).

(** The invariant between calls: like [llrb] except that the colour of the root is arbitrary. *)
Definition rroot (t : rb) : Prop :=
  match t with
  | RLeaf => True
  | RNode l r _ _ _ => exists c h, llrb l c h /\ llrb r Black h
  end.

(** Stored sizes are right. *)
Fixpoint rsz (t : rb) : Prop :=
  match t with
  | RLeaf => True
  | RNode l r _ _ s => rsz l /\ rsz r /\ s = (rsize l + rsize r + 1)%Z
  end.

(** Sizes right below the root. *)
Definition rsz_below (t : rb) : Prop :=
  match t with RLeaf => True | RNode l r _ _ _ => rsz l /\ rsz r end.

Lemma rsz_size t : rsz t -> rsize t = zlen (relems t).
Proof.
  induction t as [|l IHl r IHr v c s]; cbn [rsz relems rsize]; [reflexivity|].
  intros [Hl [Hr Hs]]. rewrite Hs, IHl, IHr by assumption.
  unfold zlen. rewrite app_length. cbn [length]. lia.
Qed.

Lemma rb_nodes_elems t : rb_nodes t = length (relems t).
Proof.
  induction t as [|l IHl r IHr v c s]; cbn [rb_nodes relems]; [reflexivity|].
  rewrite IHl, IHr, app_length. cbn [length]. lia.
Qed.

Lemma llrb_color t c h : llrb t c h -> rcolor t = c.
Proof. destruct 1; reflexivity. Qed.

Lemma llrb_black_inv t h : llrb t Black (S h) ->
  exists l r v s c, t = RNode l r v Black s /\ llrb l c h /\ llrb r Black h.
Proof. intros H. inversion H; subst. eauto 10. Qed.

Lemma llrb_red_inv t h : llrb t Red h ->
  exists l r v s, t = RNode l r v Red s /\ llrb l Black h /\ llrb r Black h.
Proof. intros H. inversion H; subst. eauto 10. Qed.

Lemma llrb_black0 t : llrb t Black 0 -> t = RLeaf.
Proof. intros H. inversion H. reflexivity. Qed.

(** ** Balancing after a removal below a black node *)
Lemma remove_balance_black l r v s cl cr h :
  llrb l cl h -> llrb r cr h -> rsz l -> rsz r ->
  exists t c', rb_remove_balance (RNode l r v Black s) = Ok t /\ llrb t c' (S h) /\ rsz t /\
    relems t = relems l ++ v :: relems r /\ (cl = Black \/ cr = Black -> c' = Black).
Proof.
  intros Hl Hr Sl Sr. unfold rb_remove_balance. cbn [rright bind].
  rewrite (llrb_color _ _ _ Hr).
  destruct cr; cbn [is_red].
  - apply llrb_red_inv in Hr. destruct Hr as [rl [rr [rv [rs [-> [Hrl Hrr]]]]]].
    cbn [rsz] in Sr. destruct Sr as [Srl [Srr _]].
    cbn [rb_rotate_left bind]. unfold rb_balance_tail. cbn [rleft bind rcolor is_red].
    rewrite (llrb_color _ _ _ Hl). destruct cl; cbn [is_red].
    + cbn [rb_rotate_right bind rleft rright rcolor is_red andb].
      rewrite (llrb_color _ _ _ Hl). cbn [is_red andb].
      apply llrb_red_inv in Hl. destruct Hl as [ll [lr [lv [ls [-> [Hll Hlr]]]]]].
      cbn [rsz] in Sl. destruct Sl as [Sll [Slr Ss]].
      cbn [rb_flip_colors rb_flip_node bind flip].
      eexists _, Red. split; [reflexivity|]. split; [|split; [|split]].
      * constructor; econstructor; eassumption.
      * cbn [rsz rsize]. repeat split; auto.
      * cbn [relems]. app_norm.
      * intros [H|H]; discriminate.
    + cbn [bind rleft rright rcolor is_red andb]. rewrite (llrb_color _ _ _ Hrr). cbn [is_red bind].
      eexists _, Black. split; [reflexivity|]. split; [|split; [|split]].
      * econstructor; [|eassumption]. constructor; eassumption.
      * cbn [rsz rsize]. repeat split; auto.
      * cbn [relems]. app_norm.
      * reflexivity.
  - cbn [bind]. unfold rb_balance_tail. cbn [rleft bind].
    assert (Hif : (if is_red (rcolor l) then ll <- rleft l ;;
              if is_red (rcolor ll) then rb_rotate_right (RNode l r v Black s) else Ok (RNode l r v Black s)
            else Ok (RNode l r v Black s)) = Ok (RNode l r v Black s)).
    { rewrite (llrb_color _ _ _ Hl). destruct cl; cbn [is_red]; [|reflexivity].
      apply llrb_red_inv in Hl. destruct Hl as [ll [lr [lv [ls [-> [Hll Hlr]]]]]].
      cbn [rleft bind]. rewrite (llrb_color _ _ _ Hll). reflexivity. }
    rewrite Hif. cbn [bind rleft rright]. rewrite (llrb_color _ _ _ Hr). rewrite andb_false_r. cbn [bind].
    eexists _, Black. split; [reflexivity|]. split; [|split; [|split]].
    + econstructor; eassumption.
    + cbn [rsz]. auto.
    + reflexivity.
    + reflexivity.
Qed.

(** ... and below a red node whose children stay black. *)
Lemma remove_balance_red l r v s h :
  llrb l Black h -> llrb r Black h -> rsz l -> rsz r ->
  exists t, rb_remove_balance (RNode l r v Red s) = Ok t /\ llrb t Red h /\ rsz t /\
    relems t = relems l ++ v :: relems r.
Proof.
  intros Hl Hr Sl Sr. unfold rb_remove_balance, rb_balance_tail. cbn [rright bind].
  rewrite (llrb_color _ _ _ Hr). cbn [is_red bind rleft rright].
  rewrite (llrb_color _ _ _ Hl). cbn [is_red bind rleft rright].
  rewrite (llrb_color _ _ _ Hl). cbn [is_red andb bind].
  eexists. split; [reflexivity|]. split; [constructor; assumption|]. cbn [rsz relems]. auto.
Qed.

(** ** moveRedLeft at a red node with black children whose left-left grandchild is black *)
Lemma black_black_of l h : llrb l Black (S h) ->
  exists cll, rb_black_black l = Ok (negb (is_red cll)) /\
    exists ll lr v s, l = RNode ll lr v Black s /\ llrb ll cll h /\ llrb lr Black h.
Proof.
  intros H. apply llrb_black_inv in H. destruct H as [ll [lr [v [s [c [-> [Hl Hr]]]]]]].
  exists c. split; [|eauto 10]. unfold rb_black_black. cbn [rcolor is_red rleft bind].
  rewrite (llrb_color _ _ _ Hl). reflexivity.
Qed.

Lemma move_red_left_spec l r v s h ll lr lv ls :
  l = RNode ll lr lv Black ls -> llrb ll Black h -> llrb lr Black h ->
  llrb r Black (S h) -> rsz l -> rsz r ->
  exists l2 r2 w c2 s2, rb_move_red_left (RNode l r v Red s) = Ok (RNode l2 r2 w c2 s2) /\
    relems l2 ++ w :: relems r2 = relems l ++ v :: relems r /\
    (exists p, relems l2 = relems l ++ p) /\ rsz l2 /\ rsz r2 /\
    ((c2 = Red /\ llrb r2 Black (S h) /\
        exists a b x y, l2 = RNode a b x Black y /\ llrb a Red h /\ llrb b Black h) \/
     (c2 = Black /\ llrb l2 Red h /\ llrb r2 Red h)).
Proof.
  intros -> Hll Hlr Hr Sl Sr. apply llrb_black_inv in Hr.
  destruct Hr as [rl [rr [rv [rs [crl [-> [Hrl Hrr]]]]]]].
  cbn [rsz] in Sl, Sr. destruct Sl as [Sll [Slr Sls]], Sr as [Srl [Srr Srs]].
  unfold rb_move_red_left. cbn [rb_flip_colors rb_flip_node bind flip rleft].
  rewrite (llrb_color _ _ _ Hrl). destruct crl; cbn [is_red].
  - apply llrb_red_inv in Hrl. destruct Hrl as [zl [zr [zv [zs [-> [Hzl Hzr]]]]]].
    cbn [rsz] in Srl. destruct Srl as [Szl [Szr _]].
    cbn [rb_rotate_right rb_rotate_left rb_flip_colors rb_flip_node bind flip].
    eexists _, _, _, _, _. split; [reflexivity|]. split; [|split; [|split; [|split]]].
    + cbn [relems]. app_norm.
    + cbn [relems]. eexists. reflexivity.
    + cbn [rsz rsize]. auto.
    + cbn [rsz]. auto.
    + left. split; [reflexivity|]. split; [econstructor; eassumption|].
      eexists _, _, _, _. split; [reflexivity|]. split; [constructor; assumption|assumption].
  - eexists _, _, _, _, _. split; [reflexivity|]. split; [|split; [|split; [|split]]].
    + reflexivity.
    + exists []. rewrite app_nil_r. reflexivity.
    + cbn [rsz]. auto.
    + cbn [rsz]. auto.
    + right. split; [reflexivity|]. split; constructor; assumption.
Qed.

(** ** removeMin *)
Definition rm_pre (t : rb) (c : color) (h : nat) : Prop :=
  llrb t c h /\
  (c = Black -> exists l r v s h', t = RNode l r v Black s /\ h = S h' /\ llrb l Red h').

Lemma rb_remove_min_nonleaf f l r v c s : l <> RLeaf ->
  rb_remove_min (S f) (RNode l r v c s) =
  bb <- rb_black_black l ;;
  n1 <- (if bb then rb_move_red_left (RNode l r v c s) else Ok (RNode l r v c s)) ;;
  match n1 with
  | RLeaf => Panic
  | RNode l1 r1 v1 c1 s1 => l' <- rb_remove_min f l1 ;; rb_remove_balance (RNode l' r1 v1 c1 s1)
  end.
Proof. destruct l; [congruence|]. reflexivity. Qed.

Lemma rb_min_head t : t <> RLeaf -> exists m e, rb_min t = Ok m /\ relems t = m :: e.
Proof.
  induction t as [|l IHl r IHr v c s]; [congruence|]. intros _.
  destruct l as [|ll lr lv lc ls].
  - cbn. eauto.
  - destruct IHl as [m [e [Hm He]]]; [discriminate|].
    exists m, (e ++ v :: relems r). split; [exact Hm|].
    change (relems (RNode (RNode ll lr lv lc ls) r v c s)) with (relems (RNode ll lr lv lc ls) ++ v :: relems r).
    rewrite He. reflexivity.
Qed.

(** Fuel that is certainly enough: more than the nodes, or more than the depth of the recursion. *)
Definition enough (f : nat) (t : rb) (c : color) (h : nat) : Prop :=
  length (relems t) < f \/ 2 * h + (if is_red c then 1 else 0) < f.
Ltac fuel_tac Hf :=
  unfold enough in Hf |- *; cbn [relems is_red] in Hf |- *; rewrite ?app_length in Hf; cbn [length] in Hf; lia.

Lemma rb_remove_min_spec f : forall t c h,
  enough f t c h -> rm_pre t c h -> t <> RLeaf -> rsz t ->
  exists t' c', rb_remove_min f t = Ok t' /\ llrb t' c' h /\ (c = Black -> c' = Black) /\ rsz t' /\
    exists m, relems t = m :: relems t' /\ rb_min t = Ok m.
Proof.
  induction f as [|f IH]; [intros t c h [Hf|Hf]; lia|]. intros t c h Hf [Ht Hpre] Hne Hsz.
  destruct (rb_min_head t Hne) as [m [e [Hm He]]].
  assert (Hfin : forall t', e = relems t' -> exists m, relems t = m :: relems t' /\ rb_min t = Ok m).
  { intros t' ->. eauto. }
  destruct c.
  - apply llrb_red_inv in Ht. destruct Ht as [l [r [v [s [-> [Hl Hr]]]]]].
    cbn [rsz] in Hsz. destruct Hsz as [Sl [Sr Ss]].
    destruct h as [|h].
    + apply llrb_black0 in Hl, Hr. subst l r. exists RLeaf, Black. cbn in He. injection He as _ <-.
      split; [reflexivity|]. split; [constructor|]. split; [discriminate|]. split; [exact I|]. apply Hfin. reflexivity.
    + destruct (black_black_of l h Hl) as [cll [Hbb [ll [lr [lv [ls [El [Hll Hlr]]]]]]]].
      rewrite rb_remove_min_nonleaf by (subst l; discriminate). rewrite Hbb. cbn [bind].
      destruct cll; cbn [is_red negb].
      * cbn [bind].
        destruct (IH l Black (S h)) as [l' [c' [E' [Hl' [Hc' [Sl' [m' [Hm' Hmm']]]]]]]]; auto.
        { fuel_tac Hf. }
        { split; [exact Hl|]. intros _. subst l. eexists _, _, _, _, h. split; [reflexivity|]. auto. }
        { subst l. discriminate. }
        rewrite E'. cbn [bind]. rewrite (Hc' eq_refl) in Hl'.
        destruct (remove_balance_red l' r v s (S h) Hl' Hr Sl' Sr) as [t' [Et [Ht' [St' Ee]]]].
        exists t', Red. split; [exact Et|]. split; [exact Ht'|]. split; [discriminate|]. split; [exact St'|].
        apply Hfin. rewrite Ee. cbn [relems] in He. rewrite Hm' in He. cbn in He. congruence.
      * destruct (move_red_left_spec l r v s h ll lr lv ls El Hll Hlr Hr Sl Sr)
          as [l2 [r2 [w [c2 [s2 [E2 [Hel [[p Hp] [Sl2 [Sr2 Hcase]]]]]]]]]].
        rewrite E2. cbn [bind].
        assert (Hne2 : l2 <> RLeaf).
        { intros ->. cbn [relems] in Hp. symmetry in Hp. apply app_eq_nil in Hp. destruct Hp as [Hp _].
          subst l. cbn [relems] in Hp. apply app_eq_nil in Hp. destruct Hp; discriminate. }
        assert (Hlen2 : length (relems l2) < f \/ 2 * S h + 1 < S f).
        { apply (f_equal (@length f64)) in Hel. rewrite !app_length in Hel. cbn [length] in Hel. fuel_tac Hf. }
        assert (Het : relems l2 ++ w :: relems r2 = m :: e) by (rewrite Hel; exact He).
        destruct Hcase as [[-> [Hr2 [a [b [x [y [El2 [Ha Hb]]]]]]]]|[-> [Hl2 Hr2]]].
        -- destruct (IH l2 Black (S h)) as [l' [c' [E' [Hl' [Hc' [Sl' [m' [Hm' Hmm']]]]]]]]; auto.
           { fuel_tac Hlen2. }
           { split; [subst l2; econstructor; eassumption|]. intros _. subst l2.
             eexists _, _, _, _, h. split; [reflexivity|]. auto. }
           rewrite E'. cbn [bind]. rewrite (Hc' eq_refl) in Hl'.
           destruct (remove_balance_red l' r2 w s2 (S h) Hl' Hr2 Sl' Sr2) as [t' [Et [Ht' [St' Ee]]]].
           exists t', Red. split; [exact Et|]. split; [exact Ht'|]. split; [discriminate|]. split; [exact St'|].
           apply Hfin. rewrite Ee. rewrite Hm' in Het. cbn in Het. congruence.
        -- destruct (IH l2 Red h) as [l' [c' [E' [Hl' [Hc' [Sl' [m' [Hm' Hmm']]]]]]]]; auto.
           { fuel_tac Hlen2. }
           { split; [exact Hl2|]. discriminate. }
           rewrite E'. cbn [bind].
           destruct (remove_balance_black l' r2 w s2 c' Red h Hl' Hr2 Sl' Sr2) as [t' [c2 [Et [Ht' [St' [Ee Hcc]]]]]].
           exists t', c2. split; [exact Et|]. split; [exact Ht'|]. split; [discriminate|]. split; [exact St'|].
           apply Hfin. rewrite Ee. rewrite Hm' in Het. cbn in Het. congruence.
  - destruct (Hpre eq_refl) as [l [r [v [s [h' [-> [-> Hl]]]]]]].
    apply llrb_black_inv in Ht. destruct Ht as [l0 [r0 [v0 [s0 [c0 [Eq [_ Hr]]]]]]].
    injection Eq as <- <- <- <-.
    cbn [rsz] in Hsz. destruct Hsz as [Sl [Sr Ss]].
    assert (Hlne : l <> RLeaf) by (intros ->; inversion Hl).
    rewrite rb_remove_min_nonleaf by exact Hlne.
    unfold rb_black_black. rewrite (llrb_color _ _ _ Hl). cbn [is_red bind].
    destruct (IH l Red h') as [l' [c' [E' [Hl' [Hc' [Sl' [m' [Hm' Hmm']]]]]]]]; auto.
    { fuel_tac Hf. }
    { split; [exact Hl|]. discriminate. }
    rewrite E'. cbn [bind].
    destruct (remove_balance_black l' r v s c' Black h' Hl' Hr Sl' Sr) as [t' [c2 [Et [Ht' [St' [Ee Hcc]]]]]].
    exists t', c2. split; [exact Et|]. split; [exact Ht'|]. split; [intros _; apply Hcc; auto|]. split; [exact St'|].
    apply Hfin. rewrite Ee. cbn [relems] in He. rewrite Hm' in He. cbn in He. congruence.
Qed.

(** ** remove, for a value stored exactly once *)

Lemma contains_spec t x : nonnan x -> Forall nonnan (relems t) -> sortedz (keys (relems t)) ->
  rb_contains t x = true <-> In (fk x) (keys (relems t)).
Proof.
  intros Hx. induction t as [|l IHl r IHr v c s]; intros Hn Hs.
  - cbn. split; [discriminate|tauto].
  - cbn [relems] in *. apply nonnan_parts in Hn. destruct Hn as [Hnl [Hv Hnr]].
    rewrite keys_app in *. cbn [keys map] in *. fold (keys (relems r)) in *.
    pose proof (sorted_parts _ _ _ Hs) as [Hsl [Hsr [Hlo Hhi]]].
    specialize (IHl Hnl Hsl). specialize (IHr Hnr Hsr).
    cbn [rb_contains]. rewrite feq_key, flt_key by assumption. rewrite in_app_iff. cbn [In].
    destruct (Z.eqb_spec (fk x) (fk v)) as [He|He]; [split; [auto|reflexivity]|].
    destruct (Z.ltb_spec (fk x) (fk v)) as [Hlt|Hge].
    + rewrite IHl. split; [auto|]. intros [H|[H|H]]; [auto|congruence|]. specialize (Hhi _ H). lia.
    + rewrite IHr. split; [auto|]. intros [H|[H|H]]; [|congruence|auto]. specialize (Hlo _ H). lia.
Qed.

(** [l'] is [l] without one element of key [k]. *)
Definition del1 (k : Z) (l l' : list f64) : Prop :=
  exists a y b, l = a ++ y :: b /\ fk y = k /\ l' = a ++ b.

Lemma del1_left k l l' q : del1 k l l' -> del1 k (l ++ q) (l' ++ q).
Proof. intros [a [y [b [-> [Hy ->]]]]]. exists a, y, (b ++ q). rewrite <- !app_assoc. auto. Qed.
Lemma del1_right k l l' p : del1 k l l' -> del1 k (p ++ l) (p ++ l').
Proof. intros [a [y [b [-> [Hy ->]]]]]. exists (p ++ a), y, b. rewrite <- !app_assoc. auto. Qed.

Definition once (k : Z) (l : list f64) : Prop := ceqz k (keys l) = 1.

Lemma ceqz_app k a b : ceqz k (a ++ b) = ceqz k a + ceqz k b.
Proof. unfold ceqz. apply cz_app. Qed.
Lemma ceqz_cons k a b : ceqz k (a :: b) = (if (a =? k)%Z then 1 else 0) + ceqz k b.
Proof. unfold ceqz. cbn [filter]. destruct (a =? k)%Z; reflexivity. Qed.
Lemma ceqz_zero k l : ~ In k l -> ceqz k l = 0.
Proof.
  intros H. unfold ceqz. rewrite filter_none; [reflexivity|].
  intros x Hx. apply Z.eqb_neq. intros ->. auto.
Qed.
Lemma ceqz_pos k l : 0 < ceqz k l -> In k l.
Proof. intros H. destruct (in_dec Z.eq_dec k l) as [Hi|Hn]; [exact Hi|]. rewrite ceqz_zero in H by exact Hn. lia. Qed.

(** Where the single occurrence lies. *)
Lemma once_parts k l v r : sortedz (keys (l ++ v :: r)) -> once k (l ++ v :: r) ->
  ((k < fk v)%Z -> once k l) /\ ((fk v < k)%Z -> once k r) /\
  (fk v = k -> (forall a, In a (keys l) -> (a < k)%Z) /\ ~ In k (keys r)).
Proof.
  intros Hs Ho. unfold once in *. rewrite keys_app in *. cbn [keys map] in *. fold (keys r) in *.
  pose proof (sorted_parts _ _ _ Hs) as [Hsl [Hsr [Hlo Hhi]]].
  rewrite ceqz_app, ceqz_cons in Ho.
  split; [|split].
  - intros H. rewrite (ceqz_zero k (keys r)) in Ho.
    + destruct (Z.eqb_spec (fk v) k); lia.
    + intros Hi. specialize (Hhi _ Hi). lia.
  - intros H. rewrite (ceqz_zero k (keys l)) in Ho.
    + destruct (Z.eqb_spec (fk v) k); lia.
    + intros Hi. specialize (Hlo _ Hi). lia.
  - intros <-. rewrite Z.eqb_refl in Ho. split.
    + intros a Ha. specialize (Hlo a Ha).
      assert (a <> fk v); [|lia]. intros ->.
      assert (Hpos : 0 < ceqz (fk v) (keys l)).
      { clear - Ha. induction (keys l) as [|z t IH]; [destruct Ha|]. rewrite ceqz_cons.
        destruct Ha as [->|Ha]; [rewrite Z.eqb_refl; lia|]. specialize (IH Ha). lia. }
      lia.
    + intros Hi.
      assert (Hpos : 0 < ceqz (fk v) (keys r)).
      { clear - Hi. induction (keys r) as [|z t IH]; [destruct Hi|]. rewrite ceqz_cons.
        destruct Hi as [->|Hi]; [rewrite Z.eqb_refl; lia|]. specialize (IH Hi). lia. }
      lia.
Qed.

Lemma once_in k l : once k l -> In k (keys l).
Proof. intros H. apply ceqz_pos. unfold once in H. lia. Qed.

(** Preconditions of remove: [rm_pre], or a black node with a red right child that
    is not smaller than the value removed (produced by moveRedRight). *)
Definition rm_pre2 (x : f64) (t : rb) (c : color) (h : nat) : Prop :=
  rm_pre t c h \/
  (c = Black /\ exists l r v s h', t = RNode l r v Black s /\ h = S h' /\
     llrb l Black h' /\ llrb r Red h' /\ (fk v <= fk x)%Z).

Lemma rb_remove_spec f : forall t x c h,
  enough f t c h -> rm_pre2 x t c h -> rsz t -> nonnan x ->
  Forall nonnan (relems t) -> sortedz (keys (relems t)) -> once (fk x) (relems t) ->
  exists t' c', rb_remove f t x = Ok t' /\ llrb t' c' h /\ (c = Black -> c' = Black) /\ rsz t' /\
    del1 (fk x) (relems t) (relems t').
Proof.
  induction f as [|f IH]; [intros t x c h [Hf|Hf]; lia|]. intros t x c h Hf Hpre Hsz Hx Hn Hs Ho.
  cbn [rb_remove].
  assert (Hcont : rb_contains t x = true) by (apply contains_spec; auto using once_in).
  rewrite Hcont. cbn [negb].
  destruct t as [|l r v c0 s]; [discriminate|].
  cbn [rsz] in Hsz. destruct Hsz as [Sl [Sr Ss]].
  cbn [relems] in Hn, Hs, Ho.
  pose proof (nonnan_parts _ _ _ Hn) as [Hnl [Hv Hnr]].
  pose proof Hs as Hs0. rewrite keys_app in Hs0. cbn [keys map] in Hs0. fold (keys (relems r)) in Hs0.
  pose proof (sorted_parts _ _ _ Hs0) as [Hsl [Hsr [Hlo Hhi]]].
  pose proof (once_parts _ _ _ _ Hs Ho) as [OL [OR OE]].
  rewrite flt_key by assumption.
  (* sub-calls on the right child of a node with the same elements *)
  destruct (Z.ltb_spec (fk x) (fk v)) as [Hlt|Hge].
  - (* left *)
    specialize (OL Hlt).
    destruct Hpre as [[Ht Hpre]|[-> [l0 [r0 [v0 [s0 [h' [Eq [_ [_ [_ Hle]]]]]]]]]]].
    2:{ injection Eq as <- <- <- <- <-. lia. }
    destruct c.
    + apply llrb_red_inv in Ht. destruct Ht as [l0 [r0 [v0 [s0 [Eq [Hl Hr]]]]]]. injection Eq as <- <- <- -> <-.
      destruct h as [|h].
      { apply llrb_black0 in Hl. subst l. apply once_in in OL. destruct OL. }
      destruct (black_black_of l h Hl) as [cll [Hbb [ll [lr [lv [ls [El [Hll Hlr]]]]]]]].
      rewrite Hbb. cbn [bind]. destruct cll; cbn [is_red negb].
      * cbn [bind].
        destruct (IH l x Black (S h)) as [l' [c' [E' [Hl' [Hc' [Sl' Hd']]]]]]; auto; [fuel_tac Hf| |].
        { left. split; [exact Hl|]. intros _. subst l. eexists _, _, _, _, h. split; [reflexivity|]. auto. }
        rewrite E'. cbn [bind]. rewrite (Hc' eq_refl) in Hl'.
        destruct (remove_balance_red l' r v s (S h) Hl' Hr Sl' Sr) as [t' [Et [Ht' [St' Ee]]]].
        exists t', Red. split; [exact Et|]. split; [exact Ht'|]. split; [discriminate|]. split; [exact St'|].
        rewrite Ee. cbn [relems]. apply del1_left. exact Hd'.
      * destruct (move_red_left_spec l r v s h ll lr lv ls El Hll Hlr Hr Sl Sr)
          as [l2 [r2 [w [c2 [s2 [E2 [Hel [[p Hp] [Sl2 [Sr2 Hcase]]]]]]]]]].
        rewrite E2. cbn [bind].
        assert (Hlen2 : length (relems l2) < f \/ 2 * S h + 1 < S f).
        { apply (f_equal (@length f64)) in Hel. rewrite !app_length in Hel. cbn [length] in Hel. fuel_tac Hf. }
        rewrite <- Hel in Hn, Hs, Ho.
        pose proof (nonnan_parts _ _ _ Hn) as [Hnl2 [Hw Hnr2]].
        pose proof Hs as Hs2. rewrite keys_app in Hs2. cbn [keys map] in Hs2.
        pose proof (sorted_parts _ _ _ Hs2) as [Hsl2 [_ [Hlo2 Hhi2]]].
        assert (Ho2 : once (fk x) (relems l2)).
        { assert (Hge1 : 1 <= ceqz (fk x) (keys (relems l2))).
          { rewrite Hp, keys_app, ceqz_app. unfold once in OL. lia. }
          unfold once in *. rewrite keys_app, ceqz_app in Ho. lia. }
        destruct Hcase as [[-> [Hr2 [a [b [z [y [El2 [Ha Hb]]]]]]]]|[-> [Hl2 Hr2]]].
        -- destruct (IH l2 x Black (S h)) as [l' [c' [E' [Hl' [Hc' [Sl' Hd']]]]]]; auto.
           { fuel_tac Hlen2. }
           { left. split; [subst l2; econstructor; eassumption|]. intros _. subst l2.
             eexists _, _, _, _, h. split; [reflexivity|]. auto. }
           rewrite E'. cbn [bind]. rewrite (Hc' eq_refl) in Hl'.
           destruct (remove_balance_red l' r2 w s2 (S h) Hl' Hr2 Sl' Sr2) as [t' [Et [Ht' [St' Ee]]]].
           exists t', Red. split; [exact Et|]. split; [exact Ht'|]. split; [discriminate|]. split; [exact St'|].
           rewrite Ee. cbn [relems]. rewrite <- Hel. apply del1_left. exact Hd'.
        -- destruct (IH l2 x Red h) as [l' [c' [E' [Hl' [Hc' [Sl' Hd']]]]]]; auto.
           { fuel_tac Hlen2. }
           { left. split; [exact Hl2|]. discriminate. }
           rewrite E'. cbn [bind].
           destruct (remove_balance_black l' r2 w s2 c' Red h Hl' Hr2 Sl' Sr2) as [t' [c2 [Et [Ht' [St' [Ee Hcc]]]]]].
           exists t', c2. split; [exact Et|]. split; [exact Ht'|]. split; [discriminate|]. split; [exact St'|].
           rewrite Ee. cbn [relems]. rewrite <- Hel. apply del1_left. exact Hd'.
    + destruct (Hpre eq_refl) as [l0 [r0 [v0 [s0 [h' [Eq [-> Hl]]]]]]]. injection Eq as <- <- <- -> <-.
      apply llrb_black_inv in Ht. destruct Ht as [l0 [r0 [v0 [s0 [c0' [Eq [_ Hr]]]]]]]. injection Eq as <- <- <- <-.
      unfold rb_black_black. rewrite (llrb_color _ _ _ Hl). cbn [is_red bind].
      destruct (IH l x Red h') as [l' [c' [E' [Hl' [Hc' [Sl' Hd']]]]]]; auto; [fuel_tac Hf| |].
      { left. split; [exact Hl|]. discriminate. }
      rewrite E'. cbn [bind].
      destruct (remove_balance_black l' r v s c' Black h' Hl' Hr Sl' Sr) as [t' [c2 [Et [Ht' [St' [Ee Hcc]]]]]].
      exists t', c2. split; [exact Et|]. split; [exact Ht'|]. split; [intros _; apply Hcc; auto|]. split; [exact St'|].
      rewrite Ee. cbn [relems]. apply del1_left. exact Hd'.
  - (* right or here *)
    (* removal below the right child [r2] of a node (l2, w, r2) in place of t *)
    assert (Hsub : forall l2 w r2 cr hr,
      relems l2 ++ w :: relems r2 = relems l ++ v :: relems r ->
      (fk w <= fk x)%Z -> rsz r2 -> r2 <> RLeaf ->
      2 * hr + (if is_red cr then 1 else 0) < 2 * h + (if is_red c then 1 else 0) ->
      (if feq x w then rm_pre r2 cr hr else rm_pre2 x r2 cr hr) ->
      exists w' r' c', llrb r' c' hr /\ (cr = Black -> c' = Black) /\ rsz r' /\
        del1 (fk x) (relems l ++ v :: relems r) (relems l2 ++ w' :: relems r') /\
        forall (c2 : color) s2,
        (if feq x w then m <- rb_min r2 ;; r0 <- rb_remove_min f r2 ;; rb_remove_balance (RNode l2 r0 m c2 s2)
         else r0 <- rb_remove f r2 x ;; rb_remove_balance (RNode l2 r0 w c2 s2)) =
        rb_remove_balance (RNode l2 r' w' c2 s2)).
    { intros l2 w r2 cr hr Hel Hwx Sr2 Hne2 Hdec Hpre2.
      assert (Hlen2 : enough f r2 cr hr).
      { apply (f_equal (@length f64)) in Hel. rewrite !app_length in Hel. cbn [length] in Hel.
        unfold enough in *. cbn [relems] in Hf. rewrite app_length in Hf. cbn [length] in Hf. lia. }
      rewrite <- Hel in Hn, Hs, Ho |- *.
      pose proof (nonnan_parts _ _ _ Hn) as [_ [Hw Hnr2]].
      pose proof (once_parts _ _ _ _ Hs Ho) as [_ [OR2 OE2]].
      rewrite keys_app in Hs. cbn [keys map] in Hs. fold (keys (relems r2)) in Hs.
      pose proof (sorted_parts _ _ _ Hs) as [_ [Hsr2 [_ _]]].
      rewrite feq_key in Hpre2 |- * by assumption.
      destruct (Z.eqb_spec (fk x) (fk w)) as [He|He].
      - destruct (rb_remove_min_spec f r2 cr hr Hlen2 Hpre2 Hne2 Sr2)
          as [r' [c' [E' [Hr' [Hc' [Sr' [m [Hm Hmm]]]]]]]].
        exists m, r', c'. split; [exact Hr'|]. split; [exact Hc'|]. split; [exact Sr'|]. split.
        + exists (relems l2), w, (relems r2). split; [reflexivity|]. split; [lia|]. rewrite Hm. reflexivity.
        + intros c2 s2. rewrite Hmm. cbn [bind]. rewrite E'. reflexivity.
      - destruct (IH r2 x cr hr) as [r' [c' [E' [Hr' [Hc' [Sr' Hd']]]]]]; auto.
        { apply OR2. lia. }
        exists w, r', c'. split; [exact Hr'|]. split; [exact Hc'|]. split; [exact Sr'|]. split.
        + apply del1_right. destruct Hd' as [a [y [b [H1 [H2 H3]]]]]. exists (w :: a), y, b.
          rewrite H1, H3. auto.
        + intros c2 s2. rewrite E'. reflexivity. }
    destruct Hpre as [[Ht Hpre]|[-> [l0 [r0 [v0 [s0 [h' [Eq [-> [Hl [Hr Hle]]]]]]]]]]].
    + destruct c.
      * (* red root *)
        apply llrb_red_inv in Ht. destruct Ht as [l0 [r0 [v0 [s0 [Eq [Hl Hr]]]]]]. injection Eq as <- <- <- -> <-.
        rewrite (llrb_color _ _ _ Hl). cbn [is_red bind].
        destruct h as [|h].
        { apply llrb_black0 in Hl, Hr. subst l r. cbn [app relems] in *. apply once_in in Ho.
          cbn in Ho. destruct Ho as [Ho|[]]. rewrite feq_key by assumption. rewrite Ho, Z.eqb_refl. cbn [andb].
          exists RLeaf, Black. split; [reflexivity|]. split; [constructor|]. split; [discriminate|].
          split; [exact I|]. exists [], v, []. auto. }
        destruct (black_black_of r h Hr) as [crl [Hbb [rl [rr [rv [rs [Er [Hrl Hrr]]]]]]]].
        assert (Hrne : r <> RLeaf) by (subst r; discriminate).
        assert (Hm : match r with RLeaf => true | _ => false end = false) by (subst r; reflexivity).
        rewrite Hm, andb_false_r, Hbb. cbn [bind]. destruct crl; cbn [is_red negb bind].
        -- destruct (Hsub l v r Black (S h) eq_refl Hge Sr Hrne ltac:(cbn [is_red]; lia)) as [w' [r' [c' [Hr' [Hc' [Sr' [Hd Heq]]]]]]].
           { assert (rm_pre r Black (S h)).
             { split; [exact Hr|]. intros _. subst r. eexists _, _, _, _, h. split; [reflexivity|]. auto. }
             destruct (feq x v); [assumption|left; assumption]. }
           rewrite Heq. rewrite (Hc' eq_refl) in Hr'.
           destruct (remove_balance_red l r' w' s (S h) Hl Hr' Sl Sr') as [t' [Et [Ht' [St' Ee]]]].
           exists t', Red. split; [exact Et|]. split; [exact Ht'|]. split; [discriminate|]. split; [exact St'|].
           rewrite Ee. exact Hd.
        -- (* moveRedRight *)
           apply llrb_black_inv in Hl. destruct Hl as [ll [lr [lv [ls [cll [El [Hll Hlr]]]]]]].
           subst l r. cbn [rsz] in Sl, Sr. destruct Sl as [Sll [Slr Sls]], Sr as [Srl [Srr Srs]].
           unfold rb_move_red_right. cbn [rb_flip_colors rb_flip_node bind flip rleft].
           rewrite (llrb_color _ _ _ Hll). destruct cll; cbn [is_red].
           ++ apply llrb_red_inv in Hll. destruct Hll as [zl [zr [zv [zs [-> [Hzl Hzr]]]]]].
              cbn [rsz] in Sll. destruct Sll as [Szl [Szr Szs]].
              cbn [rb_rotate_right bind rb_flip_colors rb_flip_node flip].
              assert (Hlv : (fk lv < fk x)%Z).
              { assert (Hlvv : (fk lv <= fk v)%Z).
                { apply Hlo. cbn [relems]. rewrite keys_app. apply in_or_app. right. left. reflexivity. }
                destruct (Z.eq_dec (fk v) (fk x)) as [e|ne]; [|lia].
                destruct (OE e) as [OE1 _]. apply OE1. cbn [relems]. rewrite keys_app. apply in_or_app.
                right. left. reflexivity. }
              assert (Hnlv : nonnan lv).
              { cbn [relems] in Hnl. apply nonnan_parts in Hnl. tauto. }
              set (N := RNode lr (RNode rl rr rv Red rs) v Black (rsize lr + rsize (RNode rl rr rv Red rs) + 1)).
              set (L := RNode zl zr zv Black zs).
              destruct (Hsub L lv N Black (S h)) as [w' [r' [c' [Hr' [Hc' [Sr' [Hd Heq]]]]]]].
              { unfold L, N. cbn [relems]. app_norm. }
              { lia. }
              { unfold N. cbn [rsz rsize]. auto. }
              { unfold N. discriminate. }
              { cbn [is_red]. lia. }
              { rewrite feq_key by assumption. destruct (Z.eqb_spec (fk x) (fk lv)); [lia|].
                right. split; [reflexivity|]. unfold N. eexists _, _, _, _, h. split; [reflexivity|].
                split; [reflexivity|]. split; [exact Hlr|]. split; [constructor; assumption|exact Hge]. }
              rewrite Heq. rewrite (Hc' eq_refl) in Hr'.
              destruct (remove_balance_red L r' w' s (S h)) as [t' [Et [Ht' [St' Ee]]]]; auto.
              { unfold L. econstructor; eassumption. }
              { unfold L. cbn [rsz]. auto. }
              exists t', Red. split; [exact Et|]. split; [exact Ht'|]. split; [discriminate|]. split; [exact St'|].
              rewrite Ee. exact Hd.
           ++ cbn [bind].
              set (L := RNode ll lr lv Red ls). set (Rt := RNode rl rr rv Red rs).
              destruct (Hsub L v Rt Red h) as [w' [r' [c' [Hr' [Hc' [Sr' [Hd Heq]]]]]]].
              { reflexivity. }
              { exact Hge. }
              { unfold Rt. cbn [rsz]. auto. }
              { unfold Rt. discriminate. }
              { cbn [is_red]. lia. }
              { assert (rm_pre Rt Red h) by (split; [constructor; assumption|discriminate]).
                destruct (feq x v); [assumption|left; assumption]. }
              rewrite Heq.
              destruct (remove_balance_black L r' w' s Red c' h) as [t' [c2 [Et [Ht' [St' [Ee Hcc]]]]]]; auto.
              { constructor; assumption. }
              { unfold L. cbn [rsz]. auto. }
              exists t', c2. split; [exact Et|]. split; [exact Ht'|]. split; [discriminate|]. split; [exact St'|].
              rewrite Ee. exact Hd.
      * (* black root with a red left child: rotateRight *)
        destruct (Hpre eq_refl) as [l0 [r0 [v0 [s0 [h' [Eq [-> Hl]]]]]]]. injection Eq as <- <- <- -> <-.
        apply llrb_black_inv in Ht. destruct Ht as [l0 [r0 [v0 [s0 [c0' [Eq [_ Hr]]]]]]]. injection Eq as <- <- <- <-.
        rewrite (llrb_color _ _ _ Hl). cbn [is_red].
        apply llrb_red_inv in Hl. destruct Hl as [ll [lr [lv [ls [-> [Hll Hlr]]]]]].
        cbn [rsz] in Sl. destruct Sl as [Sll [Slr Sls]].
        cbn [rb_rotate_right bind]. rewrite andb_false_r.
        unfold rb_black_black. cbn [rcolor is_red bind].
        assert (Hlv : (fk lv < fk x)%Z).
        { assert (Hlvv : (fk lv <= fk v)%Z).
          { apply Hlo. cbn [relems]. rewrite keys_app. apply in_or_app. right. left. reflexivity. }
          destruct (Z.eq_dec (fk v) (fk x)) as [e|ne]; [|lia].
          destruct (OE e) as [OE1 _]. apply OE1. cbn [relems]. rewrite keys_app. apply in_or_app.
          right. left. reflexivity. }
        assert (Hnlv : nonnan lv).
        { cbn [relems] in Hnl. apply nonnan_parts in Hnl. tauto. }
        set (N := RNode lr r v Red (rsize lr + rsize r + 1)).
        destruct (Hsub ll lv N Red h') as [w' [r' [c' [Hr' [Hc' [Sr' [Hd Heq]]]]]]].
        { unfold N. cbn [relems]. app_norm. }
        { lia. }
        { unfold N. cbn [rsz]. auto. }
        { unfold N. discriminate. }
              { cbn [is_red]. lia. }
        { rewrite feq_key by assumption. destruct (Z.eqb_spec (fk x) (fk lv)); [lia|].
          left. split; [constructor; assumption|discriminate]. }
        rewrite Heq.
        destruct (remove_balance_black ll r' w' s Black c' h') as [t' [c2 [Et [Ht' [St' [Ee Hcc]]]]]]; auto.
        exists t', c2. split; [exact Et|]. split; [exact Ht'|]. split; [intros _; apply Hcc; auto|]. split; [exact St'|].
        rewrite Ee. exact Hd.
    + (* black root with a red right child *)
      injection Eq as <- <- <- -> <-.
      rewrite (llrb_color _ _ _ Hl). cbn [is_red bind].
      assert (Hrne : r <> RLeaf) by (intros ->; inversion Hr).
      assert (Hm : match r with RLeaf => true | _ => false end = false) by (destruct r; [congruence|reflexivity]).
      rewrite Hm, andb_false_r. unfold rb_black_black. rewrite (llrb_color _ _ _ Hr). cbn [is_red bind].
      destruct (Hsub l v r Red h' eq_refl Hge Sr Hrne ltac:(cbn [is_red]; lia)) as [w' [r' [c' [Hr' [Hc' [Sr' [Hd Heq]]]]]]].
      { assert (rm_pre r Red h') by (split; [exact Hr|discriminate]).
        destruct (feq x v); [assumption|left; assumption]. }
      rewrite Heq.
      destruct (remove_balance_black l r' w' s Black c' h') as [t' [c2 [Et [Ht' [St' [Ee Hcc]]]]]]; auto.
      exists t', c2. split; [exact Et|]. split; [exact Ht'|]. split; [intros _; apply Hcc; auto|]. split; [exact St'|].
      rewrite Ee. exact Hd.
Qed.

(** ** The colour of the root does not influence any decision *)
Definition tog (t : rb) : rb := match t with RLeaf => RLeaf | RNode l r v c s => RNode l r v (flip c) s end.

Lemma rotl_tog t : rb_rotate_left (tog t) = rmap tog (rb_rotate_left t).
Proof. destruct t as [|l [|rl rr rv rc rs] v c s]; reflexivity. Qed.
Lemma rotr_tog t : rb_rotate_right (tog t) = rmap tog (rb_rotate_right t).
Proof. destruct t as [|[|ll lr lv lc ls] r v c s]; reflexivity. Qed.
Lemma flipc_tog t : rb_flip_colors (tog t) = rmap tog (rb_flip_colors t).
Proof. destruct t as [|[|ll lr lv lc ls] [|rl rr rv rc rs] v c s]; reflexivity. Qed.
Lemma rleft_tog t : rleft (tog t) = rleft t.
Proof. destruct t; reflexivity. Qed.
Lemma rright_tog t : rright (tog t) = rright t.
Proof. destruct t; reflexivity. Qed.

Lemma bind_rmap {A B C} (f : A -> B) (r : res A) (k : B -> res C) :
  bind (rmap f r) k = bind r (fun a => k (f a)).
Proof. destruct r; reflexivity. Qed.
Lemma rmap_bind {A B C} (f : B -> C) (r : res A) (k : A -> res B) :
  rmap f (bind r k) = bind r (fun a => rmap f (k a)).
Proof. destruct r; reflexivity. Qed.
Lemma bind_ext {A B} (r : res A) (k1 k2 : A -> res B) :
  (forall a, k1 a = k2 a) -> bind r k1 = bind r k2.
Proof. intros H. destruct r; cbn; auto. Qed.

Lemma movel_tog t : rb_move_red_left (tog t) = rmap tog (rb_move_red_left t).
Proof.
  unfold rb_move_red_left. rewrite flipc_tog, bind_rmap, rmap_bind.
  apply bind_ext. intros [|l r v c s]; [reflexivity|]. cbn [tog].
  rewrite rmap_bind. apply bind_ext. intros rl. destruct (is_red (rcolor rl)); [|reflexivity].
  rewrite rmap_bind. apply bind_ext. intros r'.
  change (RNode l r' v (flip c) s) with (tog (RNode l r' v c s)).
  rewrite rotl_tog, bind_rmap, rmap_bind. apply bind_ext. intros n2. apply flipc_tog.
Qed.
Lemma mover_tog t : rb_move_red_right (tog t) = rmap tog (rb_move_red_right t).
Proof.
  unfold rb_move_red_right. rewrite flipc_tog, bind_rmap, rmap_bind.
  apply bind_ext. intros n1. destruct n1 as [|l r v c s]; [reflexivity|].
  change (tog (RNode l r v c s)) with (RNode l r v (flip c) s). cbv iota.
  rewrite rmap_bind. apply bind_ext. intros ll. destruct (is_red (rcolor ll)); [|reflexivity].
  change (RNode l r v (flip c) s) with (tog (RNode l r v c s)).
  rewrite rotr_tog, bind_rmap, rmap_bind. apply bind_ext. intros n2. apply flipc_tog.
Qed.

Lemma tail_tog t : rb_balance_tail (tog t) = rmap tog (rb_balance_tail t).
Proof.
  unfold rb_balance_tail. rewrite rleft_tog, rmap_bind. apply bind_ext. intros l.
  assert (H1 : (if is_red (rcolor l) then ll <- rleft l ;; if is_red (rcolor ll) then rb_rotate_right (tog t) else Ok (tog t)
               else Ok (tog t)) =
              rmap tog (if is_red (rcolor l) then ll <- rleft l ;; if is_red (rcolor ll) then rb_rotate_right t else Ok t
               else Ok t)).
  { destruct (is_red (rcolor l)); [|reflexivity]. rewrite rmap_bind. apply bind_ext. intros ll.
    destruct (is_red (rcolor ll)); [apply rotr_tog|reflexivity]. }
  rewrite H1, bind_rmap, rmap_bind. apply bind_ext. intros n1.
  rewrite rleft_tog, rright_tog, rmap_bind. apply bind_ext. intros l1.
  rewrite rmap_bind. apply bind_ext. intros r1.
  destruct (is_red (rcolor l1) && is_red (rcolor r1)).
  - rewrite flipc_tog, bind_rmap, rmap_bind. apply bind_ext. intros [|l2 r2 v c s]; reflexivity.
  - cbn [bind]. destruct n1; reflexivity.
Qed.

Lemma rembal_tog t : rb_remove_balance (tog t) = rmap tog (rb_remove_balance t).
Proof.
  unfold rb_remove_balance. rewrite rright_tog, rmap_bind. apply bind_ext. intros r.
  destruct (is_red (rcolor r)).
  - rewrite rotl_tog, bind_rmap, rmap_bind. apply bind_ext. intros n1. apply tail_tog.
  - cbn [bind]. apply tail_tog.
Qed.
Lemma addbal_tog t : rb_add_balance (tog t) = rmap tog (rb_add_balance t).
Proof.
  unfold rb_add_balance. rewrite rleft_tog, rmap_bind. apply bind_ext. intros l.
  rewrite rright_tog, rmap_bind. apply bind_ext. intros r.
  destruct (negb (is_red (rcolor l)) && is_red (rcolor r)).
  - rewrite rotl_tog, bind_rmap, rmap_bind. apply bind_ext. intros n1. apply tail_tog.
  - cbn [bind]. apply tail_tog.
Qed.

Lemma contains_tog t x : rb_contains (tog t) x = rb_contains t x.
Proof. destruct t; reflexivity. Qed.

Lemma remove_tog f t x : rb_remove (S f) (tog t) x = rmap tog (rb_remove (S f) t x).
Proof.
  cbn [rb_remove]. rewrite contains_tog. destruct (rb_contains t x); cbn [negb]; [|reflexivity].
  destruct t as [|l r v c s]; [reflexivity|]. cbn [tog].
  destruct (flt x v).
  - rewrite rmap_bind. apply bind_ext. intros bb.
    assert (H1 : (if bb then rb_move_red_left (RNode l r v (flip c) s) else Ok (RNode l r v (flip c) s)) =
                 rmap tog (if bb then rb_move_red_left (RNode l r v c s) else Ok (RNode l r v c s)))
      by (destruct bb; [apply (movel_tog (RNode l r v c s))|reflexivity]).
    rewrite H1, bind_rmap, rmap_bind. apply bind_ext. intros [|l1 r1 v1 c1 s1]; [reflexivity|].
    cbn [tog]. rewrite rmap_bind. apply bind_ext. intros l'.
    apply (rembal_tog (RNode l' r1 v1 c1 s1)).
  - assert (H1 : (if is_red (rcolor l) then rb_rotate_right (RNode l r v (flip c) s) else Ok (RNode l r v (flip c) s)) =
                 rmap tog (if is_red (rcolor l) then rb_rotate_right (RNode l r v c s) else Ok (RNode l r v c s)))
      by (destruct (is_red (rcolor l)); [apply (rotr_tog (RNode l r v c s))|reflexivity]).
    rewrite H1, bind_rmap, rmap_bind. apply bind_ext. intros [|l1 r1 v1 c1 s1]; [reflexivity|].
    cbn [tog]. 
    destruct (feq x v1 && match r1 with RLeaf => true | _ => false end); [reflexivity|].
    rewrite rmap_bind. apply bind_ext. intros bb.
    assert (H2 : (if bb then rb_move_red_right (RNode l1 r1 v1 (flip c1) s1) else Ok (RNode l1 r1 v1 (flip c1) s1)) =
                 rmap tog (if bb then rb_move_red_right (RNode l1 r1 v1 c1 s1) else Ok (RNode l1 r1 v1 c1 s1)))
      by (destruct bb; [apply (mover_tog (RNode l1 r1 v1 c1 s1))|reflexivity]).
    rewrite H2, bind_rmap, rmap_bind. apply bind_ext. intros [|l2 r2 v2 c2 s2]; [reflexivity|].
    cbn [tog]. destruct (feq x v2).
    + rewrite rmap_bind. apply bind_ext. intros m. rewrite rmap_bind. apply bind_ext. intros r'.
      apply (rembal_tog (RNode l2 r' m c2 s2)).
    + rewrite rmap_bind. apply bind_ext. intros r'.
      apply (rembal_tog (RNode l2 r' v2 c2 s2)).
Qed.

Lemma add_tog t x : t <> RLeaf -> rb_add (tog t) x = rmap tog (rb_add t x).
Proof.
  destruct t as [|l r v c s]; [congruence|]. intros _. cbn [tog rb_add].
  destruct (fle x v).
  - rewrite rmap_bind. apply bind_ext. intros l'.
    change (RNode l' r v (flip c) s) with (tog (RNode l' r v c s)). apply addbal_tog.
  - rewrite rmap_bind. apply bind_ext. intros r'.
    change (RNode l r' v (flip c) s) with (tog (RNode l r' v c s)). apply addbal_tog.
Qed.

(** ** Remove on a whole tree *)
Lemma llrb_rroot t c h : llrb t c h -> rroot t.
Proof. destruct 1; cbn; eauto. Qed.

Lemma rroot_tog t : rroot (tog t) <-> rroot t.
Proof. destruct t; cbn; tauto. Qed.
Lemma rsz_tog t : rsz (tog t) <-> rsz t.
Proof. destruct t; cbn; tauto. Qed.
Lemma relems_tog t : relems (tog t) = relems t.
Proof. destruct t; reflexivity. Qed.
Lemma rb_nodes_tog t : rb_nodes (tog t) = rb_nodes t.
Proof. destruct t; reflexivity. Qed.

Lemma del1_keys k l l' : sortedz (keys l) -> del1 k l l' -> keys l' = remz k (keys l).
Proof.
  intros Hs [a [y [b [-> [<- ->]]]]]. rewrite !keys_app in *. cbn [keys map] in *.
  change (map fk b) with (keys b) in *.
  pose proof (sorted_parts _ _ _ Hs) as [Hsl [Hsr [Hlo Hhi]]].
  rewrite remz_mid; [reflexivity|exact Hsl|exact Hlo].
Qed.

Lemma rb_tree_remove_spec t x : rroot t -> rsz t -> nonnan x ->
  Forall nonnan (relems t) -> sortedz (keys (relems t)) -> ceqz (fk x) (keys (relems t)) <= 1 ->
  exists t', rb_tree_remove t x = Ok t' /\ rroot t' /\ rsz t' /\
    keys (relems t') = remz (fk x) (keys (relems t)) /\ (forall y, In y (relems t') -> In y (relems t)).
Proof.
  intros Hr Hsz Hx Hn Hs Hone. unfold rb_tree_remove.
  destruct (rb_contains t x) eqn:Hc.
  2:{ exists t. cbn [rb_remove]. rewrite Hc. cbn [negb]. repeat split; auto.
      rewrite remz_notin; [reflexivity|]. intros Hi. apply (contains_spec t x Hx Hn Hs) in Hi. congruence. }
  assert (Ho : once (fk x) (relems t)).
  { apply (contains_spec t x Hx Hn Hs) in Hc. unfold once.
    assert (ceqz (fk x) (keys (relems t)) <> 0); [|lia]. intros H0.
    unfold ceqz in H0. apply length_zero_iff_nil in H0.
    assert (In (fk x) (filter (fun z => z =? fk x)%Z (keys (relems t)))).
    { apply filter_In. split; [exact Hc|]. apply Z.eqb_refl. }
    rewrite H0 in H. destruct H. }
  destruct t as [|l r v c s]; [discriminate|].
  destruct Hr as [cl [h [Hl Hr]]]. rewrite rb_nodes_elems.
  assert (Hgen : forall t0 c0 h0, (RNode l r v c s = t0 \/ RNode l r v c s = tog t0) ->
            rm_pre t0 c0 h0 ->
            exists t', rb_remove (S (length (relems (RNode l r v c s)))) (RNode l r v c s) x = Ok t' /\ rroot t' /\ rsz t' /\
              keys (relems t') = remz (fk x) (keys (relems (RNode l r v c s))) /\
              (forall y, In y (relems t') -> In y (relems (RNode l r v c s)))).
  { intros t0 c0 h0 Ht0 Hpre.
    assert (Ee : relems t0 = relems (RNode l r v c s)) by (destruct Ht0 as [->| ->]; rewrite ?relems_tog; reflexivity).
    assert (S0 : rsz t0) by (destruct Ht0 as [E|E]; rewrite E in Hsz; rewrite ?rsz_tog in Hsz; exact Hsz).
    destruct (rb_remove_spec (S (length (relems (RNode l r v c s)))) t0 x c0 h0) as [t' [c' [E' [Hl' [_ [Sl' Hd]]]]]];
      rewrite ?Ee; auto; try lia.
    { left. rewrite Ee. lia. }
    { left. exact Hpre. }
    rewrite Ee in Hd.
    assert (Hin : forall y, In y (relems t') -> In y (relems (RNode l r v c s))).
    { destruct Hd as [a [y [b [-> [_ ->]]]]]. intros z Hz. apply in_app_or in Hz. apply in_or_app. cbn. tauto. }
    remember (RNode l r v c s) as T eqn:ET. clear ET.
    remember (length (relems T)) as N eqn:EN. clear EN.
    destruct Ht0 as [E0|E0]; [subst T|rewrite E0, remove_tog, E'].
    - exists t'. split; [exact E'|]. split; [eapply llrb_rroot; eassumption|]. split; [exact Sl'|].
      split; [apply del1_keys; assumption|exact Hin].
    - exists (tog t'). split; [reflexivity|].
      split; [apply rroot_tog; eapply llrb_rroot; eassumption|]. split; [apply rsz_tog; exact Sl'|].
      rewrite !relems_tog, Ee. split; [apply del1_keys; assumption|exact Hin]. }
  destruct cl.
  - apply (Hgen (RNode l r v Black s) Black (S h)).
    + destruct c; [right|left]; reflexivity.
    + split; [econstructor; eassumption|]. intros _. eexists _, _, _, _, h. split; [reflexivity|]. auto.
  - apply (Hgen (RNode l r v Red s) Red h).
    + destruct c; [left|right]; reflexivity.
    + split; [constructor; assumption|discriminate].
Qed.

(** ** Add *)
Definition add_post (t : rb) (c : color) (h : nat) : Prop :=
  match c with
  | Black => exists c', llrb t c' h
  | Red => exists l r v s cl, t = RNode l r v Red s /\ llrb l cl h /\ llrb r Black h
  end.

Lemma rb_add_spec t x : nonnan x -> forall c h, llrb t c h -> rsz t ->
  Forall nonnan (relems t) -> sortedz (keys (relems t)) ->
  exists t', rb_add t x = Ok t' /\ add_post t' c h /\ rsz t' /\
    keys (relems t') = insz (fk x) (keys (relems t)) /\ Permutation (relems t') (x :: relems t).
Proof.
  intros Hx. induction t as [|l IHl r IHr v c0 s]; intros c h Ht Hsz Hn Hs.
  - inversion Ht; subst. eexists. split; [reflexivity|]. split.
    { cbn. exists Red. constructor; constructor. }
    cbn. auto.
  - cbn [rsz] in Hsz. destruct Hsz as [Sl [Sr Ss]].
    cbn [relems] in Hn, Hs. apply nonnan_parts in Hn. destruct Hn as [Hnl [Hv Hnr]].
    rewrite keys_app in Hs. cbn [keys map] in Hs. fold (keys (relems r)) in Hs.
    pose proof (sorted_parts _ _ _ Hs) as [Hsl [Hsr [Hlo Hhi]]].
    cbn [rb_add]. rewrite fle_key by assumption.
    (* element bookkeeping *)
    assert (EL : forall l' t', (fk x <= fk v)%Z -> keys (relems l') = insz (fk x) (keys (relems l)) ->
        Permutation (relems l') (x :: relems l) -> relems t' = relems l' ++ v :: relems r ->
        keys (relems t') = insz (fk x) (keys (relems (RNode l r v c0 s))) /\
        Permutation (relems t') (x :: relems (RNode l r v c0 s))).
    { intros l' t' Hle Hk Hp He. rewrite He. cbn [relems]. split.
      - rewrite !keys_app. cbn [keys map]. fold (keys (relems r)). rewrite Hk. symmetry. apply insz_left. exact Hle.
      - rewrite Hp. reflexivity. }
    assert (ER : forall r' t', (fk v < fk x)%Z -> keys (relems r') = insz (fk x) (keys (relems r)) ->
        Permutation (relems r') (x :: relems r) -> relems t' = relems l ++ v :: relems r' ->
        keys (relems t') = insz (fk x) (keys (relems (RNode l r v c0 s))) /\
        Permutation (relems t') (x :: relems (RNode l r v c0 s))).
    { intros r' t' Hlt Hk Hp He. rewrite He. cbn [relems]. split.
      - rewrite !keys_app. cbn [keys map]. fold (keys (relems r)) (keys (relems r')). rewrite Hk.
        symmetry. apply insz_right; [|exact Hlt]. intros a Ha. specialize (Hlo a Ha). lia.
      - rewrite Hp. rewrite (Permutation_cons_append (relems r) x).
        rewrite app_comm_cons, app_assoc. symmetry. apply Permutation_cons_append. }
    destruct c.
    + (* red node *)
      apply llrb_red_inv in Ht. destruct Ht as [l0 [r0 [v0 [s0 [Eq [Hl Hr]]]]]]. injection Eq as <- <- <- -> <-.
      destruct (Z.leb_spec (fk x) (fk v)) as [Hle|Hgt].
      * destruct (IHl Black h Hl Sl Hnl Hsl) as [l' [E' [[c' Hl'] [Sl' [Hk Hp]]]]]. rewrite E'. cbn [bind].
        unfold rb_add_balance, rb_balance_tail. cbn [rleft rright bind].
        rewrite (llrb_color _ _ _ Hr). rewrite andb_false_r. cbn [is_red bind rleft rright].
        assert (Hif : (if is_red (rcolor l') then ll <- rleft l' ;;
              if is_red (rcolor ll) then rb_rotate_right (RNode l' r v Red s) else Ok (RNode l' r v Red s)
            else Ok (RNode l' r v Red s)) = Ok (RNode l' r v Red s)).
        { rewrite (llrb_color _ _ _ Hl'). destruct c'; cbn [is_red]; [|reflexivity].
          apply llrb_red_inv in Hl'. destruct Hl' as [ll [lr [lv [ls [-> [Hll Hlr]]]]]].
          cbn [rleft bind]. rewrite (llrb_color _ _ _ Hll). reflexivity. }
        rewrite Hif. cbn [bind rleft rright]. rewrite (llrb_color _ _ _ Hr). rewrite andb_false_r. cbn [bind].
        eexists. split; [reflexivity|]. split; [cbn; eauto 10|]. split; [cbn; auto|].
        apply (EL l'); auto.
      * destruct (IHr Black h Hr Sr Hnr Hsr) as [r' [E' [[c' Hr'] [Sr' [Hk Hp]]]]]. rewrite E'. cbn [bind].
        unfold rb_add_balance, rb_balance_tail. cbn [rleft rright bind].
        rewrite (llrb_color _ _ _ Hr'), (llrb_color _ _ _ Hl). cbn [is_red negb andb].
        destruct c'; cbn [is_red].
        -- apply llrb_red_inv in Hr'. destruct Hr' as [rl [rr [rv [rs [-> [Hrl Hrr]]]]]].
           cbn [rsz] in Sr'. destruct Sr' as [Srl [Srr Srs]].
           cbn [rb_rotate_left bind rleft rright rcolor is_red]. rewrite (llrb_color _ _ _ Hl).
           cbn [is_red bind rleft rright rcolor andb]. rewrite (llrb_color _ _ _ Hrr). cbn [is_red andb bind].
           eexists. split; [reflexivity|]. split.
           { cbn. eexists _, _, _, _, Red. split; [reflexivity|]. split; [constructor; assumption|exact Hrr]. }
           split; [cbn [rsz rsize]; auto|].
           apply (ER (RNode rl rr rv Red rs)); auto. cbn [relems]. app_norm.
        -- cbn [bind rleft]. rewrite (llrb_color _ _ _ Hl). cbn [is_red bind rleft rright].
           rewrite (llrb_color _ _ _ Hl). cbn [is_red andb bind].
           eexists. split; [reflexivity|]. split.
           { cbn. eexists _, _, _, _, Black. split; [reflexivity|]. auto. }
           split; [cbn [rsz]; auto|]. apply (ER r'); auto.
    + (* black node *)
      destruct h as [|h]; [inversion Ht|].
      apply llrb_black_inv in Ht. destruct Ht as [l0 [r0 [v0 [s0 [cl [Eq [Hl Hr]]]]]]]. injection Eq as <- <- <- -> <-.
      destruct (Z.leb_spec (fk x) (fk v)) as [Hle|Hgt].
      * destruct (IHl cl h Hl Sl Hnl Hsl) as [l' [E' [Hp' [Sl' [Hk Hp]]]]]. rewrite E'. cbn [bind].
        unfold rb_add_balance, rb_balance_tail. cbn [rleft rright bind].
        rewrite (llrb_color _ _ _ Hr). rewrite andb_false_r. cbn [is_red bind rleft rright].
        destruct cl; cbn [add_post] in Hp'.
        -- destruct Hp' as [ll [lr [lv [ls [cll [-> [Hll Hlr]]]]]]].
           cbn [rsz] in Sl'. destruct Sl' as [Sll [Slr Sls]].
           cbn [rcolor is_red rleft bind]. rewrite (llrb_color _ _ _ Hll).
           destruct cll; cbn [is_red].
           ++ cbn [rb_rotate_right bind rleft rright rcolor is_red andb].
              rewrite (llrb_color _ _ _ Hll). cbn [is_red andb].
              apply llrb_red_inv in Hll. destruct Hll as [zl [zr [zv [zs [-> [Hzl Hzr]]]]]].
              cbn [rsz] in Sll. destruct Sll as [Szl [Szr Szs]].
              cbn [rb_flip_colors rb_flip_node bind flip].
              eexists. split; [reflexivity|]. split.
              { cbn. exists Red. constructor; econstructor; eassumption. }
              split; [cbn [rsz rsize]; repeat split; auto|].
              apply (EL (RNode (RNode zl zr zv Red zs) lr lv Red ls)); auto. cbn [relems]. app_norm.
           ++ cbn [bind rleft rright rcolor is_red]. rewrite (llrb_color _ _ _ Hr). cbn [is_red andb bind].
              eexists. split; [reflexivity|]. split.
              { cbn. exists Black. econstructor; [constructor; eassumption|eassumption]. }
              split; [cbn [rsz rsize]; repeat split; auto|].
              apply (EL (RNode ll lr lv Red ls)); auto.
        -- destruct Hp' as [c' Hl'].
           assert (Hif : (if is_red (rcolor l') then ll <- rleft l' ;;
              if is_red (rcolor ll) then rb_rotate_right (RNode l' r v Black s) else Ok (RNode l' r v Black s)
            else Ok (RNode l' r v Black s)) = Ok (RNode l' r v Black s)).
           { rewrite (llrb_color _ _ _ Hl'). destruct c'; cbn [is_red]; [|reflexivity].
             apply llrb_red_inv in Hl'. destruct Hl' as [ll [lr [lv [ls [-> [Hll Hlr]]]]]].
             cbn [rleft bind]. rewrite (llrb_color _ _ _ Hll). reflexivity. }
           rewrite Hif. cbn [bind rleft rright]. rewrite (llrb_color _ _ _ Hr). rewrite andb_false_r. cbn [bind].
           eexists. split; [reflexivity|]. split.
           { cbn. exists Black. econstructor; eassumption. }
           split; [cbn [rsz]; auto|]. apply (EL l'); auto.
      * destruct (IHr Black h Hr Sr Hnr Hsr) as [r' [E' [[c' Hr'] [Sr' [Hk Hp]]]]]. rewrite E'. cbn [bind].
        unfold rb_add_balance, rb_balance_tail. cbn [rleft rright bind].
        rewrite (llrb_color _ _ _ Hr'), (llrb_color _ _ _ Hl).
        destruct c'; cbn [is_red].
        -- apply llrb_red_inv in Hr'. destruct Hr' as [rl [rr [rv [rs [-> [Hrl Hrr]]]]]].
           cbn [rsz] in Sr'. destruct Sr' as [Srl [Srr Srs]].
           destruct cl; cbn [is_red negb andb].
           ++ cbn [bind rleft]. rewrite (llrb_color _ _ _ Hl). cbn [is_red].
              apply llrb_red_inv in Hl. destruct Hl as [ll [lr [lv [ls [-> [Hll Hlr]]]]]].
              cbn [rsz] in Sl. destruct Sl as [Sll [Slr Sls]].
              cbn [rleft bind]. rewrite (llrb_color _ _ _ Hll). cbn [is_red bind rleft rright rcolor andb].
              cbn [rb_flip_colors rb_flip_node bind flip].
              eexists. split; [reflexivity|]. split.
              { cbn. exists Red. constructor; econstructor; eassumption. }
              split; [cbn [rsz rsize]; repeat split; auto|].
              apply (ER (RNode rl rr rv Red rs)); auto.
           ++ cbn [rb_rotate_left bind rleft rright rcolor is_red]. rewrite (llrb_color _ _ _ Hl).
              cbn [is_red bind rleft rright rcolor andb]. rewrite (llrb_color _ _ _ Hrr). cbn [is_red andb bind].
              eexists. split; [reflexivity|]. split.
              { cbn. exists Black. econstructor; [constructor; eassumption|exact Hrr]. }
              split; [cbn [rsz rsize]; auto|].
              apply (ER (RNode rl rr rv Red rs)); auto. cbn [relems]. app_norm.
        -- rewrite andb_false_r. cbn [bind rleft].
           assert (Hif : (if is_red (rcolor l) then ll <- rleft l ;;
              if is_red (rcolor ll) then rb_rotate_right (RNode l r' v Black s) else Ok (RNode l r' v Black s)
            else Ok (RNode l r' v Black s)) = Ok (RNode l r' v Black s)).
           { rewrite (llrb_color _ _ _ Hl). destruct cl; cbn [is_red]; [|reflexivity].
             apply llrb_red_inv in Hl. destruct Hl as [ll [lr [lv [ls [-> [Hll Hlr]]]]]].
             cbn [rleft bind]. rewrite (llrb_color _ _ _ Hll). reflexivity. }
           rewrite Hif. cbn [bind rleft rright]. rewrite (llrb_color _ _ _ Hr'). rewrite andb_false_r. cbn [bind].
           eexists. split; [reflexivity|]. split.
           { cbn. exists Black. econstructor; eassumption. }
           split; [cbn [rsz]; auto|]. apply (ER r'); auto.
Qed.

Lemma rb_tree_add_spec t x : rroot t -> rsz t -> nonnan x ->
  Forall nonnan (relems t) -> sortedz (keys (relems t)) ->
  exists t', rb_add t x = Ok t' /\ rroot t' /\ rsz t' /\
    keys (relems t') = insz (fk x) (keys (relems t)) /\ Permutation (relems t') (x :: relems t).
Proof.
  intros Hr Hsz Hx Hn Hs. destruct t as [|l r v c s].
  - eexists. split; [reflexivity|]. cbn. repeat split; auto. exists Black, 0. split; constructor.
  - destruct Hr as [cl [h [Hl Hr]]].
    destruct (rb_add_spec (RNode l r v Black s) x Hx Black (S h)) as [t' [E' [[c' Hp] [S' [Hk Hpm]]]]]; auto.
    { econstructor; eassumption. }
    destruct c.
    + exists (tog t'). change (RNode l r v Red s) with (tog (RNode l r v Black s)).
      rewrite add_tog by discriminate. rewrite E'. split; [reflexivity|].
      split; [apply rroot_tog; eapply llrb_rroot; eassumption|].
      split; [apply rsz_tog; exact S'|]. rewrite relems_tog. auto.
    + exists t'. split; [exact E'|]. split; [eapply llrb_rroot; eassumption|]. auto.
Qed.

(** ** Histories *)
Record RInv (ks : list Z) (t : rb) : Prop := {
  ri_root : rroot t; ri_sz : rsz t; ri_keys : keys (relems t) = ks; ri_nonnan : Forall nonnan (relems t) }.

Lemma rinv_add ks t v : sortedz ks -> RInv ks t -> nonnan v ->
  exists t', rb_add t v = Ok t' /\ RInv (insz (fk v) ks) t'.
Proof.
  intros Hks [Hr Hz <- Hn] Hv.
  destruct (rb_tree_add_spec t v Hr Hz Hv Hn Hks) as [t' [E [Hr' [Hz' [Hk Hp]]]]].
  exists t'. split; [exact E|]. constructor; auto. rewrite Hp. constructor; assumption.
Qed.

Lemma rinv_remove ks t v : sortedz ks -> RInv ks t -> nonnan v -> ceqz (fk v) ks <= 1 ->
  exists t', rb_tree_remove t v = Ok t' /\ RInv (remz (fk v) ks) t'.
Proof.
  intros Hks [Hr Hz <- Hn] Hv Hc.
  destruct (rb_tree_remove_spec t v Hr Hz Hv Hn Hks Hc) as [t' [E [Hr' [Hz' [Hk Hp]]]]].
  exists t'. split; [exact E|]. constructor; auto.
  rewrite Forall_forall in *. auto.
Qed.

Lemma ceqz_sortz k l : ceqz k (sortz l) = ceqz k l.
Proof. unfold ceqz. apply Permutation_length, filter_perm, sortz_perm. Qed.

Lemma rb_reach ops : Forall sop_nonnan ops -> single_removes ops ->
  exists t, rb_run ops = Ok t /\ RInv (sortz (keys (bag ops))) t.
Proof.
  induction ops as [|o ops IH] using rev_ind; intros Hn H1.
  - exists RLeaf. split; [reflexivity|]. constructor; cbn; auto.
  - apply Forall_app in Hn. destruct Hn as [Hn Ho]. apply Forall_inv in Ho.
    destruct IH as [t [Ht HI]]; [exact Hn| |].
    { intros p v q E. apply (H1 p v (q ++ [o])). rewrite E, <- app_assoc. reflexivity. }
    unfold rb_run in *. rewrite srun_snoc, Ht, bag_snoc. cbn [bind].
    destruct o as [v|v|]; cbn [srun bag_step].
    + destruct (rinv_add _ t v (sortz_sorted _) HI Ho) as [t' [E' HI']]. rewrite E'. cbn [bind].
      exists t'. split; [reflexivity|]. cbn [keys map]. rewrite sortz_ins. exact HI'.
    + destruct (rinv_remove _ t v (sortz_sorted _) HI Ho) as [t' [E' HI']].
      { rewrite ceqz_sortz. specialize (H1 ops v [] eq_refl).
        rewrite count_eq_keys in H1 by (auto using bag_nonnan). exact H1. }
      rewrite E'. cbn [bind]. exists t'. split; [reflexivity|].
      rewrite remove_one_keys, sortz_rem by (auto using bag_nonnan). exact HI'.
    + exists RLeaf. split; [reflexivity|]. constructor; cbn; auto.
Qed.

(** ** Select and Rank *)
Lemma rb_select_nth t : rsz t -> forall k, (0 <= k)%Z ->
  rb_select t k = nth_error (relems t) (Z.to_nat k).
Proof.
  induction t as [|l IHl r IHr v c s]; intros Hw k Hk.
  - cbn. destruct (Z.to_nat k); reflexivity.
  - cbn [rsz] in Hw. destruct Hw as [Hl [Hr Hsz]].
    cbn [rb_select relems]. rewrite (rsz_size l Hl). unfold zlen.
    destruct (Z.ltb_spec k (Z.of_nat (length (relems l)))) as [H1|H1].
    + rewrite IHl by assumption. rewrite nth_error_app1 by lia. reflexivity.
    + destruct (Z.gtb_spec k (Z.of_nat (length (relems l)))) as [H2|H2].
      * rewrite IHr by (assumption || lia). rewrite nth_error_app2 by lia.
        replace (Z.to_nat k - length (relems l)) with (S (Z.to_nat (k - Z.of_nat (length (relems l)) - 1))) by lia.
        reflexivity.
      * rewrite nth_error_app2 by lia. replace (Z.to_nat k - length (relems l)) with 0 by lia. reflexivity.
Qed.

Lemma rb_select_neg t : rsz t -> forall k, (k < 0)%Z -> rb_select t k = None.
Proof.
  induction t as [|l IHl r IHr v c s]; intros Hw k Hk; [reflexivity|].
  cbn [rsz] in Hw. destruct Hw as [Hl [Hr Hsz]].
  cbn [rb_select]. rewrite (rsz_size l Hl). unfold zlen.
  destruct (Z.ltb_spec k (Z.of_nat (length (relems l)))); [auto|lia].
Qed.

Lemma rinv_len b t : RInv (sortz (keys b)) t -> length (relems t) = length b.
Proof.
  intros [_ _ Hk _]. rewrite <- (keys_length (relems t)), Hk, (Permutation_length (sortz_perm _)), keys_length. reflexivity.
Qed.

Lemma rb_correct ops : Forall sop_nonnan ops -> single_removes ops ->
  exists t, rb_run ops = Ok t /\ rsize t = zlen (bag ops) /\ select_ok (bag ops) (rb_select t).
Proof.
  intros Hn H1. destruct (rb_reach ops Hn H1) as [t [Hr HI]]. exists t. split; [exact Hr|].
  pose proof (rinv_len _ _ HI) as Hlen. destruct HI as [Hro Hsz Hk Hnn]. split.
  - rewrite (rsz_size t Hsz). unfold zlen. rewrite Hlen. reflexivity.
  - apply (select_from_sorted _ (relems t)); auto using bag_nonnan, rb_select_nth, rb_select_neg.
Qed.

Lemma rb_rank_bounds t x : rsz t -> nonnan x -> Forall nonnan (relems t) -> sortedz (keys (relems t)) ->
  (In (fk x) (keys (relems t)) -> (Z.of_nat (cltz (fk x) (keys (relems t))) <= rb_rank t x < Z.of_nat (clez (fk x) (keys (relems t))))%Z) /\
  (~ In (fk x) (keys (relems t)) -> rb_rank t x = Z.of_nat (cltz (fk x) (keys (relems t)))).
Proof.
  intros Hw Hx. induction t as [|l IHl r IHr v c s]; intros Hn Hs.
  - cbn. split; [tauto|reflexivity].
  - cbn [rsz] in Hw. destruct Hw as [Hl [Hr Hsz]].
    cbn [relems] in Hn. apply nonnan_parts in Hn. destruct Hn as [Hnl [Hv Hnr]].
    cbn [relems] in *. rewrite keys_app in *. cbn [keys map] in *.
    fold (keys (relems r)) in *.
    pose proof (sorted_parts _ _ _ Hs) as [Hsl [Hsr [Hlo Hhi]]].
    specialize (IHl Hl Hnl Hsl). specialize (IHr Hr Hnr Hsr).
    cbn [rb_rank]. rewrite flt_key, fgt_key by assumption.
    rewrite (rsz_size l Hl). unfold zlen. rewrite <- (keys_length (relems l)).
    unfold cltz, clez in *.
    destruct (Z.ltb_spec (fk x) (fk v)) as [Hlt|Hge].
    + rewrite !cz_app. cbn [filter].
      destruct (Z.ltb_spec (fk v) (fk x)); [lia|]. destruct (Z.leb_spec (fk v) (fk x)); [lia|].
      rewrite (filter_none _ (keys (relems r))) by (intros z Hz; specialize (Hhi z Hz); apply Z.ltb_ge; lia).
      rewrite (filter_none _ (keys (relems r))) by (intros z Hz; specialize (Hhi z Hz); apply Z.leb_gt; lia).
      cbn [length]. rewrite !Nat.add_0_r.
      assert (Hiff : In (fk x) (keys (relems l) ++ fk v :: keys (relems r)) <-> In (fk x) (keys (relems l))).
      { rewrite in_app_iff. cbn. split; [|tauto]. intros [H1|[H1|H1]]; [auto|lia|]. specialize (Hhi _ H1). lia. }
      rewrite Hiff. exact IHl.
    + destruct (Z.ltb_spec (fk v) (fk x)) as [Hgt|Hle].
      * rewrite !cz_app. cbn [filter].
        destruct (Z.ltb_spec (fk v) (fk x)); [|lia]. destruct (Z.leb_spec (fk v) (fk x)); [|lia].
        rewrite (filter_all _ (keys (relems l))) by (intros z Hz; specialize (Hlo z Hz); apply Z.ltb_lt; lia).
        rewrite (filter_all _ (keys (relems l))) by (intros z Hz; specialize (Hlo z Hz); apply Z.leb_le; lia).
        cbn [length].
        assert (Hiff : In (fk x) (keys (relems l) ++ fk v :: keys (relems r)) <-> In (fk x) (keys (relems r))).
        { rewrite in_app_iff. cbn. split; [|tauto]. intros [H1|[H1|H1]]; [|lia|auto]. specialize (Hlo _ H1). lia. }
        rewrite Hiff. destruct IHr as [I1 I2]. split; intros Hi; [specialize (I1 Hi)|specialize (I2 Hi)]; lia.
      * assert (Heq : fk v = fk x) by lia. rewrite Heq in *.
        pose proof (rank_bounds_mid _ _ _ Hs) as Hb2. unfold cltz, clez in Hb2. split.
        -- intros _. lia.
        -- intros Hni. exfalso. apply Hni. apply in_or_app. right. left. reflexivity.
Qed.

Lemma rb_rank_correct ops v : Forall sop_nonnan ops -> single_removes ops -> nonnan v ->
  exists t, rb_run ops = Ok t /\
    (Z.of_nat (count_lt v (bag ops)) <= rb_rank t v <= Z.of_nat (count_le v (bag ops)))%Z /\
    (count_eq v (bag ops) <= 1 -> rb_rank t v = Z.of_nat (count_lt v (bag ops))).
Proof.
  intros Hn H1 Hv. destruct (rb_reach ops Hn H1) as [t [Hr [Hro Hsz Hk Hnn]]].
  exists t. split; [exact Hr|].
  assert (Hs : sortedz (keys (relems t))) by (rewrite Hk; apply sortz_sorted).
  destruct (rb_rank_bounds t v Hsz Hv Hnn Hs) as [B1 B2].
  apply (rank_transfer (bag ops) (keys (relems t))); auto using bag_nonnan.
  rewrite Hk. apply sortz_perm.
Qed.

(** ** Shape and height *)

(** Numbers of black nodes on all root-to-nil paths. *)
Fixpoint black_paths (t : rb) : list nat :=
  match t with
  | RLeaf => [0]
  | RNode l r _ c _ => map (fun k => (if is_red c then 0 else 1) + k) (black_paths l ++ black_paths r)
  end.

Definition all_equal (l : list nat) : Prop := forall a b, In a l -> In b l -> a = b.

(** Colour rules for every node below the root: a red node is a left child and
    has no red child. *)
Fixpoint red_rules (t : rb) : Prop :=
  match t with
  | RLeaf => True
  | RNode l r _ _ _ =>
      rcolor r = Black /\
      match l with RNode ll _ _ Red _ => rcolor ll = Black | _ => True end /\
      red_rules l /\ red_rules r
  end.

Lemma llrb_paths t c h : llrb t c h -> forall k, In k (black_paths t) -> k = h.
Proof.
  induction 1 as [|l r v s h Hl IHl Hr IHr|l r v s c h Hl IHl Hr IHr]; cbn [black_paths is_red]; intros k Hk.
  - destruct Hk as [<-|[]]. reflexivity.
  - apply in_map_iff in Hk. destruct Hk as [k' [<- Hk]]. apply in_app_or in Hk. destruct Hk; auto.
  - apply in_map_iff in Hk. destruct Hk as [k' [<- Hk]]. apply in_app_or in Hk. destruct Hk; cbn; f_equal; auto.
Qed.

Lemma llrb_rules t c h : llrb t c h -> red_rules t.
Proof.
  induction 1 as [|l r v s h Hl IHl Hr IHr|l r v s c h Hl IHl Hr IHr]; cbn [red_rules]; auto.
  - rewrite (llrb_color _ _ _ Hr). repeat split; auto. inversion Hl; auto.
  - rewrite (llrb_color _ _ _ Hr). repeat split; auto. inversion Hl; subst; auto. eapply llrb_color; eassumption.
Qed.

Lemma rroot_shape t : rroot t -> all_equal (black_paths t) /\ red_rules t.
Proof.
  destruct t as [|l r v c s]; cbn [rroot].
  - intros _. split; [|exact I]. intros a b [<-|[]] [<-|[]]. reflexivity.
  - intros [cl [h [Hl Hr]]]. split.
    + assert (Hp : forall k, In k (black_paths (RNode l r v c s)) -> k = (if is_red c then 0 else 1) + h).
      { cbn [black_paths]. intros k Hk. apply in_map_iff in Hk. destruct Hk as [k' [<- Hk]]. f_equal.
        apply in_app_or in Hk.
        destruct Hk as [Hk|Hk]; [exact (llrb_paths _ _ _ Hl _ Hk)|exact (llrb_paths _ _ _ Hr _ Hk)]. }
      intros a b Ha Hb. rewrite (Hp a Ha), (Hp b Hb). reflexivity.
    + cbn [red_rules]. rewrite (llrb_color _ _ _ Hr). repeat split; eauto using llrb_rules.
      inversion Hl; subst; auto. eapply llrb_color; eassumption.
Qed.

Lemma llrb_size t c h : llrb t c h -> 2 ^ h <= length (relems t) + 1.
Proof.
  induction 1 as [|l r v s h Hl IHl Hr IHr|l r v s c h Hl IHl Hr IHr]; cbn [relems]; rewrite ?app_length; cbn [length].
  - cbn. lia.
  - lia.
  - cbn [Nat.pow]. lia.
Qed.

Lemma llrb_height t c h : llrb t c h ->
  (rtrue_height t + 1 <= 2 * Z.of_nat h + (if is_red c then 1 else 0))%Z.
Proof.
  induction 1 as [|l r v s h Hl IHl Hr IHr|l r v s c h Hl IHl Hr IHr]; cbn [rtrue_height is_red] in *; try lia.
  destruct (is_red c); lia.
Qed.

Lemma rroot_height t : rroot t -> (rtrue_height t + 1 <= 2 * Z.log2 (zlen (relems t) + 1))%Z.
Proof.
  destruct t as [|l r v c s]; cbn [rroot].
  - intros _. cbn. lia.
  - intros [cl [h [Hl Hr]]]. pose proof (llrb_size _ _ _ Hl). pose proof (llrb_size _ _ _ Hr).
    pose proof (llrb_height _ _ _ Hl). pose proof (llrb_height _ _ _ Hr).
    cbn [rtrue_height]. assert (Hlog : (Z.of_nat (S h) <= Z.log2 (zlen (relems (RNode l r v c s)) + 1))%Z).
    { rewrite <- (Z.log2_pow2 (Z.of_nat (S h))) by lia. apply Z.log2_le_mono.
      unfold zlen. cbn [relems]. rewrite app_length. cbn [length].
      rewrite Nat2Z.inj_succ, Z.pow_succ_r by lia.
      assert (Hpow : (2 ^ Z.of_nat h = Z.of_nat (2 ^ h))%Z) by (rewrite Nat2Z.inj_pow; reflexivity).
      rewrite Hpow. lia. }
    cbn [is_red] in *. destruct (is_red cl); lia.
Qed.

Lemma rb_shallow ops : Forall sop_nonnan ops -> single_removes ops ->
  exists t, rb_run ops = Ok t /\ all_equal (black_paths t) /\ red_rules t /\
    (rtrue_height t + 1 <= 2 * Z.log2 (zlen (bag ops) + 1))%Z.
Proof.
  intros Hn H1. destruct (rb_reach ops Hn H1) as [t [Hr HI]]. exists t. split; [exact Hr|].
  pose proof (rinv_len _ _ HI) as Hlen. destruct HI as [Hro Hsz Hk Hnn].
  destruct (rroot_shape t Hro). repeat split; auto.
  unfold zlen. rewrite <- Hlen. apply rroot_height. exact Hro.
Qed.
