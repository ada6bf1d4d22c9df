(** Proofs about AvlModel.v. *)
From Coq Require Import Permutation.
From Verif Require Import Base F64 OrderSpec MultisetSpec SortLib AvlModel.

(** ** Shape specification *)
Fixpoint aelems (t : avl) : list f64 :=
  match t with ALeaf => [] | ANode l r v _ _ => aelems l ++ v :: aelems r end.

(** Length of the longest downward path (-1 for the empty tree). *)
Fixpoint atrue_height (t : avl) : Z :=
  match t with ALeaf => -1 | ANode l r _ _ _ => Z.max (atrue_height l) (atrue_height r) + 1 end.

Fixpoint abalanced (t : avl) : Prop :=
  match t with
  | ALeaf => True
  | ANode l r _ _ _ => abalanced l /\ abalanced r /\ (Z.abs (atrue_height l - atrue_height r) <= 1)%Z
  end.

Fixpoint fib (n : nat) : nat :=
  match n with 0 => 0 | S m => match m with 0 => 1 | S k => fib m + fib k end end.

(** ** Invariant *)
Fixpoint wfa (t : avl) : Prop :=
  match t with
  | ALeaf => True
  | ANode l r v h s =>
      wfa l /\ wfa r /\ h = (Z.max (aheight l) (aheight r) + 1)%Z /\
      s = (asize l + asize r + 1)%Z /\ (-1 <= aheight l - aheight r <= 1)%Z
  end.

Lemma imax_max x y : imax x y = Z.max x y.
Proof. unfold imax. destruct (Z.ltb_spec y x); lia. Qed.

Lemma wfa_size t : wfa t -> asize t = zlen (aelems t).
Proof.
  induction t as [|l IHl r IHr v h s]; cbn [wfa aelems asize]; [reflexivity|].
  intros [Hl [Hr [_ [Hs _]]]]. rewrite Hs, IHl, IHr by assumption.
  unfold zlen. rewrite app_length. cbn [length]. lia.
Qed.

Lemma wfa_height t : wfa t -> aheight t = atrue_height t.
Proof.
  induction t as [|l IHl r IHr v h s]; cbn [wfa aheight atrue_height]; [reflexivity|].
  intros [Hl [Hr [Hh _]]]. rewrite Hh, IHl, IHr by assumption. reflexivity.
Qed.

Lemma true_height_ge t : (-1 <= atrue_height t)%Z.
Proof. induction t; cbn [atrue_height]; lia. Qed.

Lemma wfa_height_ge t : wfa t -> (-1 <= aheight t)%Z.
Proof. intros H. rewrite wfa_height by exact H. apply true_height_ge. Qed.

Lemma wfa_balanced t : wfa t -> abalanced t.
Proof.
  induction t as [|l IHl r IHr v h s]; cbn [wfa abalanced]; [auto|].
  intros [Hl [Hr [_ [_ Hb]]]]. rewrite <- !wfa_height by assumption. repeat split; auto. lia.
Qed.

Ltac app_norm := cbn [app]; repeat (rewrite <- app_assoc; cbn [app]); reflexivity.

Ltac wf_facts :=
  repeat match goal with
  | H : wfa ?t |- _ => lazymatch goal with
      | _ : (-1 <= aheight t)%Z |- _ => fail
      | _ => pose proof (wfa_height_ge t H) end
  end.

Lemma refresh_spec l r v : wfa l -> wfa r -> (-2 <= aheight l - aheight r <= 2)%Z ->
  exists t, avl_refresh l r v = Ok t /\ wfa t /\ aelems t = aelems l ++ v :: aelems r /\
    (Z.max (aheight l) (aheight r) <= aheight t <= Z.max (aheight l) (aheight r) + 1)%Z /\
    ((-1 <= aheight l - aheight r <= 1)%Z -> aheight t = (Z.max (aheight l) (aheight r) + 1)%Z).
Proof.
  intros Hl Hr Hd. unfold avl_refresh, avl_balance. cbn [height_diff bind].
  rewrite imax_max.
  destruct (Z.ltb_spec (aheight l - aheight r) (-1)) as [Hc1|Hc1].
  - destruct r as [|rl rr rv rh rs]; [cbn [aheight] in *; wf_facts; lia|].
    cbn [wfa] in Hr. destruct Hr as [Hrl [Hrr [Hrh [Hrs Hrd]]]]. subst rh rs.
    cbn [height_diff bind aheight asize] in *. wf_facts.
    destruct (Z.gtb_spec (aheight rl - aheight rr) 0) as [Hc2|Hc2].
    + destruct rl as [|a b w h s]; [cbn [aheight] in *; lia|].
      cbn [wfa] in Hrl. destruct Hrl as [Ha [Hb [Hh [Hs Hdd]]]]. subst h s.
      cbn [aheight asize] in *. wf_facts.
      cbn [avl_rotate_right bind avl_rotate_left aheight asize].
      eexists. split; [reflexivity|]. cbn [wfa aelems aheight asize]. rewrite !imax_max.
      repeat split; auto; try lia. app_norm.
    + cbn [bind avl_rotate_left].
      eexists. split; [reflexivity|]. cbn [wfa aelems aheight asize]. rewrite !imax_max.
      repeat split; auto; try lia. app_norm.
  - destruct (Z.gtb_spec (aheight l - aheight r) 1) as [Hc2|Hc2].
    + destruct l as [|ll lr lv lh ls]; [cbn [aheight] in *; wf_facts; lia|].
      cbn [wfa] in Hl. destruct Hl as [Hll [Hlr [Hlh [Hls Hld]]]]. subst lh ls.
      cbn [height_diff bind aheight asize] in *. wf_facts.
      destruct (Z.ltb_spec (aheight ll - aheight lr) 0) as [Hc3|Hc3].
      * destruct lr as [|a b w h s]; [cbn [aheight] in *; lia|].
        cbn [wfa] in Hlr. destruct Hlr as [Ha [Hb [Hh [Hs Hdd]]]]. subst h s.
        cbn [aheight asize] in *. wf_facts.
        cbn [avl_rotate_right bind avl_rotate_left aheight asize].
        eexists. split; [reflexivity|]. cbn [wfa aelems aheight asize]. rewrite !imax_max.
        repeat split; auto; try lia. app_norm.
      * cbn [bind avl_rotate_right].
        eexists. split; [reflexivity|]. cbn [wfa aelems aheight asize]. rewrite !imax_max.
        repeat split; auto; try lia. app_norm.
    + eexists. split; [reflexivity|]. cbn [wfa aelems aheight asize].
      repeat split; auto; lia.
Qed.

(** ** Add *)
Definition akeys (t : avl) : list Z := keys (aelems t).

Lemma keys_app l1 l2 : keys (l1 ++ l2) = keys l1 ++ keys l2.
Proof. apply map_app. Qed.

Lemma nonnan_parts l v r : Forall nonnan (l ++ v :: r) -> Forall nonnan l /\ nonnan v /\ Forall nonnan r.
Proof.
  rewrite Forall_app. intros [H1 H2]. inversion H2; subst. auto.
Qed.
Lemma nonnan_parts_inv l v r : Forall nonnan l -> nonnan v -> Forall nonnan r -> Forall nonnan (l ++ v :: r).
Proof. intros. rewrite Forall_app. split; [assumption|]. constructor; assumption. Qed.

Lemma sorted_parts l k r : sortedz (l ++ k :: r) ->
  sortedz l /\ sortedz r /\ (forall a, In a l -> (a <= k)%Z) /\ (forall b, In b r -> (k <= b)%Z).
Proof.
  intros H. apply sortedz_app in H. destruct H as [H1 [H2 H3]]. apply sortedz_cons in H2.
  destruct H2 as [H2 H4]. repeat split; auto. intros a Ha. apply H3; [exact Ha|left; reflexivity].
Qed.

Lemma avl_add_spec t x : wfa t -> nonnan x -> Forall nonnan (aelems t) -> sortedz (akeys t) ->
  exists t', avl_add t x = Ok t' /\ wfa t' /\ akeys t' = insz (fk x) (akeys t) /\
    Permutation (aelems t') (x :: aelems t) /\
    (aheight t <= aheight t' <= aheight t + 1)%Z.
Proof.
  intros Hw Hx. induction t as [|l IHl r IHr v h s]; intros Hn Hs.
  - eexists. split; [reflexivity|]. cbn. repeat split; auto; lia.
  - cbn [wfa] in Hw. destruct Hw as [Hl [Hr [Hh [Hsz Hb]]]].
    cbn [aelems] in Hn. apply nonnan_parts in Hn. destruct Hn as [Hnl [Hv Hnr]].
    unfold akeys in Hs. cbn [aelems] in Hs. rewrite keys_app in Hs. cbn [keys map] in Hs.
    pose proof (sorted_parts _ _ _ Hs) as [Hsl [Hsr [Hlo Hhi]]].
    cbn [avl_add]. rewrite fle_key by assumption.
    destruct (Z.leb_spec (fk x) (fk v)) as [Hle|Hgt].
    + destruct (IHl Hl Hnl Hsl) as [l' [El [Hwl [Hkl [Hpl Hhl]]]]]. rewrite El. cbn [bind].
      destruct (refresh_spec l' r v Hwl Hr ltac:(lia)) as [t' [Et [Hwt [Het [Hht Hht2]]]]].
      exists t'. split; [exact Et|]. split; [exact Hwt|]. split; [|split].
      * unfold akeys in *. rewrite Het, keys_app. cbn [keys map]. fold (keys (aelems r)). rewrite Hkl.
        cbn [aelems]. rewrite keys_app. cbn [keys map]. symmetry. apply insz_left. exact Hle.
      * rewrite Het, Hpl. cbn [aelems]. reflexivity.
      * cbn [aheight] in *. lia.
    + destruct (IHr Hr Hnr Hsr) as [r' [Er [Hwr [Hkr [Hpr Hhr]]]]]. rewrite Er. cbn [bind].
      destruct (refresh_spec l r' v Hl Hwr ltac:(lia)) as [t' [Et [Hwt [Het [Hht Hht2]]]]].
      exists t'. split; [exact Et|]. split; [exact Hwt|]. split; [|split].
      * unfold akeys in *. rewrite Het, keys_app. cbn [keys map]. fold (keys (aelems r')). rewrite Hkr.
        cbn [aelems]. rewrite keys_app. cbn [keys map]. symmetry. apply insz_right; [|exact Hgt].
        intros a Ha. specialize (Hlo a Ha). lia.
      * rewrite Het, Hpr. cbn [aelems]. rewrite (Permutation_cons_append (aelems r) x).
        rewrite app_comm_cons, app_assoc. symmetry. apply Permutation_cons_append.
      * cbn [aheight] in *. lia.
Qed.

(** ** Remove *)
Lemma remove_min_spec t : wfa t -> t <> ALeaf ->
  exists m t', avl_min t = Ok m /\ avl_remove_min t = Ok t' /\ wfa t' /\ aelems t = m :: aelems t' /\
    (aheight t - 1 <= aheight t' <= aheight t)%Z.
Proof.
  induction t as [|l IHl r IHr v h s]; [congruence|]. intros Hw _.
  cbn [wfa] in Hw. destruct Hw as [Hl [Hr [Hh [Hsz Hb]]]].
  destruct l as [|ll lr lv lh ls].
  - exists v, r. cbn [avl_min avl_remove_min aelems app aheight] in *.
    pose proof (wfa_height_ge r Hr). repeat split; auto; lia.
  - destruct (IHl Hl ltac:(discriminate)) as [m [l' [Hm [Hrm [Hwl [Hel Hhl]]]]]].
    destruct (refresh_spec l' r v Hwl Hr ltac:(lia)) as [t' [Et [Hwt [Het [Hht Hht2]]]]].
    exists m, t'. split; [exact Hm|]. split.
    + change (avl_remove_min (ANode (ANode ll lr lv lh ls) r v h s))
        with (l' <- avl_remove_min (ANode ll lr lv lh ls) ;; avl_refresh l' r v).
      rewrite Hrm. exact Et.
    + split; [exact Hwt|]. split.
      * rewrite Het. change (aelems (ANode (ANode ll lr lv lh ls) r v h s))
          with (aelems (ANode ll lr lv lh ls) ++ v :: aelems r). rewrite Hel. reflexivity.
      * cbn [aheight] in *. lia.
Qed.

Lemma avl_remove_spec t x : wfa t -> nonnan x -> Forall nonnan (aelems t) -> sortedz (akeys t) ->
  exists t', avl_remove t x = Ok t' /\ wfa t' /\ akeys t' = remz (fk x) (akeys t) /\
    (forall y, In y (aelems t') -> In y (aelems t)) /\
    (aheight t - 1 <= aheight t' <= aheight t)%Z.
Proof.
  intros Hw Hx. induction t as [|l IHl r IHr v h s]; intros Hn Hs.
  - eexists. split; [reflexivity|]. cbn. repeat split; auto; lia.
  - cbn [wfa] in Hw. destruct Hw as [Hl [Hr [Hh [Hsz Hb]]]].
    cbn [aelems] in Hn. apply nonnan_parts in Hn. destruct Hn as [Hnl [Hv Hnr]].
    unfold akeys in Hs. cbn [aelems] in Hs. rewrite keys_app in Hs. cbn [keys map] in Hs.
    pose proof (sorted_parts _ _ _ Hs) as [Hsl [Hsr [Hlo Hhi]]].
    cbn [avl_remove]. rewrite flt_key, fgt_key by assumption.
    destruct (Z.ltb_spec (fk x) (fk v)) as [Hlt|Hge].
    + destruct (IHl Hl Hnl Hsl) as [l' [El [Hwl [Hkl [Hil Hhl]]]]]. rewrite El. cbn [bind].
      destruct (refresh_spec l' r v Hwl Hr ltac:(lia)) as [t' [Et [Hwt [Het [Hht Hht2]]]]].
      exists t'. split; [exact Et|]. split; [exact Hwt|]. split; [|split].
      * unfold akeys in *. rewrite Het. cbn [aelems]. rewrite !keys_app. cbn [keys map].
        fold (keys (aelems r)). rewrite Hkl.
        destruct (in_dec Z.eq_dec (fk x) (keys (aelems l))) as [Hi|Hni].
        -- symmetry. apply remz_app_l. exact Hi.
        -- rewrite (remz_notin _ _ Hni). symmetry. apply remz_notin. intros Hin.
           apply in_app_or in Hin. destruct Hin as [Hin|[Hin|Hin]]; [auto|lia|].
           specialize (Hhi _ Hin). lia.
      * rewrite Het. cbn [aelems]. intros y Hy. apply in_app_or in Hy. apply in_or_app.
        destruct Hy as [Hy|Hy]; auto.
      * cbn [aheight] in *. lia.
    + destruct (Z.ltb_spec (fk v) (fk x)) as [Hgt|Hle].
      * destruct (IHr Hr Hnr Hsr) as [r' [Er [Hwr [Hkr [Hir Hhr]]]]]. rewrite Er. cbn [bind].
        destruct (refresh_spec l r' v Hl Hwr ltac:(lia)) as [t' [Et [Hwt [Het [Hht Hht2]]]]].
        exists t'. split; [exact Et|]. split; [exact Hwt|]. split; [|split].
        -- unfold akeys in *. rewrite Het. cbn [aelems]. rewrite !keys_app. cbn [keys map].
           fold (keys (aelems r)). fold (keys (aelems r')). rewrite Hkr. symmetry.
           rewrite remz_app_r.
           ++ cbn [remz]. destruct (Z.eqb_spec (fk v) (fk x)); [lia|reflexivity].
           ++ intros Hin. specialize (Hlo _ Hin). lia.
        -- rewrite Het. cbn [aelems]. intros y Hy. apply in_app_or in Hy. apply in_or_app.
           destruct Hy as [Hy|[Hy|Hy]]; [auto|right; left; exact Hy|right; right; auto].
        -- cbn [aheight] in *. lia.
      * assert (Heq : fk v = fk x) by lia.
        assert (Hgoal : forall t', wfa t' -> aelems t' = aelems l ++ aelems r ->
          akeys t' = remz (fk x) (akeys (ANode l r v h s)) /\
          (forall y, In y (aelems t') -> In y (aelems (ANode l r v h s)))).
        { intros t' _ He. unfold akeys. rewrite He. cbn [aelems]. rewrite !keys_app. cbn [keys map].
          split.
          - rewrite Heq. symmetry. apply remz_mid; [exact Hsl|]. intros a Ha. specialize (Hlo a Ha). lia.
          - intros y Hy. apply in_app_or in Hy. apply in_or_app. cbn. tauto. }
        pose proof (wfa_height_ge l Hl). pose proof (wfa_height_ge r Hr).
        destruct l as [|ll lr lv lh ls].
        -- exists r. cbn [aheight] in *. destruct (Hgoal r Hr eq_refl) as [G1 G2]. repeat split; auto; lia.
        -- destruct r as [|rl rr rv rh rs].
           ++ exists (ANode ll lr lv lh ls). cbn [aheight] in *.
              destruct (Hgoal _ Hl ltac:(cbn [aelems]; rewrite app_nil_r; reflexivity)) as [G1 G2].
              repeat split; try apply Hl; auto; lia.
           ++ set (l := ANode ll lr lv lh ls) in *. set (r := ANode rl rr rv rh rs) in *.
              destruct (remove_min_spec r Hr ltac:(unfold r; discriminate)) as [m [r' [Hm [Hrm [Hwr [Her Hhr]]]]]].
              rewrite Hm. cbn [bind]. rewrite Hrm. cbn [bind].
              destruct (refresh_spec l r' m Hl Hwr ltac:(lia)) as [t' [Et [Hwt [Het [Hht Hht2]]]]].
              exists t'. split; [exact Et|]. split; [exact Hwt|].
              rewrite <- Her in Het.
              destruct (Hgoal t' Hwt Het) as [G1 G2]. split; [exact G1|]. split; [exact G2|].
              cbn [aheight] in *. lia.
Qed.

(** ** Histories *)
Record AInv (ks : list Z) (t : avl) : Prop := {
  ai_wf : wfa t; ai_keys : akeys t = ks; ai_nonnan : Forall nonnan (aelems t) }.

Lemma avl_reach ops : Forall sop_nonnan ops ->
  exists t, avl_run ops = Ok t /\ AInv (sortz (keys (bag ops))) t.
Proof.
  intros Hn. unfold avl_run. apply (srun_inv avl_add avl_remove avl_clear AInv); [|intros ks s v Hks I Hv|intros ks s v Hks I Hv| |exact Hn].
  - constructor; cbn; auto.
  - destruct I. destruct (avl_add_spec s v ai_wf0 Hv ai_nonnan0 ltac:(rewrite ai_keys0; exact Hks))
      as [t' [E [Hw [Hk [Hp _]]]]].
    exists t'. split; [exact E|]. constructor; auto.
    + rewrite Hk, ai_keys0. reflexivity.
    + rewrite Hp. constructor; assumption.
  - destruct I. destruct (avl_remove_spec s v ai_wf0 Hv ai_nonnan0 ltac:(rewrite ai_keys0; exact Hks))
      as [t' [E [Hw [Hk [Hp _]]]]].
    exists t'. split; [exact E|]. constructor; auto.
    + rewrite Hk, ai_keys0. reflexivity.
    + rewrite Forall_forall in *. auto.
  - intros ks s _ _. exists ALeaf. split; [reflexivity|]. constructor; cbn; auto.
Qed.

(** ** Select *)
Lemma avl_select_nth t : wfa t -> forall k, (0 <= k)%Z ->
  avl_select t k = nth_error (aelems t) (Z.to_nat k).
Proof.
  induction t as [|l IHl r IHr v h s]; intros Hw k Hk.
  - cbn. destruct (Z.to_nat k); reflexivity.
  - cbn [wfa] in Hw. destruct Hw as [Hl [Hr [Hh [Hsz Hb]]]].
    cbn [avl_select aelems]. rewrite (wfa_size l Hl). unfold zlen.
    destruct (Z.ltb_spec k (Z.of_nat (length (aelems l)))) as [H1|H1].
    + rewrite IHl by assumption. rewrite nth_error_app1 by lia. reflexivity.
    + destruct (Z.gtb_spec k (Z.of_nat (length (aelems l)))) as [H2|H2].
      * rewrite IHr by (assumption || lia). rewrite nth_error_app2 by lia.
        replace (Z.to_nat k - length (aelems l)) with (S (Z.to_nat (k - Z.of_nat (length (aelems l)) - 1))) by lia.
        reflexivity.
      * rewrite nth_error_app2 by lia. replace (Z.to_nat k - length (aelems l)) with 0 by lia. reflexivity.
Qed.

Lemma avl_select_neg t : wfa t -> forall k, (k < 0)%Z -> avl_select t k = None.
Proof.
  induction t as [|l IHl r IHr v h s]; intros Hw k Hk; [reflexivity|].
  cbn [wfa] in Hw. destruct Hw as [Hl [Hr [Hh [Hsz Hb]]]].
  cbn [avl_select]. rewrite (wfa_size l Hl). unfold zlen.
  destruct (Z.ltb_spec k (Z.of_nat (length (aelems l)))); [auto|lia].
Qed.

(** A container state represents the bag [b]. *)
Lemma keys_length l : length (keys l) = length l.
Proof. apply map_length. Qed.

Definition select_ok (b : list f64) (select : Z -> option f64) : Prop :=
  forall k, (0 <= k < zlen b)%Z /\ (exists v, select k = Some v /\ is_kth b (Z.to_nat k) v) \/
            ~ (0 <= k < zlen b)%Z /\ select k = None.

Lemma select_from_sorted (b es : list f64) (select : Z -> option f64) :
  Forall nonnan b -> Forall nonnan es -> keys es = sortz (keys b) ->
  (forall k, (0 <= k)%Z -> select k = nth_error es (Z.to_nat k)) ->
  (forall k, (k < 0)%Z -> select k = None) ->
  select_ok b select.
Proof.
  intros Hb Hes Hk Hsel Hneg k.
  assert (Hlen : length es = length b).
  { rewrite <- (keys_length es), Hk, (Permutation_length (sortz_perm _)), keys_length. reflexivity. }
  destruct (Z.ltb_spec k 0) as [H0|H0].
  - right. split; [lia|auto].
  - rewrite Hsel by exact H0. unfold zlen. rewrite <- Hlen.
    destruct (Z.ltb_spec k (Z.of_nat (length es))) as [H1|H1].
    + left. split; [lia|].
      destruct (nth_error es (Z.to_nat k)) as [v|] eqn:E.
      * exists v. split; [reflexivity|].
        assert (Hv : nonnan v) by (rewrite Forall_forall in Hes; apply Hes; eapply nth_error_In; eassumption).
        apply (kth_of_sorted b (sortz (keys b))); auto using sortz_sorted, sortz_perm.
        rewrite <- Hk. unfold keys. apply map_nth_error. exact E.
      * apply nth_error_None in E. lia.
    + right. split; [lia|]. apply nth_error_None. lia.
Qed.

Lemma avl_correct ops : Forall sop_nonnan ops ->
  exists t, avl_run ops = Ok t /\ asize t = zlen (bag ops) /\ select_ok (bag ops) (avl_select t).
Proof.
  intros Hn. destruct (avl_reach ops Hn) as [t [Hr [Hw Hk Hnn]]].
  exists t. split; [exact Hr|]. split.
  - rewrite (wfa_size t Hw). unfold zlen. rewrite <- (keys_length (aelems t)).
    change (keys (aelems t)) with (akeys t). rewrite Hk, (Permutation_length (sortz_perm _)), keys_length. reflexivity.
  - apply (select_from_sorted _ (aelems t)); auto using bag_nonnan, avl_select_nth, avl_select_neg.
Qed.

(** ** Height *)
Lemma fib_SS n : fib (S (S n)) = fib (S n) + fib n.
Proof. reflexivity. Qed.

Lemma fib_mono n : fib n <= fib (S n).
Proof. destruct n as [|n]; [cbn; lia|]. rewrite fib_SS. lia. Qed.

Lemma fib_le n m : n <= m -> fib n <= fib m.
Proof. induction 1 as [|m H IH]; [lia|]. pose proof (fib_mono m). lia. Qed.

Lemma balanced_fib t : abalanced t -> fib (Z.to_nat (atrue_height t + 3)) <= length (aelems t) + 1.
Proof.
  induction t as [|l IHl r IHr v h s]; cbn [abalanced atrue_height aelems].
  - intros _. vm_compute. lia.
  - intros [Hl [Hr Hb]]. specialize (IHl Hl). specialize (IHr Hr).
    pose proof (true_height_ge l). pose proof (true_height_ge r).
    rewrite app_length. cbn [length].
    set (m := Z.min (atrue_height l) (atrue_height r)).
    set (M := Z.max (atrue_height l) (atrue_height r)).
    replace (Z.to_nat (M + 1 + 3)) with (S (S (Z.to_nat (M + 2)))) by lia.
    rewrite fib_SS. replace (S (Z.to_nat (M + 2))) with (Z.to_nat (M + 3)) by lia.
    pose proof (fib_le (Z.to_nat (M + 2)) (Z.to_nat (m + 3)) ltac:(lia)).
    assert (fib (Z.to_nat (M + 3)) + fib (Z.to_nat (m + 3)) <=
            length (aelems l) + 1 + (length (aelems r) + 1)).
    { unfold m, M. destruct (Z.le_ge_cases (atrue_height l) (atrue_height r)).
      - rewrite Z.max_r, Z.min_l by lia. lia.
      - rewrite Z.max_l, Z.min_r by lia. lia. }
    lia.
Qed.

Lemma avl_shallow ops : Forall sop_nonnan ops ->
  exists t, avl_run ops = Ok t /\ aheight t = atrue_height t /\ abalanced t /\
    fib (Z.to_nat (aheight t + 3)) <= length (bag ops) + 1.
Proof.
  intros Hn. destruct (avl_reach ops Hn) as [t [Hr [Hw Hk Hnn]]].
  exists t. split; [exact Hr|]. split; [apply wfa_height; exact Hw|].
  split; [apply wfa_balanced; exact Hw|].
  rewrite (wfa_height t Hw). pose proof (balanced_fib t (wfa_balanced t Hw)) as H.
  rewrite <- (keys_length (aelems t)) in H. change (keys (aelems t)) with (akeys t) in H.
  rewrite Hk, (Permutation_length (sortz_perm _)), keys_length in H. exact H.
Qed.

(** ** Rank *)
Definition cltz (k : Z) (l : list Z) : nat := length (filter (fun z => z <? k)%Z l).
Definition clez (k : Z) (l : list Z) : nat := length (filter (fun z => z <=? k)%Z l).
Definition ceqz (k : Z) (l : list Z) : nat := length (filter (fun z => z =? k)%Z l).

Lemma clez_split k l : clez k l = cltz k l + ceqz k l.
Proof.
  unfold clez, cltz, ceqz. induction l as [|z l IH]; cbn; [reflexivity|].
  destruct (Z.leb_spec z k); destruct (Z.ltb_spec z k); destruct (Z.eqb_spec z k); cbn; lia.
Qed.

Lemma cz_app f l1 l2 : length (@filter Z f (l1 ++ l2)) = length (filter f l1) + length (filter f l2).
Proof. rewrite filter_app, app_length. reflexivity. Qed.

(** Bounds satisfied by any "left size at an equal node" rank. *)
Lemma rank_bounds_mid l k r : sortedz (l ++ k :: r) ->
  cltz k (l ++ k :: r) <= length l < clez k (l ++ k :: r).
Proof.
  intros Hs. apply sorted_nth_count; [exact Hs|].
  rewrite nth_error_app2 by lia. rewrite Nat.sub_diag. reflexivity.
Qed.

Lemma avl_rank_bounds t x : wfa t -> nonnan x -> Forall nonnan (aelems t) -> sortedz (akeys t) ->
  (In (fk x) (akeys t) -> (Z.of_nat (cltz (fk x) (akeys t)) <= avl_rank t x < Z.of_nat (clez (fk x) (akeys t)))%Z) /\
  (~ In (fk x) (akeys t) -> avl_rank t x = Z.of_nat (cltz (fk x) (akeys t))).
Proof.
  intros Hw Hx. induction t as [|l IHl r IHr v h s]; intros Hn Hs.
  - cbn. split; [tauto|reflexivity].
  - cbn [wfa] in Hw. destruct Hw as [Hl [Hr [Hh [Hsz Hb]]]].
    cbn [aelems] in Hn. apply nonnan_parts in Hn. destruct Hn as [Hnl [Hv Hnr]].
    unfold akeys in *. cbn [aelems] in *. rewrite keys_app in *. cbn [keys map] in *.
    fold (keys (aelems r)) in *.
    pose proof (sorted_parts _ _ _ Hs) as [Hsl [Hsr [Hlo Hhi]]].
    specialize (IHl Hl Hnl Hsl). specialize (IHr Hr Hnr Hsr).
    cbn [avl_rank]. rewrite flt_key, fgt_key by assumption.
    rewrite (wfa_size l Hl). unfold zlen. rewrite <- (keys_length (aelems l)).
    unfold cltz, clez in *.
    destruct (Z.ltb_spec (fk x) (fk v)) as [Hlt|Hge].
    + rewrite !cz_app. cbn [filter].
      destruct (Z.ltb_spec (fk v) (fk x)); [lia|]. destruct (Z.leb_spec (fk v) (fk x)); [lia|].
      rewrite (filter_none _ (keys (aelems r))) by (intros z Hz; specialize (Hhi z Hz); apply Z.ltb_ge; lia).
      rewrite (filter_none _ (keys (aelems r))) by (intros z Hz; specialize (Hhi z Hz); apply Z.leb_gt; lia).
      cbn [length]. rewrite !Nat.add_0_r.
      assert (Hiff : In (fk x) (keys (aelems l) ++ fk v :: keys (aelems r)) <-> In (fk x) (keys (aelems l))).
      { rewrite in_app_iff. cbn. split; [|tauto]. intros [H1|[H1|H1]]; [auto|lia|]. specialize (Hhi _ H1). lia. }
      rewrite Hiff. exact IHl.
    + destruct (Z.ltb_spec (fk v) (fk x)) as [Hgt|Hle].
      * rewrite !cz_app. cbn [filter].
        destruct (Z.ltb_spec (fk v) (fk x)); [|lia]. destruct (Z.leb_spec (fk v) (fk x)); [|lia].
        rewrite (filter_all _ (keys (aelems l))) by (intros z Hz; specialize (Hlo z Hz); apply Z.ltb_lt; lia).
        rewrite (filter_all _ (keys (aelems l))) by (intros z Hz; specialize (Hlo z Hz); apply Z.leb_le; lia).
        cbn [length].
        assert (Hiff : In (fk x) (keys (aelems l) ++ fk v :: keys (aelems r)) <-> In (fk x) (keys (aelems r))).
        { rewrite in_app_iff. cbn. split; [|tauto]. intros [H1|[H1|H1]]; [|lia|auto]. specialize (Hlo _ H1). lia. }
        rewrite Hiff. destruct IHr as [I1 I2]. split; intros Hi; [specialize (I1 Hi)|specialize (I2 Hi)]; lia.
      * assert (Heq : fk v = fk x) by lia. rewrite Heq in *.
        pose proof (rank_bounds_mid _ _ _ Hs) as Hb2. unfold cltz, clez in Hb2. split.
        -- intros _. lia.
        -- intros Hni. exfalso. apply Hni. apply in_or_app. right. left. reflexivity.
Qed.

(** Rank specification usable for any container. *)
Lemma rank_transfer (b : list f64) ks v (rank : Z) : Forall nonnan b -> nonnan v ->
  Permutation ks (keys b) ->
  (In (fk v) ks -> (Z.of_nat (cltz (fk v) ks) <= rank < Z.of_nat (clez (fk v) ks))%Z) ->
  (~ In (fk v) ks -> rank = Z.of_nat (cltz (fk v) ks)) ->
  (Z.of_nat (count_lt v b) <= rank <= Z.of_nat (count_le v b))%Z /\
  (count_eq v b <= 1 -> rank = Z.of_nat (count_lt v b)).
Proof.
  intros Hb Hv HP H1 H2.
  rewrite count_lt_keys, count_le_keys, count_eq_keys by assumption.
  rewrite <- !(Permutation_length (filter_perm _ _ _ HP)).
  fold (cltz (fk v) ks) (clez (fk v) ks) (ceqz (fk v) ks).
  pose proof (clez_split (fk v) ks) as Hsp.
  destruct (in_dec Z.eq_dec (fk v) ks) as [Hi|Hni].
  - specialize (H1 Hi). split; [lia|]. intros Hc. lia.
  - specialize (H2 Hni). split; [lia|]. intros _. exact H2.
Qed.

Lemma avl_rank_correct ops v : Forall sop_nonnan ops -> nonnan v ->
  exists t, avl_run ops = Ok t /\
    (Z.of_nat (count_lt v (bag ops)) <= avl_rank t v <= Z.of_nat (count_le v (bag ops)))%Z /\
    (count_eq v (bag ops) <= 1 -> avl_rank t v = Z.of_nat (count_lt v (bag ops))).
Proof.
  intros Hn Hv. destruct (avl_reach ops Hn) as [t [Hr [Hw Hk Hnn]]].
  exists t. split; [exact Hr|].
  assert (Hs : sortedz (akeys t)) by (rewrite Hk; apply sortz_sorted).
  destruct (avl_rank_bounds t v Hw Hv Hnn Hs) as [B1 B2].
  apply (rank_transfer (bag ops) (akeys t)); auto using bag_nonnan.
  rewrite Hk. apply sortz_perm.
Qed.
