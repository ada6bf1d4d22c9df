(** Sorted lists of integers and their relation to the order specifications. *)
From Coq Require Import Permutation Sorted.
From Verif Require Import Base F64 OrderSpec MultisetSpec.

Definition sortedz (l : list Z) : Prop := StronglySorted Z.le l.

Fixpoint insz (z : Z) (l : list Z) : list Z :=
  match l with
  | [] => [z]
  | y :: t => if (z <=? y)%Z then z :: l else y :: insz z t
  end.

Fixpoint remz (z : Z) (l : list Z) : list Z :=
  match l with
  | [] => []
  | y :: t => if (y =? z)%Z then t else y :: remz z t
  end.

Lemma sortedz_app l1 l2 : sortedz (l1 ++ l2) <->
  sortedz l1 /\ sortedz l2 /\ (forall a b, In a l1 -> In b l2 -> (a <= b)%Z).
Proof.
  induction l1 as [|x l1 IH]; cbn.
  - split; [|tauto]. intros H. repeat split; auto; [constructor | tauto].
  - split.
    + intros H. inversion H as [|? ? Hs Hf]; subst. apply IH in Hs. destruct Hs as [H1 [H2 H3]].
      rewrite Forall_app in Hf. destruct Hf as [Hf1 Hf2]. repeat split; auto.
      * constructor; assumption.
      * rewrite Forall_forall in Hf2. intros a b [<-|Ha] Hb; auto.
    + intros [H1 [H2 H3]]. inversion H1 as [|? ? Hs Hf]; subst. constructor.
      * apply IH. repeat split; auto.
      * rewrite Forall_app. split; [exact Hf|]. rewrite Forall_forall. intros b Hb. auto.
Qed.

Lemma sortedz_cons x l : sortedz (x :: l) <-> sortedz l /\ (forall b, In b l -> (x <= b)%Z).
Proof.
  split.
  - intros H. inversion H as [|? ? Hs Hf]; subst. rewrite Forall_forall in Hf. auto.
  - intros [H1 H2]. constructor; [exact H1|]. rewrite Forall_forall. auto.
Qed.

Lemma sortedz_nil : sortedz [].
Proof. constructor. Qed.

Lemma insz_perm z l : Permutation (insz z l) (z :: l).
Proof.
  induction l as [|y t IH]; cbn; [reflexivity|].
  destruct (z <=? y)%Z; [reflexivity|]. rewrite IH. apply perm_swap.
Qed.

Lemma insz_In z l x : In x (insz z l) <-> x = z \/ In x l.
Proof.
  split; intros H.
  - apply (Permutation_in x (insz_perm z l)) in H. destruct H; auto.
  - apply (Permutation_in x (Permutation_sym (insz_perm z l))). destruct H; [left; auto|right; auto].
Qed.

Lemma insz_sorted z l : sortedz l -> sortedz (insz z l).
Proof.
  induction l as [|y t IH]; cbn; intros H.
  - apply sortedz_cons. split; [constructor|]. intros b [].
  - apply sortedz_cons in H. destruct H as [Ht Hy].
    destruct (Z.leb_spec z y).
    + apply sortedz_cons. split; [apply sortedz_cons; auto|].
      intros b [<-|Hb]; [lia|]. specialize (Hy b Hb). lia.
    + apply sortedz_cons. split; [auto|]. intros b Hb. apply insz_In in Hb.
      destruct Hb as [->|Hb]; [lia|auto].
Qed.

Lemma insz_length z l : length (insz z l) = S (length l).
Proof. rewrite (Permutation_length (insz_perm z l)). reflexivity. Qed.

Lemma insz_left z l y r : (z <= y)%Z ->
  insz z (l ++ y :: r) = insz z l ++ y :: r.
Proof.
  intros H. induction l as [|x l IH]; cbn.
  - destruct (Z.leb_spec z y); [reflexivity|lia].
  - destruct (z <=? x)%Z; [reflexivity|]. rewrite IH. reflexivity.
Qed.

Lemma insz_right z l y r : (forall a, In a l -> (a < z)%Z) -> (y < z)%Z ->
  insz z (l ++ y :: r) = l ++ y :: insz z r.
Proof.
  intros Hl Hy. induction l as [|x l IH]; cbn.
  - destruct (Z.leb_spec z y); [lia|reflexivity].
  - specialize (Hl x (or_introl eq_refl)) as Hx. destruct (Z.leb_spec z x); [lia|].
    f_equal. apply IH. intros a Ha. apply Hl. right. exact Ha.
Qed.

Lemma remz_notin z l : ~ In z l -> remz z l = l.
Proof.
  induction l as [|y t IH]; cbn; [reflexivity|]. intros H.
  destruct (Z.eqb_spec y z); [tauto|]. f_equal. tauto.
Qed.

Lemma remz_In z l x : In x (remz z l) -> In x l.
Proof.
  induction l as [|y t IH]; cbn; [tauto|]. destruct (y =? z)%Z; cbn; tauto.
Qed.

Lemma remz_sorted z l : sortedz l -> sortedz (remz z l).
Proof.
  induction l as [|y t IH]; cbn; [auto|]. rewrite sortedz_cons. intros [Ht Hy].
  destruct (y =? z)%Z; [exact Ht|]. apply sortedz_cons. split; [auto|].
  intros b Hb. apply Hy. eapply remz_In. eassumption.
Qed.

Lemma remz_app_l z l r : In z l -> remz z (l ++ r) = remz z l ++ r.
Proof.
  induction l as [|y t IH]; cbn; [tauto|]. intros H.
  destruct (Z.eqb_spec y z); [reflexivity|]. destruct H as [H|H]; [congruence|].
  rewrite IH by exact H. reflexivity.
Qed.

Lemma remz_app_r z l r : ~ In z l -> remz z (l ++ r) = l ++ remz z r.
Proof.
  induction l as [|y t IH]; cbn; [reflexivity|]. intros H.
  destruct (Z.eqb_spec y z); [tauto|]. f_equal. tauto.
Qed.

(** Removing the occurrence in the middle or the first one is the same. *)
Lemma remz_mid z l r : sortedz l -> (forall a, In a l -> (a <= z)%Z) ->
  remz z (l ++ z :: r) = l ++ r.
Proof.
  induction l as [|x l IH]; cbn; intros Hs Hl.
  - rewrite Z.eqb_refl. reflexivity.
  - apply sortedz_cons in Hs. destruct Hs as [Hs Hx].
    destruct (Z.eqb_spec x z) as [->|Hne].
    + assert (Hall : forall a, In a l -> a = z).
      { intros a Ha. specialize (Hx a Ha). specialize (Hl a (or_intror Ha)). lia. }
      clear - Hall. induction l as [|x l IH]; [reflexivity|].
      cbn. rewrite (Hall x (or_introl eq_refl)). f_equal. apply IH.
      intros a Ha. apply Hall. right. exact Ha.
    + f_equal. apply IH; [exact Hs|]. intros a Ha. apply Hl. right. exact Ha.
Qed.

Lemma remz_perm_in z l : In z l -> Permutation l (z :: remz z l).
Proof.
  induction l as [|y t IH]; cbn; [tauto|]. intros H.
  destruct (Z.eqb_spec y z) as [->|Hne]; [reflexivity|].
  destruct H as [H|H]; [congruence|]. rewrite perm_swap. constructor. auto.
Qed.

Lemma remz_perm z l1 l2 : Permutation l1 l2 -> Permutation (remz z l1) (remz z l2).
Proof.
  intros H. destruct (in_dec Z.eq_dec z l1) as [Hi|Hn].
  - assert (Hi2 : In z l2) by (eapply Permutation_in; eassumption).
    apply remz_perm_in in Hi, Hi2.
    eapply Permutation_cons_inv with (a := z). rewrite <- Hi, <- Hi2. exact H.
  - rewrite !remz_notin; auto. intros Hi. apply Hn. eapply Permutation_in; [symmetry; eassumption|exact Hi].
Qed.

Lemma remz_length z l : In z l -> S (length (remz z l)) = length l.
Proof. intros H. rewrite (Permutation_length (remz_perm_in z l H)). reflexivity. Qed.

(** Sorted permutations are equal. *)
Lemma sortedz_unique l1 l2 : sortedz l1 -> sortedz l2 -> Permutation l1 l2 -> l1 = l2.
Proof.
  revert l2. induction l1 as [|x l1 IH]; intros l2 H1 H2 HP.
  - apply Permutation_nil in HP. auto.
  - destruct l2 as [|y l2]; [apply Permutation_sym, Permutation_nil in HP; discriminate|].
    apply sortedz_cons in H1, H2. destruct H1 as [H1 Hx], H2 as [H2 Hy].
    assert (x = y).
    { assert (A : In x (y :: l2)) by (eapply Permutation_in; [exact HP|left; reflexivity]).
      assert (B : In y (x :: l1)) by (eapply Permutation_in; [symmetry; exact HP|left; reflexivity]).
      destruct A as [A|A]; [auto|]. destruct B as [B|B]; [auto|].
      specialize (Hx y B). specialize (Hy x A). lia. }
    subst y. f_equal. apply IH; auto. eapply Permutation_cons_inv. exact HP.
Qed.

(** ** Keys of a bag *)
Definition keys (l : list f64) : list Z := map fk l.

Fixpoint sortz (l : list Z) : list Z := match l with [] => [] | x :: t => insz x (sortz t) end.
Lemma sortz_sorted l : sortedz (sortz l).
Proof. induction l; cbn; [constructor|]. apply insz_sorted. assumption. Qed.
Lemma sortz_perm l : Permutation (sortz l) l.
Proof. induction l as [|x l IH]; cbn; [constructor|]. rewrite insz_perm, IH. reflexivity. Qed.
Lemma sortz_of l s : sortedz s -> Permutation s l -> sortz l = s.
Proof.
  intros Hs HP. apply sortedz_unique; [apply sortz_sorted|exact Hs|]. rewrite sortz_perm. symmetry. exact HP.
Qed.

Lemma sortz_ins z l : sortz (z :: l) = insz z (sortz l).
Proof. reflexivity. Qed.

Lemma sortz_rem z l : sortz (remz z l) = remz z (sortz l).
Proof.
  apply sortz_of; [apply remz_sorted, sortz_sorted|]. apply remz_perm, sortz_perm.
Qed.

Lemma remove_one_keys v l : nonnan v -> Forall nonnan l -> keys (remove_one v l) = remz (fk v) (keys l).
Proof.
  intros Hv. induction l as [|y t IH]; intros Hl; cbn; [reflexivity|].
  rewrite feq_key by (inversion Hl; assumption).
  destruct (fk y =? fk v)%Z; [reflexivity|]. cbn. f_equal. apply IH. inversion Hl; assumption.
Qed.

Lemma remove_one_incl v l x : In x (remove_one v l) -> In x l.
Proof. induction l as [|y t IH]; cbn; [tauto|]. destruct (feq y v); cbn; tauto. Qed.

Lemma bag_snoc ops o : bag (ops ++ [o]) = bag_step (bag ops) o.
Proof. unfold bag. rewrite fold_left_app. reflexivity. Qed.

Lemma bag_nonnan ops : Forall sop_nonnan ops -> Forall nonnan (bag ops).
Proof.
  induction ops as [|o ops IH] using rev_ind; intros H; [constructor|].
  rewrite Forall_app in H. destruct H as [H Ho]. apply Forall_inv in Ho.
  rewrite bag_snoc. specialize (IH H). destruct o; cbn.
  - constructor; assumption.
  - rewrite Forall_forall in *. intros x Hx. apply IH. eapply remove_one_incl. eassumption.
  - constructor.
Qed.

(** ** Counting in key space *)
Lemma count_lt_keys v l : nonnan v -> Forall nonnan l ->
  count_lt v l = length (filter (fun z => z <? fk v)%Z (keys l)).
Proof.
  intros Hv. induction l as [|y t IH]; intros Hl; [reflexivity|].
  pose proof (Forall_inv Hl) as Hy. apply Forall_inv_tail in Hl.
  unfold count_lt in *. cbn. rewrite flt_key by assumption.
  destruct (fk y <? fk v)%Z; cbn; rewrite IH by assumption; reflexivity.
Qed.
Lemma count_le_keys v l : nonnan v -> Forall nonnan l ->
  count_le v l = length (filter (fun z => z <=? fk v)%Z (keys l)).
Proof.
  intros Hv. induction l as [|y t IH]; intros Hl; [reflexivity|].
  pose proof (Forall_inv Hl) as Hy. apply Forall_inv_tail in Hl.
  unfold count_le in *. cbn. rewrite fle_key by assumption.
  destruct (fk y <=? fk v)%Z; cbn; rewrite IH by assumption; reflexivity.
Qed.
Lemma count_eq_keys v l : nonnan v -> Forall nonnan l ->
  count_eq v l = length (filter (fun z => z =? fk v)%Z (keys l)).
Proof.
  intros Hv. induction l as [|y t IH]; intros Hl; [reflexivity|].
  pose proof (Forall_inv Hl) as Hy. apply Forall_inv_tail in Hl.
  unfold count_eq in *. cbn. rewrite feq_key by assumption.
  destruct (fk y =? fk v)%Z; cbn; rewrite IH by assumption; reflexivity.
Qed.

Lemma filter_perm {A} (f : A -> bool) l1 l2 : Permutation l1 l2 -> Permutation (filter f l1) (filter f l2).
Proof.
  induction 1 as [|x l1 l2 H IH|x y l|l1 l2 l3 H1 IH1 H2 IH2]; cbn.
  - constructor.
  - destruct (f x); [constructor|]; assumption.
  - destruct (f x), (f y); try reflexivity. apply perm_swap.
  - etransitivity; eassumption.
Qed.

Lemma filter_none {A} (f : A -> bool) l : (forall x, In x l -> f x = false) -> filter f l = [].
Proof.
  induction l as [|x l IH]; intros H; [reflexivity|]. cbn. rewrite (H x (or_introl eq_refl)).
  apply IH. intros y Hy. apply H. right. exact Hy.
Qed.
Lemma filter_all {A} (f : A -> bool) l : (forall x, In x l -> f x = true) -> filter f l = l.
Proof.
  induction l as [|x l IH]; intros H; [reflexivity|]. cbn. rewrite (H x (or_introl eq_refl)).
  f_equal. apply IH. intros y Hy. apply H. right. exact Hy.
Qed.

(** The k-th element of the sorted key list is the k-th smallest value. *)
Lemma sorted_nth_count s k z : sortedz s -> nth_error s k = Some z ->
  length (filter (fun y => y <? z)%Z s) <= k < length (filter (fun y => y <=? z)%Z s).
Proof.
  intros Hs Hk. apply nth_error_split in Hk. destruct Hk as [l1 [l2 [-> <-]]].
  apply sortedz_app in Hs. destruct Hs as [H1 [H2 H3]]. apply sortedz_cons in H2. destruct H2 as [H2 H4].
  rewrite !filter_app. cbn [filter]. rewrite Z.ltb_irrefl, Z.leb_refl.
  rewrite (filter_none (fun y => y <? z)%Z l2) by (intros x Hx; specialize (H4 x Hx); apply Z.ltb_ge; lia).
  rewrite (filter_all (fun y => y <=? z)%Z l1).
  2:{ intros x Hx. specialize (H3 x z Hx (or_introl eq_refl)). apply Z.leb_le. lia. }
  rewrite !app_length. cbn [length].
  assert (length (filter (fun y => y <? z)%Z l1) <= length l1).
  { clear. induction l1 as [|x l1 IH]; cbn; [lia|]. destruct (x <? z)%Z; cbn; lia. }
  lia.
Qed.

Lemma kth_of_sorted l s k v : Forall nonnan l -> nonnan v ->
  sortedz s -> Permutation s (keys l) -> nth_error s k = Some (fk v) -> is_kth l k v.
Proof.
  intros Hl Hv Hs HP Hk. split; [exact Hv|].
  rewrite count_lt_keys, count_le_keys by assumption.
  rewrite <- !(Permutation_length (filter_perm _ _ _ HP)).
  apply sorted_nth_count; assumption.
Qed.

(** Conversely the k-th smallest value is unique up to numeric equality. *)
Lemma kth_unique l k v1 v2 : Forall nonnan l -> is_kth l k v1 -> is_kth l k v2 -> fk v1 = fk v2.
Proof.
  intros Hl [N1 H1] [N2 H2].
  rewrite count_lt_keys, count_le_keys in H1 by assumption.
  rewrite count_lt_keys, count_le_keys in H2 by assumption.
  assert (Hmon : forall a b, (a < b)%Z ->
    length (filter (fun z => z <=? a)%Z (keys l)) <= length (filter (fun z => z <? b)%Z (keys l))).
  { clear. intros a b Hab. induction (keys l) as [|z t IH]; cbn; [lia|].
    destruct (Z.leb_spec z a); destruct (Z.ltb_spec z b); cbn; lia. }
  destruct (Z.lt_trichotomy (fk v1) (fk v2)) as [H|[H|H]]; [|exact H|].
  - specialize (Hmon _ _ H). lia.
  - specialize (Hmon _ _ H). lia.
Qed.

(** Lifting an invariant over a container history: [Inv] relates the abstract
    sorted key list to the state. *)
Lemma srun_inv {S} (add remove : S -> f64 -> res S) (clear : S -> res S) (Inv : list Z -> S -> Prop) s0 :
  Inv [] s0 ->
  (forall ks s v, sortedz ks -> Inv ks s -> nonnan v -> exists s', add s v = Ok s' /\ Inv (insz (fk v) ks) s') ->
  (forall ks s v, sortedz ks -> Inv ks s -> nonnan v -> exists s', remove s v = Ok s' /\ Inv (remz (fk v) ks) s') ->
  (forall ks s, sortedz ks -> Inv ks s -> exists s', clear s = Ok s' /\ Inv [] s') ->
  forall ops, Forall sop_nonnan ops ->
  exists s, srun add remove clear ops s0 = Ok s /\ Inv (sortz (keys (bag ops))) s.
Proof.
  intros H0 Ha Hr Hc ops.
  assert (Hgen : forall ops b s, Forall sop_nonnan ops -> Forall nonnan b -> Inv (sortz (keys b)) s ->
    exists s', srun add remove clear ops s = Ok s' /\ Inv (sortz (keys (fold_left bag_step ops b))) s').
  { clear ops. induction ops as [|o ops IH]; intros b s Hn Hb Hi.
    - exists s. auto.
    - pose proof (Forall_inv Hn) as Ho. apply Forall_inv_tail in Hn.
      destruct o as [v|v|]; cbn [srun fold_left bag_step].
      + destruct (Ha _ s v (sortz_sorted _) Hi Ho) as [s' [Hs' Hi']]. rewrite Hs'. cbn [bind].
        apply IH; auto.
      + destruct (Hr _ s v (sortz_sorted _) Hi Ho) as [s' [Hs' Hi']]. rewrite Hs'. cbn [bind].
        apply IH; auto.
        * rewrite Forall_forall in *. intros x Hx. apply Hb. eapply remove_one_incl. eassumption.
        * rewrite remove_one_keys, sortz_rem by assumption. exact Hi'.
      + destruct (Hc _ s (sortz_sorted _) Hi) as [s' [Hs' Hi']]. rewrite Hs'. cbn [bind].
        apply IH; auto. }
  intros Hn. apply Hgen; auto.
Qed.

Lemma srun_snoc {S} (add remove : S -> f64 -> res S) (clear : S -> res S) ops o s :
  srun add remove clear (ops ++ [o]) s = (s' <- srun add remove clear ops s ;; srun add remove clear [o] s').
Proof.
  revert s. induction ops as [|[v|v|] ops IH]; intros s; cbn [app srun].
  - reflexivity.
  - destruct (add s v); cbn [bind]; auto.
  - destruct (remove s v); cbn [bind]; auto.
  - destruct (clear s); cbn [bind]; auto.
Qed.
