(** Property theorems C04 - C08: the tree order statistics. *)
From Verif Require Import Base F64 OrderSpec MultisetSpec SortLib AvlModel AvlProof RbModel RbProof.

(** C04. Every history of Add, Remove, Clear runs without panic; the tree then
    has the size of the abstract bag and selects its k-th smallest element. *)
Theorem C04_avl_is_sorted_multiset : forall ops, Forall sop_nonnan ops ->
  exists t, avl_run ops = Ok t /\ asize t = zlen (bag ops) /\
    forall k, (0 <= k < zlen (bag ops))%Z /\ (exists v, avl_select t k = Some v /\ is_kth (bag ops) (Z.to_nat k) v) \/
              ~ (0 <= k < zlen (bag ops))%Z /\ avl_select t k = None.
Proof. exact avl_correct. Qed.
Print Assumptions C04_avl_is_sorted_multiset.

Definition tree_case : list sop :=
  [SAdd (fz 5); SClear; SAdd (fz 3); SAdd (fz 3); SAdd (fz 1); SAdd (fz 2); SAdd (fz 3); SAdd (fz 9);
   SRemove (fz 3); SRemove (fz 7); SRemove (fz 1)].
Example C04_case :
  Forall sop_nonnan tree_case /\ length (bag tree_case) = 4 /\
  rmap (fun t => map (fun k => option_map fbits (avl_select t k)) [0; 1; 2; 3; 4; -1]%Z) (avl_run tree_case) =
  Ok [Some (fbits (fz 2)); Some (fbits (fz 3)); Some (fbits (fz 3)); Some (fbits (fz 9)); None; None].
Proof. concrete. Qed.

(** C05. *)
Theorem C05_avl_is_shallow : forall ops, Forall sop_nonnan ops ->
  exists t, avl_run ops = Ok t /\ aheight t = atrue_height t /\ abalanced t /\
    fib (Z.to_nat (aheight t + 3)) <= length (bag ops) + 1.
Proof. exact avl_shallow. Qed.
Print Assumptions C05_avl_is_shallow.

Example C05_case :
  let ops := map (fun z => SAdd (fz z)) [1; 2; 3; 4; 5; 6; 7; 8; 9]%Z ++ [SRemove (fz 4); SRemove (fz 2)] in
  Forall sop_nonnan ops /\ rmap aheight (avl_run ops) = Ok 3%Z /\ fib 6 = 8.
Proof. concrete. Qed.

(** C06 is false for both trees as soon as a value is stored twice. *)
Theorem C06_tree_rank_refuted :
  exists ops v, Forall sop_nonnan ops /\ nonnan v /\
    (exists t, avl_run ops = Ok t /\ avl_rank t v <> Z.of_nat (count_lt v (bag ops))) /\
    (exists t, rb_run ops = Ok t /\ rb_rank t v <> Z.of_nat (count_lt v (bag ops))).
Proof.
  exists [SAdd (fz 1); SAdd (fz 1)], (fz 1). split; [concrete|]. split; [concrete|].
  assert (Hc : count_lt (fz 1) (bag [SAdd (fz 1); SAdd (fz 1)]) = 0) by concrete. rewrite Hc.
  split.
  - destruct (rmap_ok (fun t => avl_rank t (fz 1)) (avl_run [SAdd (fz 1); SAdd (fz 1)]) 1%Z) as [t [H1 H2]].
    { concrete. }
    exists t. split; [exact H1|]. rewrite H2. discriminate.
  - destruct (rmap_ok (fun t => rb_rank t (fz 1)) (rb_run [SAdd (fz 1); SAdd (fz 1)]) 1%Z) as [t [H1 H2]].
    { concrete. }
    exists t. split; [exact H1|]. rewrite H2. discriminate.
Qed.
Print Assumptions C06_tree_rank_refuted.

(** What holds: Rank lies between the number of smaller values and the number of
    values not larger, and is exact if at most one copy of [v] is stored.
    Missing: exactness for duplicates (false), and for the red-black tree the
    histories in which a Remove meets several copies (see C07). *)
Theorem C06_tree_rank_partial : forall ops v, Forall sop_nonnan ops -> nonnan v ->
  (exists t, avl_run ops = Ok t /\
    (Z.of_nat (count_lt v (bag ops)) <= avl_rank t v <= Z.of_nat (count_le v (bag ops)))%Z /\
    (count_eq v (bag ops) <= 1 -> avl_rank t v = Z.of_nat (count_lt v (bag ops)))) /\
  (single_removes ops ->
   exists t, rb_run ops = Ok t /\
    (Z.of_nat (count_lt v (bag ops)) <= rb_rank t v <= Z.of_nat (count_le v (bag ops)))%Z /\
    (count_eq v (bag ops) <= 1 -> rb_rank t v = Z.of_nat (count_lt v (bag ops)))).
Proof. exact (fun ops v Hn Hv => conj (avl_rank_correct ops v Hn Hv) (fun H1 => rb_rank_correct ops v Hn H1 Hv)). Qed.
Print Assumptions C06_tree_rank_partial.

(** Deciding [single_removes] for the examples. *)
Fixpoint single_removesb (b : list f64) (ops : list sop) : bool :=
  match ops with
  | [] => true
  | o :: t => match o with SRemove v => count_eq v b <=? 1 | _ => true end && single_removesb (bag_step b o) t
  end.
Lemma single_removesb_ok ops : single_removesb [] ops = true -> single_removes ops.
Proof.
  intros H p v q ->. unfold bag. revert H. generalize (@nil f64).
  induction p as [|o p IH]; intros b; cbn [app single_removesb fold_left]; intros H;
    apply andb_prop in H; destruct H as [H1 H2].
  - apply Nat.leb_le. exact H1.
  - apply IH. exact H2.
Qed.

Definition rb_case : list sop :=
  [SAdd (fz 5); SClear; SAdd (fz 3); SAdd (fz 3); SAdd (fz 1); SAdd (fz 2); SAdd (fz 8); SAdd (fz 9); SAdd (fz 4);
   SRemove (fz 4); SRemove (fz 7); SRemove (fz 1); SRemove (fz 8)].
Example C06_case :
  Forall sop_nonnan rb_case /\ single_removes rb_case /\ count_eq (fz 9) (bag rb_case) = 1 /\
  rmap (fun t => avl_rank t (fz 9)) (avl_run rb_case) = Ok 3%Z /\
  rmap (fun t => rb_rank t (fz 9)) (rb_run rb_case) = Ok 3%Z.
Proof. split; [concrete|]. split; [apply single_removesb_ok; vm_compute; reflexivity|]. concrete. Qed.

(** C07 is false: removing a value of which several copies are stored can lose
    another copy, and can make a later Remove dereference nil. *)
Theorem C07_rb_is_sorted_multiset_refuted :
  (exists ops, Forall sop_nonnan ops /\ exists t, rb_run ops = Ok t /\ rsize t <> zlen (bag ops)) /\
  (exists ops, Forall sop_nonnan ops /\ rb_run ops = Panic).
Proof.
  split.
  - exists [SAdd (fz 1); SAdd (fz 1); SAdd (fz 1); SAdd (fz 1); SRemove (fz 1)]. split; [concrete|].
    destruct (rmap_ok rsize (rb_run [SAdd (fz 1); SAdd (fz 1); SAdd (fz 1); SAdd (fz 1); SRemove (fz 1)]) 2%Z) as [t [H1 H2]].
    { concrete. }
    exists t. split; [exact H1|]. rewrite H2.
    assert (Hc : zlen (bag [SAdd (fz 1); SAdd (fz 1); SAdd (fz 1); SAdd (fz 1); SRemove (fz 1)]) = 3%Z) by concrete.
    rewrite Hc. discriminate.
  - exists [SAdd (fz 1); SAdd (fz 3); SAdd (fz 1); SAdd (fz 0); SRemove (fz 1); SRemove (fz 0)]. concrete.
Qed.
Print Assumptions C07_rb_is_sorted_multiset_refuted.

(** What holds: everything, for the histories in which each Remove meets at most
    one copy of its argument (in particular all histories without Remove, and all
    histories without duplicates). Missing: Remove of a value stored several times. *)
Theorem C07_rb_is_sorted_multiset_partial : forall ops, Forall sop_nonnan ops -> single_removes ops ->
  exists t, rb_run ops = Ok t /\ rsize t = zlen (bag ops) /\
    forall k, (0 <= k < zlen (bag ops))%Z /\ (exists v, rb_select t k = Some v /\ is_kth (bag ops) (Z.to_nat k) v) \/
              ~ (0 <= k < zlen (bag ops))%Z /\ rb_select t k = None.
Proof. exact rb_correct. Qed.
Print Assumptions C07_rb_is_sorted_multiset_partial.

Example C07_case :
  Forall sop_nonnan rb_case /\ single_removes rb_case /\ length (bag rb_case) = 4 /\
  rmap (fun t => map (fun k => option_map fbits (rb_select t k)) [0; 1; 2; 3; 4; -1]%Z) (rb_run rb_case) =
  Ok [Some (fbits (fz 2)); Some (fbits (fz 3)); Some (fbits (fz 3)); Some (fbits (fz 9)); None; None].
Proof. split; [concrete|]. split; [apply single_removesb_ok; vm_compute; reflexivity|]. concrete. Qed.

(** C08 is false for the same reason. *)
Theorem C08_rb_is_shallow_refuted :
  exists ops, Forall sop_nonnan ops /\ exists t, rb_run ops = Ok t /\ ~ all_equal (black_paths t).
Proof.
  exists [SAdd (fz 1); SAdd (fz 1); SAdd (fz 1); SAdd (fz 1); SRemove (fz 1)]. split; [concrete|].
  destruct (rmap_ok black_paths (rb_run [SAdd (fz 1); SAdd (fz 1); SAdd (fz 1); SAdd (fz 1); SRemove (fz 1)]) [2; 2; 1])
    as [t [H1 H2]].
  { concrete. }
  exists t. split; [exact H1|]. rewrite H2. intros H. specialize (H 2 1). cbn in H. intuition discriminate.
Qed.
Print Assumptions C08_rb_is_shallow_refuted.

Theorem C08_rb_is_shallow_partial : forall ops, Forall sop_nonnan ops -> single_removes ops ->
  exists t, rb_run ops = Ok t /\ all_equal (black_paths t) /\ red_rules t /\
    (rtrue_height t + 1 <= 2 * Z.log2 (zlen (bag ops) + 1))%Z.
Proof. exact rb_shallow. Qed.
Print Assumptions C08_rb_is_shallow_partial.

Example C08_case :
  Forall sop_nonnan rb_case /\ single_removes rb_case /\
  rmap rtrue_height (rb_run rb_case) = Ok 2%Z /\ rmap black_paths (rb_run rb_case) = Ok [2; 2; 2; 2; 2].
Proof. split; [concrete|]. split; [apply single_removesb_ok; vm_compute; reflexivity|]. concrete. Qed.
