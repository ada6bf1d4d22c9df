(** What String prints of the trees and of the skip list: C71, C72. *)
From Coq Require Import String Ascii.
From Verif Require Import Base F64 OrderSpec MultisetSpec SortLib AvlModel AvlProof RbModel RbProof SkipModel SkipProof PropsTree PropsSkip StrModel StrProof.
Local Open Scope string_scope.

(** *** C71. String of a tree draws the tree *)

(** After any history, String returns one line per stored value, from the largest at the top to the
    smallest at the bottom. Every line is made of bars and blanks, one per ancestor, of a corner and
    of the printed value. *)
Theorem C71_avl pf ops : Forall sop_nonnan ops -> exists t es ls, avl_run ops = Ok t /\
  avl_string pf t = Ok (lines_string ls) /\ map text ls = map pf (rev es) /\ (forall ln, In ln ls -> Z.of_nat (length (segs ln)) <= aheight t)%Z /\
  (forall v, nonnan v -> count_eq v (bag ops) = count_eq v es) /\
  (forall i j x y, i < j -> nth_error es i = Some x -> nth_error es j = Some y -> fle x y = true).
Proof.
  intros Hn. destruct (avl_reach ops Hn) as [t [Hr [Hw Hk Hnn]]]. destruct (avl_shallow ops Hn) as (t' & Hr' & Hh & _). rewrite Hr in Hr'. injection Hr' as <-.
  exists t, (aelems t), (plines (apic pf t) [] true). split; [exact Hr|]. split; [apply avl_string_ok|]. split; [rewrite plines_labels; apply labels_avl|].
  split; [intros ln Hl; apply plines_height in Hl; pose proof (apic_height pf t); cbn [length] in Hl; lia|].
  apply (sorted_list_keys (bag ops) (aelems t) (bag_nonnan ops Hn) Hnn Hk).
Qed.
Print Assumptions C71_avl.
(** The same for the red-black tree, for the histories of C07_rb_is_sorted_multiset_partial; otherwise
    values are missing from the tree (C07_rb_is_sorted_multiset_refuted). *)
Theorem C71_rb_partial pf ops : Forall sop_nonnan ops -> single_removes ops -> exists t es ls, rb_run ops = Ok t /\
  rb_string pf t = Ok (lines_string ls) /\ map text ls = map pf (rev es) /\ (forall ln, In ln ls -> Z.of_nat (length (segs ln)) <= rtrue_height t)%Z /\
  (forall v, nonnan v -> count_eq v (bag ops) = count_eq v es) /\
  (forall i j x y, i < j -> nth_error es i = Some x -> nth_error es j = Some y -> fle x y = true).
Proof.
  intros Hn H1. destruct (rb_reach ops Hn H1) as [t [Hr [Hro Hsz Hk Hnn]]].
  exists t, (relems t), (plines (rpic pf t) [] true). split; [exact Hr|]. split; [apply rb_string_ok|]. split; [rewrite plines_labels; apply labels_rb|].
  split; [intros ln Hl; apply plines_height in Hl; pose proof (rpic_height pf t); cbn [length] in Hl; lia|].
  apply (sorted_list_keys (bag ops) (relems t) (bag_nonnan ops Hn) Hnn Hk).
Qed.
Print Assumptions C71_rb_partial.

(** The drawing determines the tree: equal strings come from trees of the same shape with the same
    printed values at the same places, whichever kind of tree they come from. *)
Theorem C71_read pf : (forall v, no_nl (pf v)) ->
  (forall t t', avl_string pf t = avl_string pf t' -> apic pf t = apic pf t') /\
  (forall t t', rb_string pf t = rb_string pf t' -> rpic pf t = rpic pf t') /\
  (forall t t', avl_string pf t = rb_string pf t' -> apic pf t = rpic pf t').
Proof.
  intros H. assert (HA : forall t, Forall no_nl (labels (apic pf t))) by (intros t; rewrite labels_avl, Forall_map; apply Forall_forall; intros x _; apply H).
  assert (HR : forall t, Forall no_nl (labels (rpic pf t))) by (intros t; rewrite labels_rb, Forall_map; apply Forall_forall; intros x _; apply H).
  repeat split; intros t t' E; rewrite ?avl_string_ok, ?rb_string_ok in E; injection E as E; apply pic_inj; auto.
Qed.
Print Assumptions C71_read.

Definition digit (v : f64) : string :=
  if feq v (fz 0) then "0" else if feq v (fz 1) then "1" else if feq v (fz 2) then "2" else if feq v (fz 3) then "3" else if feq v (fz 4) then "4" else
  if feq v (fz 5) then "5" else if feq v (fz 6) then "6" else if feq v (fz 7) then "7" else "x".
Example C71_case : Forall sop_nonnan tree_case /\ Forall sop_nonnan rb_case /\ single_removes rb_case /\ (forall v, no_nl (digit v)) /\
  (t <- avl_run (map (fun z => SAdd (fz z)) [4; 2; 6; 1; 3; 5; 7; 1]%Z) ;; avl_string digit t) = Ok
"│       ┌── 7
│   ┌── 6
│   │   └── 5
└── 4
    │   ┌── 3
    └── 2
        └── 1
            └── 1
" /\ (t <- rb_run (map (fun z => SAdd (fz z)) [4; 2; 6; 1; 3; 5; 7]%Z) ;; rb_string digit t) = Ok
"│       ┌── 7
│   ┌── 6
│   │   └── 5
└── 4
    │   ┌── 3
    └── 2
        └── 1
".
Proof.
  split; [concrete|]. split; [concrete|]. split; [apply single_removesb_ok; vm_compute; reflexivity|].
  split; [intros v; unfold digit; repeat (match goal with |- context [if ?b then _ else _] => destruct b end); cbn; repeat split; discriminate|].
  split; vm_compute; reflexivity.
Qed.

(** *** C72. String of a skip list *)

Definition neg_ops : list sop := [SAdd (fz 1); SAdd (fz 1); SAdd (fz 1); SAdd (fz 0); SRemove (fz 1); SRemove (fz 1)].
(** False: with equal values String panics, because a stored distance becomes negative
    (strings.Repeat of a negative count). *)
Theorem C72_skiplist_refuted pe : exists maxLevel probs rnd ops, 1 <= maxLevel /\ Forall sop_nonnan ops /\
  exists s, skip_run maxLevel probs rnd ops = Ok s /\ skip_string pe s = Panic.
Proof.
  exists 12, half_probs, (levels_src [2; 1; 1; 2]), neg_ops. split; [lia|]. split; [concrete|].
  destruct (rmap_ok skip_size (skip_run 12 half_probs (levels_src [2; 1; 1; 2]) neg_ops) 2%Z) as [s [H1 _]]; [concrete|].
  exists s. split; [exact H1|].
  assert (H : (s <- skip_run 12 half_probs (levels_src [2; 1; 1; 2]) neg_ops ;; skip_string pe s) = Panic) by (vm_compute; reflexivity).
  rewrite H1 in H. exact H.
Qed.
Print Assumptions C72_skiplist_refuted.

(** What holds: if no value is added while an equal one is stored, or if there is only one level. The
    lines are the levels, from the highest to the lowest. The line of a level has the values that reach
    it, in ascending order, each preceded by as many dashes as it is places after the one before it. *)
Theorem C72_skiplist_partial pe maxLevel probs rnd ops : 1 <= maxLevel -> Forall sop_nonnan ops ->
  (forall p v q, ops = (p ++ SAdd v :: q)%list -> count_eq v (bag p) = 0) \/ maxLevel = 1 ->
  exists s hs es, skip_run maxLevel probs rnd ops = Ok s /\ length hs = length es /\ Forall (fun h => 1 <= h <= maxLevel) hs /\
    skip_string pe s = Ok (rows pe maxLevel (combine hs es)) /\
    (forall v, nonnan v -> count_eq v (bag ops) = count_eq v es) /\
    (forall i j x y, i < j -> nth_error es i = Some x -> nth_error es j = Some y -> fle x y = true).
Proof.
  intros Hm Hn Hd. destruct (skip_reach_w maxLevel probs rnd ops Hm Hn Hd) as (s & E & (Em & L & I & Hk & HW) & _).
  exists s, (map (lvs (sk_store s)) L), (vals (sk_store s) L). split; [exact E|]. split; [unfold vals; rewrite !map_length; reflexivity|].
  split; [rewrite Forall_map; apply Forall_forall; intros a Ha; rewrite <- Em; apply (li_lv _ _ I a Ha)|].
  split.
  - rewrite (skip_string_ok pe s L I HW), Em. f_equal. f_equal. unfold cells, vals. clear. induction L as [|a L IH]; [reflexivity|]. cbn [map combine]. f_equal. exact IH.
  - apply (sorted_list_keys (bag ops) _ (bag_nonnan ops Hn) (linv_vals_nn s L I)). exact Hk.
Qed.
Print Assumptions C72_skiplist_partial.

Definition str_ops : list sop := [SAdd (fz 5); SAdd (fz 2); SClear; SAdd (fz 4); SAdd (fz 1); SAdd (fz 7); SAdd (fz 2); SAdd (fz 6); SRemove (fz 2); SAdd (fz 3)].
Example C72_case : Forall sop_nonnan str_ops /\ (forall p v q, str_ops = (p ++ SAdd v :: q)%list -> count_eq v (bag p) = 0) /\
  (s <- skip_run 3 half_probs (levels_src [1; 1; 1; 3; 2; 3; 2; 1]) str_ops ;; skip_string digit s) = Ok
"head-1-----tail
head-1---6-7-tail
head-1-3-4-6-7-tail
".
Proof.
  split; [concrete|]. split; [|vm_compute; reflexivity].
  intros p v q E. unfold str_ops in E.
  repeat (destruct p as [|? p]; cbn [app] in E; [try discriminate E; injection E as <- _; vm_compute; reflexivity|]; injection E as <- E). destruct p; discriminate E.
Qed.
