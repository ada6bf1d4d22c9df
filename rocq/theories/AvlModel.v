(** Model of quantile/ost/avl (node.go, tree.go). A Go pointer *Node is a value
    of [avl], nil is [ALeaf]; the code never shares a subtree between two live
    parents, so updating through the pointer is returning the new value.
    Dereferencing nil is [Panic]. Sizes and heights are Go ints, as Z. *)
From Verif Require Import Base F64 MultisetSpec.

(** quantile/ost/avl/node.go:12-18 (type Node): fields left, right, val, height, size. *)
Inductive avl := ALeaf | ANode (l r : avl) (v : f64) (h s : Z).

(** node.go:20-25 max *)
Definition imax (x y : Z) : Z := if (y <? x)%Z then x else y.

(** node.go:28-34 NewNode *)
Definition avl_node (v : f64) : avl := ANode ALeaf ALeaf v 0 1.

(** node.go:53-58 Height *)
Definition aheight (n : avl) : Z := match n with ALeaf => -1 | ANode _ _ _ h _ => h end.
(** node.go:61-66 Size *)
Definition asize (n : avl) : Z := match n with ALeaf => 0 | ANode _ _ _ _ s => s end.

(** node.go:167-169 heightDiff *)
Definition height_diff (n : avl) : res Z :=
  match n with ALeaf => Panic | ANode l r _ _ _ => Ok (aheight l - aheight r)%Z end.

(** node.go:171-185 rotateLeft: [m] takes the size of [n], then n.size, n.height
    and m.height are recomputed in that order. *)
Definition avl_rotate_left (n : avl) : res avl :=
  match n with
  | ALeaf => Panic
  | ANode nl nr nv nh ns =>
      match nr with
      | ALeaf => Panic
      | ANode ml mr mv mh ms =>
          let n' := ANode nl ml nv (imax (aheight nl) (aheight ml) + 1) (asize nl + asize ml + 1) in
          Ok (ANode n' mr mv (imax (aheight n') (aheight mr) + 1) ns)
      end
  end.

(** node.go:187-201 rotateRight *)
Definition avl_rotate_right (n : avl) : res avl :=
  match n with
  | ALeaf => Panic
  | ANode nl nr nv nh ns =>
      match nl with
      | ALeaf => Panic
      | ANode ml mr mv mh ms =>
          let n' := ANode mr nr nv (imax (aheight mr) (aheight nr) + 1) (asize mr + asize nr + 1) in
          Ok (ANode ml n' mv (imax (aheight ml) (aheight n') + 1) ns)
      end
  end.

(** node.go:147-165 balance *)
Definition avl_balance (n : avl) : res avl :=
  d <- height_diff n ;;
  match n with
  | ALeaf => Panic
  | ANode l r v h s =>
      if (d <? -1)%Z then
        rd <- height_diff r ;;
        r' <- (if (rd >? 0)%Z then avl_rotate_right r else Ok r) ;;
        avl_rotate_left (ANode l r' v h s)
      else if (d >? 1)%Z then
        ld <- height_diff l ;;
        l' <- (if (ld <? 0)%Z then avl_rotate_left l else Ok l) ;;
        avl_rotate_right (ANode l' r v h s)
      else Ok n
  end.

(** node.go:90-92, 119-121, 138-140: recompute size and height, then balance. *)
Definition avl_refresh (l r : avl) (v : f64) : res avl :=
  avl_balance (ANode l r v (imax (aheight l) (aheight r) + 1) (asize l + asize r + 1)).

(** node.go:81-93 add *)
Fixpoint avl_add (n : avl) (val : f64) : res avl :=
  match n with
  | ALeaf => Ok (avl_node val)
  | ANode l r v h s =>
      if fle val v then l' <- avl_add l val ;; avl_refresh l' r v
      else r' <- avl_add r val ;; avl_refresh l r' v
  end.

(** node.go:124-130 min (the value of the minimal node; nil receiver panics) *)
Fixpoint avl_min (n : avl) : res f64 :=
  match n with
  | ALeaf => Panic
  | ANode l _ v _ _ => match l with ALeaf => Ok v | _ => avl_min l end
  end.

(** node.go:132-141 removeMin *)
Fixpoint avl_remove_min (n : avl) : res avl :=
  match n with
  | ALeaf => Panic
  | ANode l r v _ _ =>
      match l with
      | ALeaf => Ok r
      | _ => l' <- avl_remove_min l ;; avl_refresh l' r v
      end
  end.

(** node.go:95-122 remove. The node returned by n.right.min() is unlinked by
    removeMin and becomes the root, so only its value matters. *)
Fixpoint avl_remove (n : avl) (val : f64) : res avl :=
  match n with
  | ALeaf => Ok ALeaf
  | ANode l r v h s =>
      if flt val v then l' <- avl_remove l val ;; avl_refresh l' r v
      else if fgt val v then r' <- avl_remove r val ;; avl_refresh l r' v
      else match l, r with
           | ALeaf, _ => Ok r
           | _, ALeaf => Ok l
           | _, _ => m <- avl_min r ;; r' <- avl_remove_min r ;; avl_refresh l r' m
           end
  end.

(** node.go:209-222 Select; [None] is the nil order.Node, [Some v] a node of value v. *)
Fixpoint avl_select (n : avl) (k : Z) : option f64 :=
  match n with
  | ALeaf => None
  | ANode l r v _ _ =>
      let size := asize l in
      if (k <? size)%Z then avl_select l k
      else if (k >? size)%Z then avl_select r (k - size - 1)%Z
      else Some v
  end.

(** node.go:226-235 Rank *)
Fixpoint avl_rank (n : avl) (val : f64) : Z :=
  match n with
  | ALeaf => 0
  | ANode l r v _ _ =>
      if flt val v then avl_rank l val
      else if fgt val v then (1 + asize l + avl_rank r val)%Z
      else asize l
  end.

(** tree.go:48-50 Clear *)
Definition avl_clear (_ : avl) : res avl := Ok ALeaf.

(** tree.go:8-50: a history of Add, Remove, Clear on the zero Tree (root nil). *)
Definition avl_run (ops : list sop) : res avl := srun avl_add avl_remove avl_clear ops ALeaf.
