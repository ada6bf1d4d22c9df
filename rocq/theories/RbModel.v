(** Model of quantile/ost/rb (node.go, tree.go): a left-leaning red-black tree.
    nil is [RLeaf]; dereferencing nil is [Panic]; see AvlModel.v for the treatment
    of pointers. [remove] and [removeMin] recurse on a child of a rearranged node,
    so they carry fuel; [rb_tree_remove] supplies the number of nodes. *)
From Verif Require Import Base F64 MultisetSpec.

(** quantile/ost/rb/node.go:12-18 Color *)
Inductive color := Red | Black.
Definition flip (c : color) : color := match c with Red => Black | Black => Red end.
Definition is_red (c : color) : bool := match c with Red => true | Black => false end.

(** node.go:30-36 (type Node): fields left, right, val, color, size *)
Inductive rb := RLeaf | RNode (l r : rb) (v : f64) (c : color) (s : Z).

(** node.go:39-45 NewNode *)
Definition rb_node (v : f64) : rb := RNode RLeaf RLeaf v Red 1.

(** node.go:64-69 Size *)
Definition rsize (n : rb) : Z := match n with RLeaf => 0 | RNode _ _ _ _ s => s end.
(** node.go:78-83 Color (nil is black) *)
Definition rcolor (n : rb) : color := match n with RLeaf => Black | RNode _ _ _ c _ => c end.
(** field access n.left, n.right *)
Definition rleft (n : rb) : res rb := match n with RLeaf => Panic | RNode l _ _ _ _ => Ok l end.
Definition rright (n : rb) : res rb := match n with RLeaf => Panic | RNode _ r _ _ _ => Ok r end.

(** node.go:202-211 rotateLeft *)
Definition rb_rotate_left (n : rb) : res rb :=
  match n with
  | RLeaf => Panic
  | RNode nl nr nv nc ns =>
      match nr with
      | RLeaf => Panic
      | RNode xl xr xv xc xs =>
          Ok (RNode (RNode nl xl nv Red (rsize nl + rsize xl + 1)) xr xv nc ns)
      end
  end.

(** node.go:213-222 rotateRight *)
Definition rb_rotate_right (n : rb) : res rb :=
  match n with
  | RLeaf => Panic
  | RNode nl nr nv nc ns =>
      match nl with
      | RLeaf => Panic
      | RNode xl xr xv xc xs =>
          Ok (RNode xl (RNode xr nr nv Red (rsize xr + rsize nr + 1)) xv nc ns)
      end
  end.

(** n.color = !n.color through a non-nil pointer *)
Definition rb_flip_node (n : rb) : res rb :=
  match n with RLeaf => Panic | RNode l r v c s => Ok (RNode l r v (flip c) s) end.

(** node.go:224-228 flipColors *)
Definition rb_flip_colors (n : rb) : res rb :=
  match n with
  | RLeaf => Panic
  | RNode l r v c s =>
      l' <- rb_flip_node l ;; r' <- rb_flip_node r ;; Ok (RNode l' r' v (flip c) s)
  end.

(** node.go:230-238 moveRedLeft *)
Definition rb_move_red_left (n : rb) : res rb :=
  n1 <- rb_flip_colors n ;;
  match n1 with
  | RLeaf => Panic
  | RNode l r v c s =>
      rl <- rleft r ;;
      if is_red (rcolor rl) then
        r' <- rb_rotate_right r ;;
        n2 <- rb_rotate_left (RNode l r' v c s) ;;
        rb_flip_colors n2
      else Ok n1
  end.

(** node.go:240-247 moveRedRight *)
Definition rb_move_red_right (n : rb) : res rb :=
  n1 <- rb_flip_colors n ;;
  match n1 with
  | RLeaf => Panic
  | RNode l r v c s =>
      ll <- rleft l ;;
      if is_red (rcolor ll) then
        n2 <- rb_rotate_right n1 ;; rb_flip_colors n2
      else Ok n1
  end.

(** node.go:191-199 = 176-184: second and third step of both balance functions and
    the size update. "n.left.Color() == Red && n.left.left.Color() == Red" only
    dereferences n.left when it is red, hence not nil. *)
Definition rb_balance_tail (n : rb) : res rb :=
  l <- rleft n ;;
  n1 <- (if is_red (rcolor l) then
           ll <- rleft l ;;
           if is_red (rcolor ll) then rb_rotate_right n else Ok n
         else Ok n) ;;
  l1 <- rleft n1 ;; r1 <- rright n1 ;;
  n2 <- (if is_red (rcolor l1) && is_red (rcolor r1) then rb_flip_colors n1 else Ok n1) ;;
  match n2 with
  | RLeaf => Panic
  | RNode l2 r2 v c _ => Ok (RNode l2 r2 v c (rsize l2 + rsize r2 + 1))
  end.

(** node.go:172-185 addBalance *)
Definition rb_add_balance (n : rb) : res rb :=
  l <- rleft n ;; r <- rright n ;;
  n1 <- (if negb (is_red (rcolor l)) && is_red (rcolor r) then rb_rotate_left n else Ok n) ;;
  rb_balance_tail n1.

(** node.go:187-200 removeBalance *)
Definition rb_remove_balance (n : rb) : res rb :=
  r <- rright n ;;
  n1 <- (if is_red (rcolor r) then rb_rotate_left n else Ok n) ;;
  rb_balance_tail n1.

(** node.go:93-102 add *)
Fixpoint rb_add (n : rb) (val : f64) : res rb :=
  match n with
  | RLeaf => Ok (rb_node val)
  | RNode l r v c s =>
      if fle val v then l' <- rb_add l val ;; rb_add_balance (RNode l' r v c s)
      else r' <- rb_add r val ;; rb_add_balance (RNode l r' v c s)
  end.

(** node.go:155-166 contains *)
Fixpoint rb_contains (n : rb) (val : f64) : bool :=
  match n with
  | RLeaf => false
  | RNode l r v _ _ =>
      if feq val v then true else if flt val v then rb_contains l val else rb_contains r val
  end.

(** node.go:148-153 min *)
Fixpoint rb_min (n : rb) : res f64 :=
  match n with
  | RLeaf => Panic
  | RNode l _ v _ _ => match l with RLeaf => Ok v | _ => rb_min l end
  end.

(** The test "n.x.Color() == Black && n.x.left.Color() == Black" (node.go:110, 121,
    140) for the child [x]; it panics when [x] is nil. *)
Definition rb_black_black (x : rb) : res bool :=
  if is_red (rcolor x) then Ok false
  else xl <- rleft x ;; Ok (negb (is_red (rcolor xl))).

(** node.go:136-146 removeMin *)
Fixpoint rb_remove_min (fuel : nat) (n : rb) : res rb :=
  match fuel with
  | O => NoFuel
  | S f =>
      match n with
      | RLeaf => Panic
      | RNode RLeaf _ _ _ _ => Ok RLeaf
      | RNode l _ _ _ _ =>
          bb <- rb_black_black l ;;
          n1 <- (if bb then rb_move_red_left n else Ok n) ;;
          match n1 with
          | RLeaf => Panic
          | RNode l1 r1 v1 c1 s1 =>
              l' <- rb_remove_min f l1 ;; rb_remove_balance (RNode l' r1 v1 c1 s1)
          end
      end
  end.

(** node.go:104-134 remove *)
Fixpoint rb_remove (fuel : nat) (n : rb) (val : f64) : res rb :=
  match fuel with
  | O => NoFuel
  | S f =>
      if negb (rb_contains n val) then Ok n
      else
        match n with
        | RLeaf => Panic
        | RNode l r v c s =>
            if flt val v then
              bb <- rb_black_black l ;;
              n1 <- (if bb then rb_move_red_left n else Ok n) ;;
              match n1 with
              | RLeaf => Panic
              | RNode l1 r1 v1 c1 s1 =>
                  l' <- rb_remove f l1 val ;; rb_remove_balance (RNode l' r1 v1 c1 s1)
              end
            else
              n1 <- (if is_red (rcolor l) then rb_rotate_right n else Ok n) ;;
              match n1 with
              | RLeaf => Panic
              | RNode l1 r1 v1 c1 s1 =>
                  if feq val v1 && match r1 with RLeaf => true | _ => false end then Ok RLeaf
                  else
                    bb <- rb_black_black r1 ;;
                    n2 <- (if bb then rb_move_red_right n1 else Ok n1) ;;
                    match n2 with
                    | RLeaf => Panic
                    | RNode l2 r2 v2 c2 s2 =>
                        if feq val v2 then
                          x <- rb_min r2 ;;
                          r' <- rb_remove_min f r2 ;;
                          rb_remove_balance (RNode l2 r' x c2 s2)
                        else
                          r' <- rb_remove f r2 val ;;
                          rb_remove_balance (RNode l2 r' v2 c2 s2)
                    end
              end
        end
  end.

(** Number of nodes, used only as fuel. *)
Fixpoint rb_nodes (n : rb) : nat := match n with RLeaf => 0 | RNode l r _ _ _ => rb_nodes l + rb_nodes r + 1 end.

(** tree.go:23-25 Remove *)
Definition rb_tree_remove (n : rb) (val : f64) : res rb := rb_remove (S (rb_nodes n)) n val.

(** node.go:255-268 Select *)
Fixpoint rb_select (n : rb) (k : Z) : option f64 :=
  match n with
  | RLeaf => None
  | RNode l r v _ _ =>
      let size := rsize l in
      if (k <? size)%Z then rb_select l k
      else if (k >? size)%Z then rb_select r (k - size - 1)%Z
      else Some v
  end.

(** node.go:272-281 Rank *)
Fixpoint rb_rank (n : rb) (val : f64) : Z :=
  match n with
  | RLeaf => 0
  | RNode l r v _ _ =>
      if flt val v then rb_rank l val
      else if fgt val v then (1 + rsize l + rb_rank r val)%Z
      else rsize l
  end.

(** tree.go:43-45 Clear *)
Definition rb_clear (_ : rb) : res rb := Ok RLeaf.

(** tree.go:8-45: a history of Add, Remove, Clear on the zero Tree. *)
Definition rb_run (ops : list sop) : res rb := srun rb_add rb_tree_remove rb_clear ops RLeaf.
