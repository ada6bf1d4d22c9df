(** The String methods of the trees and of the skip list. Go strings are byte strings; the literals
    below are UTF-8, as in the Go source. *)
From Coq Require Import String Ascii.
From Verif Require Import Base F64 AvlModel RbModel SkipModel.
Local Open Scope string_scope.

Definition nl : string := String (ascii_of_nat 10) "".

Section Trees.
(** Go's %f of a float64, left abstract. *)
Variable pf : f64 -> string.

(** quantile/ost/avl/node.go:250-281 treeString; a nil receiver would be dereferenced *)
Fixpoint avl_draw (n : avl) (prefix result : string) (isTail : bool) : res string :=
  match n with
  | ALeaf => Panic
  | ANode l r v _ _ =>
      if isTail then
        result <- match r with ALeaf => Ok result | _ => avl_draw r (prefix ++ "│   ") result false end ;;
        let result := result ++ prefix ++ "└── " ++ pf v ++ nl in
        match l with ALeaf => Ok result | _ => avl_draw l (prefix ++ "    ") result true end
      else
        result <- match r with ALeaf => Ok result | _ => avl_draw r (prefix ++ "    ") result false end ;;
        let result := result ++ prefix ++ "┌── " ++ pf v ++ nl in
        match l with ALeaf => Ok result | _ => avl_draw l (prefix ++ "│   ") result true end
  end.
(** avl/node.go:74-79 TreeString, avl/tree.go:43-45 String *)
Definition avl_string (t : avl) : res string := match t with ALeaf => Ok "" | _ => avl_draw t "" "" true end.

(** quantile/ost/rb/node.go:296-326 treeString *)
Fixpoint rb_draw (n : rb) (prefix result : string) (isTail : bool) : res string :=
  match n with
  | RLeaf => Panic
  | RNode l r v _ _ =>
      if isTail then
        result <- match r with RLeaf => Ok result | _ => rb_draw r (prefix ++ "│   ") result false end ;;
        let result := result ++ prefix ++ "└── " ++ pf v ++ nl in
        match l with RLeaf => Ok result | _ => rb_draw l (prefix ++ "    ") result true end
      else
        result <- match r with RLeaf => Ok result | _ => rb_draw r (prefix ++ "    ") result false end ;;
        let result := result ++ prefix ++ "┌── " ++ pf v ++ nl in
        match l with RLeaf => Ok result | _ => rb_draw l (prefix ++ "│   ") result true end
  end.
(** rb/node.go:86-91 TreeString, rb/tree.go:38-40 String *)
Definition rb_string (t : rb) : res string := match t with RLeaf => Ok "" | _ => rb_draw t "" "" true end.
End Trees.

Section Skip.
(** Go's strconv.FormatFloat(v, 'e', 9, 64), left abstract. *)
Variable pe : f64 -> string.

(** strings.Repeat("-", n) of the Go library: panics if n is negative *)
Fixpoint dashes (n : nat) : string := match n with O => "" | S k => String "-" (dashes k) end.
Definition repeat_dash (n : Z) : res string := if (n <? 0)%Z then Panic else Ok (dashes (Z.to_nat n)).

(** skiplist.go:37-45 string *)
Definition node_string (st : nat -> snode) (a : option nat) : string :=
  match a with None => "tail" | Some O => "head" | Some a => pe (n_val (st a)) end.

(** skiplist.go:198-202 one iteration of the outer loop, from the node [prev] on *)
Fixpoint level_string (fuel : nat) (st : nat -> snode) (i : nat) (prev : option nat) (result : string) : res string :=
  match fuel with
  | O => NoFuel
  | S f =>
      match prev with
      | None => Ok (result ++ node_string st None ++ nl)
      | Some a =>
          w <- get_width st a i ;;
          d <- repeat_dash w ;;
          nx <- get_next st a i ;;
          level_string f st i nx (result ++ node_string st prev ++ d)
      end
  end.
(** skiplist.go:197-203 the loop over the levels [i]-1, ..., 0 *)
Fixpoint levels_string (fuel : nat) (st : nat -> snode) (i : nat) (result : string) : res string :=
  match i with
  | O => Ok result
  | S i' => r <- level_string fuel st i' (Some O) result ;; levels_string fuel st i' r
  end.
(** skiplist.go:195-205 String *)
Definition skip_string (s : skip) : res string := levels_string (S (sfuel s)) (sk_store s) (sk_max s) "".
End Skip.
