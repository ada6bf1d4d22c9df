(** The joint core together with the caller's memory. UnsafePush keeps the slice it
    was passed in its queue (joint/core.go:111), and Push(buf...) in Go
    passes buf itself, not a copy: joint/core.go:80-86, cov.go:51-69, corr.go:56-74. *)
From Verif Require Import Base HistSpec RingModel NumModel JointModel.

Section Alias.
Context {T : Type} (N : Num T).
(** The backing arrays of the caller's slices, by address. *)
Definition memory := nat -> list T.
Fixpoint set_nth (l : list T) (i : nat) (x : T) : list T :=
  match l, i with
  | [], _ => []
  | _ :: t, O => x :: t
  | y :: t, S j => y :: set_nth t j x
  end.
Definition mem_set (m : memory) (p i : nat) (x : T) : memory := fun q => if Nat.eqb q p then set_nth (m p) i x else m q.

(** What the caller can do: Push(buf...), assign buf[i] = x, Clear. *)
Inductive aop := APush (p : nat) | AWrite (p i : nat) (x : T) | AClear.
Definition acore := @jcore T nat.
Fixpoint arun (ops : list aop) (m : memory) (c : acore) : res acore :=
  match ops with
  | [] => Ok c
  | APush p :: t => c' <- j_push N m c p ;; arun t m c'
  | AWrite p i x :: t => arun t (mem_set m p i x) c
  | AClear :: t => c' <- j_clear N c ;; arun t m c'
  end.

(** Specification: the points as they are at the time they are pushed. *)
Fixpoint captured (ops : list aop) (m : memory) : list (op (list T)) :=
  match ops with
  | [] => []
  | APush p :: t => OPush (m p) :: captured t m
  | AWrite p i x :: t => captured t (mem_set m p i x)
  | AClear :: t => OClear :: captured t m
  end.
(** No slice is written to after it has been pushed; [used] are those pushed before. *)
Fixpoint untouched (used : list nat) (ops : list aop) : Prop :=
  match ops with
  | [] => True
  | APush p :: t => untouched (p :: used) t
  | AWrite p _ _ :: t => ~ In p used /\ untouched used t
  | AClear :: t => untouched used t
  end.
End Alias.
Arguments APush {T}. Arguments AWrite {T}. Arguments AClear {T}.
