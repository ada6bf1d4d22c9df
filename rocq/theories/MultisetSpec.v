(** Specification of an order statistic container (interface order.Statistic,
    quantile/order/order.go:10-17): a bag of float64s, independent of any tree. *)
From Verif Require Import Base F64 OrderSpec.

Inductive sop := SAdd (v : f64) | SRemove (v : f64) | SClear.

(** Delete the first element numerically equal to [v], if there is one. *)
Fixpoint remove_one (v : f64) (l : list f64) : list f64 :=
  match l with
  | [] => []
  | y :: t => if feq y v then t else y :: remove_one v t
  end.

Definition bag_step (l : list f64) (o : sop) : list f64 :=
  match o with SAdd v => v :: l | SRemove v => remove_one v l | SClear => [] end.
Definition bag (ops : list sop) : list f64 := fold_left bag_step ops [].

(** Operand of an operation is a number. *)
Definition sop_nonnan (o : sop) : Prop :=
  match o with SAdd v | SRemove v => nonnan v | SClear => True end.

(** Running a history against a container model. *)
Fixpoint srun {S} (add remove : S -> f64 -> res S) (clear : S -> res S) (ops : list sop) (s : S) : res S :=
  match ops with
  | [] => Ok s
  | SAdd v :: t => s' <- add s v ;; srun add remove clear t s'
  | SRemove v :: t => s' <- remove s v ;; srun add remove clear t s'
  | SClear :: t => s' <- clear s ;; srun add remove clear t s'
  end.

(** Every Remove finds at most one stored copy of its argument. *)
Definition single_removes (ops : list sop) : Prop :=
  forall p v q, ops = p ++ SRemove v :: q -> count_eq v (bag p) <= 1.
