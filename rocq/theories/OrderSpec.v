(** Specification vocabulary for order-based statistics, on Go's float64
    comparison only; independent of any data structure. *)
From Verif Require Import Base F64.

Definition nonnan (x : f64) : Prop := isnan x = false.

(** [v] is a least / greatest element of [l] and literally one of its elements. *)
Definition is_min (l : list f64) (v : f64) : Prop :=
  In v l /\ forall y, In y l -> fle v y = true.
Definition is_max (l : list f64) (v : f64) : Prop :=
  In v l /\ forall y, In y l -> fge v y = true.

(** Number of elements strictly below / not above [v]. *)
Definition count_lt (v : f64) (l : list f64) : nat := length (filter (fun y => flt y v) l).
Definition count_le (v : f64) (l : list f64) : nat := length (filter (fun y => fle y v) l).
(** Number of elements numerically equal to [v]. *)
Definition count_eq (v : f64) (l : list f64) : nat := length (filter (fun y => feq y v) l).

(** [v] is numerically equal to the k-th smallest element of [l], counting from
    0 and with multiplicity: at most k elements are below it and more than k are
    not above it. *)
Definition is_kth (l : list f64) (k : nat) (v : f64) : Prop :=
  nonnan v /\ count_lt v l <= k < count_le v l.

(** The same multiset up to numeric equality (so that 0 and -0 are identified). *)
Definition same_values (l1 l2 : list f64) : Prop :=
  forall v, nonnan v -> count_eq v l1 = count_eq v l2.
