(** Model of minmax/min.go and minmax/max.go. The mutex is not modelled here
    (see ConcModel.v); each function is one critical section. *)
From Verif Require Import Base F64 HistSpec RingModel.
From Flocq Require Import BinarySingleNaN.

(** Go standard library math.Signbit, math.Min, math.Max (go 1.18, src/math/dim.go). *)
Definition signbit (x : f64) : bool :=
  match x with
  | B754_zero s => s | B754_infinity s => s | B754_finite s _ _ _ => s | B754_nan => false
  end.
Definition is_inf (x : f64) (neg : bool) : bool :=
  match x with B754_infinity s => eqb s neg | _ => false end.

Definition math_min (x y : f64) : f64 :=
  if is_inf x true || is_inf y true then finf true
  else if isnan x || isnan y then fnan
  else if feq x (fz 0) && feq x y then (if signbit x then x else y)
  else if flt x y then x else y.

Definition math_max (x y : f64) : f64 :=
  if is_inf x false || is_inf y false then finf false
  else if isnan x || isnan y then fnan
  else if feq x (fz 0) && feq x y then (if signbit x then y else x)
  else if fgt x y then x else y.

(** minmax/min.go:14-23 (type Min) and minmax/max.go:14-23 (type Max); the two
    structs have the same fields, [mm_ext] is the field min resp. max. *)
Record mm := mkMM {
  mm_window : Z; mm_count : Z; mm_queue : ring f64; mm_deque : list f64; mm_ext : f64 }.

(** Loop "for deque.Len() > 0 && cond(deque.Back()) { deque.PopBack() }"
    (min.go:83-85, max.go:83-85) on the deque listed back first. *)
Fixpoint pop_while (cond : f64 -> bool) (back_first : list f64) : list f64 :=
  match back_first with
  | [] => []
  | b :: t => if cond b then pop_while cond t else back_first
  end.

(** ** Min *)

(** minmax/min.go:26-37 NewMin *)
Definition new_min (window : Z) : res mm :=
  if (window <? 0)%Z then Err ENegWindow
  else Ok (mkMM window 0 (ring_new window) [] (finf false)).

(** minmax/min.go:41-48 NewGlobalMin *)
Definition new_global_min : mm := mkMM 0 0 (ring_new 0) [] (finf false).

(** minmax/min.go:58-94 (Min).Push *)
Definition min_push (m : mm) (x : f64) : res mm :=
  if negb (mm_window m =? 0)%Z then
    m1 <- (if (ring_len (mm_queue m) =? mm_window m)%Z then
             '(val, q) <- ring_get (mm_queue m) ;;
             front <- dq_front (mm_deque m) ;;
             d <- (if feq front val then dq_pop_front (mm_deque m) else Ok (mm_deque m)) ;;
             Ok (mkMM (mm_window m) (mm_count m - 1) q d (mm_ext m))
           else Ok m) ;;
    q <- ring_put (mm_queue m1) x ;;
    let d := rev (pop_while (fun b => fgt b x) (rev (mm_deque m1))) in
    Ok (mkMM (mm_window m1) (mm_count m1 + 1) q (dq_push_back d x) (mm_ext m1))
  else
    Ok (mkMM (mm_window m) (mm_count m + 1) (mm_queue m) (mm_deque m) (math_min (mm_ext m) x)).

(** minmax/min.go:97-108 (Min).Value *)
Definition min_value (m : mm) : res f64 :=
  if (mm_count m =? 0)%Z then Err ENoValues
  else if (mm_window m =? 0)%Z then Ok (mm_ext m)
  else dq_front (mm_deque m).

(** minmax/min.go:111-119 (Min).Clear *)
Definition min_clear (m : mm) : res mm :=
  Ok (mkMM (mm_window m) 0 (ring_new (mm_window m)) [] (finf false)).

Definition min_run (window : Z) (ops : list (op f64)) : res mm :=
  m <- new_min window ;; run min_push min_clear ops m.

(** ** Max *)

(** minmax/max.go:26-37 NewMax *)
Definition new_max (window : Z) : res mm :=
  if (window <? 0)%Z then Err ENegWindow
  else Ok (mkMM window 0 (ring_new window) [] (finf true)).

(** minmax/max.go:41-48 NewGlobalMax *)
Definition new_global_max : mm := mkMM 0 0 (ring_new 0) [] (finf true).

(** minmax/max.go:58-94 (Max).Push *)
Definition max_push (m : mm) (x : f64) : res mm :=
  if negb (mm_window m =? 0)%Z then
    m1 <- (if (ring_len (mm_queue m) =? mm_window m)%Z then
             '(val, q) <- ring_get (mm_queue m) ;;
             front <- dq_front (mm_deque m) ;;
             d <- (if feq front val then dq_pop_front (mm_deque m) else Ok (mm_deque m)) ;;
             Ok (mkMM (mm_window m) (mm_count m - 1) q d (mm_ext m))
           else Ok m) ;;
    q <- ring_put (mm_queue m1) x ;;
    let d := rev (pop_while (fun b => flt b x) (rev (mm_deque m1))) in
    Ok (mkMM (mm_window m1) (mm_count m1 + 1) q (dq_push_back d x) (mm_ext m1))
  else
    Ok (mkMM (mm_window m) (mm_count m + 1) (mm_queue m) (mm_deque m) (math_max (mm_ext m) x)).

(** minmax/max.go:97-108 (Max).Value *)
Definition max_value (m : mm) : res f64 :=
  if (mm_count m =? 0)%Z then Err ENoValues
  else if (mm_window m =? 0)%Z then Ok (mm_ext m)
  else dq_front (mm_deque m).

(** minmax/max.go:111-119 (Max).Clear *)
Definition max_clear (m : mm) : res mm :=
  Ok (mkMM (mm_window m) 0 (ring_new (mm_window m)) [] (finf true)).

Definition max_run (window : Z) (ops : list (op f64)) : res mm :=
  m <- new_max window ;; run max_push max_clear ops m.
