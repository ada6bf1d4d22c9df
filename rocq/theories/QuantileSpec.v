(** Specification of a quantile of a list of numbers, independent of any data
    structure and of the code; quantile/interpolation.go documents the modes. *)
From Coq Require Import Reals.
From Verif Require Import Base F64 OrderSpec.
From Flocq Require Import BinarySingleNaN.

(** [r] is the [phi]-quantile of [b]: with raw = phi * (n-1) computed in float64 and
    i the integer part of raw, [r] is the i-th smallest value if raw is an integer;
    otherwise it combines the i-th and the (i+1)-th smallest as the mode prescribes
    (0 linear, 1 lower, 2 higher, 3 nearest with ties to the even index, 4 midpoint).
    [d] is the exact fractional part of raw. *)
Definition quantile_result (mode : Z) (b : list f64) (phi r : f64) : Prop :=
  let raw := fmul phi (fz (zlen b - 1)) in
  exists i : nat, (INR i <= B2R raw < INR i + 1)%R /\
    ((B2R raw = INR i /\ is_kth b i r) \/
     (B2R raw <> INR i /\
      exists lo hi d, is_kth b i lo /\ is_kth b (S i) hi /\
        is_finite d = true /\ B2R d = (B2R raw - INR i)%R /\
        ((mode = 0%Z /\ r = fadd (fmul (fsub (fz 1) d) lo) (fmul d hi)) \/
         (mode = 1%Z /\ r = lo) \/
         (mode = 2%Z /\ r = hi) \/
         (mode = 3%Z /\ ((B2R raw - INR i < / 2)%R -> r = lo) /\ ((B2R raw - INR i > / 2)%R -> r = hi) /\
            ((B2R raw - INR i = / 2)%R -> (Nat.Even i -> r = lo) /\ (Nat.Odd i -> r = hi))) \/
         (mode = 4%Z /\ r = fdiv (fadd lo hi) (fz 2))))).

(** [r] is the median of [b]: the middle value, or the float64 midpoint of the two
    middle values. *)
Definition median_result (b : list f64) (r : f64) : Prop :=
  (Nat.Odd (length b) -> is_kth b (Nat.div2 (length b)) r) /\
  (Nat.Even (length b) -> exists lo hi, is_kth b (Nat.div2 (length b) - 1) lo /\ is_kth b (Nat.div2 (length b)) hi /\
     r = fdiv (fadd lo hi) (fz 2)).

(** Two results print the same number: numerically equal, or both NaN. *)
Definition num_eq (x y : f64) : Prop := feq x y = true \/ (isnan x = true /\ isnan y = true).
(** Two calls have the same observable outcome up to [R] on their results. *)
Definition res_rel {A} (R : A -> A -> Prop) (x y : res A) : Prop :=
  match x, y with
  | Ok a, Ok b => R a b
  | Err e1, Err e2 => e1 = e2
  | Panic, Panic | Hang, Hang => True
  | _, _ => False
  end.
