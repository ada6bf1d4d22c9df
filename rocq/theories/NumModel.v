(** The arithmetic the moment and joint packages are written in. The model of their
    code is polymorphic in it and is used with two instances: Go's float64
    ([FN], for executions and for statements about rounding), and exact real
    arithmetic with a non-finite part ([XN], for statements about what the
    formulas compute). *)
From Coq Require Import Reals QArith Qround.
From Flocq Require Import BinarySingleNaN.
From Verif Require Import Base F64.

Record Num (T : Type) := mkNum {
  nz : Z -> T;                  (* float64(n) of an int, and integer constants *)
  nadd : T -> T -> T; nsub : T -> T -> T; nmul : T -> T -> T; ndiv : T -> T -> T;
  npow : T -> nat -> T;         (* math.Pow(x, float64(k)) for an int k >= 0 *)
  npow32 : T -> T;              (* math.Pow(x, 1.5) *)
  nsqrt : T -> T;               (* math.Sqrt *)
  nle : T -> T -> bool;         (* <= *)
  neqb : T -> T -> bool         (* == *)
}.
Arguments nz {T} n z. Arguments nadd {T} n x y. Arguments nsub {T} n x y. Arguments nmul {T} n x y.
Arguments ndiv {T} n x y. Arguments npow {T} n x k. Arguments npow32 {T} n x. Arguments nsqrt {T} n x.
Arguments nle {T} n x y. Arguments neqb {T} n x y.

(** ** float64 *)
(** math.Pow for integer exponents, as in Go's math/pow.go: the mantissa of x (Frexp) is squared
    and multiplied, the exponents are added up apart, and Ldexp puts both together. The loop
    runs over the bits of the exponent i; [fuel] = k bounds the number of its steps. *)
Fixpoint pow_loop (fuel : nat) (a : f64) (ae : Z) (x : f64) (xe : Z) (i : nat) : f64 * Z :=
  match fuel with
  | O => (a, ae)
  | S f =>
      match i with
      | O => (a, ae)
      | _ =>
          if ((xe <? -4096) || (4096 <? xe))%Z then (a, ae + xe)%Z
          else
            let x2 := fmul x x in
            let '(a', ae') := if Nat.odd i then (fmul a x, ae + xe)%Z else (a, ae) in
            if flt x2 (fdy 1 (-1)) then pow_loop f a' ae' (fadd x2 x2) (2 * xe - 1) (Nat.div2 i)
            else pow_loop f a' ae' x2 (2 * xe) (Nat.div2 i)
      end
  end.
(** math.Pow(x, float64(k)) for an int k >= 0; for k >= 2^53, which is out of reach, Go would take k for even. *)
Definition fpow (x : f64) (k : nat) : f64 :=
  match k with
  | O => fz 1
  | S O => x
  | _ =>
      if feq x (fz 1) then fz 1
      else match x with
           | B754_nan => fnan
           | B754_zero s => if Nat.odd k then x else fz 0
           | B754_infinity s => if Nat.odd k then x else finf false
           | B754_finite _ _ _ _ =>
               let '(x1, xe) := Bfrexp x in
               let '(a, ae) := pow_loop k (fz 1) 0 x1 xe k in
               Bldexp mode_NE a ae
           end
  end.
(** Not Go's algorithm for math.Pow(x, 1.5) (which uses Exp and Log); statements about float64
    use only that NaN gives NaN and zero gives zero; others do not depend on it. *)
Definition fpow32 (x : f64) : f64 := fmul x (fsqrt x).
Definition FN : Num f64 := mkNum f64 fz fadd fsub fmul fdiv fpow fpow32 fsqrt fle feq.

(** ** Exact arithmetic *)
(** A real number, or an infinity, or NaN. The signs of zeros and infinities are
    not tracked: a nonzero number divided by zero is "Inf", and a sum or difference
    of two infinities is NaN. *)
Inductive xr := Fin (r : R) | XInf | XNaN.
Definition xadd (x y : xr) : xr :=
  match x, y with
  | Fin a, Fin b => Fin (a + b)
  | XInf, Fin _ | Fin _, XInf => XInf
  | _, _ => XNaN
  end.
Definition xsub (x y : xr) : xr :=
  match x, y with
  | Fin a, Fin b => Fin (a - b)
  | XInf, Fin _ | Fin _, XInf => XInf
  | _, _ => XNaN
  end.
Definition is0 (r : R) : bool := if Req_EM_T r 0 then true else false.
Definition xmul (x y : xr) : xr :=
  match x, y with
  | Fin a, Fin b => Fin (a * b)
  | XInf, Fin b => if is0 b then XNaN else XInf
  | Fin a, XInf => if is0 a then XNaN else XInf
  | XInf, XInf => XInf
  | _, _ => XNaN
  end.
Definition xdiv (x y : xr) : xr :=
  match x, y with
  | Fin a, Fin b => if is0 b then (if is0 a then XNaN else XInf) else Fin (a / b)
  | XInf, Fin _ => XInf
  | Fin _, XInf => Fin 0
  | _, _ => XNaN
  end.
Definition xpow (x : xr) (k : nat) : xr :=
  match x with
  | Fin a => Fin (a ^ k)
  | _ => match k with O => Fin 1 | _ => x end
  end.
Definition xneg (r : R) : bool := if Rlt_dec r 0 then true else false.
Definition xpow32 (x : xr) : xr :=
  match x with
  | Fin a => if xneg a then XNaN else Fin (a * sqrt a)
  | _ => x
  end.
Definition xsqrt (x : xr) : xr :=
  match x with
  | Fin a => if xneg a then XNaN else Fin (sqrt a)
  | _ => x
  end.
Definition xle (x y : xr) : bool :=
  match x, y with Fin a, Fin b => if Rle_dec a b then true else false | _, _ => false end.
Definition xeqb (x y : xr) : bool :=
  match x, y with Fin a, Fin b => if Req_EM_T a b then true else false | XInf, XInf => true | _, _ => false end.
Definition XN : Num xr := mkNum xr (fun z => Fin (IZR z)) xadd xsub xmul xdiv xpow xpow32 xsqrt xle xeqb.

(** ** Exact rational arithmetic *)
(** The restriction of [XN] to the rationals, which can be executed. [None] stands
    for anything that is not a rational number. *)
Definition q2 (f : Q -> Q -> Q) (x y : option Q) : option Q :=
  match x, y with Some a, Some b => Some (Qred (f a b)) | _, _ => None end.
Definition qdiv (x y : option Q) : option Q :=
  match x, y with Some a, Some b => if Qeq_bool b 0 then None else Some (Qred (a / b)) | _, _ => None end.
Fixpoint qpow (a : Q) (k : nat) : Q := match k with O => 1%Q | S k' => Qred (a * qpow a k') end.
Definition QN : Num (option Q) := mkNum (option Q) (fun z => Some (inject_Z z)) (q2 Qplus) (q2 Qminus) (q2 Qmult) qdiv
  (fun x k => option_map (fun a => qpow a k) x) (fun _ => None) (fun _ => None)
  (fun x y => match x, y with Some a, Some b => Qle_bool a b | _, _ => false end)
  (fun x y => match x, y with Some a, Some b => Qeq_bool a b | _, _ => false end).
