(** Model of util/math/math.go, with Go's 64-bit int. *)
From Verif Require Import Base.
Local Open Scope Z_scope.

(** int on a 64-bit platform: two's complement; the constants are 2^63 and 2^64 *)
Definition wrap (z : Z) : Z := (z + 9223372036854775808) mod 18446744073709551616 - 9223372036854775808.
(** a / b on ints: truncates; division by zero panics; the smallest int divided by -1 wraps *)
Definition idiv (a b : Z) : res Z := if b =? 0 then Panic else Ok (wrap (Z.quot a b)).

(** math.go:3 (var factorials), the package level cache *)
Definition factorials0 : list Z := [1; 1; 2; 6; 24; 120; 720; 5040].

(** math.go:6-9, one iteration of the loop *)
Definition fact_grow (c : list Z) : list Z := c ++ [wrap (last c 0 * zlen c)].
(** math.go:6-9, the loop: n >= len(factorials) *)
Fixpoint fact_fill (fuel : nat) (c : list Z) (n : Z) : res (list Z) :=
  if n >=? zlen c then match fuel with O => NoFuel | S f => fact_fill f (fact_grow c) n end
  else Ok c.
(** math.go:5-12 factorial; a negative index panics. Returns the new cache. *)
Definition factorial_c (c : list Z) (n : Z) : res (list Z * Z) :=
  c' <- fact_fill (Z.to_nat (n + 1)) c n ;;
  if n <? 0 then Panic else match nth_error c' (Z.to_nat n) with Some v => Ok (c', v) | None => Panic end.

(** math.go:15-21 Sign *)
Definition sign (n : Z) : Z := if Z.rem n 2 =? 0 then 1 else -1.

(** math.go:24-30 Binom; the operands are evaluated left to right *)
Definition binom_c (c : list Z) (n k : Z) : res (list Z * Z) :=
  if (k =? 0) || (k =? n) then Ok (c, 1)
  else
    '(c1, fn) <- factorial_c c n ;;
    '(c2, fk) <- factorial_c c1 k ;;
    '(c3, fnk) <- factorial_c c2 (n - k) ;;
    q <- idiv fn (wrap (fk * fnk)) ;;
    Ok (c3, q).

(** The value of factorial(n) for n >= 0 and any state of the cache (MathProof:
    [factorial_c_ok]) is the n-th element of the wrapped products. *)
Fixpoint factw (n : nat) : Z := match n with O => 1 | S m => wrap (factw m * Z.of_nat n) end.
Definition factorial (n : Z) : res Z := if n <? 0 then Panic else Ok (factw (Z.to_nat n)).
(** Binom as seen by its callers ([binom_c_ok]) *)
Definition binom (n k : Z) : res Z :=
  if (k =? 0) || (k =? n) then Ok 1
  else
    fn <- factorial n ;; fk <- factorial k ;; fnk <- factorial (n - k) ;;
    idiv fn (wrap (fk * fnk)).
