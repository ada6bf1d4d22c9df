(** Model of sample/sample.go. *)
From Verif Require Import Base.
From Coq Require Import QArith.
Local Open Scope Z_scope.

(** A finite distribution: outcomes with their probabilities. *)
Definition dist (A : Type) := list (Q * A).
Definition dret {A} (a : A) : dist A := [(1%Q, a)].
Definition dbind {A B} (d : dist A) (k : A -> dist B) : dist B := flat_map (fun p => map (fun q => ((fst p * fst q)%Q, snd q)) (k (snd p))) d.
(** Not in /repo: rand.Intn(n) of math/rand, which panics for [n <= 0] and otherwise returns
    each of 0, ..., n-1 with the same probability, independently of everything else.
    Simplification: the generator is assumed ideal. *)
Definition intn (n : Z) : dist (res Z) :=
  if n <=? 0 then dret Panic else map (fun i => ((1 # Z.to_pos n)%Q, Ok (Z.of_nat i))) (seq 0 (Z.to_nat n)).

Section Reservoir.
Context {A : Type}.
(** sample/sample.go:9-14 (Reservoir). The mutex is left out here. Simplification: [int] is
    unbounded, so the model is faithful for fewer than 2^63 pushes. *)
Record reservoir := mkRv { rv_size : Z; rv_sample : list A; rv_count : Z }.
(** A literal [&Reservoir{Size: size}] (there is no constructor). *)
Definition rv_new (size : Z) : reservoir := mkRv size [] 0.
(** Go's [s[i] = x]: panics out of range. *)
Definition slice_set (s : list A) (i : Z) (x : A) : res (list A) :=
  if (0 <=? i) && (i <? zlen s) then Ok (firstn (Z.to_nat i) s ++ x :: skipn (S (Z.to_nat i)) s) else Panic.
(** sample/sample.go:17-27 (Push). *)
Definition rv_push (x : A) (r : reservoir) : dist (res reservoir) :=
  let count := rv_count r + 1 in
  if count <=? rv_size r then dret (Ok (mkRv (rv_size r) (rv_sample r ++ [x]) count))
  else dbind (intn count) (fun i => dret (
    index <- i ;;
    if index <? rv_size r then s <- slice_set (rv_sample r) index x ;; Ok (mkRv (rv_size r) s count)
    else Ok (mkRv (rv_size r) (rv_sample r) count))).
(** Pushing a stream. *)
Fixpoint rv_pushes (l : list A) (r : reservoir) : dist (res reservoir) :=
  match l with
  | [] => dret (Ok r)
  | x :: l' => dbind (rv_push x r) (fun o => match o with Ok r' => rv_pushes l' r' | e => dret e end)
  end.
End Reservoir.
Arguments reservoir A : clear implicits.

(** ** With the slices in memory
    [arrays]: the backing arrays. Simplification: append grows the array in place; as the
    reservoir's own slice is never handed out, whether Go reallocates cannot be observed. *)
Section Memory.
Context {A : Type}.
Definition arrays := list (list A).
Record mreservoir := mkMr { mr_size : Z; mr_sample : nat; mr_count : Z }.
Definition deref (m : arrays) (p : nat) : list A := nth p m [].
Fixpoint store (m : arrays) (p : nat) (s : list A) : arrays :=
  match m, p with [], _ => [] | _ :: m', O => s :: m' | a :: m', S p' => a :: store m' p' s end.
Definition mr_load (m : arrays) (r : mreservoir) : reservoir A := mkRv (mr_size r) (deref m (mr_sample r)) (mr_count r).
(** sample/sample.go:17-27 on memory. *)
Definition mr_push (x : A) (m : arrays) (r : mreservoir) : dist (res (arrays * mreservoir)) :=
  dbind (rv_push x (mr_load m r)) (fun o => dret (rmap (fun r' => (store m (mr_sample r) (rv_sample r'), mkMr (rv_size r') (mr_sample r) (rv_count r'))) o)).
(** sample/sample.go:30-37 (Sample): a new array with a copy; returns its address. *)
Definition mr_get (m : arrays) (r : mreservoir) : arrays * nat := (m ++ [deref m (mr_sample r)], length m).
(** Calls made by a client: besides pushing it takes samples, and writes into any of the
    slices it received ([WWrite k i x]: element i of the k-th sample). *)
Inductive wop := WPush (x : A) | WSample | WWrite (k i : nat) (x : A).
Record wstate := mkW { w_mem : arrays; w_res : mreservoir; w_got : list nat }.
Definition wstep (o : wop) (s : wstate) : dist (res wstate) :=
  match o with
  | WPush x => dbind (mr_push x (w_mem s) (w_res s)) (fun r => dret (rmap (fun p => mkW (fst p) (snd p) (w_got s)) r))
  | WSample => let '(m, p) := mr_get (w_mem s) (w_res s) in dret (Ok (mkW m (w_res s) (w_got s ++ [p])))
  | WWrite k i x => match nth_error (w_got s) k with
                    | None => dret (Ok s)
                    | Some p => dret (Ok (match slice_set (deref (w_mem s) p) (Z.of_nat i) x with
                                          | Ok a => mkW (store (w_mem s) p a) (w_res s) (w_got s)
                                          | _ => s (* the client's own index error *)
                                          end))
                    end
  end.
Fixpoint wrun (ops : list wop) (s : wstate) : dist (res wstate) :=
  match ops with
  | [] => dret (Ok s)
  | o :: ops' => dbind (wstep o s) (fun r => match r with Ok s' => wrun ops' s' | e => dret e end)
  end.
Definition winit (size : Z) : wstate := mkW [[]] (mkMr size 0 0) [].
End Memory.
