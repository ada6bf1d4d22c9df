(** The locking of sample.Reservoir, over the sequential model of what it computes. *)
From Verif Require Import Base ConcModel LockModel ReservoirModel.
Local Open Scope Z_scope.

Section RvLock.
Context {A : Type}.
(** The calls on a Reservoir. A Push carries the answers of rand.Intn: [draw n] is what Intn(n)
    returns, if this call makes it. Which draws are possible is said by [intn_range]. *)
Inductive rcall := RPush (x : A) (draw : Z -> Z) | RSample.
Inductive rres := RUnit (r : res unit) | RSlice (s : list A).
(** Not in /repo: math/rand's Intn returns a number in [0, n). *)
Definition intn_range (o : rcall) : Prop := match o with RPush _ draw => forall n, 0 < n -> 0 <= draw n < n | RSample => True end.
(** sample/sample.go:17-27 (Push) for given answers of rand.Intn, which panics for [n <= 0]. *)
Definition rv_push_at (draw : Z -> Z) (x : A) (r : reservoir A) : res (reservoir A) :=
  let count := rv_count r + 1 in
  if count <=? rv_size r then Ok (mkRv (rv_size r) (rv_sample r ++ [x]) count)
  else
    index <- (if count <=? 0 then Panic else Ok (draw count)) ;;
    if index <? rv_size r then s <- slice_set (rv_sample r) index x ;; Ok (mkRv (rv_size r) s count)
    else Ok (mkRv (rv_size r) (rv_sample r) count).
(** What each call does when nothing else runs. *)
Definition rapply (o : rcall) (r : reservoir A) : reservoir A * rres :=
  match o with RPush x draw => upd_spec (rv_push_at draw x) RUnit r | RSample => (r, RSlice (rv_sample r)) end.
(** sample/sample.go:17-37: Push and Sample hold the sync.Mutex throughout. Simplification: as
    in LockModel.v, the body is one read and one write; the copy made by Sample is one read. *)
Definition rcode (o : rcall) : prog (reservoir A) rres :=
  match o with RPush x draw => wsection (rv_push_at draw x) RUnit | RSample => lsection (fun r => RSlice (rv_sample r)) end.
End RvLock.
Arguments rcall A : clear implicits. Arguments rres A : clear implicits.
