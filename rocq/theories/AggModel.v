(** The aggregates of /repo/aggregate: one goroutine per metric, joined by a WaitGroup. *)
From Coq Require Import String Permutation.
From Verif Require Import Base.

Section Workers.
(** [W] the states of the metrics, [V] what a metric's method returns, [A] the local variables
    of the aggregate's method, which its goroutines share and which its mutex [mux] guards. *)
Context {W V A : Type}.
Variable n : nat.                        (* len(s.metrics) *)
Variable call : nat -> W -> W * V.       (* metric i's method *)
Variable note : nat -> V -> option (A -> A).  (* what goroutine i does to the shared variables; None: it does not touch them *)

(** Where a goroutine is. *)
Inductive pc :=
| PCall                       (* before metric.Push(x), metric.Value() or metric.Clear() *)
| PNote (v : V)               (* the method has returned v *)
| PHold (f : A -> A)          (* mux.Lock() has returned *)
| PSaw (f : A -> A) (a : A)   (* result (errs, values) has been read *)
| PUnl                        (* and written *)
| PDone.                      (* wg.Done() *)
Record conf := mkConf { w_st : W; w_acc : A; w_mux : option nat; w_pc : nat -> pc }.
Definition updf {B} (f : nat -> B) (i : nat) (b : B) : nat -> B := fun j => if Nat.eqb j i then b else f j.

(** One step of goroutine i, /repo/aggregate/simple_aggregate.go:37-45 (Push), :71-82 (Values),
    :106-109 (Clear); simple_joint_aggregate.go:36-44, :70-81, :105-108.
    Simplifications: the metric's method is one step (the methods of the metrics in /repo are
    linearizable, PropsConc.v) and always returns; all goroutines may start at once, where in Go
    the spawning loop starts them one by one, so that there are more schedules than in Go.
    Reading and writing the shared variables are separate steps. *)
Inductive wstep (c : conf) : conf -> Prop :=
| w_call i w v : i < n -> w_pc c i = PCall -> call i (w_st c) = (w, v) ->
    wstep c (mkConf w (w_acc c) (w_mux c) (updf (w_pc c) i (PNote v)))
| w_skip i v : i < n -> w_pc c i = PNote v -> note i v = None ->
    wstep c (mkConf (w_st c) (w_acc c) (w_mux c) (updf (w_pc c) i PDone))
| w_lock i v f : i < n -> w_pc c i = PNote v -> note i v = Some f -> w_mux c = None ->
    wstep c (mkConf (w_st c) (w_acc c) (Some i) (updf (w_pc c) i (PHold f)))
| w_read i f : i < n -> w_pc c i = PHold f ->
    wstep c (mkConf (w_st c) (w_acc c) (w_mux c) (updf (w_pc c) i (PSaw f (w_acc c))))
| w_write i f a : i < n -> w_pc c i = PSaw f a ->
    wstep c (mkConf (w_st c) (f a) (w_mux c) (updf (w_pc c) i PUnl))
| w_unlock i : i < n -> w_pc c i = PUnl ->
    wstep c (mkConf (w_st c) (w_acc c) None (updf (w_pc c) i PDone)).
Inductive wexec (c0 : conf) : conf -> Prop :=
| w_refl : wexec c0 c0
| w_more c c' : wexec c0 c -> wstep c c' -> wexec c0 c'.
(** The goroutines have been spawned. *)
Definition spawn (w : W) (a : A) : conf := mkConf w a None (fun _ => PCall).
(** wg.Wait() returns. *)
Definition joined (c : conf) : Prop := forall i, i < n -> w_pc c i = PDone.
(** Not in /repo: an execution of the method, from its state and local variables to those
    after wg.Wait(). *)
Definition pool (w : W) (a : A) (w' : W) (a' : A) : Prop :=
  exists c, wexec (spawn w a) c /\ joined c /\ w_st c = w' /\ w_acc c = a'.
(** Not in /repo: an executable scheduler, which lets the listed goroutines take a step in turn. *)
Definition wstepi (c : conf) (i : nat) : option conf :=
  if i <? n then
    match w_pc c i with
    | PCall => let '(w, v) := call i (w_st c) in Some (mkConf w (w_acc c) (w_mux c) (updf (w_pc c) i (PNote v)))
    | PNote v => match note i v with
                 | None => Some (mkConf (w_st c) (w_acc c) (w_mux c) (updf (w_pc c) i PDone))
                 | Some f => match w_mux c with None => Some (mkConf (w_st c) (w_acc c) (Some i) (updf (w_pc c) i (PHold f))) | Some _ => None end
                 end
    | PHold f => Some (mkConf (w_st c) (w_acc c) (w_mux c) (updf (w_pc c) i (PSaw f (w_acc c))))
    | PSaw f a => Some (mkConf (w_st c) (f a) (w_mux c) (updf (w_pc c) i PUnl))
    | PUnl => Some (mkConf (w_st c) (w_acc c) None (updf (w_pc c) i PDone))
    | PDone => None
    end else None.
Fixpoint wruns (c : conf) (l : list nat) : option conf :=
  match l with [] => Some c | i :: l => match wstepi c i with Some c => wruns c l | None => None end end.
End Workers.
Arguments pc : clear implicits. Arguments conf : clear implicits.

Section Aggregate.
(** [M] the state of a metric, [X] what is pushed ([float64] or a variadic list), [E] errors,
    [F] what Value returns. Simplification: a method that returns an error has the state
    unchanged only if [push] says so; a panic is not modelled here. *)
Context {M X E F : Type}.
Variable push : M -> X -> M * option E.
Variable value : M -> F + E.
Variable clear : M -> M.
Variable name : M -> string.

(** Metric i's methods on a list of separate metrics, given as the function from indices to states. *)
Definition push_at (x : X) (i : nat) (w : nat -> M) : (nat -> M) * option E :=
  (updf w i (fst (push (w i) x)), snd (push (w i) x)).
Definition value_at (i : nat) (w : nat -> M) : (nat -> M) * (string * (F + E)) := (w, (name (w i), value (w i))).
Definition clear_at (i : nat) (w : nat -> M) : (nat -> M) * unit := (updf w i (clear (w i)), tt).

(** aggregate/simple_aggregate.go:40-44: if err != nil { lock; result = multierror.Append(result, err); unlock }.
    The *multierror.Error is the list of its errors, nil the empty list. *)
Definition push_note (i : nat) (o : option E) : option (list E -> list E) :=
  match o with Some e => Some (fun r => r ++ [e])%list | None => None end.
(** aggregate/simple_aggregate.go:75-81: lock; if err != nil append to errs, else store under
    metric.String(); unlock. The map is a function. Simplification: String() is read along
    with Value(); it depends only on the parameters, which never change. *)
Definition values_map := string -> option F.
Definition map_set (m : values_map) (k : string) (v : F) : values_map := fun k' => if String.eqb k' k then Some v else m k'.
Definition value_note (i : nat) (o : string * (F + E)) : option (values_map * list E -> values_map * list E) :=
  Some (fun '(m, errs) => match snd o with inr e => (m, errs ++ [e])%list | inl v => (map_set m (fst o) v, errs) end).
(** aggregate/simple_aggregate.go:106-109: Clear's goroutines share no variable. *)
Definition clear_note (i : nat) (o : unit) : option (unit -> unit) := None.

(** aggregate/simple_aggregate.go:26-56, Push: [agg_push n w x w' r], one of the outcomes: the states of
    the metrics afterwards and the error returned, [None] being nil. The method holds s.mux
    throughout, hence calls of one aggregate do not overlap.
    simple_joint_aggregate.go:25-55 is the same with xs... for x. *)
Definition agg_push (n : nat) (w : nat -> M) (x : X) (w' : nat -> M) (r : option (list E)) : Prop :=
  exists errs, pool n (push_at x) push_note w [] w' errs /\ r = match errs with [] => None | _ => Some errs end.
(** aggregate/simple_aggregate.go:61-96, Values; simple_joint_aggregate.go:60-95. *)
Definition agg_values (n : nat) (w : nat -> M) (w' : nat -> M) (r : values_map + list E) : Prop :=
  exists m errs, pool n value_at value_note w (fun _ => None, []) w' (m, errs) /\ r = match errs with [] => inl m | _ => inr errs end.
(** aggregate/simple_aggregate.go:99-113, Clear; simple_joint_aggregate.go:98-112. *)
Definition agg_clear (n : nat) (w w' : nat -> M) : Prop := pool n clear_at clear_note w tt w' tt.
End Aggregate.
