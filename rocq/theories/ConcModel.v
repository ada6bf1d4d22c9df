(** Goroutines, sync.RWMutex, and the locking of the methods in /repo. *)
From Verif Require Import Base.

Section Conc.
(** [S] the state guarded by the mutex, [O] the calls, [R] their results. *)
Context {S O R : Type}.
(** What a goroutine executes during a call. [LockW] is a Lock that has announced itself and
    waits for the readers to leave. *)
Inductive prog :=
| Ret (r : R)
| RLock (k : prog) | RUnlock (k : prog)
| Lock (k : prog) | LockW (k : prog) | Unlock (k : prog)
| Get (f : S -> prog)            (* read the guarded state *)
| Put (g : S -> S) (k : prog).   (* write it *)
Inductive event := Inv (i : nat) (o : O) | Res (i : nat) (r : R).
(** A goroutine: the call in progress and the calls still to be made. *)
Record thread := mkT { t_cur : option (O * prog); t_todo : list O }.
(** [c_rd i]: the number of read locks goroutine i holds. *)
Record config := mkC { c_sh : S; c_rd : nat -> nat; c_pend : option nat; c_wr : option nat; c_ths : nat -> thread }.
Definition upd {A} (f : nat -> A) (i : nat) (a : A) : nat -> A := fun j => if Nat.eqb j i then a else f j.
Definition goto (c : config) (i : nat) (o : O) (p : prog) (q : list O) : nat -> thread := upd (c_ths c) i (mkT (Some (o, p)) q).
Variable code : O -> prog.
(** Not in /repo: one step of one of [n] goroutines. sync.RWMutex (standard library): RLock waits
    while a writer holds the lock or has announced itself; Lock first waits for other writers,
    then announces itself, then waits for the readers to leave. A sync.Mutex is a RWMutex of
    which only Lock and Unlock are used. Every step is atomic (sequential consistency).
    Simplification: the preference given to readers waiting at an Unlock is left out,
    so that there are more executions than in Go. *)
Inductive step (n : nat) (c : config) : list event -> config -> Prop :=
| s_inv i o q : i < n -> c_ths c i = mkT None (o :: q) -> step n c [Inv i o] (mkC (c_sh c) (c_rd c) (c_pend c) (c_wr c) (goto c i o (code o) q))
| s_res i o r q : i < n -> c_ths c i = mkT (Some (o, Ret r)) q -> step n c [Res i r] (mkC (c_sh c) (c_rd c) (c_pend c) (c_wr c) (upd (c_ths c) i (mkT None q)))
| s_rlock i o k q : i < n -> c_ths c i = mkT (Some (o, RLock k)) q -> c_pend c = None -> c_wr c = None ->
    step n c [] (mkC (c_sh c) (upd (c_rd c) i (Datatypes.S (c_rd c i))) (c_pend c) (c_wr c) (goto c i o k q))
| s_runlock i o k q m : i < n -> c_ths c i = mkT (Some (o, RUnlock k)) q -> c_rd c i = Datatypes.S m ->
    step n c [] (mkC (c_sh c) (upd (c_rd c) i m) (c_pend c) (c_wr c) (goto c i o k q))
| s_lock i o k q : i < n -> c_ths c i = mkT (Some (o, Lock k)) q -> c_pend c = None -> c_wr c = None ->
    step n c [] (mkC (c_sh c) (c_rd c) (Some i) (c_wr c) (goto c i o (LockW k) q))
| s_lockw i o k q : i < n -> c_ths c i = mkT (Some (o, LockW k)) q -> c_pend c = Some i -> (forall j, j < n -> c_rd c j = 0) ->
    step n c [] (mkC (c_sh c) (c_rd c) None (Some i) (goto c i o k q))
| s_unlock i o k q : i < n -> c_ths c i = mkT (Some (o, Unlock k)) q -> c_wr c = Some i ->
    step n c [] (mkC (c_sh c) (c_rd c) (c_pend c) None (goto c i o k q))
| s_get i o f q : i < n -> c_ths c i = mkT (Some (o, Get f)) q -> step n c [] (mkC (c_sh c) (c_rd c) (c_pend c) (c_wr c) (goto c i o (f (c_sh c)) q))
| s_put i o g k q : i < n -> c_ths c i = mkT (Some (o, Put g k)) q -> step n c [] (mkC (g (c_sh c)) (c_rd c) (c_pend c) (c_wr c) (goto c i o k q)).
(** Executions and the history of invocations and responses they show. *)
Inductive exec (n : nat) (c0 : config) : list event -> config -> Prop :=
| e_refl : exec n c0 [] c0
| e_step h c e c' : exec n c0 h c -> step n c e c' -> exec n c0 (h ++ e) c'.
(** All goroutines about to start. *)
Definition start (s : S) (calls : nat -> list O) : config := mkC s (fun _ => 0) None None (fun i => mkT None (calls i)).

(** ** Specification: an atomic object
    Each call takes effect in one step between its invocation and its response, and these
    steps are the sequential behaviour [apply]. *)
Variable apply : O -> S -> S * R.
Inductive phase := Idle | Called (o : O) | Done (r : R).
Inductive explains (s0 : S) : list event -> (nat -> phase) -> S -> Prop :=
| x_nil : explains s0 [] (fun _ => Idle) s0
| x_inv h f s i o : explains s0 h f s -> f i = Idle -> explains s0 (h ++ [Inv i o]) (upd f i (Called o)) s
| x_lin h f s i o : explains s0 h f s -> f i = Called o -> explains s0 h (upd f i (Done (snd (apply o s)))) (fst (apply o s))
| x_res h f s i r : explains s0 h f s -> f i = Done r -> explains s0 (h ++ [Res i r]) (upd f i Idle) s.
Definition linearizable (s0 : S) (h : list event) : Prop := exists f s, explains s0 h f s.

(** ** Deadlock *)
Definition unfinished (n : nat) (c : config) : Prop := exists i, i < n /\ (t_cur (c_ths c i) <> None \/ t_todo (c_ths c i) <> []).
Definition stuck (n : nat) (c : config) : Prop := forall e c', ~ step n c e c'.
Definition deadlock (n : nat) (c : config) : Prop := unfinished n c /\ stuck n c.
End Conc.
Arguments prog : clear implicits. Arguments config : clear implicits. Arguments event : clear implicits.
