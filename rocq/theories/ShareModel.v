(** Several metrics on one core. MergeConfigs, NewCore and SetCore are exported for this:
    the configurations of the metrics are merged, a core is made from the result and
    set as the core of each of them. *)
From Verif Require Import Base HistSpec NumModel MomentModel JointModel.

Section Share.
Context {T : Type} (N : Num T).
(** The metrics (their parameters) and the core that all of them point to; moment/metric.go:16-19 (SetCore, Config). *)
Record shared := mkSh { sh_kinds : list (@kind T); sh_core : @core T }.
(** moment/config.go:32-73 MergeConfigs of the configurations of all metrics, core.go:37-63 NewCore and SetCore. *)
Definition sh_new (ks : list (@kind T)) : res shared :=
  cfg <- merge_configs N (map kconfig ks) ;; c <- new_core N cfg ;; Ok (mkSh ks c).
(** Metric i as an object with its core pointer. *)
Definition sh_metric (s : shared) (i : nat) : option (@metric T) := option_map (fun k => mkM k (Some (sh_core s))) (nth_error (sh_kinds s) i).
(** Not in /repo: a call on the core itself ([None]) or on one of the metrics. *)
Inductive via_op := SPush (via : option nat) (x : T) | SClear (via : option nat).
Definition sh_with (s : shared) (m : @metric T) : shared := match m_core m with Some c => mkSh (sh_kinds s) c | None => s end.
(** core.go:66-70 Push and 244-248 Clear, or the Push and Clear of a metric, which pass on to its core *)
Definition sh_step (s : shared) (o : via_op) : res shared :=
  match o with
  | SPush None x => c <- c_push N (sh_core s) x ;; Ok (mkSh (sh_kinds s) c)
  | SClear None => c <- c_clear N (sh_core s) ;; Ok (mkSh (sh_kinds s) c)
  | SPush (Some i) x => match sh_metric s i with Some m => m' <- m_push N m x ;; Ok (sh_with s m') | None => Panic end
  | SClear (Some i) => match sh_metric s i with Some m => m' <- m_clear N m ;; Ok (sh_with s m') | None => Panic end
  end.
Fixpoint sh_steps (l : list via_op) (s : shared) : res shared :=
  match l with [] => Ok s | o :: t => s' <- sh_step s o ;; sh_steps t s' end.
Definition sh_run (ks : list (@kind T)) (l : list via_op) : res shared := s <- sh_new ks ;; sh_steps l s.
(** The Value method of metric i. *)
Definition sh_value (s : shared) (i : nat) : res T := match sh_metric s i with Some m => m_value N m | None => Panic end.

(** The same for joint metrics: joint/metric.go:16-19, config.go:34-86, core.go:40-77. *)
Record jshared := mkJS { js_kinds : list (@jkind T); js_core : @vcore T }.
Definition js_new (ks : list (@jkind T)) : res jshared :=
  cfg <- jmerge_configs N (map jkconfig ks) ;; c <- jnew_core N cfg ;; Ok (mkJS ks c).
Definition js_metric (s : jshared) (i : nat) : option (@jmetric T) := option_map (fun k => mkJM k (Some (js_core s))) (nth_error (js_kinds s) i).
Inductive jvia_op := JSPush (via : option nat) (xs : list T) | JSClear (via : option nat).
Definition js_with (s : jshared) (m : @jmetric T) : jshared := match jm_core m with Some c => mkJS (js_kinds s) c | None => s end.
Definition js_step (s : jshared) (o : jvia_op) : res jshared :=
  match o with
  | JSPush None xs => c <- jpush N (js_core s) xs ;; Ok (mkJS (js_kinds s) c)
  | JSClear None => c <- j_clear N (js_core s) ;; Ok (mkJS (js_kinds s) c)
  | JSPush (Some i) xs => match js_metric s i with Some m => m' <- jm_push N m xs ;; Ok (js_with s m') | None => Panic end
  | JSClear (Some i) => match js_metric s i with Some m => m' <- jm_clear N m ;; Ok (js_with s m') | None => Panic end
  end.
Fixpoint js_steps (l : list jvia_op) (s : jshared) : res jshared :=
  match l with [] => Ok s | o :: t => s' <- js_step s o ;; js_steps t s' end.
Definition js_run (ks : list (@jkind T)) (l : list jvia_op) : res jshared := s <- js_new ks ;; js_steps l s.
Definition js_value (s : jshared) (i : nat) : res T := match js_metric s i with Some m => jm_value N m | None => Panic end.
End Share.
Arguments mkSh {T}. Arguments sh_kinds {T}. Arguments sh_core {T}. Arguments SPush {T}. Arguments SClear {T}.
Arguments mkJS {T}. Arguments js_kinds {T}. Arguments js_core {T}. Arguments JSPush {T}. Arguments JSClear {T}.
