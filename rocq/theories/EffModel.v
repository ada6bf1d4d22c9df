(** The Push methods with the state they leave behind, also when they return an error. The models of the
    other files give a new state only on success; here every call gives a state and an outcome. *)
From Verif Require Import Base F64 HistSpec RingModel NumModel MomentModel JointModel MinMaxModel HeapModel QuantileModel NameModel.
Local Open Scope Z_scope.

(** The outcome of a call without its result *)
Definition outcome {A} (r : res A) : res unit := rmap (fun _ => tt) r.
(** The call [push] changes the state as it goes. If it stops before its end it may leave anything behind:
    [junk], which every theorem takes as arbitrary. *)
Definition half {S X} (junk : S -> X -> S) (push : S -> X -> res S) (s : S) (x : X) : S * res unit :=
  match push s x with Ok s' => (s', Ok tt) | r => (junk s x, outcome r) end.

Section Eff.
Context {T : Type} (N : Num T).
(** What a joint core, a moment core or a lag queue holds after being left half way *)
Variable jjunk : @vcore T -> list T -> @vcore T.
Variable mjunk : @core T -> T -> @core T.

(** joint/core.go:89-128 UnsafePush: the number of values is checked before anything is changed *)
Definition jpush_eff (c : @vcore T) (xs : list T) : @vcore T * res unit :=
  if negb (Nat.eqb (length xs) (length (j_means c))) then (c, Err EArity) else half jjunk (jpush N) c xs.
(** joint/cov.go:51-69, corr.go:56-74, ewmcov.go:48-66, ewmcorr.go:53-71 Push *)
Definition jm_push_eff (m : @jmetric T) (xs : list T) : @jmetric T * res unit :=
  match jm_core m with
  | None => (m, Err ECoreNotSet)
  | Some c => if negb (Nat.eqb (length xs) 2) then (m, Err EArity)
              else let '(c', r) := jpush_eff c xs in (mkJM (jm_kind m) (Some c'), r)
  end.
(** joint/autocov.go:70-105, autocorr.go:70-105 Push: the oldest value leaves the lag queue before the core is pushed to *)
Definition auto_push_eff (a : @auto T) (x : T) : @auto T * res unit :=
  let with_ c q := mkA (a_lag a) q (mkJM (jm_kind (a_metric a)) (Some c)) in
  match jm_core (a_metric a) with
  | None => (a, Err ECoreNotSet)
  | Some c =>
      if a_lag a =? 0 then let '(c', r) := jpush_eff c [x; x] in (with_ c' (a_queue a), r)
      else
        let '(a1, r1) :=
          if ring_len (a_queue a) >=? a_lag a then
            match ring_get (a_queue a) with
            | Ok (y, q) => let '(c', r) := jpush_eff c [x; y] in (with_ c' q, r)
            | r => (a, outcome r)
            end
          else (a, Ok tt) in
        match r1 with
        | Ok _ => match ring_put (a_queue a1) x with
                  | Ok q => (mkA (a_lag a1) q (a_metric a1), Ok tt)
                  | r => (a1, outcome r)
                  end
        | r => (a1, r)
        end
  end.
(** moment/mean.go:50-61 and the Push methods of the seven other files *)
Definition m_push_eff (m : @metric T) (x : T) : @metric T * res unit :=
  match m_core m with
  | None => (m, Err ECoreNotSet)
  | Some c => let '(c', r) := half mjunk (c_push N) c x in (mkM (m_kind m) (Some c'), r)
  end.
(** The SetCore methods; the core is supplied by the caller *)
Definition jm_set_core (m : @jmetric T) (c : @vcore T) : @jmetric T := mkJM (jm_kind m) (Some c).
(** autocov.go:42-45, autocorr.go:42-45 *)
Definition auto_set_core (a : @auto T) (c : @vcore T) : @auto T := mkA (a_lag a) (a_queue a) (jm_set_core (a_metric a) c).
Definition m_set_core (m : @metric T) (c : @core T) : @metric T := mkM (m_kind m) (Some c).

(** Everything a program can do with a core or a metric, one call after the other; a call that returns an error is
    followed by further calls, a call that panics or blocks is not. *)
Definition returned (r : res unit) : Prop := r = Ok tt \/ exists e, r = Err e.
Inductive core_reach : @vcore T -> Prop :=
| CNew cfg c : jnew_core N cfg = Ok c -> core_reach c
| CPush c xs : core_reach c -> returned (snd (jpush_eff c xs)) -> core_reach (fst (jpush_eff c xs))
| CClear c c' : core_reach c -> j_clear N c = Ok c' -> core_reach c'.
Inductive jm_reach : @jmetric T -> Prop :=
| JNew k : jm_reach (new_jmetric k)
| JInit m m' : jm_reach m -> jm_init N m = Ok m' -> jm_reach m'
| JSet m c : jm_reach m -> core_reach c -> jm_reach (jm_set_core m c)
| JPush m xs : jm_reach m -> returned (snd (jm_push_eff m xs)) -> jm_reach (fst (jm_push_eff m xs))
| JClear m m' : jm_reach m -> jm_clear N m = Ok m' -> jm_reach m'.
(** [ok]: the cores passed to SetCore *)
Inductive auto_reach (ok : @vcore T -> Prop) : @auto T -> Prop :=
| ANew k lag w a : new_auto k lag w = Ok a -> auto_reach ok a
| AInit a a' : auto_reach ok a -> auto_init N a = Ok a' -> auto_reach ok a'
| ASet a c : auto_reach ok a -> core_reach c -> ok c -> auto_reach ok (auto_set_core a c)
| APush a x : auto_reach ok a -> returned (snd (auto_push_eff a x)) -> auto_reach ok (fst (auto_push_eff a x))
| AClear a a' : auto_reach ok a -> auto_clear N a = Ok a' -> auto_reach ok a'.
End Eff.

Section Simple.
Variable fN : Num f64.
Variable jjunk : @vcore f64 -> list f64 -> @vcore f64.
Variable mjunk : @core f64 -> f64 -> @core f64.
Variable qjunk : quant -> f64 -> quant.
Variable hjunk : hmed -> f64 -> hmed.
Variable xjunk : mm -> f64 -> mm.
(** The Push methods of all metrics that take one value: minmax/min.go:58-94, max.go:58-94, quantile/quantile.go:68-91,
    median.go:40-46, iqr.go:38-44, heap_median.go:63-111 and the above *)
Definition s_push_eff (m : smetric) (x : f64) : smetric * res unit :=
  match m with
  | SMin m => let '(m', r) := half xjunk min_push m x in (SMin m', r)
  | SMax m => let '(m', r) := half xjunk max_push m x in (SMax m', r)
  | SMoment m => let '(m', r) := m_push_eff fN mjunk m x in (SMoment m', r)
  | SMedian q => let '(q', r) := half qjunk q_push q x in (SMedian q', r)
  | SIQR q => let '(q', r) := half qjunk q_push q x in (SIQR q', r)
  | SHeap m => let '(m', r) := half hjunk hm_push m x in (SHeap m', r)
  | SAuto a => let '(a', r) := auto_push_eff fN jjunk a x in (SAuto a', r)
  end.
End Simple.
