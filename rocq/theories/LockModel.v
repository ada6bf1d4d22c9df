(** The locking of the methods of the metrics, over the sequential model of what they compute. *)
From Verif Require Import Base F64 NumModel RingModel MinMaxModel HeapModel QuantileModel MomentModel JointModel MathModel ConcModel.
Local Open Scope Z_scope.

(** Simplifications of this file: the body of a critical section that only calls functions without
    locks is one read of the state, and one write of the new state if it is a writing section.
    A panic or a hang inside a section is represented as a result of the call, the lock
    being released (all Unlock calls are deferred). *)
Section Frag.
Context {S R : Type}.
(** A method that takes the read lock, computes [f] and releases the lock. *)
Definition rsection {B} (f : S -> B) (k : B -> prog S R) : prog S R := RLock (Get (fun s => RUnlock (k (f s)))).
(** A method that takes the lock and updates the state with [f]. *)
Definition wsection (f : S -> res S) (ret : res unit -> R) : prog S R :=
  Lock (Get (fun s => Put (fun _ => match f s with Ok s' => s' | _ => s end) (Unlock (Ret (ret (rmap (fun _ => tt) (f s))))))).
(** A method that takes the lock and only reads. *)
Definition lsection (f : S -> R) : prog S R := Lock (Get (fun s => Unlock (Ret (f s)))).
(** if err != nil { return err } *)
Definition try {A B} (r : res A) (k : A -> prog S R) (fail : res B -> prog S R) : prog S R :=
  match r with Ok a => k a | Err e => fail (Err e) | Panic => fail Panic | Hang => fail Hang | NoFuel => fail NoFuel end.
(** Sequential effect of an update. *)
Definition upd_spec (f : S -> res S) (ret : res unit -> R) (s : S) : S * R :=
  (match f s with Ok s' => s' | _ => s end, ret (rmap (fun _ => tt) (f s))).
End Frag.

Section MomentLock.
Context {T : Type} (N : Num T).
(** Calls on one moment core and on any metrics that share it: Push and Clear of the core or of a
    metric, Value of a metric of any kind, and the core's Count, Mean and Sum. *)
Inductive mcall := MPush (x : T) | MClear | MValue (k : @kind T) | MCount | MMean | MSum (k : Z).
Inductive mres := MUnit (r : res unit) | MVal (r : res T) | MInt (z : Z).
Local Notation mprog := (prog (@core T) mres).
(** What each call does when nothing else runs. *)
Definition mapply (o : mcall) (c : @core T) : @core T * mres :=
  match o with
  | MPush x => upd_spec (fun c => c_push N c x) MUnit c
  | MClear => upd_spec (c_clear N) MUnit c
  | MValue k => (c, MVal (kvalue N k c))
  | MCount => (c, MInt (c_get_count c))
  | MMean => (c, MVal (c_get_mean c))
  | MSum k => (c, MVal (c_get_sum c k))
  end.
(** moment.go:73-90 Moment.Value, called with or without the read lock held *)
Definition mvalue_code (k : Z) (ret : res T -> mprog) : mprog :=
  RLock (rsection (fun c => c_get_sum c k) (fun r => try r
    (fun m => rsection c_get_count (fun n => RUnlock (ret (Ok (ndiv N m (nsub N (nz N n) (nz N 1)))))))
    (fun e => RUnlock (ret e)))).
(** The Value methods: mean.go:64-77, std.go:62-72, skewness.go:79-106, kurtosis.go:79-106, ewma.go:61-74,
    ewmmoment.go:73-84, ewmstd.go:56-66 *)
Definition kcode (k : @kind T) : mprog :=
  let unl r := RUnlock (Ret (MVal r)) in
  let mul := nmul N in let div := ndiv N in let sub := nsub N in let z := nz N in
  match k with
  | KMean _ | KEwma _ => RLock (rsection c_get_mean unl)
  | KMoment k _ => mvalue_code k (fun r => Ret (MVal r))
  | KStd _ => mvalue_code 2 (fun r => Ret (MVal (rmap (nsqrt N) r)))
  | KSkew _ => RLock (rsection c_get_count (fun n =>
      if n =? 0 then unl (Err ENoValues)
      else mvalue_code 2 (fun r => try r (fun v => mvalue_code 3 (fun r => try r (fun m =>
             let v := mul v (div (sub (z n) (z 1)) (z n)) in
             let m := mul m (div (sub (z n) (z 1)) (z n)) in
             unl (Ok (div (mul (div (nsqrt N (mul (z n) (sub (z n) (z 1)))) (sub (z n) (z 2))) m) (npow32 N v)))) unl)) unl)))
  | KKurt _ => RLock (rsection c_get_count (fun n =>
      if n =? 0 then unl (Err ENoValues)
      else mvalue_code 2 (fun r => try r (fun v => mvalue_code 4 (fun r => try r (fun m =>
             let m := mul m (div (sub (z n) (z 1)) (z n)) in
             let v := mul v (div (sub (z n) (z 1)) (z n)) in
             unl (Ok (sub (div m (npow N v 2)) (z 3)))) unl)) unl)))
  | KEwmMoment k _ => rsection (fun c => c_get_sum c k) (fun r => Ret (MVal r))
  | KEwmStd _ => rsection (fun c => c_get_sum c 2) (fun r => Ret (MVal (rmap (nsqrt N) r)))
  end.
(** core.go:66-71, 188-193, 202-207, 222-227, 244-249 and the metrics' Push and Clear, which call these *)
Definition mcode (o : mcall) : mprog :=
  match o with
  | MPush x => wsection (fun c => c_push N c x) MUnit
  | MClear => wsection (c_clear N) MUnit
  | MValue k => kcode k
  | MCount => rsection c_get_count (fun n => Ret (MInt n))
  | MMean => rsection c_get_mean (fun r => Ret (MVal r))
  | MSum k => rsection (fun c => c_get_sum c k) (fun r => Ret (MVal r))
  end.
(** The calls that take the read lock at most once. *)
Definition mflat (o : mcall) : bool :=
  match o with MValue (KEwmMoment _ _) | MValue (KEwmStd _) => true | MValue _ => false | _ => true end.
End MomentLock.

Section JointLock.
Context {T : Type} (N : Num T).
(** Calls on one joint core and on any metrics that share it. [JMPush]: Push of a metric. *)
Inductive jcall := JPush (xs : list T) | JMPush (xs : list T) | JClear | JValue (k : @jkind T) | JCount | JMean (i : Z) | JSum (m : tuple).
Inductive jres := JUnit (r : res unit) | JVal (r : res T) | JInt (z : Z).
Local Notation jprog := (prog (@vcore T) jres).
Definition japply (o : jcall) (c : @vcore T) : @vcore T * jres :=
  match o with
  | JPush xs => upd_spec (fun c => jpush N c xs) JUnit c
  | JMPush xs => upd_spec (fun c => if negb (Nat.eqb (length xs) 2) then Err EArity else jpush N c xs) JUnit c
  | JClear => upd_spec (j_clear N) JUnit c
  | JValue k => (c, JVal (jvalue N k c))
  | JCount => (c, JInt (j_get_count c))
  | JMean i => (c, JVal (j_get_mean N c i))
  | JSum m => (c, JVal (j_get_sum c m))
  end.
(** The Value methods: cov.go:72-89, corr.go:77-106, ewmcov.go:69-80, ewmcorr.go:74-103. [sum] and [count]
    are the methods of the core, seen from the state [S] guarded by its mutex. *)
Definition jkcode {S R} (sum : tuple -> S -> res T) (count : S -> res Z) (k : @jkind T) (ret : res T -> prog S R) : prog S R :=
  let unl e := RUnlock (ret e) in
  match k with
  | JCov _ => RLock (rsection (sum [1; 1]) (fun r => try r
                (fun s => rsection count (fun r => try r (fun n => unl (Ok (ndiv N s (nsub N (nz N n) (nz N 1))))) unl)) unl))
  | JCorr _ | JEwmCorr _ =>
      RLock (rsection (sum [1; 1]) (fun r => try r (fun cov =>
        rsection (sum [2; 0]) (fun r => try r (fun x =>
          rsection (sum [0; 2]) (fun r => try r (fun y => unl (Ok (ndiv N cov (nsqrt N (nmul N x y))))) unl)) unl)) unl))
  | JEwmCov _ => rsection (sum [1; 1]) ret
  end.
(** core.go:80-85, 344-349, 358-363, 383-388, 406-411 and the metrics' Push and Clear; the arity is checked before
    locking (cov.go:51-69 and the like) *)
Definition jcode (o : jcall) : jprog :=
  match o with
  | JPush xs => wsection (fun c => jpush N c xs) JUnit
  | JMPush xs => if negb (Nat.eqb (length xs) 2) then Ret (JUnit (Err EArity)) else wsection (fun c => jpush N c xs) JUnit
  | JClear => wsection (j_clear N) JUnit
  | JValue k => jkcode (fun m c => j_get_sum c m) (fun c => Ok (j_get_count c)) k (fun r => Ret (JVal r))
  | JCount => rsection j_get_count (fun n => Ret (JInt n))
  | JMean i => rsection (fun c => j_get_mean N c i) (fun r => Ret (JVal r))
  | JSum m => rsection (fun c => j_get_sum c m) (fun r => Ret (JVal r))
  end.
Definition jflat (o : jcall) : bool :=
  match o with JValue (JEwmCov _) => true | JValue _ => false | _ => true end.

(** ** Autocov and Autocorr *)
Inductive acall := APush (x : T) | AClear | AValue.
(** [view]: what the caller looks at in the result of Value. *)
Context {V : Type} (view : res T -> V).
Inductive ares := AUnit (r : res unit) | AVal (v : V).
(** The type of the inner metric, which never changes. *)
Definition as_kind (k : @jkind T) (a : @auto T) : @auto T := mkA (a_lag a) (a_queue a) (mkJM k (jm_core (a_metric a))).
Definition aapply (k : @jkind T) (o : acall) (a : @auto T) : @auto T * ares :=
  match o with
  | APush x => upd_spec (fun a => auto_push N a x) AUnit a
  | AClear => upd_spec (auto_clear N) AUnit a
  | AValue => (a, AVal (view (auto_value N (as_kind k a))))
  end.
(** A method of the inner core, called by the metric [a] *)
Definition on_core {B} (f : @vcore T -> res B) (a : @auto T) : res B :=
  match jm_core (a_metric a) with None => Err ECoreNotSet | Some c => f c end.
(** autocov.go:70-130 and autocorr.go:70-130, with the core set. Value reads the count and then calls the inner
    metric's Value, in two critical sections. [k]: the inner metric *)
Definition acode (k : @jkind T) (o : acall) : prog (@auto T) ares :=
  match o with
  | APush x => wsection (fun a => auto_push N a x) AUnit
  | AClear => wsection (auto_clear N) AUnit
  | AValue => rsection (on_core (fun c => Ok (j_get_count c))) (fun r =>
      match r with
      | Ok n => if n =? 0 then Ret (AVal (view (Err ETooFew))) else jkcode (fun m => on_core (fun c => j_get_sum c m)) (on_core (fun c => Ok (j_get_count c))) k (fun r => Ret (AVal (view r)))
      | _ => Ret (AVal (view (Err ECoreNotSet)))
      end)
  end.
End JointLock.

(** ** Quantile, Median, IQR: one RWMutex in the Quantile *)
Section QuantileLock.
Variable e : env.
Inductive qcall := QPush (x : f64) | QClear | QValue (phi : f64) | QMedian | QIqr.
Inductive qres := QUnit (r : res unit) | QVal (r : res f64).
Definition qapply (o : qcall) (q : quant) : quant * qres :=
  match o with
  | QPush x => upd_spec (fun q => q_push q x) QUnit q
  | QClear => upd_spec q_clear QUnit q
  | QValue phi => (q, QVal (q_value e q phi))
  | QMedian => (q, QVal (median_value e q))
  | QIqr => (q, QVal (iqr_value e q))
  end.
(** quantile.go:94-143 Value; the argument is checked before locking *)
Definition qvalue_code (phi : f64) (ret : res f64 -> prog quant qres) : prog quant qres :=
  if fle phi (fz 0) || fge phi (fz 1) then ret (Err EBadQuantile) else rsection (fun q => q_value e q phi) ret.
(** quantile.go:68-91 and 146-152, median.go:49-55, iqr.go:47-62 *)
Definition qcode (o : qcall) : prog quant qres :=
  match o with
  | QPush x => wsection (fun q => q_push q x) QUnit
  | QClear => wsection q_clear QUnit
  | QValue phi => qvalue_code phi (fun r => Ret (QVal r))
  | QMedian => qvalue_code (fdy 1 (-1)) (fun r => Ret (QVal r))
  | QIqr => RLock (qvalue_code (fdy 1 (-2)) (fun r => try r
              (fun q25 => qvalue_code (fdy 3 (-2)) (fun r => RUnlock (Ret (QVal (rmap (fun q75 => fsub q75 q25) r)))))
              (fun r => RUnlock (Ret (QVal r)))))
  end.
Definition qflat (o : qcall) : bool := match o with QIqr => false | _ => true end.
End QuantileLock.

(** ** Min, Max, HeapMedian: a sync.Mutex held during each method *)
Inductive vcall := VPush (x : f64) | VClear | VValue.
Inductive vres := VUnit (r : res unit) | VVal (r : res f64).
Section MutexLock.
Context {S : Type} (push : S -> f64 -> res S) (clear : S -> res S) (value : S -> res f64).
Definition vapply (o : vcall) (s : S) : S * vres :=
  match o with
  | VPush x => upd_spec (fun s => push s x) VUnit s
  | VClear => upd_spec clear VUnit s
  | VValue => (s, VVal (value s))
  end.
(** min.go:58-119, max.go:58-119, heap_median.go:64-156 *)
Definition vcode (o : vcall) : prog S vres :=
  match o with
  | VPush x => wsection (fun s => push s x) VUnit
  | VClear => wsection clear VUnit
  | VValue => lsection (fun s => VVal (value s))
  end.
End MutexLock.

(** ** The factorial cache, which has no lock *)
Inductive bcall := BBinom (n k : Z).
(** math.go:5-12, reading and writing the package variable factorials in separate steps.
    Simplification: the computation of next, the append and the final read are one step each, so there
    are fewer executions than in Go. [fuel] bounds the iterations of the loop. *)
Fixpoint fact_code (fuel : nat) (n : Z) (ret : res Z -> prog (list Z) (res Z)) : prog (list Z) (res Z) :=
  match fuel with
  | O => ret NoFuel
  | S fuel =>
      Get (fun c => if n >=? zlen c
        then Get (fun c => let next := wrap (last c 0 * zlen c) in Put (fun c => c ++ [next]) (fact_code fuel n ret))
        else Get (fun c => ret (if n <? 0 then Panic else match nth_error c (Z.to_nat n) with Some v => Ok v | None => Panic end)))
  end.
(** math.go:24-30 Binom *)
Definition bcode (o : bcall) : prog (list Z) (res Z) :=
  match o with BBinom n k =>
    if (k =? 0) || (k =? n) then Ret (Ok 1)
    else let fuel := Z.to_nat (n + 2) in
      fact_code fuel n (fun fn => try fn (fun fn => fact_code fuel k (fun fk => try fk (fun fk =>
        fact_code fuel (n - k) (fun fnk => try fnk (fun fnk => Ret (idiv fn (wrap (fk * fnk)))) Ret)) Ret)) Ret)
  end.

(** What the moment core computes with the cache in state [cache] (no goroutine changing it): core.go:106-123 add,
    as [c_add] but with the cache made explicit. *)
Section CacheAdd.
Context {T : Type} (N : Num T) (cache : list Z).
Definition binom_in (n k : Z) : res Z := rmap snd (binom_c cache n k).
Definition coef_in (k i : nat) : res T := b <- binom_in (Z.of_nat k) (Z.of_nat i) ;; Ok (nz N (wrap (b * sign (Z.of_nat i)))).
Fixpoint inner_in (op : T -> T -> T) (term : T -> nat -> T) (k : nat) (is_ : list nat) (s : T) : res T :=
  match is_ with
  | [] => Ok s
  | i :: t => c <- coef_in k i ;; inner_in op term k t (op s (term c i))
  end.
Definition add_in (c : @core T) (x : T) : res (@core T) :=
  let n := c_count c + 1 in
  let count := nz N n in
  let delta := nsub N x (c_mean c) in
  let mean := nadd N (c_mean c) (ndiv N delta count) in
  let step (f : nat -> T) (k : nat) :=
    let s0 := nadd N (f k) (nmul N (nmul N (ndiv N (nsub N count (nz N 1)) (npow N count k)) (nadd N (npow N (nsub N count (nz N 1)) (k - 1)) (nz N (sign (Z.of_nat k))))) (npow N delta k)) in
    inner_in (nadd N) (fun cf i => nmul N (nmul N cf (npow N (ndiv N delta count) i)) (f (k - i)%nat)) k (seq 1 (k - 2)) s0 in
  f <- outer step (rev (ks_up (c_len c))) (c_sums c) ;;
  Ok (mkCore mean (c_len c) f n (c_window c) (c_decay c) (c_queue c)).
Fixpoint adds_in (c : @core T) (xs : list T) : res (@core T) :=
  match xs with [] => Ok c | x :: t => c' <- add_in c x ;; adds_in c' t end.
End CacheAdd.
