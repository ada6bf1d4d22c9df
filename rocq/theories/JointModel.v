(** Model of joint/*.go, polymorphic in the arithmetic. The mutex is not part of this
    sequential model (ConcModel covers it). *)
From Verif Require Import Base HistSpec RingModel MathModel NumModel.
Local Open Scope Z_scope.

(** ** tuple.go *)
(** tuple.go:15 Tuple *)
Definition tuple := list Z.
(** tuple.go:17-23 abs, in int64 arithmetic *)
Definition t_abs (m : tuple) : Z := fold_left (fun s i => wrap (s + i)) m 0.
(** tuple.go:25-36 hash. The conversion to uint64 is a bijection; the int64 before it
    is kept as the hash. *)
Definition t_hash (m : tuple) : Z := fold_left (fun r k => wrap (31 * r + k)) m 0.
(** tuple.go:38-50 eq *)
Fixpoint t_eq (m n : tuple) : bool :=
  match m, n with
  | [], [] => true
  | a :: m', b :: n' => (a =? b) && t_eq m' n'
  | _, _ => false
  end.
(** tuple.go:52-66 sub *)
Fixpoint t_sub_loop (m n : tuple) : tuple :=
  match m, n with a :: m', b :: n' => wrap (a - b) :: t_sub_loop m' n' | _, _ => [] end.
Definition t_sub (m n : tuple) : res tuple :=
  if negb (Nat.eqb (length m) (length n)) then Err ELen else Ok (t_sub_loop m n).
(** tuple.go:68-83 multinom *)
Fixpoint multinom_loop (m n : tuple) (r : Z) : res Z :=
  match m, n with
  | a :: m', b :: n' => v <- binom a b ;; multinom_loop m' n' (wrap (r * v))
  | _, _ => Ok r
  end.
Definition multinom (m n : tuple) : res Z :=
  if negb (Nat.eqb (length m) (length n)) then Err ELen else multinom_loop m n 1.

(** tuple.go:116-141 iter: the arguments the callback is called with, in order; the
    argument [rt] is the tuple reversed. The error handling (all callbacks run and
    the errors are collected) is simplified to stopping at the first error. *)
Definition upto (k : Z) : list Z := map Z.of_nat (seq 0 (Z.to_nat (k + 1))).
Fixpoint iter_rev (rt : list Z) (reverse : bool) : list tuple :=
  match rt with
  | [] => [[]]
  | k :: p => flat_map (fun i => map (fun xs => xs ++ [i]) (iter_rev p reverse)) (if reverse then rev (upto k) else upto k)
  end.
Definition iter_list (t : tuple) (reverse : bool) : list tuple := iter_rev (rev t) reverse.

Section Joint.
Context {T : Type} (N : Num T).
Local Notation "x +. y" := (nadd N x y) (at level 50, left associativity).
Local Notation "x -. y" := (nsub N x y) (at level 50, left associativity).
Local Notation "x *. y" := (nmul N x y) (at level 40, left associativity).
Local Notation "x /. y" := (ndiv N x y) (at level 40, left associativity).
Local Notation "# z" := (nz N z) (at level 5, format "# z").

(** tuple.go:85-100 pow; the exponents are never negative *)
Fixpoint vpow_loop (x : list T) (n : tuple) (r : T) : T :=
  match x, n with
  | a :: x', k :: n' => vpow_loop x' n' (r *. npow N a (Z.to_nat k))
  | _, _ => r
  end.
Definition t_pow (x : list T) (n : tuple) : res T :=
  if negb (Nat.eqb (length x) (length n)) then Err ELen else Ok (vpow_loop x n #1).

(** ** config.go *)
(** config.go:19-24 CoreConfig *)
Record jconfig := mkJCfg { jf_sums : option (list tuple); jf_window : option Z; jf_vars : option Z; jf_decay : option T }.
Definition jsums_of (c : jconfig) : list tuple := match jf_sums c with Some s => s | None => [] end.

(** config.go:107-113: is m[i] <= n[i] for all i; indexing n beyond its length panics *)
Fixpoint all_leq (m n : tuple) : res bool :=
  match m, n with
  | [], _ => Ok true
  | a :: m', b :: n' => if a >? b then Ok false else all_leq m' n'
  | _ :: _, [] => Panic
  end.
(** config.go:101-121: is m below one of the tuples before it *)
Fixpoint some_leq (m : tuple) (before : list tuple) : res bool :=
  match before with
  | [] => Ok false
  | n :: t => b <- all_leq m n ;; if b then Ok true else some_leq m t
  end.
(** config.go:90-128 simplifySums; [seen] are the tuples before, [keys] the hashes kept *)
Fixpoint simplify_loop (sums seen : list tuple) (keys : list Z) (kept : list tuple) : res (list tuple) :=
  match sums with
  | [] => Ok kept
  | m :: t =>
      if existsb (Z.eqb (t_hash m)) keys then simplify_loop t (seen ++ [m]) keys kept
      else b <- some_leq m seen ;;
           if b then simplify_loop t (seen ++ [m]) keys kept
           else simplify_loop t (seen ++ [m]) (t_hash m :: keys) (kept ++ [m])
  end.
Definition simplify_sums (sums : list tuple) : res (list tuple) := simplify_loop sums [] [] [].

(** config.go:50-78, the loop of MergeConfigs *)
Fixpoint jmerge_loop (cs : list jconfig) (sums : list tuple) (w v : option Z) (d : option T) : res jconfig :=
  match cs with
  | [] => s <- simplify_sums sums ;; Ok (mkJCfg (Some s) w v d)
  | c :: t =>
      let sums' := match jf_sums c with Some s => sums ++ s | None => sums end in
      w' <- match jf_window c, w with
            | None, _ => Ok w
            | Some cw, None => Ok (Some cw)
            | Some cw, Some w0 => if w0 =? cw then Ok w else Err EDiffWindow
            end ;;
      v' <- match jf_vars c, v with
            | None, _ => Ok v
            | Some cv, None => Ok (Some cv)
            | Some cv, Some v0 => if v0 =? cv then Ok v else Err EDiffVars
            end ;;
      d' <- match jf_decay c, d with
            | None, _ => Ok d
            | Some cd, None => Ok (Some cd)
            | Some cd, Some d0 => if neqb N d0 cd then Ok d else Err EDiffDecay
            end ;;
      jmerge_loop t sums' w' v' d'
  end.
(** config.go:34-86 MergeConfigs *)
Definition jmerge_configs (cs : list jconfig) : res jconfig :=
  match cs with
  | [] => Err ENoConfigs
  | [c] => Ok c
  | _ => jmerge_loop cs [] None None None
  end.

(** config.go:163-197 validateTuple; [first] is config.Sums[0] *)
Definition validate_tuple (first : tuple) (vars : option Z) (t : tuple) : res unit :=
  if negb (Nat.eqb (length t) (length first)) then Err ETupleLen
  else if zlen t <? 2 then Err ETupleShort
  else if match vars with Some v => negb (zlen t =? v) | None => false end then Err ETupleVars
  else if existsb (fun k => k <? 0) t then Err ETupleNeg
  else if t_abs t =? 0 then Err ETupleZero
  else Ok tt.
Fixpoint validate_tuples (first : tuple) (vars : option Z) (ts : list tuple) : res unit :=
  match ts with
  | [] => Ok tt
  | t :: r => _ <- validate_tuple first vars t ;; validate_tuples first vars r
  end.
(** config.go:130-161 validateConfig *)
Definition jvalidate (c : jconfig) : res unit :=
  match jf_window c with
  | None => Err ENoWindow
  | Some w =>
      if w <? 0 then Err ENegWindow
      else if match jf_vars c with Some v => v <? 2 | None => false end then Err EVars
      else
        _ <- match jf_decay c with
             | None => Ok tt
             | Some d => if nle N d #0 || nle N #1 d then Err EBadDecay
                         else if w >? 0 then Err EDecayWindow else Ok tt
             end ;;
        _ <- validate_tuples (hd [] (jsums_of c)) (jf_vars c) (jsums_of c) ;;
        match jf_vars c, jsums_of c with
        | None, [] => Err EVarsUnset
        | _, _ => Ok tt
        end
  end.

(** ** core.go *)
(** The maps from hashes to sums; reading a missing key gives 0. *)
Definition hmap := Z -> option T.
Definition hget (m : hmap) (h : Z) : T := match m h with Some v => v | None => #0 end.
Definition hput (m : hmap) (h : Z) (v : T) : hmap := fun k => if k =? h then Some v else m k.
Definition hzero (m : hmap) : hmap := fun k => option_map (fun _ => #0) (m k).
(** core.go:189-191, 261-263 and 324-326: copy every entry of [n] into [m] *)
Definition hcopy (n m : hmap) : hmap := fun k => match n k with Some v => Some v | None => m k end.

(** core.go:15-25 Core. [A] is the type of the queued items: the code queues the slice
    it was passed, see UnsafePush. *)
Context {A : Type}.
Record jcore := mkJ {
  j_means : list T; j_tuples : list tuple; j_sums : hmap; j_new : hmap; j_count : Z;
  j_window : Z; j_decay : option T; j_queue : ring A }.

(** core.go:40-77 NewCore. Writing defaults back into the caller's config is in CfgModel.v. *)
Definition init_keys (ts : list tuple) : hmap :=
  fold_left (fun m t => fold_left (fun m xs => hput m (t_hash xs) #0) (iter_list t false) m) ts (fun _ => None).
Definition jnew_core (c : jconfig) : res jcore :=
  _ <- jvalidate c ;;
  let vars := match jf_vars c with
              | Some v => Some v
              | None => match jsums_of c with [] => None | t :: _ => Some (zlen t) end
              end in
  match jf_window c, vars with
  | Some w, Some v =>
      Ok (mkJ (repeat #0 (Z.to_nat v)) (jsums_of c) (init_keys (jsums_of c)) (init_keys (jsums_of c)) 0 w (jf_decay c) (ring_new w))
  | _, _ => Panic
  end.

(** core.go:146-187, 218-259 and 283-319, the loops "for each tuple, for each a below it": newSums[hash(a)] = 0, then for
    each b below a update newSums[hash(a)] by [term a b newSums] with [op]. *)
Definition upd_b (term : tuple -> tuple -> hmap -> res (T -> T)) (a : tuple) : list tuple -> hmap -> res hmap :=
  fix go bs m := match bs with
                 | [] => Ok m
                 | b :: t => f <- term a b m ;; go t (hput m (t_hash a) (f (hget m (t_hash a))))
                 end.
Fixpoint upd_a (term : tuple -> tuple -> hmap -> res (T -> T)) (as_ : list tuple) (m : hmap) : res hmap :=
  match as_ with
  | [] => Ok m
  | a :: t => m' <- upd_b term a (iter_list a false) (hput m (t_hash a) #0) ;; upd_a term t m'
  end.
Fixpoint upd_tuples (term : tuple -> tuple -> hmap -> res (T -> T)) (reverse : bool) (ts : list tuple) (m : hmap) : res hmap :=
  match ts with
  | [] => Ok m
  | t :: r => m' <- upd_a term (iter_list t reverse) m ;; upd_tuples term reverse r m'
  end.

(** core.go:140-144 and 212-216: delta and the new means *)
Definition deltas (xs means : list T) : list T := map (fun p => fst p -. snd p) (combine xs means).
Definition add_means (means delta : list T) (f : T -> T) : list T := map (fun p => fst p +. f (snd p)) (combine means delta).

(** core.go:151-182, the innermost body of add *)
Definition add_term (count : T) (delta : list T) (sums : hmap) (a b : tuple) (_ : hmap) : res (T -> T) :=
  dp <- t_pow delta b ;;
  let abs := t_abs b in
  if abs =? 0 then Ok (fun s => s +. hget sums (t_hash a))
  else if t_eq b a then
    Ok (fun s => s +. ((count -. #1) /. npow N count (Z.to_nat abs) *. (npow N (count -. #1) (Z.to_nat (abs - 1)) +. #(sign abs))) *. dp)
  else
    mn <- multinom a b ;;
    diff <- t_sub a b ;;
    Ok (fun s => s +. #(wrap (mn * sign abs)) /. npow N count (Z.to_nat abs) *. dp *. hget sums (t_hash diff)).
(** core.go:136-194 add *)
Definition j_add (c : jcore) (xs : list T) : res jcore :=
  let n := j_count c + 1 in
  let count := #n in
  let delta := deltas xs (j_means c) in
  let means := add_means (j_means c) delta (fun d => d /. count) in
  m <- upd_tuples (add_term count delta (j_sums c)) true (j_tuples c) (j_new c) ;;
  Ok (mkJ means (j_tuples c) (hcopy m (j_sums c)) m n (j_window c) (j_decay c) (j_queue c)).

(** core.go:223-254, the innermost body of addDecay *)
Definition decay_term (decay : T) (delta : list T) (sums : hmap) (a b : tuple) (_ : hmap) : res (T -> T) :=
  dp <- t_pow delta b ;;
  let abs := t_abs b in
  if abs =? 0 then Ok (fun s => s +. (#1 -. decay) *. hget sums (t_hash a))
  else if t_eq b a then
    Ok (fun s => s +. ((#1 -. decay) *. npow N (#0 -. decay) (Z.to_nat abs) +. decay *. npow N (#1 -. decay) (Z.to_nat abs)) *. dp)
  else
    mn <- multinom a b ;;
    diff <- t_sub a b ;;
    Ok (fun s => s +. #(wrap (mn * sign abs)) *. npow N decay (Z.to_nat abs) *. dp *. (#1 -. decay) *. hget sums (t_hash diff)).
(** core.go:202-266 addDecay; [d] is *c.decay *)
Definition j_add_decay (c : jcore) (d : T) (xs : list T) : res jcore :=
  let n := j_count c + 1 in
  let decay := if n =? 1 then #1 else d in
  let delta := deltas xs (j_means c) in
  let means := add_means (j_means c) delta (fun x => decay *. x) in
  m <- upd_tuples (decay_term decay delta (j_sums c)) true (j_tuples c) (j_new c) ;;
  Ok (mkJ means (j_tuples c) (hcopy m (j_sums c)) m n (j_window c) (j_decay c) (j_queue c)).

(** core.go:287-318, the innermost body of remove *)
Definition rem_term (count : T) (delta : list T) (sums : hmap) (a b : tuple) (new : hmap) : res (T -> T) :=
  dp <- t_pow delta b ;;
  let abs := t_abs b in
  if abs =? 0 then Ok (fun s => s +. hget sums (t_hash a))
  else if t_eq b a then
    Ok (fun s => s -. (count /. npow N (count +. #1) (Z.to_nat abs) *. (npow N count (Z.to_nat (abs - 1)) +. #(sign abs))) *. dp)
  else
    mn <- multinom a b ;;
    diff <- t_sub a b ;;
    Ok (fun s => s -. #(wrap (mn * sign abs)) /. npow N (count +. #1) (Z.to_nat abs) *. dp *. hget new (t_hash diff)).
(** core.go:282-327: after each tuple the new sums are copied into the sums *)
Fixpoint rem_tuples (count : T) (delta : list T) (ts : list tuple) (sums new : hmap) : res (hmap * hmap) :=
  match ts with
  | [] => Ok (sums, new)
  | t :: r => m <- upd_a (rem_term count delta sums) (iter_list t false) new ;;
              rem_tuples count delta r (hcopy m sums) m
  end.
(** core.go:271-341 remove *)
Definition j_remove (c : jcore) (xs : list T) : res jcore :=
  let n := j_count c - 1 in
  if n >? 0 then
    let count := #n in
    let means := map (fun p => snd p -. (fst p -. snd p) /. count) (combine xs (j_means c)) in
    let delta := deltas xs means in
    '(s, m) <- rem_tuples count delta (j_tuples c) (j_sums c) (j_new c) ;;
    Ok (mkJ means (j_tuples c) s m n (j_window c) (j_decay c) (j_queue c))
  else
    Ok (mkJ (map (fun _ => #0) (j_means c)) (j_tuples c) (hzero (j_sums c)) (hzero (j_new c)) n (j_window c) (j_decay c) (j_queue c)).

(** core.go:89-128 UnsafePush (= Push without the lock). [rd] reads the contents of a
    slice at the time of the call: xs is queued as it is, not copied. *)
Definition j_push (rd : A -> list T) (c : jcore) (x : A) : res jcore :=
  if negb (Nat.eqb (length (rd x)) (length (j_means c))) then Err EArity
  else
    c' <- (if negb (j_window c =? 0) then
             c1 <- (if ring_len (j_queue c) =? j_window c then
                      '(y, q) <- ring_get (j_queue c) ;;
                      j_remove (mkJ (j_means c) (j_tuples c) (j_sums c) (j_new c) (j_count c) (j_window c) (j_decay c) q) (rd y)
                    else Ok c) ;;
             q <- ring_put (j_queue c1) x ;;
             Ok (mkJ (j_means c1) (j_tuples c1) (j_sums c1) (j_new c1) (j_count c1) (j_window c1) (j_decay c1) q)
           else Ok c) ;;
    match j_decay c' with
    | None => j_add c' (rd x)
    | Some d => j_add_decay c' d (rd x)
    end.

(** core.go:344-355 Count *)
Definition j_get_count (c : jcore) : Z := j_count c.
(** core.go:358-377 Mean *)
Definition j_get_mean (c : jcore) (i : Z) : res T :=
  if j_count c =? 0 then Err ENoValues
  else if (i <? 0) || (i >=? zlen (j_means c)) then Err ENotTracked
  else Ok (nth (Z.to_nat i) (j_means c) #0).
(** core.go:383-403 Sum *)
Definition j_get_sum (c : jcore) (m : tuple) : res T :=
  if j_count c =? 0 then Err ENoValues
  else match j_sums c (t_hash m) with None => Err ENotTracked | Some s => Ok s end.
(** core.go:406-429 Clear *)
Definition j_clear (c : jcore) : res jcore :=
  Ok (mkJ (map (fun _ => #0) (j_means c)) (j_tuples c) (hzero (j_sums c)) (hzero (j_new c)) 0 (j_window c) (j_decay c) (ring_new (j_window c))).
End Joint.

Arguments mkJCfg {T}. Arguments jf_sums {T}. Arguments jf_window {T}. Arguments jf_vars {T}. Arguments jf_decay {T}. Arguments jsums_of {T}.
Arguments mkJ {T A}. Arguments j_means {T A}. Arguments j_tuples {T A}. Arguments j_sums {T A}. Arguments j_new {T A}. Arguments j_count {T A}.
Arguments j_window {T A}. Arguments j_decay {T A}. Arguments j_queue {T A}. Arguments j_get_count {T A}. Arguments j_get_sum {T A}.

Section JointMetrics.
Context {T : Type} (N : Num T).
(** Points captured by value: each Push owns its slice. *)
Definition vcore := @jcore T (list T).
Definition jpush (c : vcore) (x : list T) : res vcore := j_push N (fun x => x) c x.
Definition jcore_run (c : vcore) (ops : list (op (list T))) : res vcore := run jpush (j_clear N) ops c.

(** cov.go, corr.go, ewmcov.go, ewmcorr.go *)
Inductive jkind := JCov (w : Z) | JCorr (w : Z) | JEwmCov (d : T) | JEwmCorr (d : T).
(** The Config methods: cov.go:37-42, corr.go:38-47, ewmcov.go:33-39, ewmcorr.go:34-44 *)
Definition jkconfig (k : jkind) : @jconfig T :=
  match k with
  | JCov w => mkJCfg (Some [[1; 1]]) (Some w) None None
  | JCorr w => mkJCfg (Some [[1; 1]; [2; 0]; [0; 2]]) (Some w) None None
  | JEwmCov d => mkJCfg (Some [[1; 1]]) (Some 0) None (Some d)
  | JEwmCorr d => mkJCfg (Some [[1; 1]; [2; 0]; [0; 2]]) (Some 0) None (Some d)
  end.
(** corr.go:77-106 and ewmcorr.go:74-103 *)
Definition corr_value (c : vcore) : res T :=
  cov <- j_get_sum c [1; 1] ;;
  x <- j_get_sum c [2; 0] ;;
  y <- j_get_sum c [0; 2] ;;
  Ok (ndiv N cov (nsqrt N (nmul N x y))).
(** The Value methods with the core set: cov.go:72-89, ewmcov.go:69-80 and the above *)
Definition jvalue (k : jkind) (c : vcore) : res T :=
  match k with
  | JCov _ => s <- j_get_sum c [1; 1] ;; Ok (ndiv N s (nsub N (nz N (j_get_count c)) (nz N 1)))
  | JCorr _ | JEwmCorr _ => corr_value c
  | JEwmCov _ => j_get_sum c [1; 1]
  end.
Record jmetric := mkJM { jm_kind : jkind; jm_core : option vcore }.
Definition new_jmetric (k : jkind) : jmetric := mkJM k None.
(** core.go:28-37 Init, and the SetCore methods *)
Definition jm_init (m : jmetric) : res jmetric := c <- jnew_core N (jkconfig (jm_kind m)) ;; Ok (mkJM (jm_kind m) (Some c)).
(** The Push, Value and Clear methods: cov.go:51-96, corr.go:56-113, ewmcov.go:48-87, ewmcorr.go:53-110 *)
Definition jm_push (m : jmetric) (xs : list T) : res jmetric :=
  match jm_core m with
  | None => Err ECoreNotSet
  | Some c => if negb (Nat.eqb (length xs) 2) then Err EArity
              else c' <- jpush c xs ;; Ok (mkJM (jm_kind m) (Some c'))
  end.
Definition jm_value (m : jmetric) : res T :=
  match jm_core m with None => Err ECoreNotSet | Some c => jvalue (jm_kind m) c end.
Definition jm_clear (m : jmetric) : res jmetric :=
  match jm_core m with
  | None => Ok m
  | Some c => c' <- j_clear N c ;; Ok (mkJM (jm_kind m) (Some c'))
  end.
Definition jm_run (k : jkind) (ops : list (op (list T))) : res jmetric := m <- jm_init (new_jmetric k) ;; run jm_push jm_clear ops m.

(** autocov.go, autocorr.go: the two files differ in the inner metric only. *)
Inductive akind := ACov | ACorr.
Record auto := mkA { a_lag : Z; a_queue : ring T; a_metric : jmetric }.
(** autocov.go:23-33 and autocorr.go:23-33 NewAutocov, NewAutocorr *)
Definition new_auto (k : akind) (lag w : Z) : res auto :=
  if lag <? 0 then Err ENegLag
  else Ok (mkA lag (ring_new lag) (new_jmetric (match k with ACov => JCov w | ACorr => JCorr w end))).
(** Init with the Config and SetCore methods, which delegate to the inner metric *)
Definition auto_init (a : auto) : res auto := m <- jm_init (a_metric a) ;; Ok (mkA (a_lag a) (a_queue a) m).
(** autocov.go:70-105 and autocorr.go:70-105 Push *)
Definition auto_push (a : auto) (x : T) : res auto :=
  match jm_core (a_metric a) with
  | None => Err ECoreNotSet
  | Some c =>
      if a_lag a =? 0 then
        c' <- jpush c [x; x] ;; Ok (mkA (a_lag a) (a_queue a) (mkJM (jm_kind (a_metric a)) (Some c')))
      else
        '(c1, q1) <- (if ring_len (a_queue a) >=? a_lag a then
                        '(y, q) <- ring_get (a_queue a) ;;
                        c' <- jpush c [x; y] ;; Ok (c', q)
                      else Ok (c, a_queue a)) ;;
        q2 <- ring_put q1 x ;;
        Ok (mkA (a_lag a) q2 (mkJM (jm_kind (a_metric a)) (Some c1)))
  end.
(** autocov.go:108-119 and autocorr.go:108-119 Value *)
Definition auto_value (a : auto) : res T :=
  match jm_core (a_metric a) with
  | None => Err ECoreNotSet
  | Some c => if j_get_count c =? 0 then Err ETooFew else jm_value (a_metric a)
  end.
(** autocov.go:122-130 and autocorr.go:122-130 Clear *)
Definition auto_clear (a : auto) : res auto :=
  match jm_core (a_metric a) with
  | None => Ok a
  | Some c => c' <- j_clear N c ;; Ok (mkA (a_lag a) (ring_new (a_lag a)) (mkJM (jm_kind (a_metric a)) (Some c')))
  end.
Definition auto_run (k : akind) (lag w : Z) (ops : list (op T)) : res auto :=
  a <- new_auto k lag w ;; a <- auto_init a ;; run auto_push auto_clear ops a.
End JointMetrics.
Arguments mkJM {T}. Arguments jm_kind {T}. Arguments jm_core {T}. Arguments JCov {T}. Arguments JCorr {T}.
Arguments mkA {T}. Arguments a_lag {T}. Arguments a_queue {T}. Arguments a_metric {T}.
