(** Model of moment/*.go, polymorphic in the arithmetic. The mutex is not part of
    this sequential model (ConcModel covers it). *)
From Verif Require Import Base HistSpec RingModel MathModel NumModel.
Local Open Scope Z_scope.

Section Moment.
Context {T : Type} (N : Num T).
Local Notation "x +. y" := (nadd N x y) (at level 50, left associativity).
Local Notation "x -. y" := (nsub N x y) (at level 50, left associativity).
Local Notation "x *. y" := (nmul N x y) (at level 40, left associativity).
Local Notation "x /. y" := (ndiv N x y) (at level 40, left associativity).
Local Notation "# z" := (nz N z) (at level 5, format "# z").

(** config.go:9-13 CoreConfig. A SumsConfig is a map used as a set: the list of its
    keys (in any order); None is the nil map. *)
Record config := mkCfg { cf_sums : option (list Z); cf_window : option Z; cf_decay : option T }.

(** config.go:25-29 add: the union of the key sets *)
Definition sums_add (s1 s2 : list Z) : list Z := s1 ++ filter (fun k => negb (existsb (Z.eqb k) s1)) s2.

(** config.go:49-67, the loop of MergeConfigs *)
Fixpoint merge_loop (cs : list config) (sums : list Z) (w : option Z) (d : option T) : res config :=
  match cs with
  | [] => Ok (mkCfg (Some sums) w d)
  | c :: t =>
      let sums' := match cf_sums c with Some s => sums_add sums s | None => sums end in
      w' <- match cf_window c, w with
            | None, _ => Ok w
            | Some cw, None => Ok (Some cw)
            | Some cw, Some w0 => if w0 =? cw then Ok w else Err EDiffWindow
            end ;;
      d' <- match cf_decay c, d with
            | None, _ => Ok d
            | Some cd, None => Ok (Some cd)
            | Some cd, Some d0 => if neqb N d0 cd then Ok d else Err EDiffDecay
            end ;;
      merge_loop t sums' w' d'
  end.
(** config.go:32-73 MergeConfigs *)
Definition merge_configs (cs : list config) : res config :=
  match cs with
  | [] => Err ENoConfigs
  | [c] => Ok c
  | _ => merge_loop cs [] None None
  end.

(** config.go:99-113 setConfigDefaults *)
Definition set_defaults (c : config) : config :=
  mkCfg (Some (match cf_sums c with Some s => s | None => [] end)) (cf_window c) (cf_decay c).
Definition sums_of (c : config) : list Z := match cf_sums c with Some s => s | None => [] end.

(** config.go:75-97 validateConfig. Ranging over the map in any order the outcome is
    the same, as all failures of the loop are alike. *)
Definition validate (c : config) : res unit :=
  match cf_window c with
  | None => Err ENoWindow
  | Some w =>
      if w <? 0 then Err ENegWindow
      else
        _ <- match cf_decay c with
             | None => Ok tt
             | Some d => if nle N d #0 || nle N #1 d then Err EBadDecay
                         else if w >? 0 then Err EDecayWindow else Ok tt
             end ;;
        if existsb (fun k => k <=? 0) (sums_of c) then Err EBadPower else Ok tt
  end.

(** core.go:14-22 Core. The slice of sums: its length and its contents; all accesses
    below are within bounds because of the loop bounds. *)
Record core := mkCore {
  c_mean : T; c_len : nat; c_sums : nat -> T; c_count : Z; c_window : Z; c_decay : option T; c_queue : ring T }.

Definition sput (f : nat -> T) (k : nat) (v : T) : nat -> T := fun j => if Nat.eqb j k then v else f j.

(** core.go:52-57: the largest key, or -1 *)
Definition max_sum (s : list Z) : Z := fold_left (fun m k => if k >? m then k else m) s (-1).

(** core.go:37-63 NewCore *)
Definition new_core (c : config) : res core :=
  let c' := set_defaults c in
  _ <- validate c' ;;
  match cf_window c' with
  | None => Panic
  | Some w => Ok (mkCore #0 (Z.to_nat (max_sum (sums_of c') + 1)) (fun _ => #0) 0 w (cf_decay c') (ring_new w))
  end.

(** float64(mathutil.Binom(k, i)*mathutil.Sign(i)), used in all three updates *)
Definition coef (k i : nat) : res T :=
  b <- binom (Z.of_nat k) (Z.of_nat i) ;; Ok #(wrap (b * sign (Z.of_nat i))).

(** The inner loops, i = 1 .. k-2: starting from [s], combine with [op] the terms
    coef(k,i) * pow(i) * ... computed by [term]. *)
Fixpoint inner (op : T -> T -> T) (term : T -> nat -> T) (k : nat) (is_ : list nat) (s : T) : res T :=
  match is_ with
  | [] => Ok s
  | i :: t => c <- coef k i ;; inner op term k t (op s (term c i))
  end.
(** The outer loops, over the given list of k *)
Fixpoint outer (step : (nat -> T) -> nat -> res T) (ks : list nat) (f : nat -> T) : res (nat -> T) :=
  match ks with
  | [] => Ok f
  | k :: t => v <- step f k ;; outer step t (sput f k v)
  end.
(** 2, 3, ..., len-1 *)
Definition ks_up (len : nat) : list nat := seq 2 (len - 2).

(** core.go:106-123 add *)
Definition c_add (c : core) (x : T) : res core :=
  let n := c_count c + 1 in
  let count := #n in
  let delta := x -. c_mean c in
  let mean := c_mean c +. delta /. count in
  let step (f : nat -> T) (k : nat) :=
    let s0 := f k +. (count -. #1) /. npow N count k *. (npow N (count -. #1) (k - 1) +. #(sign (Z.of_nat k))) *. npow N delta k in
    inner (nadd N) (fun cf i => cf *. npow N (delta /. count) i *. f (k - i)%nat) k (seq 1 (k - 2)) s0 in
  f <- outer step (rev (ks_up (c_len c))) (c_sums c) ;;
  Ok (mkCore mean (c_len c) f n (c_window c) (c_decay c) (c_queue c)).

(** core.go:131-156 addDecay; [d] is *c.decay, and -decay is written 0 - decay *)
Definition c_add_decay (c : core) (d : T) (x : T) : res core :=
  let n := c_count c + 1 in
  let decay := if n =? 1 then #1 else d in
  let delta := x -. c_mean c in
  let mean := c_mean c +. decay *. delta in
  let step (f : nat -> T) (k : nat) :=
    let old := (#1 -. decay) *. f k in
    let coeff := (#1 -. decay) *. npow N (#0 -. decay) k +. decay *. npow N (#1 -. decay) k in
    let old := old +. coeff *. npow N delta k in
    inner (nadd N) (fun cf i => cf *. npow N (decay *. delta) i *. (#1 -. decay) *. f (k - i)%nat) k (seq 1 (k - 2)) old in
  f <- outer step (rev (ks_up (c_len c))) (c_sums c) ;;
  Ok (mkCore mean (c_len c) f n (c_window c) (c_decay c) (c_queue c)).

(** core.go:161-185 remove *)
Definition c_remove (c : core) (x : T) : res core :=
  let n := c_count c - 1 in
  if n >? 0 then
    let count := #n in
    let mean := c_mean c -. (x -. c_mean c) /. count in
    let delta := x -. mean in
    let step (f : nat -> T) (k : nat) :=
      let s0 := f k -. count /. npow N (count +. #1) k *. (npow N count (k - 1) +. #(sign (Z.of_nat k))) *. npow N delta k in
      inner (nsub N) (fun cf i => cf *. npow N (delta /. (count +. #1)) i *. f (k - i)%nat) k (seq 1 (k - 2)) s0 in
    f <- outer step (ks_up (c_len c)) (c_sums c) ;;
    Ok (mkCore mean (c_len c) f n (c_window c) (c_decay c) (c_queue c))
  else Ok (mkCore #0 (c_len c) (fun _ => #0) n (c_window c) (c_decay c) (c_queue c)).

(** core.go:75-98 UnsafePush (= Push without the lock) *)
Definition c_push (c : core) (x : T) : res core :=
  c' <- (if negb (c_window c =? 0) then
           c1 <- (if ring_len (c_queue c) =? c_window c then
                    '(y, q) <- ring_get (c_queue c) ;;
                    c_remove (mkCore (c_mean c) (c_len c) (c_sums c) (c_count c) (c_window c) (c_decay c) q) y
                  else Ok c) ;;
           q <- ring_put (c_queue c1) x ;;
           Ok (mkCore (c_mean c1) (c_len c1) (c_sums c1) (c_count c1) (c_window c1) (c_decay c1) q)
         else Ok c) ;;
  match c_decay c' with
  | None => c_add c' x
  | Some d => c_add_decay c' d x
  end.

(** core.go:188-199 Count *)
Definition c_get_count (c : core) : Z := c_count c.
(** core.go:202-217 Mean *)
Definition c_get_mean (c : core) : res T := if c_count c =? 0 then Err ENoValues else Ok (c_mean c).
(** core.go:222-241 Sum *)
Definition c_get_sum (c : core) (k : Z) : res T :=
  if c_count c =? 0 then Err ENoValues
  else if (k <=? 0) || (k >=? Z.of_nat (c_len c)) then Err ENotTracked
  else Ok (c_sums c (Z.to_nat k)).
(** core.go:244-262 Clear *)
Definition c_clear (c : core) : res core :=
  Ok (mkCore #0 (c_len c) (fun _ => #0) 0 (c_window c) (c_decay c) (ring_new (c_window c))).

Definition core_run (c : core) (ops : list (op T)) : res core := run c_push c_clear ops c.

(** ** The metrics *)
(** mean.go, moment.go, std.go, skewness.go, kurtosis.go, ewma.go, ewmmoment.go, ewmstd.go *)
Inductive kind :=
| KMean (w : Z) | KMoment (k w : Z) | KStd (w : Z) | KSkew (w : Z) | KKurt (w : Z)
| KEwma (d : T) | KEwmMoment (k : Z) (d : T) | KEwmStd (d : T).

(** The Config methods: mean.go:37-41, moment.go:42-47, std.go:37-39, skewness.go:19-26 and 54-56,
    kurtosis.go:19-26 and 54-56, ewma.go:33-38, ewmmoment.go:38-47, ewmstd.go:31-33 *)
Definition kconfig (m : kind) : config :=
  match m with
  | KMean w => mkCfg None (Some w) None
  | KMoment k w => mkCfg (Some [k]) (Some w) None
  | KStd w => mkCfg (Some [2]) (Some w) None
  | KSkew w => mkCfg (Some [2; 3]) (Some w) None
  | KKurt w => mkCfg (Some [2; 4]) (Some w) None
  | KEwma d => mkCfg None (Some 0) (Some d)
  | KEwmMoment k d => mkCfg (Some [k]) (Some 0) (Some d)
  | KEwmStd d => mkCfg (Some [2]) (Some 0) (Some d)
  end.

(** moment.go:73-90 Moment.Value with the core set *)
Definition moment_value (c : core) (k : Z) : res T :=
  m <- c_get_sum c k ;; Ok (m /. (#(c_get_count c) -. #1)).

(** The Value methods with the core set: mean.go:64-77, std.go:62-72, skewness.go:79-106,
    kurtosis.go:79-106, ewma.go:61-74, ewmmoment.go:73-84, ewmstd.go:56-66. In
    Skewness and Kurtosis the test count == 0 is made on the int. *)
Definition kvalue (m : kind) (c : core) : res T :=
  match m with
  | KMean _ => c_get_mean c
  | KMoment k _ => moment_value c k
  | KStd _ => v <- moment_value c 2 ;; Ok (nsqrt N v)
  | KSkew _ =>
      let count := #(c_get_count c) in
      if c_get_count c =? 0 then Err ENoValues
      else
        v <- moment_value c 2 ;;
        let v := v *. ((count -. #1) /. count) in
        m <- moment_value c 3 ;;
        let m := m *. ((count -. #1) /. count) in
        let adjust := nsqrt N (count *. (count -. #1)) /. (count -. #2) in
        Ok (adjust *. m /. npow32 N v)
  | KKurt _ =>
      let count := #(c_get_count c) in
      if c_get_count c =? 0 then Err ENoValues
      else
        v <- moment_value c 2 ;;
        m <- moment_value c 4 ;;
        let m := m *. ((count -. #1) /. count) in
        let v := v *. ((count -. #1) /. count) in
        Ok (m /. npow N v 2 -. #3)
  | KEwma _ => c_get_mean c
  | KEwmMoment k _ => c_get_sum c k
  | KEwmStd _ => v <- c_get_sum c 2 ;; Ok (nsqrt N v)
  end.

(** A metric: its parameters and its core pointer (nil until SetCore). *)
Record metric := mkM { m_kind : kind; m_core : option core }.
Definition new_metric (k : kind) : metric := mkM k None.
(** core.go:25-34 Init, and the SetCore methods *)
Definition m_init (m : metric) : res metric := c <- new_core (kconfig (m_kind m)) ;; Ok (mkM (m_kind m) (Some c)).
(** The Push, Value and Clear methods of the eight files, which check the core first *)
Definition m_push (m : metric) (x : T) : res metric :=
  match m_core m with
  | None => Err ECoreNotSet
  | Some c => c' <- c_push c x ;; Ok (mkM (m_kind m) (Some c'))
  end.
Definition m_value (m : metric) : res T :=
  match m_core m with None => Err ECoreNotSet | Some c => kvalue (m_kind m) c end.
Definition m_clear (m : metric) : res metric :=
  match m_core m with
  | None => Ok m
  | Some c => c' <- c_clear c ;; Ok (mkM (m_kind m) (Some c'))
  end.
Definition m_run (k : kind) (ops : list (op T)) : res metric := m <- m_init (new_metric k) ;; run m_push m_clear ops m.
End Moment.

Arguments mkCfg {T}. Arguments mkCore {T}. Arguments mkM {T}.
Arguments KMean {T}. Arguments KMoment {T}. Arguments KStd {T}. Arguments KSkew {T}. Arguments KKurt {T}.
Arguments cf_sums {T}. Arguments cf_window {T}. Arguments cf_decay {T}.
Arguments c_mean {T}. Arguments c_len {T}. Arguments c_sums {T}. Arguments c_count {T}. Arguments c_window {T}.
Arguments c_decay {T}. Arguments c_queue {T}. Arguments m_kind {T}. Arguments m_core {T}.
