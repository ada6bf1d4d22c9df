(** Model of quantile/quantile.go, impl.go, option.go, interpolation.go, median.go,
    iqr.go and of the option handling of quantile/skiplist. The mutex is not modelled
    here (see ConcModel.v); each function is one critical section. *)
From Verif Require Import Base F64 HistSpec RingModel MultisetSpec AvlModel RbModel SkipModel.
From Flocq Require Import Core BinarySingleNaN.

(** What the code takes from its environment: math.Pow, the numbers produced by the
    default random source (seeded with the time), and the result of converting a
    NaN, infinite or too large float64 to int, which the Go specification leaves to
    the implementation. Every theorem holds for every environment. *)
Record env := mkEnv { e_pow : f64 -> f64 -> f64; e_rnd : nat -> f64; e_int : f64 -> Z }.

(** Go's conversion int(x) on a 64-bit platform *)
Definition f2int (e : env) (x : f64) : Z :=
  if is_finite x && (- 2 ^ 63 <=? Btrunc x)%Z && (Btrunc x <? 2 ^ 63)%Z then Btrunc x else e_int e x.
(** math.Trunc *)
Definition ftrunc (x : f64) : f64 := Bnearbyint mode_ZR x.

(** quantile/order/order.go:10-17 order.Statistic, with its three implementations *)
Inductive stat := StAvl (t : avl) | StRb (t : rb) | StSkip (s : skip).
Definition stat_add (st : stat) (x : f64) : res stat :=
  match st with
  | StAvl t => rmap StAvl (avl_add t x) | StRb t => rmap StRb (rb_add t x) | StSkip s => rmap StSkip (skip_add s x)
  end.
Definition stat_remove (st : stat) (x : f64) : res stat :=
  match st with
  | StAvl t => rmap StAvl (avl_remove t x) | StRb t => rmap StRb (rb_tree_remove t x) | StSkip s => rmap StSkip (skip_remove s x)
  end.
Definition stat_clear (st : stat) : res stat :=
  match st with
  | StAvl t => rmap StAvl (avl_clear t) | StRb t => rmap StRb (rb_clear t) | StSkip s => rmap StSkip (skip_clear s)
  end.
Definition stat_size (st : stat) : Z :=
  match st with StAvl t => asize t | StRb t => rsize t | StSkip s => skip_size s end.
Definition stat_select (st : stat) (k : Z) : res (option f64) :=
  match st with StAvl t => Ok (avl_select t k) | StRb t => Ok (rb_select t k) | StSkip s => skip_select s k end.
Definition stat_rank (st : stat) (x : f64) : res Z :=
  match st with StAvl t => Ok (avl_rank t x) | StRb t => Ok (rb_rank t x) | StSkip s => skip_rank s x end.

(** order.Option values, as built by skiplist/option.go:12, 30, 47 (the only
    constructors in the repository). A nil *rand.Rand is not modelled. *)
Inductive sopt := OMaxLevel (n : Z) | OProb (p : f64) | ORand (r : nat -> f64).

(** The fields of a SkipList that options set (skiplist.go:61-65 are the defaults). *)
Record sparams := mkSP { sp_max : Z; sp_p : f64; sp_rnd : nat -> f64 }.
Definition sparams_default (e : env) : sparams := mkSP 12 (fdy 1 (-2)) (e_rnd e).

(** skiplist/option.go:12-59: applying one option to a SkipList under construction *)
Definition sopt_apply (s : sparams) (o : sopt) : res sparams :=
  match o with
  | OMaxLevel n => if ((n <? 1) || (n >? 64))%Z then Err EBadMaxLevel else Ok (mkSP n (sp_p s) (sp_rnd s))
  | OProb p => if fle p (fz 0) || fge p (fz 1) then Err EBadProb else Ok (mkSP (sp_max s) p (sp_rnd s))
  | ORand r => Ok (mkSP (sp_max s) (sp_p s) r)
  end.
Fixpoint sopts_apply (s : sparams) (os : list sopt) : res sparams :=
  match os with [] => Ok s | o :: t => s' <- sopt_apply s o ;; sopts_apply s' t end.

(** skiplist.go:59-91 New: probs[i] = math.Pow(p, i) *)
Definition skip_create (e : env) (os : list sopt) : res skip :=
  s <- sopts_apply (sparams_default e) os ;;
  Ok (skip_new (Z.to_nat (sp_max s)) (fun i => e_pow e (sp_p s) (fz (Z.of_nat i))) (sp_rnd s)).

(** impl.go:26-33 Impl.Valid; AVL = 0, RedBlack = 1, SkipList = 2 (impl.go:16-23) *)
Definition impl_valid (i : Z) : bool := (i =? 0)%Z || (i =? 1)%Z || (i =? 2)%Z.
(** impl.go:37-48 Impl.init; the trees ignore the options *)
Definition impl_init (e : env) (i : Z) (os : list sopt) : res stat :=
  if (i =? 0)%Z then Ok (StAvl ALeaf)
  else if (i =? 1)%Z then Ok (StRb RLeaf)
  else if (i =? 2)%Z then rmap StSkip (skip_create e os)
  else Err EBadImpl.

(** interpolation.go:17-31: Linear = 0, Lower = 1, Higher = 2, Nearest = 3, Midpoint = 4;
    interpolation.go:35-42 Interpolation.Valid *)
Definition interp_valid (i : Z) : bool :=
  (i =? 0)%Z || (i =? 1)%Z || (i =? 2)%Z || (i =? 3)%Z || (i =? 4)%Z.

(** quantile.go:15-21 (type Quantile) *)
Record quant := mkQ { q_window : Z; q_interp : Z; q_queue : ring f64; q_stat : stat }.

(** quantile.Option values, as built by option.go:14 and 28 (the only constructors) *)
Inductive qopt := QImpl (i : Z) (os : list sopt) | QInterp (i : Z).

(** option.go:14-37 *)
Definition qopt_apply (e : env) (q : quant) (o : qopt) : res quant :=
  match o with
  | QImpl i os =>
      if negb (impl_valid i) then Err EBadImpl
      else st <- impl_init e i os ;; Ok (mkQ (q_window q) (q_interp q) (q_queue q) st)
  | QInterp i =>
      if negb (interp_valid i) then Err EBadInterp
      else Ok (mkQ (q_window q) i (q_queue q) (q_stat q))
  end.
Fixpoint qopts_apply (e : env) (q : quant) (os : list qopt) : res quant :=
  match os with [] => Ok q | o :: t => q' <- qopt_apply e q o ;; qopts_apply e q' t end.

(** quantile.go:24-49 New *)
Definition new_quantile (e : env) (window : Z) (os : list qopt) : res quant :=
  if (window <? 0)%Z then Err ENegWindow
  else
    st <- impl_init e 0 [] ;;
    qopts_apply e (mkQ window 0 (ring_new window) st) os.

(** quantile.go:68-91 Push *)
Definition q_push (q : quant) (x : f64) : res quant :=
  q1 <- (if negb (q_window q =? 0)%Z then
           q0 <- (if (ring_len (q_queue q) =? q_window q)%Z then
                    '(y, r) <- ring_get (q_queue q) ;;
                    st <- stat_remove (q_stat q) y ;;
                    Ok (mkQ (q_window q) (q_interp q) r st)
                  else Ok q) ;;
           r <- ring_put (q_queue q0) x ;;
           Ok (mkQ (q_window q0) (q_interp q0) r (q_stat q0))
         else Ok q) ;;
  st <- stat_add (q_stat q1) x ;;
  Ok (mkQ (q_window q1) (q_interp q1) (q_queue q1) st).

(** statistic.Select(k).Value(): calling Value on a nil order.Node panics *)
Definition sel (st : stat) (k : Z) : res f64 :=
  o <- stat_select st k ;; match o with Some v => Ok v | None => Panic end.

(** quantile.go:94-143 Value *)
Definition q_value (e : env) (q : quant) (phi : f64) : res f64 :=
  if fle phi (fz 0) || fge phi (fz 1) then Err EBadQuantile
  else
    let size := stat_size (q_stat q) in
    if (size =? 0)%Z then Err ENoValues
    else
      let raw := fmul phi (fz (size - 1)) in
      let tr := ftrunc raw in
      let idx := f2int e tr in
      if feq raw tr then sel (q_stat q) idx
      else
        let delta := fsub raw tr in
        if (q_interp q =? 0)%Z then
          lo <- sel (q_stat q) idx ;; hi <- sel (q_stat q) (idx + 1) ;;
          Ok (fadd (fmul (fsub (fz 1) delta) lo) (fmul delta hi))
        else if (q_interp q =? 1)%Z then sel (q_stat q) idx
        else if (q_interp q =? 2)%Z then sel (q_stat q) (idx + 1)
        else if (q_interp q =? 3)%Z then
          if feq delta (fdy 1 (-1)) then
            if (Z.rem idx 2 =? 0)%Z then sel (q_stat q) idx else sel (q_stat q) (idx + 1)
          else if flt delta (fdy 1 (-1)) then sel (q_stat q) idx
          else sel (q_stat q) (idx + 1)
        else
          lo <- sel (q_stat q) idx ;; hi <- sel (q_stat q) (idx + 1) ;;
          Ok (fdiv (fadd lo hi) (fz 2)).

(** quantile.go:146-152 Clear *)
Definition q_clear (q : quant) : res quant :=
  st <- stat_clear (q_stat q) ;;
  Ok (mkQ (q_window q) (q_interp q) (ring_new (q_window q)) st).

Definition q_run (e : env) (window : Z) (os : list qopt) (ops : list (op f64)) : res quant :=
  q <- new_quantile e window os ;; run q_push q_clear ops q.

(** median.go:17-24 NewMedian (Push and Clear delegate, median.go:40-46, 58-60) *)
Definition new_median (e : env) (window : Z) (os : list qopt) : res quant :=
  new_quantile e window (os ++ [QInterp 4]).
Definition median_run (e : env) (window : Z) (os : list qopt) (ops : list (op f64)) : res quant :=
  q <- new_median e window os ;; run q_push q_clear ops q.
(** median.go:49-55 Value *)
Definition median_value (e : env) (q : quant) : res f64 := q_value e q (fdy 1 (-1)).

(** iqr.go:15-22 NewIQR (Push and Clear delegate, iqr.go:38-44, 65-67) *)
Definition new_iqr (e : env) (window : Z) (os : list qopt) : res quant :=
  new_quantile e window (os ++ [QInterp 4]).
Definition iqr_run (e : env) (window : Z) (os : list qopt) (ops : list (op f64)) : res quant :=
  q <- new_iqr e window os ;; run q_push q_clear ops q.
(** iqr.go:47-62 Value *)
Definition iqr_value (e : env) (q : quant) : res f64 :=
  q25 <- q_value e q (fdy 1 (-2)) ;;
  q75 <- q_value e q (fdy 3 (-2)) ;;
  Ok (fsub q75 q25).
