(** C35: after Clear a metric behaves as a newly constructed one. *)
From Coq Require Import QArith.
From Verif Require Import Base F64 HistSpec OrderSpec NumModel RingModel MinMaxModel HeapModel AvlModel SkipModel QuantileModel
  QuantileProof MomentModel JointModel ClearProof HeapClear SkipClear SkipReset PropsSkip PropsQuantile PropsSkipDup.
Local Open Scope nat_scope.

(** Each statement compares a history [ops], Clear, [ops'] with the history [ops'] alone on a new metric with
    the same parameters; [ops] is any history (with further Clears in it, too) whose calls have returned.
    Except for HeapMedian and the skip list the two states are equal, so all later results are. *)
Theorem C35_minmax : forall w ops ops' m,
  (min_run w ops = Ok m -> min_run w (ops ++ OClear :: ops') = min_run w ops') /\
  (max_run w ops = Ok m -> max_run w (ops ++ OClear :: ops') = max_run w ops').
Proof. split; [apply min_clear_fresh | apply max_clear_fresh]. Qed.
Print Assumptions C35_minmax.

(** For every arithmetic: float64 (FN), exact reals, rationals. *)
Theorem C35_moment : forall T (N : Num T),
  (forall cfg c0 ops ops' c, new_core N cfg = Ok c0 -> core_run N c0 ops = Ok c -> core_run N c0 (ops ++ OClear :: ops') = core_run N c0 ops') /\
  (forall k ops ops' m, m_run N k ops = Ok m -> m_run N k (ops ++ OClear :: ops') = m_run N k ops').
Proof. intros T N. split; [apply core_clear_fresh | apply metric_clear_fresh]. Qed.
Print Assumptions C35_moment.

Theorem C35_joint : forall T (N : Num T),
  (forall cfg c0 ops ops' c, jnew_core N cfg = Ok c0 -> jcore_run N c0 ops = Ok c -> jcore_run N c0 (ops ++ OClear :: ops') = jcore_run N c0 ops') /\
  (forall k ops ops' m, jm_run N k ops = Ok m -> jm_run N k (ops ++ OClear :: ops') = jm_run N k ops') /\
  (forall k lag w ops ops' a, auto_run N k lag w ops = Ok a -> auto_run N k lag w (ops ++ OClear :: ops') = auto_run N k lag w ops').
Proof. intros T N. split; [apply jcore_clear_fresh | split; [apply jmetric_clear_fresh | apply auto_clear_fresh]]. Qed.
Print Assumptions C35_joint.

(** Quantile over the trees; Median and IQR are Quantiles with one more option. *)
Theorem C35_quantile : forall e w os ops ops' q, chosen_impl os <> 2%Z ->
  (q_run e w os ops = Ok q -> q_run e w os (ops ++ OClear :: ops') = q_run e w os ops') /\
  (median_run e w os ops = Ok q -> median_run e w os (ops ++ OClear :: ops') = median_run e w os ops') /\
  (iqr_run e w os ops = Ok q -> iqr_run e w os (ops ++ OClear :: ops') = iqr_run e w os ops').
Proof.
  intros e w os ops ops' q Hc. assert (Hc' : chosen_impl (os ++ [QInterp 4]) <> 2%Z) by now rewrite (proj1 (chosen_snoc os (QInterp 4))).
  split; [| split]; [apply quantile_clear_fresh'; exact Hc | |]; apply (quantile_clear_fresh' e w (os ++ [QInterp 4]) ops ops' q Hc').
Qed.
Print Assumptions C35_quantile.

(** HeapMedian: the items get other addresses; every later Value is the same, and so is every failure. *)
Theorem C35_heap_median : forall w ops ops' m, hm_run w ops = Ok m ->
  rmap hm_value (hm_run w (ops ++ OClear :: ops')) = rmap hm_value (hm_run w ops').
Proof. exact hm_clear_fresh. Qed.
Print Assumptions C35_heap_median.

(** Quantile over a skip list: the random source is not rewound, so the new metric it is compared with has
    a source that has already produced [d] numbers. Missing: a NaN among the values pushed after Clear
    (where Push may panic; the two then still agree unless the model's fuel bound is reached). *)
Theorem C35_skiplist_partial : forall e w os q0 ops ops' q, Forall qopt_num os -> new_quantile e w os = Ok q0 -> chosen_impl os = 2%Z ->
  run q_push q_clear ops q0 = Ok q -> pushes_nonnan ops' ->
  exists d qa qb, run q_push q_clear (ops ++ OClear :: ops') q0 = Ok qa /\ run q_push q_clear ops' (reseed d q0) = Ok qb /\
    forall phi, q_value e qa phi = q_value e qb phi.
Proof. intros. eexists. eapply skip_quant_reset; eassumption. Qed.
Print Assumptions C35_skiplist_partial.

(** Each hypothesis holds after a history with an eviction and a Clear; the results shown are those of the
    short history. *)
Definition clr_pre : list (op f64) := pushes [9; 1; 5]%Z ++ [OClear] ++ pushes [0; 8; 3]%Z.
Definition clr_post : list (op f64) := pushes [4; 6; 5; 9]%Z.
Definition qclr {A} (f : Z -> A) (l : list (option Z)) : list (op A) := map (fun o => match o with Some z => OPush (f z) | None => OClear end) l.
Definition q_of (z : Z) : option Q := Some (inject_Z z).
Definition xpre := [Some 9; Some 1; None; Some 0; Some 8; Some 3; Some 7]%Z.
Definition xpost := [Some 4; Some 6; Some 5; Some 9]%Z.
Example C35_case :
  rmap (fun m => rmap fbits (min_value m)) (min_run 2 (clr_pre ++ OClear :: clr_post)) = Ok (Ok (fbits (fz 5))) /\
  rmap (fun m => rmap fbits (min_value m)) (min_run 2 clr_pre) = Ok (Ok (fbits (fz 3))) /\
  rmap (fun m => rmap fbits (max_value m)) (max_run 2 (clr_pre ++ [OClear])) = Ok (Err ENoValues) /\
  rmap (fun m => rmap fbits (hm_value m)) (hm_run 3 (clr_pre ++ OClear :: clr_post)) = Ok (Ok (fbits (fz 6))) /\
  rmap (m_value QN) (m_run QN (KStd 3) (qclr q_of (xpre ++ None :: xpost))) = rmap (m_value QN) (m_run QN (KStd 3) (qclr q_of xpost)) /\
  rmap (m_value QN) (m_run QN (KMoment 2 3) (qclr q_of (xpre ++ None :: xpost))) = Ok (Ok (Some (13 # 3)%Q)) /\
  rmap (jm_value QN) (jm_run QN (JCov 3) (qclr (fun z => [q_of z; q_of (z * z)]) (xpre ++ None :: xpost))) = Ok (Ok (Some (185 # 3)%Q)) /\
  rmap (auto_value QN) (auto_run QN ACov 1 2 (qclr q_of (xpre ++ None :: xpost))) = Ok (Ok (Some (-2 # 1)%Q)) /\
  rmap (fun q => rmap fbits (q_value env0 q (fdy 1 (-1)))) (q_run env0 3 [QImpl 1 []] (clr_pre ++ OClear :: clr_post)) = Ok (Ok (fbits (fz 6))) /\
  rmap (fun q => rmap fbits (median_value env0 q)) (median_run env0 2 [QInterp 1] (clr_pre ++ OClear :: clr_post)) = Ok (Ok (fbits (fz 7))).
Proof. repeat split; vm_compute; reflexivity. Qed.

(** The skip list really does differ from one with a rewound source: after 1 1 0 and Clear, the pushes 1 1 0
    meet other levels, and the Lower median is 1 instead of 0. *)
Example C35_skiplist_case : Forall qopt_num dup_os /\ pushes_nonnan (pushes [1; 1; 0]%Z) /\ chosen_impl dup_os = 2%Z /\
  rmap fbits (q0 <- new_quantile dup_env 4 dup_os ;; q <- run q_push q_clear (pushes [1; 1; 0]%Z ++ OClear :: pushes [1; 1; 0]%Z) q0 ;; q_value dup_env q (fdy 1 (-1))) = Ok (fbits (fz 1)) /\
  rmap fbits (q0 <- new_quantile dup_env 4 dup_os ;; q <- run q_push q_clear (pushes [1; 1; 0]%Z) (reseed 3 q0) ;; q_value dup_env q (fdy 1 (-1))) = Ok (fbits (fz 1)) /\
  rmap fbits (q0 <- new_quantile dup_env 4 dup_os ;; q <- run q_push q_clear (pushes [1; 1; 0]%Z) q0 ;; q_value dup_env q (fdy 1 (-1))) = Ok (fbits (fz 0)).
Proof.
  split; [repeat constructor |]. split; [apply pushes_num; repeat constructor; vm_compute; reflexivity |]. concrete.
Qed.
