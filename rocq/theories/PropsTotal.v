(** C52: no call panics or blocks. *)
From Coq Require Import Reals List Lia.
From Flocq Require Import Core BinarySingleNaN.
From Verif Require Import Base F64 HistSpec OrderSpec RingModel MultisetSpec NumModel MomentModel JointModel MinMaxModel AvlModel RbModel SkipModel QuantileModel QuantileProof HeapModel
  TotalProof TotalQuant TotalHeap.
Local Open Scope Z_scope.

Definition pushz (l : list Z) : list (op f64) := map (fun z => OPush (fz z)) l.

(** C52 is false for NaN: HeapMedian(2) panics after the pushes NaN 1 1 1, and a Quantile over a skip
    list, with or without a window, after 1 NaN 1 1 (all four nodes having two levels). The first case
    removes the wrong item (heap_median.go:90-93), the second walks past the end of the list (skiplist.go:132). *)
Definition two_levels : env := mkEnv (fun _ y => if feq y (fz 0) then fz 1 else if feq y (fz 1) then fdy 1 (-2) else fdy 1 (-4)) (fun _ => fdy 1 (-3)) (fun _ => 0).
Theorem C52_panic_refuted : exists ops1 ops2, hm_run 2 ops1 = Panic /\ length ops1 = 4%nat /\
  (forall w, w = 0 \/ w = 100 -> q_run two_levels w [QImpl 2 []] ops2 = Panic).
Proof.
  exists (OPush fnan :: pushz [1; 1; 1]), (OPush (fz 1) :: OPush fnan :: pushz [1; 1]). split; [vm_compute; reflexivity|]. split; [reflexivity|].
  intros w [-> | ->]; vm_compute; reflexivity.
Qed.
Print Assumptions C52_panic_refuted.

(** Proved: every metric below, for every sequence of Push and Clear with any float64 values, NaN and
    infinities included; Value then returns an error exactly when it has nothing to report. Missing:
    Moment of order 66 and more (C23), HeapMedian with a window (C18 for values other than NaN, false with NaN),
    Quantile over a skip list (C47 for values other than NaN, false with NaN) and over a
    red-black tree with a window (C07). *)
Theorem C52_min_max_partial : forall w ops, 0 <= w ->
  (exists m, min_run w ops = Ok m /\ match live w (hist ops) with [] => min_value m = Err ENoValues | _ => exists v, min_value m = Ok v end) /\
  (exists m, max_run w ops = Ok m /\ match live w (hist ops) with [] => max_value m = Err ENoValues | _ => exists v, max_value m = Ok v end).
Proof. intros w ops Hw. split; [apply min_total|apply max_total]; exact Hw. Qed.
Print Assumptions C52_min_max_partial.
Definition wild : list (op f64) := [OPush fnan; OPush (finf true); OClear; OPush (finf false); OPush fnan; OPush (fz 1); OPush fnan; OPush (fz 3)].
Example C52_min_max_case : rmap isnan (m <- min_run 3 wild ;; min_value m) = Ok true /\ rmap isnan (m <- max_run 3 wild ;; max_value m) = Ok true /\
  map fbits (live 3 (hist wild)) = map fbits [fz 1; fnan; fz 3].
Proof. concrete. Qed.

(** The eight moment metrics in any arithmetic, exact or floating point, for orders up to 65 *)
Theorem C52_moment_partial : forall {T} (N : Num T) k c ops, new_core N (kconfig k) = Ok c -> korder k <= 65 ->
  exists m, m_run N k ops = Ok m /\ match live (kwindow k) (hist ops) with [] => m_value N m = Err ENoValues | _ => exists v, m_value N m = Ok v end.
Proof. exact @moment_total. Qed.
Print Assumptions C52_moment_partial.
Example C52_moment_case : (exists c, new_core FN (kconfig (KMoment 65 3)) = Ok c) /\ korder (@KMoment f64 65 3) = 65 /\ kwindow (@KMoment f64 65 3) = 3 /\ length (live 3 (hist wild)) = 3%nat.
Proof. split; [eexists; reflexivity|]. repeat split. Qed.

(** The joint core with any accepted configuration whose exponents are at most 65, and points of the right length *)
Theorem C52_joint_core_partial : forall {T} (N : Num T) cfg c0 ops, @jnew_core T N (list T) cfg = Ok c0 -> Forall (Forall (fun k => k <= 65)) (jsums_of cfg) ->
  (forall x, In (OPush x) ops -> length x = length (j_means c0)) -> exists c, jcore_run N c0 ops = Ok c.
Proof. intros T N cfg c0 ops E F H. destruct (jcore_total N cfg c0 ops E F H) as (c & Ec & _). exists c. exact Ec. Qed.
Print Assumptions C52_joint_core_partial.
Example C52_joint_core_case : let cfg := mkJCfg (Some [[1; 2; 65]; [2; 0; 1]]) (Some 2) None None in
  (exists c0, @jnew_core f64 FN (list f64) cfg = Ok c0 /\ length (j_means c0) = 3%nat) /\ Forall (Forall (fun k => k <= 65)) (jsums_of cfg).
Proof. cbv zeta. split; [eexists; split; reflexivity|]. repeat constructor; discriminate. Qed.

(** Cov, Corr, EWMCov, EWMCorr *)
Theorem C52_joint_partial : forall {T} (N : Num T) k ops, (exists c, @jnew_core T N (list T) (jkconfig k) = Ok c) -> (forall x, In (OPush x) ops -> length x = 2%nat) ->
  exists m, jm_run N k ops = Ok m /\ match live (jwindow k) (hist ops) with [] => jm_value N m = Err ENoValues | _ => exists v, jm_value N m = Ok v end.
Proof. exact @jm_run_total. Qed.
Print Assumptions C52_joint_partial.
Definition wild2 : list (op (list f64)) := [OPush [fnan; fz 1]; OPush [finf true; fz 2]; OClear; OPush [fz 1; finf false]; OPush [fz 1; fnan]; OPush [fz 2; fz 3]].
Example C52_joint_case : (exists c, @jnew_core f64 FN (list f64) (jkconfig (JCorr 2)) = Ok c) /\ (forall x, In (OPush x) wild2 -> length x = 2%nat) /\ length (live (jwindow (@JCorr f64 2)) (hist wild2)) = 2%nat.
Proof.
  split; [eexists; reflexivity|]. split; [|reflexivity]. intros x H. unfold wild2 in H.
  repeat (destruct H as [H|H]; [first [discriminate H|inversion H; reflexivity]|]). destruct H.
Qed.

(** Autocov, Autocorr: a result as soon as more values than the lag were pushed *)
Theorem C52_auto_partial : forall {T} (N : Num T) k lag w ops, 0 <= lag -> 0 <= w ->
  exists a, auto_run N k lag w ops = Ok a /\ (if zlen (hist ops) <=? lag then auto_value N a = Err ETooFew else exists v, auto_value N a = Ok v).
Proof. exact @auto_total. Qed.
Print Assumptions C52_auto_partial.
Example C52_auto_case : (zlen (hist wild) <=? 4) = false /\ (zlen (hist wild) <=? 5) = true.
Proof. split; reflexivity. Qed.

(** Quantile, Median and IQR over the AVL tree, and over the red-black tree without a window, as
    long as the count is at most 2^53 *)
Theorem C52_quantile_partial : forall e w os q0 ops, new_quantile e w os = Ok q0 -> q_stat q0 = StAvl ALeaf \/ q_stat q0 = StRb RLeaf /\ w = 0 ->
  exists q, run q_push q_clear ops q0 = Ok q /\
    (hist ops = [] -> (forall phi, in_range phi = true -> q_value e q phi = Err ENoValues) /\ median_value e q = Err ENoValues /\ iqr_value e q = Err ENoValues) /\
    (hist ops <> [] -> zlen (hist ops) <= 2 ^ 53 -> (forall phi, in_range phi = true -> exists v, q_value e q phi = Ok v) /\ (exists v, median_value e q = Ok v) /\ exists v, iqr_value e q = Ok v).
Proof.
  intros e w os q0 ops E0 Es. destruct (quantile_total e w os q0 ops E0 Es) as (q & E & H1 & H2). exists q. split; [exact E|].
  assert (R : in_range (fdy 1 (-2)) = true /\ in_range (fdy 3 (-2)) = true /\ in_range (fdy 1 (-1)) = true) by (vm_compute; auto). destruct R as (R1 & R2 & R3). split.
  - intros Eh. specialize (H1 Eh). split; [exact H1|]. split; [exact (H1 _ R3)|]. unfold iqr_value. rewrite (H1 _ R1). reflexivity.
  - intros Eh Hz. specialize (H2 Eh Hz). split; [exact H2|]. split; [exact (H2 _ R3)|]. unfold iqr_value. destruct (H2 _ R1) as [a ->]. destruct (H2 _ R2) as [b ->]. cbn [bind]. eauto.
Qed.
Print Assumptions C52_quantile_partial.
Example C52_quantile_case : (exists q0, new_quantile two_levels 3 [QInterp 4] = Ok q0 /\ q_stat q0 = StAvl ALeaf) /\ (exists q0, new_quantile two_levels 0 [QImpl 1 []] = Ok q0 /\ q_stat q0 = StRb RLeaf) /\
  rmap isnan (q <- q_run two_levels 3 [QInterp 4] wild ;; median_value two_levels q) = Ok true.
Proof. split; [eexists; split; reflexivity|]. split; [eexists; split; reflexivity|]. concrete. Qed.

(** HeapMedian without a window *)
Theorem C52_heap_median_partial : forall ops, exists m, hm_run 0 ops = Ok m /\ match hist ops with [] => hm_value m = Err ENoValues | _ => exists v, hm_value m = Ok v end.
Proof. exact heap_median_total. Qed.
Print Assumptions C52_heap_median_partial.
Example C52_heap_median_case : rmap isnan (m <- hm_run 0 wild ;; hm_value m) = Ok false /\ rmap isnan (m <- hm_run 0 (pushz [1; 2] ++ [OPush fnan]) ;; hm_value m) = Ok false.
Proof. concrete. Qed.
