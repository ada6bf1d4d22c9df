(** C57: change of unit and origin. C58: only the values covered matter. C59: correlations are at most 1.
    C60: monotone maps and order statistics. *)
From Coq Require Import Reals Lra Permutation QArith.
From Flocq Require Import Zaux BinarySingleNaN.
From Verif Require Import Base F64 HistSpec OrderSpec MinMaxModel MinMaxProof QuantileModel QuantileSpec QuantileProof NumModel MomentModel MomentSpec RealLib MomentProof NumRel
  JointModel JointSpec JointConf JointValue HeapModel HeapMedProof PropsMoment PropsJoint PropsQuantile PropsHeap LawProof OrderLaw.
Local Close Scope Q_scope.
Local Open Scope nat_scope.

Lemma list_nil_dec {A} (l : list A) : {l = []} + {l <> []}. Proof. destruct l; [left; reflexivity|right; discriminate]. Qed.
(** ** C57 *)
(** Every value x is replaced by a x + b ([map_ops (aff a b)]); a point (x, y) by (a x + b, c y + e).
    [xlin s t] replaces a number r by s r + t and leaves errors and NaN alone. *)
Theorem C57_moments a b w ops : (0 <= w)%Z -> let ops' := map_ops (aff a b) ops in
  mval (KMean w) ops' = xlin a b (mval (KMean w) ops) /\
  (forall k, (1 <= k <= 20)%Z -> mval (KMoment k w) ops' = xlin (a ^ Z.to_nat k) 0 (mval (KMoment k w) ops)) /\
  mval (KStd w) ops' = xlin (Rabs a) 0 (mval (KStd w) ops) /\
  (a <> 0%R -> mval (KSkew w) ops' = xlin (rsgn a) 0 (mval (KSkew w) ops) /\ mval (KKurt w) ops' = mval (KKurt w) ops).
Proof.
  intros Hw ops'. destruct (C20_moment_metrics w ops Hw) as (A1 & A2 & A3 & A4 & A5). destruct (C20_moment_metrics w ops' Hw) as (B1 & B2 & B3 & B4 & B5). unfold ops' in *. rewrite live_map_ops in *.
  rewrite A1, A3, A4, A5, B1, B3, B4, B5. split; [apply mean_aff|]. split; [|split; [apply std_aff|intros Ha; split; [apply skew_aff; exact Ha|apply kurt_aff; exact Ha]]].
  intros k Hk. rewrite A2, B2 by exact Hk. apply moment_aff.
Qed.
Print Assumptions C57_moments.
Theorem C57_ewm a b d ops : (0 < d < 1)%R -> let ops' := map_ops (aff a b) ops in
  mval (KEwma (Fin d)) ops' = xlin a b (mval (KEwma (Fin d)) ops) /\
  (forall k, (1 <= k <= 20)%Z -> mval (KEwmMoment k (Fin d)) ops' = xlin (a ^ Z.to_nat k) 0 (mval (KEwmMoment k (Fin d)) ops)) /\
  mval (KEwmStd (Fin d)) ops' = xlin (Rabs a) 0 (mval (KEwmStd (Fin d)) ops).
Proof.
  intros Hd ops'. destruct (C21_ewm d ops Hd) as (A1 & A2 & A3). destruct (C21_ewm d ops' Hd) as (B1 & B2 & B3). unfold ops' in *. rewrite hist_map_ops in *.
  rewrite A1, A3, B1, B3. split; [apply ewma_of_aff|]. split; [|apply ewmstd_of_aff]. intros k Hk. rewrite A2, B2 by exact Hk. apply ewmoment_of_aff.
Qed.
Print Assumptions C57_ewm.
Theorem C57_joint a b c e w d ops : (0 <= w)%Z -> (0 < d < 1)%R -> let ops' := map_ops (aff2 a b c e) ops in
  jmval (JCov w) ops' = xlin (a * c) 0 (jmval (JCov w) ops) /\
  jmval (JEwmCov (Fin d)) ops' = xlin (a * c) 0 (jmval (JEwmCov (Fin d)) ops) /\
  (a <> 0%R -> c <> 0%R ->
    jmval (JCorr w) ops' = xlin (rsgn a * rsgn c) 0 (jmval (JCorr w) ops) /\
    jmval (JEwmCorr (Fin d)) ops' = xlin (rsgn a * rsgn c) 0 (jmval (JEwmCorr (Fin d)) ops)).
Proof.
  intros Hw Hd ops'. destruct (C28_cov_corr w ops Hw) as (A1 & A2 & _). destruct (C28_cov_corr w ops' Hw) as (B1 & B2 & _). destruct (C29_ewm d ops Hd) as (A3 & A4 & _). destruct (C29_ewm d ops' Hd) as (B3 & B4 & _).
  unfold ops' in *. rewrite live_map_ops in *. rewrite hist_map_ops in *. rewrite A1, A2, A3, A4, B1, B2, B3, B4. split; [apply cov_of_aff|]. split; [apply ewcov_of_aff|].
  intros Ha Hc. split; [apply corr_of_aff; assumption|apply ewcorr_of_aff; assumption].
Qed.
Print Assumptions C57_joint.
Theorem C57_auto a b lag w ops : (0 <= w)%Z -> let ops' := map_ops (aff a b) ops in
  aval ACov (Z.of_nat lag) w ops' = xlin (a * a) 0 (aval ACov (Z.of_nat lag) w ops) /\
  (a <> 0%R -> aval ACorr (Z.of_nat lag) w ops' = aval ACorr (Z.of_nat lag) w ops).
Proof.
  intros Hw ops'. destruct (C30_auto lag w ops Hw) as (A1 & A2). destruct (C30_auto lag w ops' Hw) as (B1 & B2). unfold ops' in *. rewrite hist_map_ops, lagged_map in B1, B2.
  change (fun p : R * R => (aff a b (fst p), aff a b (snd p))) with (aff2 a b a b) in *. rewrite live_map in B1, B2. rewrite A1, A2, B1, B2. destruct (lagged lag (hist ops)) as [|p l] eqn:El; [split; reflexivity|].
  cbn [map]. split; [apply cov_of_aff|]. intros Ha. rewrite corr_of_aff by assumption. rewrite rsgn_sq. destruct (corr_of _) as [[r| |]| | | |]; try reflexivity. cbn [xlin]. do 2 f_equal. ring.
Qed.
Print Assumptions C57_auto.
(** 0, 2 and 7 in units of 3 with origin 1: mean 3, variance 13; then 10 and 13 * 9. *)
Example C57_case :
  (m <- m_run QN (KMean 3) (qops (qpush [9; 0; 2; 7]%Z)) ;; m_value QN m) = Ok (Some (3 # 1)%Q) /\ (m <- m_run QN (KMean 3) (qops (qpush [28; 1; 7; 22]%Z)) ;; m_value QN m) = Ok (Some (10 # 1)%Q) /\
  (m <- m_run QN (KMoment 2 3) (qops (qpush [9; 0; 2; 7]%Z)) ;; m_value QN m) = Ok (Some (13 # 1)%Q) /\ (m <- m_run QN (KMoment 2 3) (qops (qpush [28; 1; 7; 22]%Z)) ;; m_value QN m) = Ok (Some (117 # 1)%Q) /\
  map_ops (aff 3 1) [OPush 2%R; OClear] = [OPush (3 * 2 + 1)%R; OClear] /\ rsgn (-3) = (-1)%R.
Proof. do 4 (split; [vm_compute; reflexivity|]). split; [reflexivity|]. unfold rsgn. destruct (Rlt_dec 0 (-3)); [lra|reflexivity]. Qed.

(** ** C58 *)
(** Two histories, possibly with different windows, whose covered values are the same up to order, give the same results in exact arithmetic. *)
Theorem C58_moments w w' ops ops' : (0 <= w)%Z -> (0 <= w')%Z -> Permutation (live w (hist ops)) (live w' (hist ops')) ->
  mval (KMean w) ops = mval (KMean w') ops' /\ (forall k, (1 <= k <= 20)%Z -> mval (KMoment k w) ops = mval (KMoment k w') ops') /\
  mval (KStd w) ops = mval (KStd w') ops' /\ mval (KSkew w) ops = mval (KSkew w') ops' /\ mval (KKurt w) ops = mval (KKurt w') ops'.
Proof.
  intros Hw Hw' HP. destruct (C20_moment_metrics w ops Hw) as (A1 & A2 & A3 & A4 & A5). destruct (C20_moment_metrics w' ops' Hw') as (B1 & B2 & B3 & B4 & B5).
  rewrite A1, A3, A4, A5, B1, B3, B4, B5. split; [apply mean_perm; exact HP|]. split; [intros k Hk; rewrite A2, B2 by exact Hk; apply moment_perm; exact HP|].
  split; [apply std_perm; exact HP|]. split; [apply skew_perm; exact HP|apply kurt_perm; exact HP].
Qed.
Print Assumptions C58_moments.
Theorem C58_joint w w' ops ops' : (0 <= w)%Z -> (0 <= w')%Z -> Permutation (live w (hist ops)) (live w' (hist ops')) ->
  jmval (JCov w) ops = jmval (JCov w') ops' /\ jmval (JCorr w) ops = jmval (JCorr w') ops'.
Proof.
  intros Hw Hw' HP. destruct (C28_cov_corr w ops Hw) as (A1 & A2 & _). destruct (C28_cov_corr w' ops' Hw') as (B1 & B2 & _). rewrite A1, A2, B1, B2. split; [apply cov_perm|apply corr_perm]; exact HP.
Qed.
Print Assumptions C58_joint.
(** The sums of the joint core, without overlap of the configured tuples (or without window, C26). *)
Theorem C58_joint_core v cfg w ops ops' : jconfig_fits v cfg -> collision_free (jsums_of cfg) -> no_overlap (jsums_of cfg) \/ w = 0%Z -> jf_window cfg = Some w -> (0 <= w)%Z -> jf_decay cfg = None -> all_arity v ops -> all_arity v ops' ->
  Permutation (live w (hist ops)) (live w (hist ops')) ->
  exists c0 c c', jnew_core XN cfg = Ok c0 /\ jcore_run XN c0 (pops ops) = Ok c /\ jcore_run XN c0 (pops ops') = Ok c' /\
    forall m, tracked_tuple (jsums_of cfg) m -> degree m <> 0%Z -> j_get_sum c m = j_get_sum c' m.
Proof.
  intros HF HH Hn Hw Hw0 Hd Ha Ha' HP.
  assert (G : forall o, all_arity v o -> exists c0 c, jnew_core XN cfg = Ok c0 /\ jcore_run XN c0 (pops o) = Ok c /\ forall m, tracked_tuple (jsums_of cfg) m -> degree m <> 0%Z -> j_get_sum c m = jsum_of m (live w (hist o))).
  { intros o Ho. destruct Hn as [Hn| ->].
    - destruct (C27_window_partial v cfg w o HF HH Hn Hw Hw0 Hd Ho) as (c0 & c & E0 & E & _ & _ & H). eauto 6.
    - destruct (C26_joint_core v cfg o HF HH Hw Hd Ho) as (c0 & c & E0 & E & _ & _ & H). exists c0, c. rewrite live0. auto. }
  destruct (G ops Ha) as (c0 & c & E0 & E & H). destruct (G ops' Ha') as (c0' & c' & E0' & E' & H'). rewrite E0 in E0'. injection E0' as <-. exists c0, c, c'. repeat (split; [assumption|]).
  intros m Hm Hdm. rewrite H, H' by assumption. unfold jsum_of. rewrite (jsum_perm m _ _ HP). apply Permutation_length in HP. destruct (live w (hist ops)), (live w (hist ops')); try discriminate; reflexivity.
Qed.
Print Assumptions C58_joint_core.
(** Min, Max, quantiles and the global HeapMedian, in float64. *)
Theorem C58_min_max w w' ops ops' : (0 <= w)%Z -> (0 <= w')%Z -> Forall nonnan (hist ops) -> Forall nonnan (hist ops') -> Permutation (live w (hist ops)) (live w' (hist ops')) ->
  res_rel num_eq (m <- min_run w ops ;; min_value m) (m <- min_run w' ops' ;; min_value m) /\
  res_rel num_eq (m <- max_run w ops ;; max_value m) (m <- max_run w' ops' ;; max_value m).
Proof.
  intros Hw Hw' Hn Hn' HP.
  assert (HL : Forall nonnan (live w (hist ops))) by (apply Forall_forall; intros x Hx; rewrite Forall_forall in Hn; apply Hn; eapply live_incl; exact Hx).
  assert (HE : hist ops = [] <-> hist ops' = []).
  { split; intros E; rewrite E, live_nil in HP; [|symmetry in HP]; apply Permutation_nil in HP; [apply (live_empty w')|apply (live_empty w)]; assumption. }
  destruct (min_value_correct w ops Hw Hn) as (m & E & M1 & M2). destruct (min_value_correct w' ops' Hw' Hn') as (m' & E' & M1' & M2').
  destruct (max_value_correct w ops Hw Hn) as (n & F & N1 & N2). destruct (max_value_correct w' ops' Hw' Hn') as (n' & F' & N1' & N2').
  rewrite E, E', F, F'. cbn [bind]. destruct (list_nil_dec (hist ops)) as [Z|Z].
  - rewrite M1, N1, M1', N1' by (first [exact Z|apply HE; exact Z]). split; reflexivity.
  - assert (Z' : hist ops' <> []) by (intros X; apply Z; apply HE; exact X). destruct (M2 Z) as (v & -> & V), (M2' Z') as (v' & -> & V'), (N2 Z) as (u & -> & U), (N2' Z') as (u' & -> & U').
    split; left; [eapply min_eq; [exact HL|exact V|eapply min_perm; [symmetry; exact HP|exact V']]|eapply max_eq; [exact HL|exact U|eapply max_perm; [symmetry; exact HP|exact U']]].
Qed.
Print Assumptions C58_min_max.
(** Under the storage conditions of C11, which AVL always meets. *)
Theorem C58_quantile_partial e w w' os ops ops' : (0 <= w)%Z -> (0 <= w')%Z -> Forall qopt_num os -> Forall qopt_valid os -> pushes_nonnan ops -> pushes_nonnan ops' ->
  impl_cond (chosen_impl os) w ops -> impl_cond (chosen_impl os) w' ops' -> (zlen (live w (hist ops)) <= 2 ^ 53)%Z -> Permutation (live w (hist ops)) (live w' (hist ops')) ->
  exists q q', q_run e w os ops = Ok q /\ q_run e w' os ops' = Ok q' /\ forall phi, nonnan phi -> res_rel num_eq (q_value e q phi) (q_value e q' phi).
Proof.
  intros Hw Hw' Hn Hv Hp Hp' Hi Hi' Hz HP. destruct (quantile_correct e w os ops Hw Hn Hv Hp Hi) as (q & E & Q). destruct (quantile_correct e w' os ops' Hw' Hn Hv Hp' Hi') as (q' & E' & Q').
  exists q, q'. split; [exact E|]. split; [exact E'|]. intros phi Hphi. destruct (Q phi Hphi) as (A1 & A2 & A3). destruct (Q' phi Hphi) as (B1 & B2 & B3).
  pose proof (pushes_live w ops Hp) as HL. pose proof (Permutation_length HP) as HPl. assert (Hz' : (zlen (live w' (hist ops')) <= 2 ^ 53)%Z) by (unfold zlen in *; rewrite <- HPl; exact Hz).
  destruct (in_range phi); [|rewrite A1, B1 by reflexivity; reflexivity].
  destruct (live w (hist ops)) as [|a l] eqn:El; destruct (live w' (hist ops')) as [|a' l'] eqn:El'; try discriminate; [rewrite A2, B2 by reflexivity; reflexivity|].
  destruct (A3 eq_refl ltac:(discriminate) Hz) as (r & -> & R1). destruct (B3 eq_refl ltac:(discriminate) Hz') as (r' & -> & R2). cbn [res_rel]. eapply quantile_unique; [exact HL|exact R1|]. eapply result_perm; [symmetry; exact HP|exact R2].
Qed.
Print Assumptions C58_quantile_partial.
Theorem C58_heap_median ops ops' : (forall x, In (OPush x) ops -> nonnan x) -> (forall x, In (OPush x) ops' -> nonnan x) -> Permutation (hist ops) (hist ops') ->
  res_rel num_eq (m <- hm_run 0 ops ;; hm_value m) (m <- hm_run 0 ops' ;; hm_value m).
Proof.
  intros Hn Hn' HP. destruct (global_median ops Hn) as (m & -> & M). destruct (global_median ops' Hn') as (m' & -> & M'). cbn [bind]. pose proof (Permutation_length HP) as HL.
  assert (HF : Forall nonnan (hist ops)) by (apply Forall_forall; intros x Hx; apply Hn; apply hist_In; exact Hx).
  destruct (hist ops) as [|a l] eqn:El; destruct (hist ops') as [|a' l'] eqn:El'; try discriminate; [rewrite M, M'; reflexivity|]. destruct M as (r & -> & R1), M' as (r' & -> & R2). cbn [res_rel].
  eapply median_unique; [exact HF|exact R1|]. eapply median_perm; [symmetry; exact HP|exact R2].
Qed.
Print Assumptions C58_heap_median.
(** In float64 the moments do not have this property: not with respect to order, and not with respect to values that have left the window. *)
Theorem C58_float_refuted :
  (exists xs ys : list f64, Permutation xs ys /\ Forall (fun x => isfin x = true) xs /\ exists u v, (m <- m_run FN (KMean 0) (map OPush xs) ;; m_value FN m) = Ok u /\ (m <- m_run FN (KMean 0) (map OPush ys) ;; m_value FN m) = Ok v /\ feq u v = false) /\
  (exists xs ys : list f64, live 2 xs = live 2 ys /\ Forall (fun x => isfin x = true) xs /\ exists u v, (m <- m_run FN (KMean 2) (map OPush xs) ;; m_value FN m) = Ok u /\ (m <- m_run FN (KMean 2) (map OPush ys) ;; m_value FN m) = Ok v /\ feq u v = false).
Proof.
  assert (G : forall (r1 r2 : res f64), rmap (fun p => feq (fst p) (snd p)) (u <- r1 ;; v <- r2 ;; Ok (u, v)) = Ok false -> exists u v, r1 = Ok u /\ r2 = Ok v /\ feq u v = false).
  { intros r1 r2 H. apply rmap_ok in H. destruct H as ((u & v) & H & F). apply bind_ok in H. destruct H as (u' & E1 & H). apply bind_ok in H. destruct H as (v' & E2 & H). injection H as H1 H2. exists u', v'. split; [exact E1|]. split; [exact E2|]. rewrite H1, H2. exact F. }
  split.
  - exists (map fz [1; 2; 5]%Z), (map fz [5; 2; 1]%Z). split; [cbn [map]; etransitivity; [apply perm_swap|]; etransitivity; [apply perm_skip, perm_swap|]; apply perm_swap|]. split; [repeat constructor|]. apply G. concrete.
  - exists [fdy 1 60; fz 1; fz 1], [fz 1; fz 1]. split; [reflexivity|]. split; [repeat constructor|]. apply G. concrete.
Qed.
Print Assumptions C58_float_refuted.
(** Nor do the windowed HeapMedian and a windowed Quantile over a red-black tree: in both, values that have left the window change the result. *)
Theorem C58_storage_refuted :
  (exists ops ops', pushes_nonnan ops /\ pushes_nonnan ops' /\ live 2 (hist ops) = live 2 (hist ops') /\ ~ res_rel num_eq (m <- hm_run 2 ops ;; hm_value m) (m <- hm_run 2 ops' ;; hm_value m)) /\
  (forall e, exists ops ops', pushes_nonnan ops /\ pushes_nonnan ops' /\ live 4 (hist ops) = live 4 (hist ops') /\
     ~ res_rel num_eq (q <- q_run e 4 [QImpl 1 []] ops ;; q_value e q (fdy 1 (-1))) (q <- q_run e 4 [QImpl 1 []] ops' ;; q_value e q (fdy 1 (-1)))).
Proof.
  split.
  - exists (pushes [1; 2; 3; 4; 5]%Z), (pushes [4; 5]%Z). split; [apply pushes_num; repeat constructor|]. split; [apply pushes_num; repeat constructor|]. split; [reflexivity|]. intros R. vm_compute in R. destruct R as [R|[R _]]; discriminate R.
  - intros e. exists (pushes [2; 1; 2; 2; 3; 1]%Z), (pushes [2; 2; 3; 1]%Z). split; [apply pushes_num; repeat constructor|]. split; [apply pushes_num; repeat constructor|]. split; [reflexivity|]. intros R. vm_compute in R. exact R.
Qed.
Print Assumptions C58_storage_refuted.
Example C58_case : Permutation (live 3 [5; 1; 4; 2]%R) (live 0 [2; 1; 4]%R) /\
  (m <- m_run QN (KMoment 3 3) (qops (qpush [5; 1; 4; 2]%Z)) ;; m_value QN m) = Ok (Some (10 # 9)%Q) /\ (m <- m_run QN (KMoment 3 0) (qops (qpush [2; 1; 4]%Z)) ;; m_value QN m) = Ok (Some (10 # 9)%Q).
Proof.
  split; [|split; vm_compute; reflexivity]. change (Permutation [1; 4; 2]%R [2; 1; 4]%R). etransitivity; [apply perm_skip, perm_swap|]. apply perm_swap.
Qed.

(** ** C59 *)
(** In float64, Corr of three points is above 1, and Corr of a window can be infinite. *)
Definition fpairs (l : list (Z * Z)) : list (op (list f64)) := map (fun p => OPush [fz (fst p); fz (snd p)]) l.
Theorem C59_float_refuted :
  rmap (fun v => (flt (fz 1) v, isfin v)) (m <- jm_run FN (JCorr 0) (fpairs [(5, 30); (6, 36); (3, 18)]%Z) ;; jm_value FN m) = Ok (true, true) /\
  rmap (fun v => flt (fdy 1 1000) v) (m <- jm_run FN (JCorr 3) (fpairs [(9, 9); (3, 8); (5, 8); (3, 8)]%Z) ;; jm_value FN m) = Ok true.
Proof. split; concrete. Qed.
Print Assumptions C59_float_refuted.
(** In exact arithmetic it is at most 1 in absolute value. Missing: float64 (false). *)
Theorem C59_correlation_partial lag w d ops aops r : (0 <= w)%Z -> (0 < d < 1)%R ->
  jmval (JCorr w) ops = Ok (Fin r) \/ jmval (JEwmCorr (Fin d)) ops = Ok (Fin r) \/ aval ACorr (Z.of_nat lag) w aops = Ok (Fin r) -> (-1 <= r <= 1)%R.
Proof.
  intros Hw Hd [H|[H|H]].
  - apply (C28_cov_corr w ops Hw). exact H.
  - apply (C29_ewm d ops Hd). exact H.
  - rewrite (proj2 (C30_auto lag w aops Hw)) in H. destruct (lagged lag (hist aops)) as [|p l]; [discriminate|]. unfold corr_of in H. destruct (live w (p :: l)) as [|q l'] eqn:El; [discriminate|]. rewrite <- El in H. injection H as H.
    destruct (is0 _) eqn:E0; [discriminate|]. injection H as <-. apply pearson_bound. intros E. rewrite E in E0. unfold is0 in E0. destruct (Req_EM_T 0 0); [discriminate|]. contradiction.
Qed.
Print Assumptions C59_correlation_partial.

(** ** C60 *)
(** For every non-decreasing map of the numbers: the minimum of the images is the image of the minimum, and so on. *)
Theorem C60_min_max f w ops : fmono f -> (0 <= w)%Z -> Forall nonnan (hist ops) ->
  res_rel num_eq (m <- min_run w (map_ops f ops) ;; min_value m) (rmap f (m <- min_run w ops ;; min_value m)) /\
  res_rel num_eq (m <- max_run w (map_ops f ops) ;; max_value m) (rmap f (m <- max_run w ops ;; max_value m)).
Proof.
  intros F Hw Hn.
  assert (Hn' : Forall nonnan (hist (map_ops f ops))) by (rewrite hist_map_ops; apply Forall_map; eapply Forall_impl; [|exact Hn]; apply F).
  assert (HL : Forall nonnan (live w (hist (map_ops f ops)))) by (apply Forall_forall; intros x Hx; rewrite Forall_forall in Hn'; apply Hn'; eapply live_incl; exact Hx).
  destruct (min_value_correct w ops Hw Hn) as (m & E & M1 & M2). destruct (min_value_correct w _ Hw Hn') as (m' & E' & M1' & M2').
  destruct (max_value_correct w ops Hw Hn) as (n & G & N1 & N2). destruct (max_value_correct w _ Hw Hn') as (n' & G' & N1' & N2').
  rewrite E, E', G, G'. cbn [bind]. destruct (list_nil_dec (hist ops)) as [Z|Z].
  - assert (Z' : hist (map_ops f ops) = []) by (rewrite hist_map_ops, Z; reflexivity). rewrite M1, N1, M1', N1' by assumption. split; reflexivity.
  - assert (Z' : hist (map_ops f ops) <> []) by (rewrite hist_map_ops; apply map_nn; exact Z). destruct (M2 Z) as (v & -> & V), (M2' Z') as (v' & -> & V'), (N2 Z) as (u & -> & U), (N2' Z') as (u' & -> & U'). cbn [rmap res_rel].
    rewrite live_map_ops in *. split; left; [eapply min_eq; [exact HL|exact V'|apply min_map; assumption]|eapply max_eq; [exact HL|exact U'|apply max_map; assumption]].
Qed.
Print Assumptions C60_min_max.
(** A non-increasing map, such as the change of sign, exchanges Min and Max. *)
Theorem C60_min_max_reversed f w ops : fanti f -> (0 <= w)%Z -> Forall nonnan (hist ops) ->
  res_rel num_eq (m <- max_run w (map_ops f ops) ;; max_value m) (rmap f (m <- min_run w ops ;; min_value m)).
Proof.
  intros F Hw Hn.
  assert (Hn' : Forall nonnan (hist (map_ops f ops))) by (rewrite hist_map_ops; apply Forall_map; eapply Forall_impl; [|exact Hn]; apply F).
  assert (HL : Forall nonnan (live w (hist (map_ops f ops)))) by (apply Forall_forall; intros x Hx; rewrite Forall_forall in Hn'; apply Hn'; eapply live_incl; exact Hx).
  destruct (min_value_correct w ops Hw Hn) as (m & E & M1 & M2). destruct (max_value_correct w _ Hw Hn') as (n' & G' & N1' & N2').
  rewrite E, G'. cbn [bind]. destruct (list_nil_dec (hist ops)) as [Z|Z].
  - assert (Z' : hist (map_ops f ops) = []) by (rewrite hist_map_ops, Z; reflexivity). rewrite M1, N1' by assumption. reflexivity.
  - assert (Z' : hist (map_ops f ops) <> []) by (rewrite hist_map_ops; apply map_nn; exact Z). destruct (M2 Z) as (v & -> & V), (N2' Z') as (u' & -> & U'). cbn [rmap res_rel].
    rewrite live_map_ops in *. left. eapply max_eq; [exact HL|exact U'|apply anti_min_map; assumption].
Qed.
Print Assumptions C60_min_max_reversed.
(** Quantiles in the modes that return one of the values, with any storage under the condition of C11 (which AVL
    storage always meets). *)
Theorem C60_quantile_partial e f w os ops : fmono f -> (0 <= w)%Z -> Forall qopt_num os -> Forall qopt_valid os -> pushes_nonnan ops ->
  impl_cond (chosen_impl os) w ops -> impl_cond (chosen_impl os) w (map_ops f ops) -> (chosen_interp os = 1 \/ chosen_interp os = 2 \/ chosen_interp os = 3)%Z ->
  (zlen (live w (hist ops)) <= 2 ^ 53)%Z ->
  exists q q', q_run e w os ops = Ok q /\ q_run e w os (map_ops f ops) = Ok q' /\ forall phi, nonnan phi -> res_rel num_eq (q_value e q' phi) (rmap f (q_value e q phi)).
Proof.
  intros F Hw Hn Hv Hp Hi Hi' Hm Hz.
  assert (Hp' : pushes_nonnan (map_ops f ops)).
  { intros x Hx. apply in_map_iff in Hx. destruct Hx as ([y|] & Ey & Hy); cbn [map_op] in Ey; [|discriminate]. injection Ey as <-. apply F. apply Hp. exact Hy. }
  destruct (quantile_correct e w os ops Hw Hn Hv Hp Hi) as (q & E & Q). destruct (quantile_correct e w os _ Hw Hn Hv Hp' Hi') as (q' & E' & Q').
  exists q, q'. split; [exact E|]. split; [exact E'|]. intros phi Hphi. destruct (Q phi Hphi) as (A1 & A2 & A3). destruct (Q' phi Hphi) as (B1 & B2 & B3).
  pose proof (pushes_live w ops Hp) as HL. pose proof (pushes_live w _ Hp') as HL'. rewrite live_map_ops in *. destruct (in_range phi); [|rewrite A1, B1 by reflexivity; reflexivity].
  destruct (live w (hist ops)) as [|a l] eqn:El; [rewrite A2, B2 by reflexivity; reflexivity|]. rewrite <- El in *.
  destruct (A3 eq_refl) as (r & -> & R1); [rewrite El; discriminate|exact Hz|]. destruct (B3 eq_refl) as (r' & -> & R2); [rewrite El; discriminate|unfold zlen in *; rewrite map_length; exact Hz|]. cbn [rmap res_rel].
  eapply quantile_unique; [exact HL'|exact R2|]. apply result_map; assumption.
Qed.
Print Assumptions C60_quantile_partial.
(** The hypotheses are met by clipping at 3 and by the change of sign. *)
Definition clip (x : f64) : f64 := if fle x (fz 3) then x else fz 3.
Definition neg (x : f64) : f64 := @Bopp 53 1024 x.
Example C60_case : fmono clip /\ fanti neg /\
  rmap fbits (q <- q_run env0 4 [QInterp 2] (map_ops clip qcase) ;; q_value env0 q (fdy 7 (-3))) = Ok (fbits (fz 3)) /\
  rmap fbits (q <- q_run env0 4 [QInterp 2] qcase ;; q_value env0 q (fdy 7 (-3))) = Ok (fbits (fz 4)) /\
  rmap fbits (m <- max_run 2 (map_ops neg (pushes [1; 2; 3]%Z)) ;; max_value m) = Ok (fbits (fz (-2))).
Proof.
  split; [|split; [|split; [vm_compute; reflexivity|split; vm_compute; reflexivity]]].
  - assert (N3 : nonnan (fz 3)) by reflexivity. split; unfold clip.
    + intros x Hx. destruct (fle x (fz 3)); assumption.
    + intros x y H. assert (Nx : nonnan x) by (destruct x; try reflexivity; destruct y; discriminate). assert (Ny : nonnan y) by (destruct y; try reflexivity; destruct x; discriminate).
      destruct (fle x (fz 3)) eqn:Ex, (fle y (fz 3)) eqn:Ey; rewrite fle_key in * by assumption; auto; rewrite Z.leb_le in *; try apply Z.leb_gt in Ex; try apply Z.leb_gt in Ey; lia.
  - split; [intros x Hx; destruct x; try discriminate; reflexivity|]. intros x y H. assert (Nx : nonnan x) by (destruct x; try reflexivity; destruct y; discriminate). assert (Ny : nonnan y) by (destruct y; try reflexivity; destruct x; discriminate).
    assert (G : forall z, nonnan z -> nonnan (neg z) /\ fk (neg z) = (- fk z)%Z) by (intros z Hz; destruct z as [s|s| |s m ex B]; try discriminate; (split; [reflexivity|]); unfold fk, fval, neg; cbn [Bopp]; destruct s; cbn [negb]; unfold cond_Zopp; lia).
    destruct (G x Nx) as (Nx' & Kx), (G y Ny) as (Ny' & Ky). rewrite fle_key in * by assumption. rewrite Kx, Ky. rewrite Z.leb_le in *. lia.
Qed.
