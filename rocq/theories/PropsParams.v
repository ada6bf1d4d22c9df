(** C99: every constructor accepts exactly the windows, lags and powers that make sense. *)
From Coq Require Import ZArith Lia Bool List.
From Verif Require Import Base F64 HistSpec RingModel NumModel OrderSpec MinMaxModel MomentModel JointModel QuantileSpec QuantileModel QuantileProof HeapModel PropsQuantile.
Import ListNotations.
Local Open Scope Z_scope.

(** Accepted exactly if the window is not negative, and otherwise rejected for this reason. *)
Definition checks_window {A} (make : Z -> res A) : Prop := forall w, (0 <= w -> exists a, make w = Ok a) /\ (w < 0 -> make w = Err ENegWindow).

Theorem C99_min_max_heap : checks_window new_min /\ checks_window new_max /\ checks_window new_heap_median.
Proof. repeat split; intros H; unfold new_min, new_max, new_heap_median; destruct (Z.ltb_spec w 0); try lia; eauto. Qed.
Print Assumptions C99_min_max_heap.
(** Quantile, Median and IQR: with valid options; a negative window is reported whatever the options. *)
Theorem C99_quantile : forall e os, Forall qopt_num os ->
  (Forall qopt_valid os -> checks_window (fun w => new_quantile e w os) /\ checks_window (fun w => new_median e w os) /\ checks_window (fun w => new_iqr e w os)) /\
  (forall w, w < 0 -> new_quantile e w os = Err ENegWindow /\ new_median e w os = Err ENegWindow /\ new_iqr e w os = Err ENegWindow).
Proof.
  intros e os Hn. assert (N : forall os w, w < 0 -> new_quantile e w os = Err ENegWindow) by (intros os' w Hw; unfold new_quantile; destruct (Z.ltb_spec w 0); [reflexivity|lia]). split.
  - intros Hv. assert (P : forall os w, Forall qopt_num os -> Forall qopt_valid os -> 0 <= w -> exists a, new_quantile e w os = Ok a) by (intros os' w A B C; destruct (C15_option_validation_partial e w os' A) as [(_ & _ & st & E & _)|[X _]]; [eauto|exfalso; apply X; auto]).
    assert (Hn' : Forall qopt_num (os ++ [QInterp 4])) by (apply Forall_app; split; [exact Hn|repeat constructor]). assert (Hv' : Forall qopt_valid (os ++ [QInterp 4])) by (apply Forall_app; split; [exact Hv|constructor; [cbn; lia|constructor]]).
    repeat split; intros H; unfold new_median, new_iqr; auto.
  - intros w Hw. unfold new_median, new_iqr. auto.
Qed.
Print Assumptions C99_quantile.
(** The moment metrics, in any arithmetic *)
Theorem C99_moment : forall T (N : Num T), checks_window (fun w => m_init N (new_metric (KMean w))) /\ checks_window (fun w => m_init N (new_metric (KStd w))) /\ checks_window (fun w => m_init N (new_metric (KSkew w))) /\ checks_window (fun w => m_init N (new_metric (KKurt w))) /\
  forall k, (0 < k -> checks_window (fun w => m_init N (new_metric (KMoment k w)))) /\ (k <= 0 -> forall w, 0 <= w -> m_init N (new_metric (KMoment k w)) = Err EBadPower).
Proof.
  intros T N. assert (G : forall (s : option (list Z)) w, existsb (fun k => k <=? 0) (match s with Some l => l | None => [] end) = false -> (0 <= w -> exists c, new_core N (mkCfg s (Some w) None) = Ok c) /\ (w < 0 -> new_core N (mkCfg s (Some w) None) = Err ENegWindow)).
  { intros s w Hs. unfold new_core, validate, set_defaults, sums_of. cbn [cf_window cf_sums cf_decay]. destruct (Z.ltb_spec w 0); cbn [bind]; split; intros; try lia; [reflexivity|]. rewrite Hs. cbn [bind]. eauto. }
  assert (I : forall k s, (forall w, kconfig (k w) = mkCfg s (Some w) None) -> existsb (fun k => k <=? 0) (match s with Some l => l | None => [] end) = false -> checks_window (fun w => m_init N (new_metric (k w)))).
  { intros k s E Hs w. unfold m_init, new_metric. cbn [m_kind]. rewrite E. destruct (G s w Hs) as [G1 G2]. split; intros H; [destruct (G1 H) as [c ->]; cbn [bind]; eauto|rewrite (G2 H); reflexivity]. }
  split; [exact (I KMean None ltac:(reflexivity) eq_refl)|]. split; [exact (I KStd _ ltac:(reflexivity) eq_refl)|]. split; [exact (I KSkew _ ltac:(reflexivity) eq_refl)|]. split; [exact (I KKurt _ ltac:(reflexivity) eq_refl)|]. intros k. split.
  - intros Hk. refine (I (KMoment k) (Some [k]) ltac:(reflexivity) _). cbn [existsb]. destruct (Z.leb_spec k 0); [lia|reflexivity].
  - intros Hk w Hw. unfold m_init, new_metric, new_core, validate, set_defaults, sums_of. cbn [m_kind kconfig cf_window cf_sums cf_decay]. destruct (Z.ltb_spec w 0); [lia|]. cbn [bind existsb]. destruct (Z.leb_spec k 0); [reflexivity|lia].
Qed.
Print Assumptions C99_moment.
(** Cov and Corr, and Autocov and Autocorr, which check the lag first *)
Theorem C99_joint : forall T (N : Num T), checks_window (fun w => jm_init N (new_jmetric (JCov w))) /\ checks_window (fun w => jm_init N (new_jmetric (JCorr w))) /\
  forall k lag, (0 <= lag -> checks_window (fun w => a <- new_auto k lag w ;; auto_init N a)) /\ (lag < 0 -> forall w, (a <- new_auto (T := T) k lag w ;; auto_init N a) = Err ENegLag).
Proof.
  intros T N. assert (A : checks_window (fun w => jm_init N (new_jmetric (JCov w)))).
  { intros w. unfold jm_init, new_jmetric, jnew_core, jvalidate. cbn [jm_kind jkconfig jf_window jf_vars jf_decay]. destruct (Z.ltb_spec w 0); split; intros; try lia; [reflexivity|]. cbn. eauto. }
  assert (B : checks_window (fun w => jm_init N (new_jmetric (JCorr w)))).
  { intros w. unfold jm_init, new_jmetric, jnew_core, jvalidate. cbn [jm_kind jkconfig jf_window jf_vars jf_decay]. destruct (Z.ltb_spec w 0); split; intros; try lia; [reflexivity|]. cbn. eauto. }
  split; [exact A|]. split; [exact B|]. intros k lag. split.
  - intros Hl w. unfold new_auto. destruct (Z.ltb_spec lag 0); [lia|]. cbn [bind]. unfold auto_init. cbn [a_metric]. destruct k; [destruct (A w) as [P Q]|destruct (B w) as [P Q]]; split; intros H0; first [destruct (P H0) as [c ->]; cbn [bind]; eauto|rewrite (Q H0); reflexivity].
  - intros Hl w. unfold new_auto. destruct (Z.ltb_spec lag 0); [reflexivity|lia].
Qed.
Print Assumptions C99_joint.
(** The constructors without a window are those with window 0. *)
Theorem C99_global : new_min 0 = Ok new_global_min /\ new_max 0 = Ok new_global_max /\ new_heap_median 0 = Ok new_global_heap_median.
Proof. repeat split. Qed.
Print Assumptions C99_global.
(** A metric made with a negative window cannot be used: with -1 every history fails, with 3 it does not. *)
Example C99_case : (forall ops, min_run (-1) ops = Err ENegWindow /\ hm_run (-1) ops = Err ENegWindow /\ m_run FN (KMean (-1)) ops = Err ENegWindow) /\
  (match min_run 3 [OPush (fz 1); OPush (fz 2)] with Ok _ => true | _ => false end) = true /\ (match m_run FN (KMoment 3 5) [OPush (fz 1)] with Ok _ => true | _ => false end) = true.
Proof. split; [intros ops; repeat split; reflexivity|]. split; vm_compute; reflexivity. Qed.
