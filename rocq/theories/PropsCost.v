(** Running time: C63, C64, C65, C66. Steps are calls of recursive functions and
    iterations of loops, counted by the functions ending in _c (CostModel.v). *)
From Coq Require Import String Lia.
From Verif Require Import Base F64 HistSpec RingModel MultisetSpec NumModel QuantileModel QuantileSpec QuantileProof.
From Verif Require Import HeapModel MinMaxModel MomentModel JointModel MetricProof ShareProof PropsQuantile OrderSpec.
From Verif Require Import CostModel CostErase CostTree CostQuant CostHeap CostMinMax CostCore.
Local Open Scope nat_scope.
Local Open Scope list_scope.

(** *** C63. Quantile *)

(** The logarithm of the documentation: the least k with n < 2^k. *)
Lemma lg_spec n : n < 2 ^ S (lg n) /\ 2 ^ lg n <= n + 1.
Proof. unfold lg. pose proof (Nat.log2_spec (n + 1)) as [H1 H2]; [lia|]. split; lia. Qed.

(** Iqr.Value makes two calls of Quantile.Value. *)
Definition iqr_value_c (e : env) (q : quant) : cost f64 :=
  q25 <~ q_value_c e q (fdy 1 (-2)) ;; q75 <~ q_value_c e q (fdy 3 (-2)) ;; lift (Ok (fsub q75 q25)).
Lemma iqr_value_erase e q : snd (iqr_value_c e q) = iqr_value e q.
Proof.
  unfold iqr_value_c, iqr_value. rewrite cbind_snd, q_value_erase. apply bind_ext'. intros a.
  rewrite cbind_snd, q_value_erase. apply bind_ext'. intros b. reflexivity.
Qed.
Lemma iqr_value_cost n e q : tree_fit n (q_stat q) -> fst (iqr_value_c e q) <= 8 * lg n + 4.
Proof.
  intros H. unfold iqr_value_c. pose proof (fit_value n e q (fdy 1 (-2)) H). pose proof (fit_value n e q (fdy 3 (-2)) H).
  eapply Nat.le_trans; [apply (cbind_le _ _ (4 * lg n + 2)); intros a _|].
  - eapply Nat.le_trans; [apply (cbind_le _ _ 0); intros b _; cbn; lia|]. lia.
  - lia.
Qed.

(** With an AVL tree: after any history without NaN, of n tracked values, Push takes at
    most 6 lg n + 2 steps, Value of any quantile at most 4 lg n + 2 and IQR's Value at most
    8 lg n + 4. (Median and IQR push into the Quantile built with one more option,
    which does not affect the choice of the tree.) *)
Theorem C63_quantile_avl e w os ops x : (0 <= w)%Z -> Forall qopt_num os -> Forall qopt_valid os -> chosen_impl os = 0%Z ->
  pushes_nonnan (ops ++ [OPush x]) -> let n := length (live w (hist ops)) in
  exists q, q_run e w os ops = Ok q /\
    snd (q_push_c q x) = q_push q x /\ fst (q_push_c q x) <= 6 * lg n + 2 /\
    (forall phi, snd (q_value_c e q phi) = q_value e q phi /\ fst (q_value_c e q phi) <= 4 * lg n + 2) /\
    snd (iqr_value_c e q) = iqr_value e q /\ fst (iqr_value_c e q) <= 8 * lg n + 4.
Proof.
  intros Hw Ho Hv Hi Hnn n. destruct (q_push_cost e w os ops x Hw Ho Hv Hnn (or_introl Hi)) as (q & Hq & Hf & Hp & _).
  exists q. split; [exact Hq|]. split; [apply q_push_erase|]. rewrite Hi in Hp.
  split; [unfold push_bound, remove_bound in Hp; fold n in Hp; cbn [Z.eqb] in Hp; lia|].
  split; [intros phi; split; [apply q_value_erase|apply fit_value, Hf]|].
  split; [apply iqr_value_erase|apply iqr_value_cost, Hf].
Qed.
Print Assumptions C63_quantile_avl.

(** With a red-black tree, as long as no value leaves the window while an equal one stays
    (otherwise C11): Value is logarithmic, and so is a Push that evicts nothing, but the
    bound for a Push that evicts is the square of the logarithm. *)
Theorem C63_quantile_rb_partial e w os ops x : (0 <= w)%Z -> Forall qopt_num os -> Forall qopt_valid os -> chosen_impl os = 1%Z ->
  pushes_nonnan (ops ++ [OPush x]) -> evict_single w (ops ++ [OPush x]) -> let n := length (live w (hist ops)) in
  exists q, q_run e w os ops = Ok q /\
    snd (q_push_c q x) = q_push q x /\ fst (q_push_c q x) <= 4 * (lg n + 2) ^ 2 /\
    (w = 0%Z \/ (zlen (live w (hist ops)) < w)%Z -> fst (q_push_c q x) <= 2 * lg n + 1) /\
    (forall phi, snd (q_value_c e q phi) = q_value e q phi /\ fst (q_value_c e q phi) <= 4 * lg n + 2) /\
    snd (iqr_value_c e q) = iqr_value e q /\ fst (iqr_value_c e q) <= 8 * lg n + 4.
Proof.
  intros Hw Ho Hv Hi Hnn Hs n.
  destruct (q_push_cost e w os ops x Hw Ho Hv Hnn (or_intror (conj Hi Hs))) as (q & Hq & Hf & Hp & Hg).
  exists q. split; [exact Hq|]. split; [apply q_push_erase|]. rewrite Hi in Hp.
  split. { unfold push_bound, remove_bound in Hp. fold n in Hp. cbn [Z.eqb] in Hp. cbn [Nat.pow]. nia. }
  split; [exact Hg|].
  split; [intros phi; split; [apply q_value_erase|apply fit_value, Hf]|].
  split; [apply iqr_value_erase|apply iqr_value_cost, Hf].
Qed.
Print Assumptions C63_quantile_rb_partial.

(** The square is reached: a Push that evicts the smallest value of the window takes at
    least (lg n)^2 / 8 steps. *)
Theorem C63_quantile_rb_lower e w os ops x y t : (0 < w)%Z -> Forall qopt_num os -> Forall qopt_valid os -> chosen_impl os = 1%Z ->
  pushes_nonnan (ops ++ [OPush x]) -> evict_single w ops -> zlen (live w (hist ops)) = w ->
  live w (hist ops) = y :: t -> Forall (fun z => flt y z = true) t ->
  exists q, q_run e w os ops = Ok q /\ snd (q_push_c q x) = q_push q x /\
    (lg (length (live w (hist ops)))) ^ 2 <= 8 * fst (q_push_c q x) + 1.
Proof.
  intros Hw Ho Hv Hi Hnn Hs Hl El Hlow. assert (Hnn' : pushes_nonnan ops) by (intros z Hz; apply Hnn, in_or_app; auto).
  destruct (q_push_lower e w os ops x y t) as (q & Hq & H); try assumption.
  exists q. split; [exact Hq|]. split; [apply q_push_erase|exact H].
Qed.
Print Assumptions C63_quantile_rb_lower.

(** So no constant times lg n bounds Push, although that is what is documented. *)
Theorem C63_quantile_rb_refuted : forall C, exists w ops x, pushes_nonnan (ops ++ [OPush x]) /\ evict_single w (ops ++ [OPush x]) /\
  exists q, q_run env0 w [QImpl 1 []] ops = Ok q /\ (exists q', q_push q x = Ok q') /\
    C * (lg (length (live w (hist ops))) + 1) < fst (q_push_c q x).
Proof.
  intros C. set (k := 8 * C + 2). set (n := 2 ^ k - 1).
  assert (Hk : 2 ^ k = n + 1). { unfold n. assert (2 ^ k <> 0) by (apply Nat.pow_nonzero; lia). lia. }
  assert (Hn : 1 <= n). { pose proof (Nat.pow_le_mono_r 2 1 k). unfold k in *. cbn [Nat.pow] in H. lia. }
  set (xs := fz 0 :: repeat (fz 1) (n - 1)). set (ops := map OPush xs : list (op f64)).
  assert (Hlen : length xs = n) by (unfold xs; cbn [length]; rewrite repeat_length; lia).
  assert (Hh : hist ops = xs) by apply hist_pushes.
  assert (Hlive : live (Z.of_nat n) (hist ops) = xs).
  { unfold live. destruct (Z.eqb_spec (Z.of_nat n) 0); [lia|]. rewrite Nat2Z.id, Hh. apply lastn_all. lia. }
  assert (Hfull : zlen (live (Z.of_nat n) (hist ops)) = Z.of_nat n) by (rewrite Hlive; unfold zlen; lia).
  assert (Hnn : pushes_nonnan (ops ++ [OPush (fz 2)])).
  { intros z Hz. apply in_app_or in Hz as [Hz|[[= <-]|[]]]; [|reflexivity]. apply in_map_iff in Hz as (z' & [= <-] & Hz).
    destruct Hz as [<-|Hz]; [reflexivity|]. apply repeat_spec in Hz. subst z'. reflexivity. }
  assert (Hc : count_eq (fz 0) (repeat (fz 1) (n - 1)) = 0).
  { clear. unfold count_eq. induction (n - 1) as [|m IH]; [reflexivity|]. cbn [repeat filter]. exact IH. }
  assert (He : evict_single (Z.of_nat n) (ops ++ [OPush (fz 2)])).
  { intros p x q y t E Hw Hl El. destruct q as [|o q].
    - apply app_inj_tail in E as [<- _]. rewrite Hlive in El. injection El as <- <-. exact Hc.
    - exfalso. assert (El' : length (ops ++ [OPush (fz 2)]) = length (p ++ OPush x :: o :: q)) by congruence.
      rewrite !app_length in El'. cbn [length] in El'. unfold ops in El'. rewrite map_length, Hlen in El'.
      assert (Hp : length (hist p) <= length p).
      { clear. induction p as [|o p IH] using rev_ind; [reflexivity|]. rewrite app_length. cbn [length].
        destruct o; [rewrite hist_push, app_length; cbn; lia|rewrite hist_clear; cbn; lia]. }
      assert (Hl' : length (live (Z.of_nat n) (hist p)) <= length (hist p)).
      { unfold live. destruct (_ =? 0)%Z; [reflexivity|]. rewrite lastn_length. lia. }
      unfold zlen in Hl. lia. }
  assert (He' : evict_single (Z.of_nat n) ops).
  { intros p x q y t E. apply (He p x (q ++ [OPush (fz 2)]) y t). rewrite E, <- app_assoc. reflexivity. }
  assert (Ho : Forall qopt_num [QImpl 1 []]) by (repeat constructor).
  assert (Hv : Forall qopt_valid [QImpl 1 []]) by (repeat constructor; cbn; lia).
  exists (Z.of_nat n), ops, (fz 2). split; [exact Hnn|]. split; [exact He|].
  destruct (C63_quantile_rb_lower env0 (Z.of_nat n) [QImpl 1 []] ops (fz 2) (fz 0) (repeat (fz 1) (n - 1))) as (q & Hq & _ & Hcost);
    [lia|exact Ho|exact Hv|reflexivity|exact Hnn|exact He'|exact Hfull|exact Hlive| |].
  { apply Forall_forall. intros z Hz. apply repeat_spec in Hz. subst z. reflexivity. }
  exists q. split; [exact Hq|]. split.
  - destruct (quantile_correct env0 (Z.of_nat n) [QImpl 1 []] (ops ++ [OPush (fz 2)])) as [q2 [E2 _]]; [lia|exact Ho|exact Hv|exact Hnn|right; left; split; [reflexivity|exact He]|].
    unfold q_run in Hq, E2. apply bind_ok in Hq as (q0 & H0 & Hq). rewrite H0 in E2. cbn [bind] in E2. rewrite run_app, Hq in E2.
    cbn [bind run] in E2. apply bind_ok in E2 as (q3 & E3 & _). exists q3. exact E3.
  - rewrite Hlive, Hlen in *. assert (Hlg : lg n = k) by (unfold lg; rewrite <- Hk; apply Nat.log2_pow2; lia).
    rewrite Hlg in *. assert (Hp2 : k ^ 2 = k * k) by (cbn; lia). rewrite Hp2 in Hcost. unfold k in *. nia.
Qed.
Print Assumptions C63_quantile_rb_refuted.

(** *** C64. HeapMedian *)

(** After any history, of any values, Push takes at most 5 lg n + 6 steps. *)
Theorem C64_heap_median w ops m x : hm_run w ops = Ok m -> let n := length (live w (hist ops)) in
  snd (hm_push_c m x) = hm_push m x /\ fst (hm_push_c m x) <= 5 * lg n + 6.
Proof. intros H n. split; [apply hm_push_erase|apply hm_push_cost, H]. Qed.
Print Assumptions C64_heap_median.

(** *** C65. Min and Max *)

(** Any history of k calls, of any values and with Clear anywhere, takes at most 3k steps. *)
Theorem C65_minmax w ops :
  snd (min_run_c w ops) = min_run w ops /\ fst (min_run_c w ops) <= 3 * length ops /\
  snd (max_run_c w ops) = max_run w ops /\ fst (max_run_c w ops) <= 3 * length ops.
Proof. repeat split; [apply min_run_erase|apply min_amortised|apply max_run_erase|apply max_amortised]. Qed.
Print Assumptions C65_minmax.

(** *** C66. The cores and the metrics on them, in any arithmetic *)

(** The univariate core, with exponents up to K: at most K^2 + 1 steps, K + 1 more with a
    window. If K is one of the exponents and there is no window, exactly K (K - 1) / 2. *)
Theorem C66_core {T} (N : Num T) cfg c0 ops c x K : new_core N cfg = Ok c0 -> core_run N c0 ops = Ok c ->
  (forall k, In k (sums_of cfg) -> (k <= Z.of_nat K)%Z) ->
  snd (c_push_c N c x) = c_push N c x /\
  fst (c_push_c N c x) <= K * K + K + 2 /\
  (cf_window cfg = Some 0%Z -> fst (c_push_c N c x) <= K * K + 1) /\
  (cf_window cfg = Some 0%Z -> In (Z.of_nat K) (sums_of cfg) -> forall c', c_push N c x = Ok c' -> 2 * fst (c_push_c N c x) = K * (K - 1)).
Proof.
  intros H0 H HK. pose proof (core_run_params N cfg c0 ops c H0 H) as (P1 & P2 & _).
  apply new_core_fresh in H0 as (_ & w & Hw & ->). cbn [fresh_core c_len c_window] in P1, P2.
  assert (Hm : (max_sum (sums_of cfg) <= Z.of_nat K)%Z).
  { unfold max_sum. pose proof (max_sum_spec (sums_of cfg) (-1)%Z) as X. cbv zeta in X. destruct X as (_ & _ & [X|X]); [lia|apply HK, X]. }
  destruct (c_push_cost N c x (c_len c - 1) eq_refl) as [B1 B2].
  assert (Hl : c_len c - 1 <= K) by lia. assert (Hsq : (c_len c - 1) * (c_len c - 1) <= K * K) by (apply Nat.mul_le_mono; lia).
  split; [apply c_push_erase|]. split; [destruct (_ =? _)%Z; lia|]. split.
  - intros E. rewrite Hw in E. injection E as ->. rewrite P2 in B1. cbn [Z.eqb] in B1. lia.
  - intros E Hin c' Hc. rewrite Hw in E. injection E as ->. rewrite <- c_push_erase in Hc.
    assert (Hms : max_sum (sums_of cfg) = Z.of_nat K) by (apply max_sum_is; [exact Hin|exact HK|lia]).
    rewrite Hms in P1. assert (HKe : c_len c - 1 = K) by lia. rewrite HKe in B2. exact (B2 P2 c' Hc).
Qed.
Print Assumptions C66_core.

(** The documented constants of the metrics: Mean 2, Std 8, Skewness 14, Kurtosis 22 and
    Moment of order k: k^2 + k + 2, whatever the history. *)
Definition order {T} (k : @kind T) : nat :=
  match k with
  | KMean _ | KEwma _ => 0 | KStd _ | KEwmStd _ => 2 | KSkew _ => 3 | KKurt _ => 4
  | KMoment k _ | KEwmMoment k _ => Z.to_nat k
  end.
Theorem C66_moment_metrics {T} (N : Num T) k ops m x : m_run N k ops = Ok m ->
  snd (m_push_c N m x) = m_push N m x /\ fst (m_push_c N m x) <= order k * order k + order k + 2.
Proof.
  intros H. split; [apply m_push_erase|]. rewrite m_run_eq in H. apply rmap_ok in H as (c & H & <-).
  apply bind_ok in H as (c0 & H0 & H). unfold m_push_c. cbn [m_core].
  assert (HK : forall z, In z (sums_of (kconfig k)) -> (z <= Z.of_nat (order k))%Z).
  { intros z. destruct k; cbn [kconfig sums_of cf_sums order In]; lia. }
  destruct (C66_core N (kconfig k) c0 ops c x (order k) H0 H HK) as (_ & B & _).
  eapply Nat.le_trans; [apply (cbind_le _ _ 0); intros a _; cbn; lia|]. lia.
Qed.
Print Assumptions C66_moment_metrics.

(** The multivariate core, with t tuples m of p(m) = (m_1 + 1)...(m_k + 1) <= a, pushing a
    point of d coordinates: at most d + t d a (a + 1) + t a steps without a window, which
    is the documented bound. With a window there is a term t (t a) more, from the copies of
    all sums made for each tuple when a point leaves (joint/core.go:324-326): the documented
    bound lacks it. *)
Theorem C66_joint_core_partial {T} (N : Num T) cfg c0 ops (c : @vcore T) xs a : jnew_core N cfg = Ok c0 -> jcore_run N c0 ops = Ok c ->
  (forall m, In m (jsums_of cfg) -> ptup m <= a) -> let t := length (jsums_of cfg) in let d := length xs in
  snd (jpush_c N c xs) = jpush N c xs /\
  (jf_window cfg = Some 0%Z -> fst (jpush_c N c xs) <= d + t * d * (a * (a + 1)) + t * a) /\
  fst (jpush_c N c xs) <= 2 * (d + t * d * (a * (a + 1))) + (t + 3) * (t * a).
Proof.
  intros H0 H Ha t d. split; [apply jpush_erase|].
  pose proof (jcore_run_shape N cfg c0 ops c H0 H) as (Hv & Ht & Hw).
  assert (E0 : j_tuples c0 = jsums_of cfg /\ forall w, jf_window cfg = Some w -> j_window c0 = w).
  { unfold jnew_core in H0. apply bind_ok in H0 as (_ & _ & H0). cbv zeta in H0.
    destruct (jf_window cfg); [|discriminate]. destruct (match jf_vars cfg with Some v => Some v | None => _ end); [|discriminate].
    injection H0 as <-. cbn. split; [reflexivity|congruence]. }
  destruct E0 as [Et Ew]. rewrite Et in Ht.
  destruct (Nat.eqb (length xs) (vars c)) eqn:E.
  - apply Nat.eqb_eq in E. pose proof (j_push_cost N c xs) as B. change (j_push_c N (fun l => l) c xs) with (jpush_c N c xs) in B. rewrite <- E, Ht in B. fold d in B.
    assert (Hp : pmax (jsums_of cfg) <= a).
    { unfold pmax. apply list_max_le. apply Forall_forall. intros z Hz. apply in_map_iff in Hz as (m & <- & Hm). apply Ha, Hm. }
    assert (Hk : nkeys (jsums_of cfg) <= t * a) by (apply nkeys_le; exact Ha).
    set (b := pmax (jsums_of cfg)) in *. assert (Hb : b * (b + 1) <= a * (a + 1)) by (apply Nat.mul_le_mono; lia).
    assert (Hb2 : length (jsums_of cfg) * (d * (b * (b + 1))) <= t * d * (a * (a + 1))).
    { rewrite Nat.mul_assoc. apply Nat.mul_le_mono; [reflexivity|exact Hb]. }
    assert (HA : add_steps d (jsums_of cfg) <= d + t * d * (a * (a + 1)) + t * a) by (unfold add_steps; fold b; lia).
    assert (HR : remove_steps d (jsums_of cfg) <= d + t * d * (a * (a + 1)) + (t + 2) * (t * a)).
    { unfold remove_steps. fold b. fold t. pose proof (Nat.mul_le_mono_l _ _ (t + 2) Hk). fold t in Hb2. lia. }
    split.
    + intros Ez. rewrite Hw, (Ew 0%Z Ez) in B. cbn [Z.eqb] in B. eapply Nat.le_trans; [exact B|]. lia.
    + assert (Hmul : (t + 3) * (t * a) = t * a + (t + 2) * (t * a)) by ring. rewrite Hmul. eapply Nat.le_trans; [exact B|].
      destruct (j_window c =? 0)%Z; lia.
  - assert (Z0 : fst (jpush_c N c xs) = 0).
    { unfold jpush_c, j_push_c. unfold vars in E. rewrite E. reflexivity. }
    rewrite Z0. split; [intros _|]; lia.
Qed.
Print Assumptions C66_joint_core_partial.

(** Cov, Corr and their exponentially weighted forms push in a constant number of steps,
    whatever the window and the history, and so do Autocov and Autocorr with any lag. *)
Lemma jm_run_core {T} (N : Num T) k ops m : jm_run N k ops = Ok m ->
  exists c0 c, jnew_core N (jkconfig k) = Ok c0 /\ jcore_run N c0 ops = Ok c /\ m = mkJM k (Some c).
Proof.
  unfold jm_run, jm_init. intros H. apply bind_ok in H as (m0 & H0 & H). apply bind_ok in H0 as (c0 & H0 & [= <-]).
  cbn [new_jmetric jm_kind] in *. exists c0. revert m H. induction ops as [|o ops IH] using rev_ind; intros m H.
  - injection H as <-. exists c0. auto.
  - rewrite run_app in H. apply bind_ok in H as (m1 & H1 & H). destruct (IH _ H1) as (c & E0 & E & ->). unfold jcore_run in *.
    destruct o as [x|]; cbn [run] in H; apply bind_ok in H as (m2 & H2 & [= <-]).
    + unfold jm_push in H2. cbn [jm_core jm_kind] in H2. destruct (negb _); [discriminate|]. apply bind_ok in H2 as (c' & H2 & [= <-]).
      exists c'. rewrite run_app, E. cbn [bind run]. rewrite H2. auto.
    + unfold jm_clear in H2. cbn [jm_core jm_kind] in H2. apply bind_ok in H2 as (c' & H2 & [= <-]).
      exists c'. rewrite run_app, E. cbn [bind run]. rewrite H2. auto.
Qed.
Lemma auto_run_core {T} (N : Num T) k lag w ops a : auto_run N k lag w ops = Ok a ->
  let jk := match k with ACov => JCov w | ACorr => JCorr w end in
  exists c0 c ops', jnew_core N (jkconfig jk) = Ok c0 /\ jcore_run N c0 ops' = Ok c /\ a_metric a = mkJM jk (Some c).
Proof.
  intros H jk. unfold auto_run, new_auto in H. destruct (lag <? 0)%Z; [discriminate|]. cbn [bind] in H. fold jk in H.
  apply bind_ok in H as (a0 & H0 & H). unfold auto_init, jm_init in H0. cbn [a_metric new_jmetric jm_kind a_lag a_queue] in H0.
  apply bind_ok in H0 as (m0 & H0 & [= <-]). apply bind_ok in H0 as (c0 & H0 & [= <-]). exists c0.
  assert (K : exists c ops', jcore_run N c0 ops' = Ok c /\ a_metric a = mkJM jk (Some c)).
  { revert a H. induction ops as [|o ops IH] using rev_ind; intros a H.
    - injection H as <-. exists c0, []. auto.
    - rewrite run_app in H. apply bind_ok in H as (a1 & H1 & H). destruct (IH _ H1) as (c & ops' & E & Em). clear IH H1.
      assert (Step : forall o' c', run (jpush N) (j_clear N) [o'] c = Ok c' -> jcore_run N c0 (ops' ++ [o']) = Ok c').
      { intros o' c' E'. unfold jcore_run in *. rewrite run_app, E. exact E'. }
      destruct o as [x|]; cbn [run] in H; apply bind_ok in H as (a2 & H2 & [= <-]).
      + unfold auto_push in H2. rewrite Em in H2. cbn [jm_core jm_kind] in H2. destruct (a_lag a1 =? 0)%Z.
        * apply bind_ok in H2 as (c' & H2 & [= <-]). exists c', (ops' ++ [OPush [x; x]]). split; [|reflexivity].
          apply Step. cbn [run]. rewrite H2. reflexivity.
        * apply bind_ok in H2 as ([c1 q1] & H2 & H3). apply bind_ok in H3 as (q2 & _ & [= <-]). cbn [a_metric].
          destruct (_ >=? _)%Z; [|injection H2 as <- _; exists c, ops'; auto].
          apply bind_ok in H2 as ([y q] & _ & H2). apply bind_ok in H2 as (c' & H2 & [= <- _]).
          exists c', (ops' ++ [OPush [x; y]]). split; [|reflexivity]. apply Step. cbn [run]. rewrite H2. reflexivity.
      + unfold auto_clear in H2. rewrite Em in H2. cbn [jm_core jm_kind] in H2. apply bind_ok in H2 as (c' & H2 & [= <-]).
        exists c', (ops' ++ [OClear]). split; [|reflexivity]. apply Step. cbn [run]. rewrite H2. reflexivity. }
  destruct K as (c & ops' & E & Em). exists c, ops'. auto.
Qed.
Definition jconst {T} (k : @jkind T) : nat := match k with JCov _ | JEwmCov _ => 100 | JCorr _ | JEwmCorr _ => 280 end.
Lemma jkind_cost {T} (N : Num T) k c0 ops c xs : jnew_core N (jkconfig k) = Ok c0 -> jcore_run N c0 ops = Ok c -> fst (jpush_c N c xs) <= jconst k.
Proof.
  intros H0 H. pose proof (jcore_run_shape N _ c0 ops c H0 H) as (Hv & Ht & _).
  pose proof (j_push_cost N c xs) as B. change (j_push_c N (fun l => l) c xs) with (jpush_c N c xs) in B. rewrite Hv, Ht in B.
  assert (E : vars c0 = 2 /\ j_tuples c0 = jsums_of (jkconfig k)).
  { unfold jnew_core in H0. apply bind_ok in H0 as (_ & _ & H0). destruct k; cbn in H0; injection H0 as <-; split; reflexivity. }
  destruct E as [E1 E2]. rewrite E1, E2 in B. eapply Nat.le_trans; [exact B|].
  assert (R : forall ts, add_steps 2 ts + (if (j_window c =? 0)%Z then 0 else remove_steps 2 ts) <= add_steps 2 ts + remove_steps 2 ts)
    by (intros ts; destruct (_ =? _)%Z; lia).
  eapply Nat.le_trans; [apply R|].
  destruct k; cbn [jkconfig jsums_of jf_sums jconst]; apply Nat.leb_le; vm_compute; reflexivity.
Qed.
Theorem C66_joint_metrics {T} (N : Num T) k ops m xs : jm_run N k ops = Ok m ->
  snd (jm_push_c N m xs) = jm_push N m xs /\ fst (jm_push_c N m xs) <= jconst k.
Proof.
  intros H. split; [apply jm_push_erase|]. apply jm_run_core in H as (c0 & c & H0 & H & ->). unfold jm_push_c. cbn [jm_core].
  destruct (negb _); [cbn; destruct k; cbn; lia|]. pose proof (jkind_cost N k c0 ops c xs H0 H).
  eapply Nat.le_trans; [apply (cbind_le _ _ 0); intros a _; cbn; lia|]. lia.
Qed.
Print Assumptions C66_joint_metrics.
Theorem C66_auto {T} (N : Num T) k lag w ops a x : auto_run N k lag w ops = Ok a ->
  snd (auto_push_c N a x) = auto_push N a x /\
  fst (auto_push_c N a x) <= match k with ACov => 100 | ACorr => 280 end.
Proof.
  intros H. split; [apply auto_push_erase|]. apply auto_run_core in H as (c0 & c & ops' & H0 & H & E). unfold auto_push_c. rewrite E.
  cbn [jm_core]. assert (B : forall y, fst (jpush_c N c [x; y]) <= match k with ACov => 100 | ACorr => 280 end).
  { intros y. pose proof (jkind_cost N _ c0 ops' c [x; y] H0 H) as B. destruct k; exact B. }
  destruct (_ =? _)%Z.
  - eapply Nat.le_trans; [apply (cbind_le _ _ 0); intros z _; cbn; lia|]. specialize (B x). lia.
  - match goal with |- fst (cbind ?m _) <= ?b => assert (G : fst m <= b) end.
    { destruct (_ >=? _)%Z; [|cbn; lia]. destruct (ring_get (a_queue a)) as [[y q]| | | |]; cbn [lift cbind fst]; try lia.
      match goal with |- fst (let (n, r) := ?m in _) <= _ => change (fst (let (n, r) := m in (0 + n, r)) <= match k with ACov => 100 | ACorr => 280 end); assert (G : fst m <= match k with ACov => 100 | ACorr => 280 end) end.
      { eapply Nat.le_trans; [apply (cbind_le _ _ 0); intros z _; cbn; lia|]. specialize (B y). lia. }
      destruct (cbind _ _). exact G. }
    eapply Nat.le_trans; [apply (cbind_le _ _ 0); intros [z q] _|lia].
    eapply Nat.le_trans; [apply (cbind_le _ _ 0); intros q2 _; cbn; lia|]. cbn. lia.
Qed.
Print Assumptions C66_auto.

(** The hypotheses are met, and the counts are not trivial: a full window of 15 distinct
    values (lg 15 = 4), whose smallest value leaves; the red-black tree takes 22 steps where
    the AVL tree takes 8. *)
Definition ccase : list (op f64) := pushes [0; 8; 4; 12; 2; 6; 10; 14; 1; 3; 5; 7; 9; 11; 13]%Z.
Example C63_case : pushes_nonnan (ccase ++ [OPush (fz 2)]) /\ evict_single 15 (ccase ++ [OPush (fz 2)]) /\
  Forall qopt_num [QImpl 1 []] /\ Forall qopt_valid [QImpl 1 []] /\
  length (live 15 (hist ccase)) = 15 /\ lg 15 = 4 /\
  rmap (fun q => fst (q_push_c q (fz 2))) (q_run env0 15 [QInterp 0] ccase) = Ok 8 /\
  rmap (fun q => fst (q_push_c q (fz 2))) (q_run env0 15 [QImpl 1 []] ccase) = Ok 22 /\
  rmap (fun q => fst (q_value_c env0 q (fdy 1 (-2)))) (q_run env0 15 [QImpl 1 []] ccase) = Ok 6.
Proof.
  split. { intros x Hx. cbn in Hx. repeat (destruct Hx as [[= <-]|Hx]; [reflexivity|]). destruct Hx. }
  split; [apply evict_singleb_ok; vm_compute; reflexivity|].
  split; [repeat constructor|]. split; [repeat constructor; cbn; lia|]. repeat split; vm_compute; reflexivity.
Qed.
Example C64_case : rmap (fun m => fst (hm_push_c m (fz 2))) (hm_run 5 ccase) = Ok 2 /\
  rmap (fun m => fst (hm_push_c m (fdy 13 (-1)))) (hm_run 0 ccase) = Ok 11.
Proof. split; vm_compute; reflexivity. Qed.
Example C65_case : fst (min_run_c 5 ccase) = 37 /\ fst (max_run_c 5 ccase) = 43 /\ length ccase = 15.
Proof. repeat split; vm_compute; reflexivity. Qed.
Example C66_case :
  rmap (fun m => fst (m_push_c FN m (fz 2))) (m_run FN (KKurt 5) ccase) = Ok 12 /\
  rmap (fun m => fst (m_push_c FN m (fz 2))) (m_run FN (KKurt 0) ccase) = Ok 6 /\
  rmap (fun m => fst (jm_push_c FN m [fz 2; fz 1])) (jm_run FN (JCorr 2) [OPush [fz 1; fz 2]; OPush [fz 1; fz 3]]) = Ok 152 /\
  rmap (fun a => fst (auto_push_c FN a (fz 1))) (auto_run FN ACov 2 3 ccase) = Ok 64.
Proof. repeat split; vm_compute; reflexivity. Qed.
