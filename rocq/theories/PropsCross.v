(** C67: Autocov and Autocorr are Cov and Corr of lagged pairs. C68: the statistics of one stream are in order.
    C69: inequalities between the moments. *)
From Coq Require Import Reals Lra Lia QArith.
From Flocq Require Import Core BinarySingleNaN.
From Verif Require Import Base F64 HistSpec OrderSpec RingModel MinMaxModel MinMaxProof QuantileModel QuantileSpec QuantileProof NumModel MomentModel MomentSpec RealLib
  MomentProof MetricProof JointModel JointSpec JointValue HeapModel HeapMedProof PropsMinMax PropsMoment PropsJoint PropsQuantile PropsQuantOrder PropsHeap PropsFloat PropsConst LawProof OrderLaw LagProof IneqProof.
Local Close Scope Q_scope.
Local Open Scope nat_scope.
Local Open Scope list_scope.

(** *** C67 *)
(** In any arithmetic, float64 with NaN and infinities included, and for every history of Push
    and Clear: the joint metric inside Autocov(lag, w) or Autocorr(lag, w) is in the state of
    Cov(w) or Corr(w) after the calls [lag_calls]: each value is pushed with the one pushed lag
    calls before it since the last Clear, as soon as there is one. If one run fails, so does the
    other, in the same way. Value is that of Cov or Corr, and an error as long as there is no pair. *)
Theorem C67_auto {T} (N : Num T) k lag w ops : let jk := match k with ACov => JCov w | ACorr => JCorr w end in
  rmap a_metric (auto_run N k (Z.of_nat lag) w ops) = jm_run N jk (lag_calls lag [] ops) /\
  (a <- auto_run N k (Z.of_nat lag) w ops ;; auto_value N a) =
  (m <- jm_run N jk (lag_calls lag [] ops) ;; match lagged lag (hist ops) with [] => Err ETooFew | _ => jm_value N m end).
Proof. split; [exact (auto_lag N k lag w ops)|exact (auto_lag_value N k lag w ops)]. Qed.
Print Assumptions C67_auto.
(** The values pushed by [lag_calls] since the last Clear are the pairs (x_t, x_(t-lag)). *)
Theorem C67_pairs {T} lag (ops : list (op T)) : hist (lag_calls lag [] ops) = map (fun p => [fst p; snd p]) (lagged lag (hist ops)).
Proof. exact (lag_calls_hist lag ops). Qed.
Print Assumptions C67_pairs.
Example C67_case : lag_calls 2 [] (pushes [1; 2; 3; 5]%Z ++ [OClear] ++ pushes [7; 8; 9]%Z) =
    [OPush [fz 3; fz 1]; OPush [fz 5; fz 2]; OClear; OPush [fz 9; fz 7]] /\
  rmap fbits (a <- auto_run FN ACov 2 0 (pushes [1; 2; 3; 5]%Z) ;; auto_value FN a) = Ok (fbits (fz 1)) /\
  rmap fbits (m <- jm_run FN (JCov 0) [OPush [fz 3; fz 1]; OPush [fz 5; fz 2]] ;; jm_value FN m) = Ok (fbits (fz 1)).
Proof. split; [reflexivity|]. split; concrete. Qed.

(** *** C68 *)
Lemma fle_nonnan x y : fle x y = true -> nonnan y.
Proof. destruct x, y; cbn; try discriminate; intros; reflexivity. Qed.
(** Min and Max enclose what lies between two of the values. *)
Lemma enclosed w ops r : (0 <= w)%Z -> pushes_nonnan ops -> hist ops <> [] ->
  (exists a, In a (live w (hist ops)) /\ fle a r = true) -> (exists c, In c (live w (hist ops)) /\ fle r c = true) -> nonnan r ->
  exists mn mx a c, min_run w ops = Ok mn /\ min_value mn = Ok a /\ max_run w ops = Ok mx /\ max_value mx = Ok c /\ fle a r = true /\ fle r c = true.
Proof.
  intros Hw Hp Hh (x & Hx & Lx) (y & Hy & Ly) Nr. pose proof (pushes_hist ops Hp) as Hn.
  destruct (min_value_correct w ops Hw Hn) as (mn & E1 & _ & M). destruct (M Hh) as (a & Ea & Ia & La).
  destruct (max_value_correct w ops Hw Hn) as (mx & E2 & _ & M'). destruct (M' Hh) as (c & Ec & Ic & Lc).
  exists mn, mx, a, c. do 4 (split; [assumption|]). specialize (La x Hx). specialize (Lc y Hy). unfold fge in Lc.
  pose proof (pushes_live w ops Hp) as Hl. rewrite Forall_forall in Hl. pose proof (Hl _ Hx). pose proof (Hl _ Hy). pose proof (Hl _ Ia). pose proof (Hl _ Ic).
  rewrite fle_key in Lx, Ly, La, Lc by assumption. rewrite !fle_key by assumption. apply Z.leb_le in Lx, Ly, La, Lc. split; apply Z.leb_le; lia.
Qed.
(** On one history of non-NaN values, for any window, storage (under the condition of C11, which
    AVL always meets) and quantile in (0,1): Quantile lies between Min and Max, in the modes lower,
    higher and nearest, and in mode midpoint if the values are at most 2^1022 in magnitude. In
    other cases it need not (C55_within_refuted), hence partial. *)
Theorem C68_quantile_partial e w os ops phi : (0 <= w)%Z -> Forall qopt_num os -> Forall qopt_valid os -> pushes_nonnan ops -> impl_cond (chosen_impl os) w ops ->
  nonnan phi -> in_range phi = true -> hist ops <> [] -> (zlen (live w (hist ops)) <= 2 ^ 53)%Z ->
  (chosen_interp os = 1 \/ chosen_interp os = 2 \/ chosen_interp os = 3)%Z \/
    (chosen_interp os = 4)%Z /\ (forall x, In x (live w (hist ops)) -> isfin x = true /\ (Rabs (B2R x) <= bpow radix2 1022)%R) ->
  exists q mn mx r a c, q_run e w os ops = Ok q /\ min_run w ops = Ok mn /\ max_run w ops = Ok mx /\
    q_value e q phi = Ok r /\ min_value mn = Ok a /\ max_value mx = Ok c /\ fle a r = true /\ fle r c = true.
Proof.
  intros Hw Hn Hv Hp Hi Np Hr Hh Hz Hm. assert (Hl : live w (hist ops) <> []) by (intros X; apply Hh; apply (live_empty w); assumption).
  destruct (C55_within_partial e w os ops phi Hw Hn Hv Hp Hi Np Hr Hl Hz Hm) as (q & r & E & Er & A & C).
  assert (Nr : nonnan r) by (destruct A as (a & _ & L); apply (fle_nonnan a); exact L).
  destruct (enclosed w ops r Hw Hp Hh A C Nr) as (mn & mx & a & c & E1 & E2 & E3 & E4 & L1 & L2). exists q, mn, mx, r, a, c. repeat split; assumption.
Qed.
Print Assumptions C68_quantile_partial.
(** Median likewise; without a window HeapMedian has the same value, Mean and EWMA lie between Min and Max too. *)
Theorem C68_centres_partial e w os d ops : (0 <= w)%Z -> Forall qopt_num os -> Forall qopt_valid os -> impl_cond (chosen_impl os) w ops ->
  flt (fz 0) d = true -> flt d (fz 1) = true -> (forall x, In (OPush x) ops -> moderate x) -> (zlen ops <= 2 ^ 53)%Z -> hist ops <> [] ->
  exists mn mx q a c r, min_run w ops = Ok mn /\ max_run w ops = Ok mx /\ median_run e w os ops = Ok q /\
    min_value mn = Ok a /\ max_value mx = Ok c /\ median_value e q = Ok r /\ fle a r = true /\ fle r c = true /\
    (w = 0%Z -> exists h m ew vh vm ve, hm_run 0 ops = Ok h /\ m_run FN (KMean 0) ops = Ok m /\ m_run FN (KEwma d) ops = Ok ew /\
       hm_value h = Ok vh /\ feq vh r = true /\ m_value FN m = Ok vm /\ fle a vm = true /\ fle vm c = true /\
       m_value FN ew = Ok ve /\ fle a ve = true /\ fle ve c = true).
Proof.
  intros Hw Hn Hv Hi Hd0 Hd1 Hmod Hlen Hh.
  assert (Hp : pushes_nonnan ops) by (intros x Hx; apply isfin_nonnan, Hmod, Hx).
  assert (Hl : live w (hist ops) <> []) by (intros X; apply Hh; apply (live_empty w); assumption).
  assert (Hz : (zlen (live w (hist ops)) <= 2 ^ 53)%Z) by (pose proof (live_le w ops Hw); pose proof (hist_len ops); unfold zlen in *; lia).
  assert (Hs : forall x, In x (live w (hist ops)) -> isfin x = true /\ (Rabs (B2R x) <= bpow radix2 1022)%R) by (intros x Hx; apply (hist_moderate ops Hmod); eapply live_incl; exact Hx).
  assert (Ec : (chosen_interp (os ++ [QInterp 4]) = 4)%Z) by (unfold chosen_interp; rewrite fold_left_app; reflexivity).
  assert (Ei : chosen_impl (os ++ [QInterp 4]) = chosen_impl os) by (unfold chosen_impl; rewrite fold_left_app; reflexivity).
  assert (Hn' : Forall qopt_num (os ++ [QInterp 4])) by (apply Forall_app; split; [exact Hn|repeat constructor]).
  assert (Hv' : Forall qopt_valid (os ++ [QInterp 4])) by (apply Forall_app; split; [exact Hv|constructor; [cbn; lia|constructor]]).
  destruct (C68_quantile_partial e w (os ++ [QInterp 4]) ops (fdy 1 (-1)) Hw Hn' Hv' Hp ltac:(rewrite Ei; exact Hi) ltac:(vm_compute; reflexivity) ltac:(vm_compute; reflexivity) Hh Hz (or_intror (conj Ec Hs)))
    as (q & mn & mx & r & a & c & E & E1 & E2 & Er & Ea & Ec' & L1 & L2).
  exists mn, mx, q, a, c, r. do 3 (split; [assumption|]). do 5 (split; [assumption|]). intros ->.
  destruct (C17_global_heap_median ops Hp) as (h & Eh & Hv2). destruct (C48_mean_within_partial ops Hmod Hlen) as (m & Em & Wm). destruct (Wm Hh) as (vm & Evm & Fm & x & y & Hx & Hy & Lx & Ly).
  destruct (C48_ewma_within_partial d ops Hd0 Hd1 Hmod Hlen) as (ew & Ew & We). destruct (We Hh) as (ve & Eve & Fe & x' & y' & Hx' & Hy' & Lx' & Ly').
  destruct (hist ops) as [|h0 hs] eqn:EH; [congruence|]. rewrite <- EH in *. destruct Hv2 as (vh & Evh & Mh).
  exists h, m, ew, vh, vm, ve. do 4 (split; [assumption|]).
  assert (G : forall v u t, nonnan v -> In u (hist ops) -> In t (hist ops) -> fle u v = true -> fle v t = true -> fle a v = true /\ fle v c = true).
  { intros v u t Nv Hu Ht Lu Lt. destruct (enclosed 0 ops v Hw Hp Hh ltac:(eauto) ltac:(eauto) Nv) as (mn' & mx' & a' & c' & F1 & F2 & F3 & F4 & L3 & L4).
    assert (mn' = mn) by congruence. assert (mx' = mx) by congruence. subst mn' mx'. assert (a' = a) by congruence. assert (c' = c) by congruence. subst a' c'. auto. }
  split.
  { destruct (median_correct e 0 os ops Hw Hn Hv Hp Hi) as (q' & E' & _ & M). destruct (M Hl Hz) as (r' & Er' & Mr).
    change (q_run e 0 (os ++ [QInterp 4]) ops = Ok q') in E'. change (q_value e q' (fdy 1 (-1)) = Ok r') in Er'.
    assert (q' = q) by congruence. subst q'. assert (r' = r) by congruence. subst r'.
    destruct (median_unique (hist ops) vh r (pushes_hist ops Hp) Mh Mr) as [H|[_ H]]; [exact H|]. pose proof (fle_nonnan _ _ L1) as N. unfold nonnan in N. congruence. }
  split; [exact Evm|]. destruct (G vm x y (isfin_nonnan _ Fm) Hx Hy Lx Ly) as [G1 G2]. split; [exact G1|]. split; [exact G2|].
  split; [exact Eve|]. apply (G ve x' y'); auto. apply isfin_nonnan, Fe.
Qed.
Print Assumptions C68_centres_partial.
Example C68_case : (* 1, 2, 6, 4: 1 <= Median = HeapMedian = 3 <= 6, Mean 13/4 *)
  rmap fbits (q <- median_run env0 0 [] (pushes [1; 2; 6; 4]%Z) ;; median_value env0 q) = Ok (fbits (fz 3)) /\
  rmap fbits (m <- hm_run 0 (pushes [1; 2; 6; 4]%Z) ;; hm_value m) = Ok (fbits (fz 3)) /\
  rmap fbits (m <- m_run FN (KMean 0) (pushes [1; 2; 6; 4]%Z) ;; m_value FN m) = Ok (fbits (fdy 13 (-2))) /\
  rmap fbits (m <- min_run 0 (pushes [1; 2; 6; 4]%Z) ;; min_value m) = Ok (fbits (fz 1)) /\
  rmap fbits (m <- max_run 0 (pushes [1; 2; 6; 4]%Z) ;; max_value m) = Ok (fbits (fz 6)).
Proof. repeat split; concrete. Qed.

(** *** C69 *)
(** In exact arithmetic, for any bounds m and M of the values covered: Mean is between them; the
    square of Std is the second Moment and at most n/(n-1) (M - Mean)(Mean - m); excess kurtosis
    is at most n - 3 and at least -2 plus the square of the skewness without its adjustment. *)
Theorem C69_moments w ops m M : (0 <= w)%Z -> let l := live w (hist ops) in (forall x, In x l -> m <= x <= M)%R ->
  let n := rlen l in forall mu, mval (KMean w) ops = Ok (Fin mu) -> (m <= mu <= M)%R /\
  (forall s, mval (KStd w) ops = Ok (Fin s) -> (0 <= s)%R /\ (s * s * (n - 1) <= n * ((M - mu) * (mu - m)))%R /\ mval (KMoment 2 w) ops = Ok (Fin (s * s)%R)) /\
  (forall g k, mval (KSkew w) ops = Ok (Fin g) -> mval (KKurt w) ops = Ok (Fin k) ->
     (g ^ 2 * ((n - 2) ^ 2 / (n * (n - 1))) <= k + 2)%R /\ (k <= n - 3)%R).
Proof.
  intros Hw l Hb n mu Hmu. destruct (C20_moment_metrics w ops Hw) as (A1 & A2 & A3 & A4 & A5). fold l in A1, A2, A3, A4, A5.
  rewrite A1 in Hmu. assert (Hl : l <> []) by (intros E; rewrite E in Hmu; discriminate).
  assert (Em : mu = rmean l) by (unfold mean_of in Hmu; destruct l; [discriminate|]; congruence). subst mu.
  split; [apply mean_between; assumption|]. split.
  - intros s Hs. rewrite A3 in Hs. assert (H2 : exists a b l', l = a :: b :: l') by (destruct l as [|a [|b l']]; try discriminate; eauto).
    assert (Es : s = sqrt (sample_moment 2 l)) by (destruct H2 as (a & b & l' & E); rewrite E in *; cbn in Hs; congruence).
    assert (Hn : (2 <= n)%R) by (destruct H2 as (a & b & l' & E); unfold n, rlen, zlen; rewrite E; cbn [length]; apply IZR_le; lia).
    assert (Hc2 : (0 <= csum 2 l)%R) by (unfold csum; apply rsum_nonneg; intros; apply pow2_ge_0).
    assert (Hsm : (0 <= sample_moment 2 l)%R) by (unfold sample_moment; fold n; apply Rmult_le_pos; [exact Hc2|left; apply Rinv_0_lt_compat; lra]).
    assert (Hss : (s * s = sample_moment 2 l)%R) by (rewrite Es; apply sqrt_sqrt; exact Hsm).
    split; [rewrite Es; apply sqrt_pos|]. split.
    + rewrite Hss. unfold sample_moment. fold n. replace (csum 2 l / (n - 1) * (n - 1))%R with (csum 2 l) by (field; lra). apply bhatia_davis; assumption.
    + rewrite (A2 2%Z) by lia. rewrite Hss. destruct H2 as (a & b & l' & E). rewrite E. reflexivity.
  - intros g k Hg Hk. rewrite A4 in Hg. rewrite A5 in Hk.
    assert (H3 : exists a b c l', l = a :: b :: c :: l') by (destruct l as [|a [|b [|c l']]]; try discriminate; eauto).
    assert (Hg' : (if is0 (csum 2 l) then XNaN else Fin (skewness l)) = Fin g) by (destruct H3 as (a & b & c & l' & E); rewrite E in *; cbn [skew_of] in Hg; congruence).
    assert (Hk' : (if is0 (csum 2 l) then XNaN else Fin (kurtosis l)) = Fin k) by (destruct H3 as (a & b & c & l' & E); rewrite E in *; cbn [kurt_of] in Hk; congruence).
    unfold is0 in *. destruct (Req_EM_T (csum 2 l) 0) as [E0|E0]; [discriminate|]. injection Hg' as <-. injection Hk' as <-.
    apply kurtosis_bounds; [|exact E0]. destruct H3 as (a & b & c & l' & E). rewrite E. cbn. lia.
Qed.
Print Assumptions C69_moments.
(** The exponentially weighted metrics *)
Theorem C69_ewm d ops m M : (0 < d < 1)%R -> (forall x, In x (hist ops) -> m <= x <= M)%R ->
  forall mu, mval (KEwma (Fin d)) ops = Ok (Fin mu) -> (m <= mu <= M)%R /\
  exists s, mval (KEwmStd (Fin d)) ops = Ok (Fin s) /\ (0 <= s)%R /\ (s * s <= (M - mu) * (mu - m))%R /\ mval (KEwmMoment 2 (Fin d)) ops = Ok (Fin (s * s)%R).
Proof.
  intros Hd Hb mu Hmu. destruct (C21_ewm d ops Hd) as (A1 & A2 & A3). set (l := hist ops) in *.
  rewrite A1 in Hmu. assert (Hl : l <> []) by (intros E; rewrite E in Hmu; discriminate).
  assert (Em : mu = ewma d l) by (unfold ewma_of in Hmu; destruct l; [discriminate|]; congruence). subst mu.
  split; [apply ewma_between; assumption|]. exists (sqrt (ewmoment d 2 l)).
  assert (Hnn : (0 <= ewmoment d 2 l)%R) by (apply ewmoment2_nonneg; lra).
  split; [rewrite A3; unfold ewmstd_of; destruct l; [congruence|reflexivity]|]. split; [apply sqrt_pos|]. rewrite sqrt_sqrt by exact Hnn.
  split; [apply ew_bhatia_davis; assumption|]. rewrite (A2 2%Z) by lia. unfold ewmoment_of. destruct l; [congruence|reflexivity].
Qed.
Print Assumptions C69_ewm.
(** Cov of (x, x) is the variance, Corr of (x, x) is 1; both are symmetric; Autocov and Autocorr with lag 0 are these. *)
Theorem C69_joint w ops pops : (0 <= w)%Z -> let dup := map_ops (fun x : R => (x, x)) in let swap := map_ops (fun p : R * R => (snd p, fst p)) in
  jmval (JCov w) (dup ops) = mval (KMoment 2 w) ops /\
  (forall r, jmval (JCorr w) (dup ops) = Ok (Fin r) -> r = 1%R) /\
  (hist ops <> [] -> aval ACov 0 w ops = mval (KMoment 2 w) ops) /\
  (forall r, aval ACorr 0 w ops = Ok (Fin r) -> r = 1%R) /\
  jmval (JCov w) (swap pops) = jmval (JCov w) pops /\ jmval (JCorr w) (swap pops) = jmval (JCorr w) pops.
Proof.
  intros Hw dup swap. destruct (C20_moment_metrics w ops Hw) as (_ & A2 & _). specialize (A2 2%Z ltac:(lia)).
  assert (Hcov : forall l, cov_of (map (fun x : R => (x, x)) l) = moment_of 2 l).
  { intros [|a [|b l]]; try reflexivity. unfold moment_of. cbn [map cov_of]. change ((a, a) :: (b, b) :: map (fun x : R => (x, x)) l) with (map (fun x : R => (x, x)) (a :: b :: l)).
    unfold sample_cov, sample_moment, rlen, zlen. rewrite sxy_dup, map_length. reflexivity. }
  assert (Hcorr : forall l r, corr_of (map (fun x : R => (x, x)) l) = Ok (Fin r) -> r = 1%R).
  { intros l r H. unfold corr_of in H. destruct (map (fun x : R => (x, x)) l) eqn:E; [discriminate|]. rewrite <- E in H. clear E. rewrite dup_fst, dup_snd in H.
    unfold is0 in H. destruct (Req_EM_T _ 0) as [E|E]; [discriminate|]. injection H as <-. unfold pearson. rewrite sxy_dup, dup_fst, dup_snd.
    assert (Hc2 : (0 <= csum 2 l)%R) by (unfold csum; apply rsum_nonneg; intros; apply pow2_ge_0). rewrite sqrt_square by exact Hc2. field. nra. }
  assert (Hlag : forall h : list R, lagged 0 h = map (fun x => (x, x)) h).
  { intros h. unfold lagged. cbn [skipn]. induction h as [|x h IH]; [reflexivity|]. cbn [combine map]. rewrite IH. reflexivity. }
  destruct (C28_cov_corr w (dup ops) Hw) as (B1 & B2 & _). destruct (C28_cov_corr w pops Hw) as (D1 & D2 & _). destruct (C28_cov_corr w (swap pops) Hw) as (F1 & F2 & _).
  destruct (C30_auto 0 w ops Hw) as [G1 G2]. cbn [Z.of_nat] in G1, G2. rewrite Hlag in G1, G2.
  unfold dup, swap in *. rewrite live_map_ops in B1, B2. rewrite live_map_ops in F1, F2.
  split; [rewrite B1, A2; apply Hcov|]. split; [intros r; rewrite B2; apply Hcorr|]. split.
  { intros Hne. rewrite G1, A2. destruct (map (fun x : R => (x, x)) (hist ops)) eqn:E; [destruct (hist ops); [congruence|discriminate]|]. rewrite <- E, live_map. apply Hcov. }
  split.
  { intros r. rewrite G2. destruct (map (fun x : R => (x, x)) (hist ops)) eqn:E; [discriminate|]. rewrite <- E, live_map. apply Hcorr. }
  rewrite F1, F2, D1, D2. set (l := live w (hist pops)).
  assert (E1 : map fst (map (fun p : R * R => (snd p, fst p)) l) = map snd l) by (rewrite map_map; reflexivity).
  assert (E2 : map snd (map (fun p : R * R => (snd p, fst p)) l) = map fst l) by (rewrite map_map; reflexivity).
  assert (E3 : sample_cov (map (fun p : R * R => (snd p, fst p)) l) = sample_cov l) by (unfold sample_cov, zlen; rewrite sxy_swap, map_length; reflexivity).
  assert (E4 : pearson (map (fun p : R * R => (snd p, fst p)) l) = pearson l) by (unfold pearson; rewrite sxy_swap, E1, E2, Rmult_comm; reflexivity).
  split.
  - destruct l as [|p [|q l']]; try reflexivity. cbn [map cov_of] in *. rewrite E3. reflexivity.
  - unfold corr_of. destruct l as [|p l']; [reflexivity|]. rewrite E1, E2, E4, Rmult_comm. reflexivity.
Qed.
Print Assumptions C69_joint.
Example C69_case : (* 1, 2, 6: mean 3, variance 7, kurtosis -3/2 >= -2 + skewness^2/6 *)
  (m <- m_run QN (KMean 3) (NumRel.qops (qpush [9; 1; 2; 6]%Z)) ;; m_value QN m) = Ok (Some (3 # 1)%Q) /\
  (m <- m_run QN (KMoment 2 3) (NumRel.qops (qpush [9; 1; 2; 6]%Z)) ;; m_value QN m) = Ok (Some (7 # 1)%Q) /\
  (m <- m_run QN (KKurt 3) (NumRel.qops (qpush [9; 1; 2; 6]%Z)) ;; m_value QN m) = Ok (Some (-3 # 2)%Q).
Proof. repeat split; vm_compute; reflexivity. Qed.
