(** A stream of one repeated value, in float64 arithmetic: C61. *)
From Coq Require Import Reals Lra.
From Flocq Require Import Core BinarySingleNaN.
From Verif Require Import Base F64 FloatR MathModel HistSpec RingModel NumModel MomentModel MetricProof CoreInv PowFloat ConstProof.
Local Open Scope nat_scope.

(** Every value pushed is x. *)
Definition constant (x : f64) (ops : list (op f64)) : Prop := forall y, In (OPush y) ops -> y = x.
(** x is finite, and its k-th power at most 2^900. *)
Definition small_power (x : f64) (k : Z) : Prop := isfin x = true /\ exists E, (0 <= E)%Z /\ (E * k <= 900)%Z /\ (Rabs (B2R x) <= bpow radix2 E)%R.

Lemma decay_real d : flt (fz 0) d = true -> flt d (fz 1) = true -> is_finite d = true /\ (0 < B2R d < 1)%R.
Proof.
  intros Hd0 Hd1. assert (Fd : is_finite d = true) by (destruct d as [?|[|]| |? ? ? ?]; try reflexivity; discriminate). split; [exact Fd|].
  destruct (fz_exact 0 ltac:(lia)) as [F0 E0']. destruct (fz_exact 1 ltac:(lia)) as [F1 E1].
  apply flt_R in Hd0; [|exact F0|exact Fd]. apply flt_R in Hd1; [|exact Fd|exact F1]. rewrite E0' in Hd0. rewrite E1 in Hd1. lra.
Qed.
Lemma decay_valid d : flt (fz 0) d = true -> flt d (fz 1) = true -> fle d (fz 0) = false /\ fle (fz 1) d = false.
Proof.
  intros H0 H1. destruct (decay_real d H0 H1) as [Fd Hd]. destruct (fz_exact 0 ltac:(lia)) as [F0 E0']. destruct (fz_exact 1 ltac:(lia)) as [F1 E1].
  split; [destruct (fle d (fz 0)) eqn:H; [apply fle_R in H; [lra|exact Fd|exact F0]|reflexivity]|].
  destruct (fle (fz 1) d) eqn:H; [apply fle_R in H; [lra|exact F1|exact Fd]|reflexivity].
Qed.
(** The core of a metric after a history of one value. *)
Lemma const_metric x k ops K w : isfin x = true -> constant x ops -> (zlen ops <= 2 ^ 40)%Z -> cf_window (kconfig k) = Some w -> cfg_valid FN (kconfig k) ->
  (forall d, cf_decay (kconfig k) = Some d -> flt (fz 0) d = true /\ flt d (fz 1) = true) ->
  max_sum (sums_of (kconfig k)) = K -> (K <= 20)%Z -> (K <= 1)%Z \/ small_power x K ->
  exists c, m_run FN k ops = Ok (mkM k (Some c)) /\ cinv x (Z.to_nat (K + 1)) (length (hist ops)) (match cf_decay (kconfig k) with None => live w (hist ops) | _ => hist ops end) c.
Proof.
  intros Fx Hc Hlen Hw Hv HD HK HK20 HE. rewrite m_run_eq. destruct (proj1 (new_core_spec FN (kconfig k)) Hv) as (w' & Ew & En). assert (w' = w) by congruence. subst w'.
  rewrite En, HK. cbn [bind].
  assert (HE' : exists E, (0 <= E)%Z /\ forall j, 2 <= j < Z.to_nat (K + 1) -> (E * Z.of_nat j <= 900)%Z /\ upto E x).
  { destruct HE as [HE|(_ & E & H0 & H1 & H2)].
    - exists 0%Z. split; [lia|]. intros j Hj. lia.
    - exists E. split; [exact H0|]. intros j Hj. split; [|split; assumption]. pose proof (Z.mul_le_mono_nonneg_l (Z.of_nat j) K E H0 ltac:(lia)). lia. }
  destruct HE' as (E & HE0 & HEk). destruct Hv as [(w' & Ew' & Hw0 & Hd) _]. assert (w' = w) by congruence. subst w'.
  unfold zlen in Hlen. destruct (cf_decay (kconfig k)) as [d|] eqn:Ed.
  - destruct (Hd d eq_refl) as (_ & _ & ->). destruct (decay_real d (proj1 (HD d eq_refl)) (proj2 (HD d eq_refl))) as [Fd Rd].
    destruct (decay_run x (Z.to_nat (K + 1)) E (length ops) Fx ltac:(lia) HE0 HEk Hlen d ops Fd Rd Hc (le_n _)) as (c & Ec & I & _).
    exists c. change (core_run FN (fresh_core FN (Z.to_nat (K + 1)) 0 (Some d)) ops = Ok c) in Ec. rewrite Ec. split; [reflexivity|exact I].
  - destruct (const_run x (Z.to_nat (K + 1)) E (length ops) Fx ltac:(lia) HE0 HEk Hlen w ops Hw0 Hc (le_n _)) as (c & Ec & I).
    exists c. change (core_run FN (fresh_core FN (Z.to_nat (K + 1)) w None) ops = Ok c) in Ec. rewrite Ec. split; [reflexivity|exact I].
Qed.
Lemma max1 k : (1 <= k)%Z -> max_sum [k] = k.
Proof. intros H. apply max_sum_is; [left; reflexivity|intros j [->|[]]; lia|lia]. Qed.
Lemma nil_zlen {A} (l : list A) : l <> [] -> zlen l <> 0%Z.
Proof. intros H E. destruct l; [congruence|]. unfold zlen in E. cbn [length] in E. lia. Qed.
Lemma cinv_mean x L n l c : isfin x = true -> cinv x L n l c -> l <> [] -> exists v, c_get_mean c = Ok v /\ feq v x = true.
Proof.
  intros Fx (_ & Hc & _ & _ & Fm & Em) Hl. exists (c_mean c). unfold c_get_mean. rewrite Hc. destruct (Z.eqb_spec (zlen l) 0) as [E|_]; [destruct (nil_zlen l Hl E)|].
  split; [reflexivity|]. apply feq_R; [exact Fm|exact Fx|]. destruct l; [congruence|exact Em].
Qed.
Lemma cinv_sum x L n l c k : cinv x L n l c -> l <> [] -> (1 <= k < Z.of_nat L)%Z -> exists v, c_get_sum c k = Ok v /\ zero v.
Proof.
  intros (HL & Hc & _ & Hz & _) Hl Hk. exists (c_sums c (Z.to_nat k)). unfold c_get_sum. rewrite Hc, HL. destruct (Z.eqb_spec (zlen l) 0) as [E|_]; [destruct (nil_zlen l Hl E)|].
  destruct (Z.leb_spec k 0); [lia|]. rewrite Z.geb_leb. destruct (Z.leb_spec (Z.of_nat L) k); [lia|]. cbn [orb]. split; [reflexivity|apply Hz].
Qed.
Lemma cinv_moment x L n l c k : cinv x L n l c -> 2 <= length l -> (length l <= n)%nat -> (Z.of_nat n <= 2 ^ 40)%Z -> (1 <= k < Z.of_nat L)%Z -> exists v, moment_value FN c k = Ok v /\ zero v.
Proof.
  intros I Hl Hn Hn40 Hk. assert (Hl' : l <> []) by (destruct l; [cbn in Hl; lia|discriminate]). destruct (cinv_sum x L n l c k I Hl' Hk) as (s & Es & Zs).
  unfold moment_value. rewrite Es. cbn [bind ndiv nsub nz FN]. eexists. split; [reflexivity|]. apply zdiv; [exact Zs|]. destruct I as (_ & Hc & _). unfold c_get_count. rewrite Hc.
  destruct (FloatErr.sub1_real 0 (zlen l) ltac:(unfold zlen; lia)) as [_ H]. rewrite H. apply IZR_neq. unfold zlen. lia.
Qed.
Lemma zero_eq v : zero v -> feq v (fz 0) = true.
Proof. intros [F E]. destruct z0 as [F0 E0']. apply feq_R; [exact F|exact F0|]. rewrite E, E0'. reflexivity. Qed.
Lemma zero_is v : zero v -> exists s, v = B754_zero s.
Proof.
  intros [F E]. destruct v as [s|s| |s m e p]; [exists s; reflexivity|discriminate F|discriminate F|]. exfalso. revert E. cbn [B2R].
  unfold F2R. cbn [Fnum Fexp]. intros E. apply Rmult_integral in E. destruct E as [E|E]; [|pose proof (bpow_gt_0 radix2 e); lra]. apply eq_IZR in E. destruct s; discriminate E.
Qed.
Lemma sqrt_zero v : zero v -> zero (fsqrt v).
Proof. intros Z. destruct (zero_is v Z) as [s ->]. split; reflexivity. Qed.
Lemma live_le w (ops : list (op f64)) : (0 <= w)%Z -> length (live w (hist ops)) <= length (hist ops).
Proof. intros Hw. unfold live. destruct (w =? 0)%Z; [lia|]. unfold lastn. rewrite skipn_length. lia. Qed.
Lemma hist_len (ops : list (op f64)) : length (hist ops) <= length ops.
Proof.
  induction ops as [|o ops IH] using rev_ind; [apply le_n|]. rewrite app_length. cbn [length]. destruct o as [x|]; [rewrite hist_push, app_length; cbn [length]; lia|rewrite hist_clear; cbn; lia].
Qed.

(** ** C61 *)
(** Mean: after any history of up to 2^40 operations that pushes only the finite value x, with
    any window, and for EWMA with any decay in (0, 1), the value reported is x. *)
Theorem C61_mean x w ops : isfin x = true -> (0 <= w)%Z -> constant x ops -> (zlen ops <= 2 ^ 40)%Z ->
  exists m, m_run FN (KMean w) ops = Ok m /\ (live w (hist ops) <> [] -> exists v, m_value FN m = Ok v /\ feq v x = true).
Proof.
  intros Fx Hw Hc Hlen. destruct (const_metric x (KMean w) ops (-1) w Fx Hc Hlen eq_refl) as (c & Ec & I); try reflexivity; try lia; try discriminate.
  { split; [|intros k []]. exists w. split; [reflexivity|]. split; [exact Hw|discriminate]. }
  exists (mkM (KMean w) (Some c)). split; [exact Ec|]. intros Hl. apply (cinv_mean x _ _ _ c Fx I). exact Hl.
Qed.
Print Assumptions C61_mean.
Theorem C61_ewma x d ops : isfin x = true -> flt (fz 0) d = true -> flt d (fz 1) = true -> constant x ops -> (zlen ops <= 2 ^ 40)%Z ->
  exists m, m_run FN (KEwma d) ops = Ok m /\ (hist ops <> [] -> exists v, m_value FN m = Ok v /\ feq v x = true).
Proof.
  intros Fx H0 H1 Hc Hlen. destruct (const_metric x (KEwma d) ops (-1) 0 Fx Hc Hlen eq_refl) as (c & Ec & I); try reflexivity; try lia.
  { split; [|intros k []]. exists 0%Z. split; [reflexivity|]. split; [lia|]. intros d' E. injection E as <-. destruct (decay_valid d H0 H1). auto. }
  { intros d' E. injection E as <-. auto. }
  exists (mkM (KEwma d) (Some c)). split; [exact Ec|]. intros Hl. apply (cinv_mean x _ _ _ c Fx I). exact Hl.
Qed.
Print Assumptions C61_ewma.

(** Moment(k), 1 <= k <= 20, and Std: zero, if |x|^k is at most 2^900 and two values are live. *)
Theorem C61_moment_partial x k w ops : (1 <= k <= 20)%Z -> small_power x k -> (0 <= w)%Z -> constant x ops -> (zlen ops <= 2 ^ 40)%Z ->
  exists m, m_run FN (KMoment k w) ops = Ok m /\ (2 <= length (live w (hist ops)) -> exists v, m_value FN m = Ok v /\ feq v (fz 0) = true).
Proof.
  intros Hk Hp Hw Hc Hlen. destruct (const_metric x (KMoment k w) ops k w (proj1 Hp) Hc Hlen eq_refl) as (c & Ec & I); try lia; try discriminate; auto.
  { split; [|intros j [<-|[]]; lia]. exists w. split; [reflexivity|]. split; [exact Hw|discriminate]. }
  { apply max1. lia. }
  exists (mkM (KMoment k w) (Some c)). split; [exact Ec|]. intros Hl. pose proof (live_le w ops Hw). pose proof (hist_len ops). unfold zlen in Hlen.
  destruct (cinv_moment x _ _ _ c k I Hl ltac:(cbn; lia) ltac:(lia) ltac:(lia)) as (v & Ev & Zv). exists v. split; [exact Ev|apply zero_eq; exact Zv].
Qed.
Print Assumptions C61_moment_partial.
Theorem C61_std_partial x w ops : small_power x 2 -> (0 <= w)%Z -> constant x ops -> (zlen ops <= 2 ^ 40)%Z ->
  exists m, m_run FN (KStd w) ops = Ok m /\ (2 <= length (live w (hist ops)) -> exists v, m_value FN m = Ok v /\ feq v (fz 0) = true).
Proof.
  intros Hp Hw Hc Hlen. destruct (const_metric x (KStd w) ops 2 w (proj1 Hp) Hc Hlen eq_refl) as (c & Ec & I); try lia; try discriminate; auto.
  { split; [|intros j [<-|[]]; lia]. exists w. split; [reflexivity|]. split; [exact Hw|discriminate]. }
  exists (mkM (KStd w) (Some c)). split; [exact Ec|]. intros Hl. pose proof (live_le w ops Hw). pose proof (hist_len ops). unfold zlen in Hlen.
  destruct (cinv_moment x _ _ _ c 2 I Hl ltac:(cbn; lia) ltac:(lia) ltac:(lia)) as (v & Ev & Zv). exists (fsqrt v). split; [|apply zero_eq, sqrt_zero; exact Zv].
  unfold m_value. cbn [m_core m_kind kvalue]. rewrite Ev. reflexivity.
Qed.
Print Assumptions C61_std_partial.
(** EWMMoment(k) and EWMStd: zero, from the first value on. *)
Theorem C61_ewm_moment_partial x k d ops : (1 <= k <= 20)%Z -> small_power x k -> flt (fz 0) d = true -> flt d (fz 1) = true -> constant x ops -> (zlen ops <= 2 ^ 40)%Z ->
  exists m, m_run FN (KEwmMoment k d) ops = Ok m /\ (hist ops <> [] -> exists v, m_value FN m = Ok v /\ feq v (fz 0) = true).
Proof.
  intros Hk Hp H0 H1 Hc Hlen. destruct (const_metric x (KEwmMoment k d) ops k 0 (proj1 Hp) Hc Hlen eq_refl) as (c & Ec & I); try lia; auto.
  { split; [|intros j [<-|[]]; lia]. exists 0%Z. split; [reflexivity|]. split; [lia|]. intros d' E. injection E as <-. destruct (decay_valid d H0 H1). auto. }
  { intros d' E. injection E as <-. auto. }
  { apply max1. lia. }
  exists (mkM (KEwmMoment k d) (Some c)). split; [exact Ec|]. intros Hl. destruct (cinv_sum x _ _ _ c k I Hl ltac:(lia)) as (v & Ev & Zv). exists v. split; [exact Ev|apply zero_eq; exact Zv].
Qed.
Print Assumptions C61_ewm_moment_partial.
Theorem C61_ewm_std_partial x d ops : small_power x 2 -> flt (fz 0) d = true -> flt d (fz 1) = true -> constant x ops -> (zlen ops <= 2 ^ 40)%Z ->
  exists m, m_run FN (KEwmStd d) ops = Ok m /\ (hist ops <> [] -> exists v, m_value FN m = Ok v /\ feq v (fz 0) = true).
Proof.
  intros Hp H0 H1 Hc Hlen. destruct (const_metric x (KEwmStd d) ops 2 0 (proj1 Hp) Hc Hlen eq_refl) as (c & Ec & I); try lia; auto.
  { split; [|intros j [<-|[]]; lia]. exists 0%Z. split; [reflexivity|]. split; [lia|]. intros d' E. injection E as <-. destruct (decay_valid d H0 H1). auto. }
  { intros d' E. injection E as <-. auto. }
  exists (mkM (KEwmStd d) (Some c)). split; [exact Ec|]. intros Hl. destruct (cinv_sum x _ _ _ c 2 I Hl ltac:(lia)) as (v & Ev & Zv). exists (fsqrt v). split; [|apply zero_eq, sqrt_zero; exact Zv].
  unfold m_value. cbn [m_core m_kind kvalue]. rewrite Ev. reflexivity.
Qed.
Print Assumptions C61_ewm_std_partial.
(** Skewness and Kurtosis, which divide by the variance: NaN. *)
Lemma div_zeros a b : zero a \/ a = fnan -> zero b -> fdiv a b = fnan.
Proof. intros Ha Hb. destruct (zero_is b Hb) as [s ->]. destruct Ha as [Ha| ->]; [destruct (zero_is a Ha) as [t ->]|]; reflexivity. Qed.
Lemma mul_zero_r a b : zero b -> zero (fmul a b) \/ fmul a b = fnan.
Proof. intros Hb. destruct (zero_is b Hb) as [s ->]. destruct a as [t|t| |t m e p]; [left|right|right|left]; try reflexivity; split; reflexivity. Qed.
Lemma ratio_fin n : (2 <= n <= 2 ^ 40)%Z -> is_finite (fdiv (fsub (fz n) (fz 1)) (fz n)) = true.
Proof.
  intros Hn. destruct (FloatErr.sub1_real 0 n ltac:(lia)) as [Fa Ea]. destruct (fz_exact n ltac:(lia)) as [Fn En].
  destruct (div_upto 41 (fsub (fz n) (fz 1)) (fz n) ltac:(lia)) as [F _]; [apply (real_upto _ (n - 1)); [lia|exact Fa|exact Ea]|rewrite En; apply IZR_le; lia|exact F].
Qed.
Theorem C61_skewness_kurtosis_nan x w ops : (0 <= w)%Z -> constant x ops -> (zlen ops <= 2 ^ 40)%Z -> 2 <= length (live w (hist ops)) ->
  (small_power x 3 -> exists m, m_run FN (KSkew w) ops = Ok m /\ exists v, m_value FN m = Ok v /\ isnan v = true) /\
  (small_power x 4 -> exists m, m_run FN (KKurt w) ops = Ok m /\ exists v, m_value FN m = Ok v /\ isnan v = true).
Proof.
  intros Hw Hc Hlen Hl. pose proof (live_le w ops Hw) as H1. pose proof (hist_len ops) as H2. assert (Hlen' : (Z.of_nat (length (hist ops)) <= 2 ^ 40)%Z) by (unfold zlen in Hlen; lia). split; intros Hp.
  - destruct (const_metric x (KSkew w) ops 3 w (proj1 Hp) Hc Hlen eq_refl) as (c & Ec & I); try lia; try discriminate; auto.
    { split; [|intros j [<-|[<-|[]]]; lia]. exists w. split; [reflexivity|]. split; [exact Hw|discriminate]. }
    exists (mkM (KSkew w) (Some c)). split; [exact Ec|]. destruct (cinv_moment x _ _ _ c 2 I Hl H1 Hlen' ltac:(lia)) as (v & Ev & Zv). destruct (cinv_moment x _ _ _ c 3 I Hl H1 Hlen' ltac:(lia)) as (m & Em & Zm).
    unfold m_value. cbn [m_core m_kind kvalue]. rewrite Ev, Em. cbn [bind]. destruct I as (_ & HC & _). cbn [kconfig cf_decay] in HC. unfold c_get_count. rewrite HC. destruct (Z.eqb_spec (zlen (live w (hist ops))) 0) as [Z|_]; [unfold zlen in Z; lia|].
    eexists. split; [reflexivity|]. cbn [nmul ndiv nsub nadd nz nsqrt npow32 FN]. pose proof (ratio_fin (zlen (live w (hist ops))) ltac:(unfold zlen; lia)) as Fr.
    rewrite div_zeros; [reflexivity| |].
    + apply mul_zero_r. apply zmul_l; [exact Zm|exact Fr].
    + unfold fpow32. pose proof (zmul_l _ _ Zv Fr) as Z'. apply zmul_l; [exact Z'|]. apply sqrt_zero. exact Z'.
  - destruct (const_metric x (KKurt w) ops 4 w (proj1 Hp) Hc Hlen eq_refl) as (c & Ec & I); try lia; try discriminate; auto.
    { split; [|intros j [<-|[<-|[]]]; lia]. exists w. split; [reflexivity|]. split; [exact Hw|discriminate]. }
    exists (mkM (KKurt w) (Some c)). split; [exact Ec|]. destruct (cinv_moment x _ _ _ c 2 I Hl H1 Hlen' ltac:(lia)) as (v & Ev & Zv). destruct (cinv_moment x _ _ _ c 4 I Hl H1 Hlen' ltac:(lia)) as (m & Em & Zm).
    unfold m_value. cbn [m_core m_kind kvalue]. rewrite Ev, Em. cbn [bind]. destruct I as (_ & HC & _). cbn [kconfig cf_decay] in HC. unfold c_get_count. rewrite HC. destruct (Z.eqb_spec (zlen (live w (hist ops))) 0) as [Z|_]; [unfold zlen in Z; lia|].
    eexists. split; [reflexivity|]. cbn [nmul ndiv nsub nadd nz nsqrt npow FN]. pose proof (ratio_fin (zlen (live w (hist ops))) ltac:(unfold zlen; lia)) as Fr.
    rewrite div_zeros; [reflexivity|left; apply zmul_l; [exact Zm|exact Fr]|]. apply pow_zero; [lia|]. apply zmul_l; [exact Zv|exact Fr].
Qed.
Print Assumptions C61_skewness_kurtosis_nan.

(** Without the bound on |x|^k the claim is false: two pushes of 2^600 give a Std of NaN, though
    their mean is reported exactly. *)
Theorem C61_std_refuted : exists x m v, isfin x = true /\ m_run FN (KStd 0) (map OPush [x; x]) = Ok m /\ m_value FN m = Ok v /\ isnan v = true.
Proof.
  exists (fdy 1 600). assert (D : rmap isnan (m <- m_run FN (KStd 0) (map OPush [fdy 1 600; fdy 1 600]) ;; m_value FN m) = Ok true) by concrete.
  apply rmap_ok in D. destruct D as (v & D & Hv). apply bind_ok in D. destruct D as (m & D1 & D2). exists m, v. split; [apply (fdy_exact 1 600); lia|]. auto.
Qed.
Print Assumptions C61_std_refuted.
(** 0.1 repeated, in a window of 3 and with a Clear: mean 0.1, Std 0, Skewness NaN; the hypotheses hold. *)
Example C61_case : let x := fdy 3602879701896397 (-55) in let ops := [OPush x; OClear; OPush x; OPush x; OPush x; OPush x; OPush x] in
  rmap (fun v => feq v x) (m <- m_run FN (KMean 3) ops ;; m_value FN m) = Ok true /\
  rmap (fun v => feq v (fz 0)) (m <- m_run FN (KStd 3) ops ;; m_value FN m) = Ok true /\
  rmap isnan (m <- m_run FN (KSkew 3) ops ;; m_value FN m) = Ok true /\
  rmap (fun v => feq v (fz 0)) (m <- m_run FN (KEwmMoment 5 (fdy 1 (-2))) ops ;; m_value FN m) = Ok true /\
  constant x ops /\ small_power x 20 /\ length (live 3 (hist ops)) = 3.
Proof.
  cbv zeta. do 4 (split; [concrete|]). split; [intros y [H|[H|[H|[H|[H|[H|[H|[]]]]]]]]; congruence|]. split; [|reflexivity].
  destruct (fdy_exact 3602879701896397 (-55) ltac:(lia) ltac:(lia)) as (F & E & _). split; [exact F|]. exists 0%Z. split; [lia|]. split; [lia|].
  rewrite E. unfold F2R. cbn [Fnum Fexp]. rewrite Rabs_mult, !Rabs_pos_eq by (try apply bpow_ge_0; lra).
  apply Rle_trans with (bpow radix2 53 * bpow radix2 (-55))%R; [apply Rmult_le_compat_r; [apply bpow_ge_0|]; change (bpow radix2 53) with 9007199254740992%R; lra|].
  rewrite <- bpow_plus. apply bpow_le. lia.
Qed.
