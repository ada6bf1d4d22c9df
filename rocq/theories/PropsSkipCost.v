(** Running time of the skip list: C70. Steps are iterations of loops, counted by the
    functions ending in _c (CostModel.v); an expectation is the average over independent
    random numbers, each drawn from a list of equally likely ones (SkipProb.v). *)
From Coq Require Import Permutation.
From Verif Require Import Base F64 HistSpec RingModel OrderSpec MultisetSpec SortLib SkipModel SkipProof NumModel QuantileModel QuantileSpec QuantileProof PropsQuantile.
From Verif Require Import CostModel CostErase CostTree CostQuant SkipCost SkipCost2 SkipProb SkipExp SkipGrid SkipQuantCost.
From Coq Require Import Reals Lra.
Local Open Scope R_scope.

(** *** C70. A Quantile kept in a skip list *)

(** What is averaged: the steps of a call on the Quantile after ops, as a function of the
    random numbers its skip list is given. The run never fails. *)
Theorem C70_defined e w interp mx p ops f rnd : (0 <= w)%Z -> (1 <= mx <= 64)%Z -> fle p (fz 0) = false -> fge p (fz 1) = false -> interp_valid interp = true ->
  pushes_nonnan ops -> exists q, q_run e w [QImpl 2 [OMaxLevel mx; OProb p; ORand rnd]; QInterp interp] ops = Ok q /\
    q_after e w interp mx p ops f rnd = INR (f q) /\
    (forall x, snd (q_push_c q x) = q_push q x) /\ (forall phi, snd (q_value_c e q phi) = q_value e q phi).
Proof.
  intros Hw Hm H0 H1 Hi Hp. destruct (q_run_ok e w interp mx p ops Hw Hm H0 H1 Hi Hp rnd) as (s & _ & E). eexists. split; [exact E|].
  unfold q_after. rewrite E. split; [reflexivity|]. split; [intros x; apply q_push_erase|intros phi; apply q_value_erase].
Qed.
Print Assumptions C70_defined.

Lemma passes_pos U pr mx c : U <> [] -> 0 < c -> (forall i, (1 <= i < mx)%nat -> c * passes U pr (i - 1) <= passes U pr i) ->
  forall i, (i < mx)%nat -> 0 < passes U pr i.
Proof.
  intros HU Hc H. induction i as [|i IH]; intros Hi.
  - unfold passes, prob. cbn [seq forallb]. rewrite mean_const by exact HU. lra.
  - specialize (H (S i) ltac:(lia)). replace (S i - 1)%nat with i in H by lia. specialize (IH ltac:(lia)). apply Rlt_le_trans with (c * passes U pr i); [|exact H]. apply Rmult_lt_0_compat; assumption.
Qed.

Section BOUND.
Context (U : list f64) (HU : U <> []) (e : env) (mx : Z) (p : f64) (c : R) (Hm : (1 <= mx <= 64)%Z).
Context (Hc : 0 < c) (HU1 : forall i, (1 <= i < Z.to_nat mx)%nat -> c * passes U (skip_probs e p) (i - 1) <= passes U (skip_probs e p) i).
Lemma habove i : (i < Z.to_nat mx)%nat -> 0 < above U (height (Z.to_nat mx) (skip_probs e p)) i.
Proof. intros H. rewrite above_passes by lia. apply (passes_pos U _ (Z.to_nat mx) c HU Hc HU1 i H). Qed.
Lemma htop : top U (height (Z.to_nat mx) (skip_probs e p)) (Z.to_nat mx) = passes U (skip_probs e p) (Z.to_nat mx - 1).
Proof. rewrite top_above by lia. apply above_passes; lia. Qed.
Lemma hratio : ratios U (height (Z.to_nat mx) (skip_probs e p)) (Z.to_nat mx - 1) 1 <= (IZR mx - 1) * (1 / c - 1).
Proof.
  replace (IZR mx - 1) with (INR (Z.to_nat mx - 1)) by (rewrite INR_IZR_INZ, Nat2Z.inj_sub, Z2Nat.id, minus_IZR by lia; reflexivity).
  apply (ratios_le U (Z.to_nat mx) ltac:(lia) (skip_probs e p) habove c Hc); [|lia|lia]. intros i Hi'. rewrite !above_passes by lia. apply HU1, Hi'.
Qed.
Lemma hmx : INR (Z.to_nat mx) = IZR mx.
Proof. rewrite INR_IZR_INZ, Z2Nat.id by lia. reflexivity. Qed.
End BOUND.

(** After any history without NaN, of n tracked values: if a random number that is below
    the first i - 1 thresholds is below the next with probability at least c, then Push
    takes at most 8 L + 3 (L - 1)(1/c - 1) + 2 n t steps on average, L being the maximal
    level and t the probability of a node of that level, and Value, unless equal values
    are in the window together (see C12), at most 2 L + 2 (L - 1)(1/c - 1) + 2 n t. *)
Theorem C70_push U e w interp mx p ops x c D rho : U <> [] -> (0 <= w)%Z -> (1 <= mx <= 64)%Z -> fle p (fz 0) = false -> fge p (fz 1) = false -> interp_valid interp = true ->
  pushes_nonnan (ops ++ [OPush x]) -> 0 < c -> (forall i, (1 <= i < Z.to_nat mx)%nat -> c * passes U (skip_probs e p) (i - 1) <= passes U (skip_probs e p) i) ->
  (length ops <= D)%nat ->
  expect U D (q_after e w interp mx p ops (fun q => fst (q_push_c q x))) rho <=
    8 * IZR mx + 3 * ((IZR mx - 1) * (1 / c - 1)) + 2 * INR (length (live w (hist ops))) * passes U (skip_probs e p) (Z.to_nat mx - 1).
Proof.
  intros HU Hw Hm H0 H1 Hi Hp Hc HU1 HD. apply pushes_app in Hp. destruct Hp as [Hp Hx]. assert (Nx : nonnan x) by (apply Hx; left; reflexivity).
  pose proof (hratio U HU e mx p c Hm Hc HU1) as HR. rewrite <- (htop U e mx p Hm), <- (hmx mx Hm) in *.
  eapply Rle_trans; [apply (q_push_exp U HU e w interp mx p ops Hw Hm H0 H1 Hi Hp D HD rho (habove U HU e mx p c Hm Hc HU1) x Nx)|]. lra.
Qed.
Print Assumptions C70_push.

Theorem C70_value U e w interp mx p ops phi c D rho : U <> [] -> (0 <= w)%Z -> (1 <= mx <= 64)%Z -> fle p (fz 0) = false -> fge p (fz 1) = false -> interp_valid interp = true ->
  pushes_nonnan ops -> distinct_windows w ops -> 0 < c -> (forall i, (1 <= i < Z.to_nat mx)%nat -> c * passes U (skip_probs e p) (i - 1) <= passes U (skip_probs e p) i) ->
  (length ops <= D)%nat ->
  expect U D (q_after e w interp mx p ops (fun q => fst (q_value_c e q phi))) rho <=
    2 * IZR mx + 2 * ((IZR mx - 1) * (1 / c - 1)) + 2 * INR (length (live w (hist ops))) * passes U (skip_probs e p) (Z.to_nat mx - 1).
Proof.
  intros HU Hw Hm H0 H1 Hi Hp Hd Hc HU1 HD.
  pose proof (hratio U HU e mx p c Hm Hc HU1) as HR. rewrite <- (htop U e mx p Hm), <- (hmx mx Hm) in *.
  eapply Rle_trans; [apply (q_value_exp U HU e w interp mx p ops Hw Hm H0 H1 Hi Hp D HD rho (habove U HU e mx p c Hm Hc HU1) phi Hd)|]. lra.
Qed.
Print Assumptions C70_value.

(** The same for the methods of the skip list itself, after any sequence of Add, Remove and
    Clear: Rank takes between L + k t and L + (L - 1)(1/c - 1) + k t steps on average, k
    being the number of values below the argument; Select(k) of distinct values between
    L + (k + 1) t and L + (L - 1)(1/c - 1) + (k + 1) t. *)
Definition below (v : f64) (l : list f64) : nat := length (filter (fun x => flt x v) l).
Lemma lows_below mx (pr : nat -> f64) ops v : (1 <= mx)%nat -> Forall sop_nonnan ops -> nonnan v -> length (lows v (snd (slots ops))) = below v (bag ops).
Proof.
  intros Hm Hn Hv. destruct (skip_slots mx pr (fun _ => fz 0) ops Hm Hn) as (s & L & E & I & _ & _ & Hk & EN & _).
  assert (HL : forall a, In a L -> nonnan (n_val (sk_store s a))) by (intros a Ha; apply (li_nn _ _ I); right; exact Ha).
  assert (G1 : length (lows v (snd (slots ops))) = length (filter (fun z => z <? fk v)%Z (skeys s L))).
  { unfold lows. unfold skeys, keys, vals. rewrite map_map. unfold nodes, slot_nodes in EN. revert EN HL. clear - Hv. generalize (snd (slots ops)). induction L as [|a L IH]; intros l EN HL.
    - destruct l; [reflexivity|discriminate].
    - destruct l as [|q l]; [discriminate|]. cbn [map] in EN. injection EN as E1 E2 E3. cbn [filter map]. rewrite <- E1. rewrite flt_key by (auto; apply HL; left; reflexivity).
      specialize (IH l E3 (fun b Hb => HL b (or_intror Hb))). destruct (_ <? _)%Z; cbn [length]; [f_equal|]; exact IH. }
  rewrite G1, Hk. unfold below. pose proof (bag_nonnan ops Hn) as Hb. rewrite (Permutation_length (filter_perm _ _ _ (sortz_perm _))).
  revert Hb. generalize (bag ops). induction l as [|y l IH]; intros Hb; [reflexivity|]. cbn [keys map filter]. rewrite flt_key by (auto; apply (Forall_inv Hb)).
  specialize (IH (Forall_inv_tail Hb)). unfold keys in IH. destruct (_ <? _)%Z; cbn [length]; [f_equal|]; exact IH.
Qed.
Theorem C70_rank U mx pr ops v c D rho : U <> [] -> (1 <= mx)%nat -> Forall sop_nonnan ops -> nonnan v -> 0 < c ->
  (forall i, (1 <= i < mx)%nat -> c * passes U pr (i - 1) <= passes U pr i) -> (length ops <= D)%nat ->
  let steps := expect U D (fun rnd => match skip_run mx pr rnd ops with Ok s => INR (fst (skip_rank_c s v)) | _ => 0 end) rho in
  let kt := INR (below v (bag ops)) * passes U pr (mx - 1) in
  (forall rnd, exists s, skip_run mx pr rnd ops = Ok s /\ snd (skip_rank_c s v) = skip_rank s v) /\
  INR mx + kt <= steps <= INR mx + (INR mx - 1) * (1 / c - 1) + kt.
Proof.
  intros HU Hm Hn Hv Hc HU1 HD steps kt.
  assert (HA : forall i, (i < mx)%nat -> 0 < above U (height mx pr) i) by (intros i Hi; rewrite above_passes by lia; apply (passes_pos U pr mx c HU Hc HU1 i Hi)).
  assert (ad : (adds ops <= D)%nat) by (enough (adds ops <= length ops)%nat by lia; clear; induction ops as [|o l IH]; cbn; [lia|]; destruct o; lia).
  split. { intros rnd. destruct (skip_reach mx pr rnd ops Hm Hn) as (s & E & _). exists s. split; [exact E|apply skip_rank_erase]. }
  pose proof (exp_rank U HU mx Hm pr ops Hn D ad rho HA v Hv) as B. rewrite (lows_below mx pr ops v Hm Hn Hv) in B.
  assert (ET : top U (height mx pr) mx = passes U pr (mx - 1)) by (rewrite top_above by lia; apply above_passes; lia). rewrite ET in B. fold kt in B.
  assert (HR : ratios U (height mx pr) (mx - 1) 1 <= (INR mx - 1) * (1 / c - 1)).
  { replace (INR mx - 1) with (INR (mx - 1)) by (rewrite minus_INR by lia; reflexivity). apply (ratios_le U mx Hm pr HA c Hc); [|lia|lia]. intros i Hi. rewrite !above_passes by lia. apply HU1, Hi. }
  change steps with (expect U D (after mx pr ops (fun s => fst (skip_rank_c s v))) rho). lra.
Qed.
Print Assumptions C70_rank.
Theorem C70_select U mx pr ops k c D rho : U <> [] -> (1 <= mx)%nat -> Forall sop_nonnan ops -> distinct_adds ops -> (0 <= k < Z.of_nat (length (bag ops)))%Z -> 0 < c ->
  (forall i, (1 <= i < mx)%nat -> c * passes U pr (i - 1) <= passes U pr i) -> (length ops <= D)%nat ->
  let steps := expect U D (fun rnd => match skip_run mx pr rnd ops with Ok s => INR (fst (skip_select_c s k)) | _ => 0 end) rho in
  let kt := IZR (k + 1) * passes U pr (mx - 1) in
  (forall rnd, exists s, skip_run mx pr rnd ops = Ok s /\ snd (skip_select_c s k) = skip_select s k) /\
  INR mx + kt <= steps <= INR mx + (INR mx - 1) * (1 / c - 1) + kt.
Proof.
  intros HU Hm Hn Hd Hk Hc HU1 HD steps kt.
  assert (HA : forall i, (i < mx)%nat -> 0 < above U (height mx pr) i) by (intros i Hi; rewrite above_passes by lia; apply (passes_pos U pr mx c HU Hc HU1 i Hi)).
  assert (ad : (adds ops <= D)%nat) by (enough (adds ops <= length ops)%nat by lia; clear; induction ops as [|o l IH]; cbn; [lia|]; destruct o; lia).
  split. { intros rnd. destruct (skip_reach mx pr rnd ops Hm Hn) as (s & E & _). exists s. split; [exact E|apply skip_select_erase]. }
  pose proof (exp_select U HU mx Hm pr ops Hn D ad rho HA k (or_introl Hd) Hk) as B.
  assert (ET : top U (height mx pr) mx = passes U pr (mx - 1)) by (rewrite top_above by lia; apply above_passes; lia). rewrite ET in B. fold kt in B.
  assert (HR : ratios U (height mx pr) (mx - 1) 1 <= (INR mx - 1) * (1 / c - 1)).
  { replace (INR mx - 1) with (INR (mx - 1)) by (rewrite minus_INR by lia; reflexivity). apply (ratios_le U mx Hm pr HA c Hc); [|lia|lia]. intros i Hi. rewrite !above_passes by lia. apply HU1, Hi. }
  change steps with (expect U D (after mx pr ops (fun s => fst (skip_select_c s k))) rho). lra.
Qed.
Print Assumptions C70_select.

(** With probability 1/4, and random numbers equally spaced with m bits, a maximal level L
    with n <= 4^(L-1) makes Push and Value logarithmic on average. *)
Definition quarter_pow (e : env) (mx : Z) : Prop := forall j, (1 <= j < Z.to_nat mx)%nat -> e_pow e (fdy 1 (-2)) (fz (Z.of_nat j)) = fdy 1 (- 2 * Z.of_nat j).
Lemma quarter_ok : fle (fdy 1 (-2)) (fz 0) = false /\ fge (fdy 1 (-2)) (fz 1) = false.
Proof. split; vm_compute; reflexivity. Qed.
Lemma quarter_passes e mx m i : quarter_pow e mx -> (m <= 53)%nat -> (2 * (Z.to_nat mx - 1) <= m)%nat -> (i < Z.to_nat mx)%nat ->
  passes (uniform m) (skip_probs e (fdy 1 (-2))) i = / 4 ^ i.
Proof. intros He Hm H2 Hi. apply uniform_passes; [exact Hm|lia|]. intros j Hj. apply He. lia. Qed.
Lemma quarter_ratio e mx m i : quarter_pow e mx -> (m <= 53)%nat -> (2 * (Z.to_nat mx - 1) <= m)%nat -> (1 <= i < Z.to_nat mx)%nat ->
  1 / 4 * passes (uniform m) (skip_probs e (fdy 1 (-2))) (i - 1) <= passes (uniform m) (skip_probs e (fdy 1 (-2))) i.
Proof.
  intros He Hm H2 Hi. rewrite !(quarter_passes e mx m) by (auto; lia). destruct i as [|i]; [lia|]. replace (S i - 1)%nat with i by lia. cbn [pow].
  assert (0 < 4 ^ i) by (apply pow_lt; lra). rewrite Rinv_mult. lra.
Qed.
Theorem C70_log e w interp mx m ops x phi D rho : (0 <= w)%Z -> (1 <= mx <= 64)%Z -> interp_valid interp = true -> quarter_pow e mx ->
  (m <= 53)%nat -> (2 * (Z.to_nat mx - 1) <= m)%nat -> pushes_nonnan (ops ++ [OPush x]) -> (length ops <= D)%nat ->
  (length (live w (hist ops)) <= 4 ^ (Z.to_nat mx - 1))%nat ->
  expect (uniform m) D (q_after e w interp mx (fdy 1 (-2)) ops (fun q => fst (q_push_c q x))) rho <= 17 * IZR mx /\
  (distinct_windows w ops -> expect (uniform m) D (q_after e w interp mx (fdy 1 (-2)) ops (fun q => fst (q_value_c e q phi))) rho <= 8 * IZR mx).
Proof.
  intros Hw Hm Hi He H53 H2 Hp HD Hn. destruct quarter_ok as [Q0 Q1].
  pose proof (quarter_passes e mx m (Z.to_nat mx - 1) He H53 H2 ltac:(lia)) as ET.
  assert (Hs : INR (length (live w (hist ops))) * passes (uniform m) (skip_probs e (fdy 1 (-2))) (Z.to_nat mx - 1) <= 1).
  { rewrite ET. assert (P4 : 0 < 4 ^ (Z.to_nat mx - 1)) by (apply pow_lt; lra). apply (Rmult_le_reg_r (4 ^ (Z.to_nat mx - 1))); [exact P4|]. rewrite Rmult_assoc, Rinv_l, Rmult_1_r, Rmult_1_l by lra.
    apply le_INR in Hn. rewrite pow_INR in Hn. replace (INR 4) with 4 in Hn by (cbn; lra). exact Hn. }
  assert (H1m : 1 <= IZR mx) by (apply IZR_le; lia).
  split.
  - eapply Rle_trans; [apply (C70_push (uniform m) e w interp mx (fdy 1 (-2)) ops x (1 / 4) D rho (uniform_ne m) Hw Hm Q0 Q1 Hi Hp ltac:(lra) (fun i Hi' => quarter_ratio e mx m i He H53 H2 Hi') HD)|]. lra.
  - intros Hd. apply pushes_app in Hp. destruct Hp as [Hp _].
    eapply Rle_trans; [apply (C70_value (uniform m) e w interp mx (fdy 1 (-2)) ops phi (1 / 4) D rho (uniform_ne m) Hw Hm Q0 Q1 Hi Hp Hd ltac:(lra) (fun i Hi' => quarter_ratio e mx m i He H53 H2 Hi') HD)|]. lra.
Qed.
Print Assumptions C70_log.

(** The default parameters are maximal level 12 and probability 1/4. With random numbers of
    53 bits Push takes at most 195 + n / 2^21 steps on average and Value at most 90 + n / 2^21. *)
Theorem C70_default e w interp ops x phi D rho : (0 <= w)%Z -> interp_valid interp = true -> quarter_pow e 12 -> pushes_nonnan (ops ++ [OPush x]) -> (length ops <= D)%nat ->
  expect (uniform 53) D (q_after e w interp 12 (fdy 1 (-2)) ops (fun q => fst (q_push_c q x))) rho <= 195 + INR (length (live w (hist ops))) / 2097152 /\
  (distinct_windows w ops -> expect (uniform 53) D (q_after e w interp 12 (fdy 1 (-2)) ops (fun q => fst (q_value_c e q phi))) rho <= 90 + INR (length (live w (hist ops))) / 2097152).
Proof.
  intros Hw Hi He Hp HD. destruct quarter_ok as [Q0 Q1].
  assert (P11 : 4 ^ (Z.to_nat 12 - 1) = 4194304) by (change (Z.to_nat 12 - 1)%nat with 11%nat; cbn [pow]; lra).
  assert (K : (2 * (Z.to_nat 12 - 1) <= 53)%nat) by (change (Z.to_nat 12) with 12%nat; lia).
  pose proof (quarter_passes e 12 53 (Z.to_nat 12 - 1) He (le_n 53) K ltac:(lia)) as ET. rewrite P11 in ET.
  split.
  - eapply Rle_trans; [apply (C70_push (uniform 53) e w interp 12 (fdy 1 (-2)) ops x (1 / 4) D rho (uniform_ne 53) Hw ltac:(lia) Q0 Q1 Hi Hp ltac:(lra) (fun i Hi' => quarter_ratio e 12 53 i He (le_n 53) K Hi') HD)|].
    rewrite ET. lra.
  - intros Hd. apply pushes_app in Hp. destruct Hp as [Hp _].
    eapply Rle_trans; [apply (C70_value (uniform 53) e w interp 12 (fdy 1 (-2)) ops phi (1 / 4) D rho (uniform_ne 53) Hw ltac:(lia) Q0 Q1 Hi Hp Hd ltac:(lra) (fun i Hi' => quarter_ratio e 12 53 i He (le_n 53) K Hi') HD)|].
    rewrite ET. lra.
Qed.
Print Assumptions C70_default.

(** The term that is linear in n is there: with the default parameters, the expected number of
    steps of Push exceeds any multiple of the logarithm of the number of values. *)
Lemma hist_repeat n : hist (repeat (OPush (fz 0)) n) = repeat (fz 0) n.
Proof.
  induction n as [|n IH]; [reflexivity|]. replace (S n) with (n + 1)%nat by lia. rewrite !repeat_app. cbn [repeat]. rewrite hist_push, IH. reflexivity.
Qed.
Lemma qops_repeat n : qops 0 (repeat (OPush (fz 0)) n) = repeat (SAdd (fz 0)) n.
Proof.
  induction n as [|n IH]; [reflexivity|]. replace (S n) with (n + 1)%nat by lia. rewrite !repeat_app. cbn [repeat]. rewrite qops_snoc, IH. reflexivity.
Qed.
Lemma bag_repeat n : bag (repeat (SAdd (fz 0)) n) = repeat (fz 0) n.
Proof.
  induction n as [|n IH]; [reflexivity|]. replace (S n) with (n + 1)%nat at 1 by lia. rewrite repeat_app. cbn [repeat]. rewrite bag_snoc, IH. reflexivity.
Qed.
Lemma below_repeat n : below (fz 1) (repeat (fz 0) n) = n.
Proof.
  assert (E : flt (fz 0) (fz 1) = true) by (vm_compute; reflexivity). unfold below. induction n as [|n IH]; [reflexivity|]. cbn [repeat filter]. rewrite E. cbn [length]. rewrite IH. reflexivity.
Qed.
Lemma lower_push e n D rho : quarter_pow e 12 -> (n <= D)%nat ->
  12 + INR n / 4194304 <= expect (uniform 53) D (q_after e 0 0 12 (fdy 1 (-2)) (repeat (OPush (fz 0)) n) (fun q => fst (q_push_c q (fz 1)))) rho.
Proof.
  intros He HD. destruct quarter_ok as [Q0 Q1].
  assert (P11 : 4 ^ (Z.to_nat 12 - 1) = 4194304) by (change (Z.to_nat 12 - 1)%nat with 11%nat; cbn [pow]; lra).
  assert (K : (2 * (Z.to_nat 12 - 1) <= 53)%nat) by (change (Z.to_nat 12) with 12%nat; lia).
  pose proof (quarter_passes e 12 53 (Z.to_nat 12 - 1) He (le_n 53) K ltac:(lia)) as ET. rewrite P11 in ET.
  set (ops := repeat (OPush (fz 0)) n). set (l := repeat (SAdd (fz 0)) n).
  assert (N0 : nonnan (fz 0)) by (vm_compute; reflexivity). assert (N1 : nonnan (fz 1)) by (vm_compute; reflexivity).
  assert (Hp : pushes_nonnan ops) by (intros y Hy; apply repeat_spec in Hy; injection Hy as ->; exact N0).
  assert (Hl : Forall sop_nonnan l) by (apply Forall_forall; intros o Ho; apply repeat_spec in Ho; subst o; exact N0).
  assert (EQ : qops 0 ops = l) by apply qops_repeat.
  assert (ad : (adds l <= D)%nat) by (rewrite <- EQ; eapply Nat.le_trans; [apply qops_adds|]; unfold ops; rewrite repeat_length; exact HD).
  assert (Hratio : forall i, (1 <= i < 12)%nat -> 1 / 4 * passes (uniform 53) (skip_probs e (fdy 1 (-2))) (i - 1) <= passes (uniform 53) (skip_probs e (fdy 1 (-2))) i).
  { intros i Hi. apply (quarter_ratio e 12 53 i He (le_n 53) K Hi). }
  assert (HA : forall i, (i < 12)%nat -> 0 < above (uniform 53) (height 12 (skip_probs e (fdy 1 (-2)))) i).
  { intros i Hi. rewrite above_passes by lia. apply (passes_pos _ _ 12 (1 / 4) (uniform_ne 53) ltac:(lra) Hratio i Hi). }
  pose proof (exp_add_lower (uniform 53) (uniform_ne 53) 12 ltac:(lia) (skip_probs e (fdy 1 (-2))) l Hl D ad rho HA (fz 1) N1) as B.
  rewrite (lows_below 12 (skip_probs e (fdy 1 (-2))) l (fz 1) ltac:(lia) Hl N1) in B. unfold l in B. rewrite bag_repeat, below_repeat in B. fold l in B.
  assert (EM : top (uniform 53) (height 12 (skip_probs e (fdy 1 (-2)))) 12 = / 4194304) by (rewrite top_above by lia; rewrite above_passes by lia; exact ET).
  rewrite EM in B. replace (INR 12) with 12 in B by (cbn; lra).
  eapply Rle_trans; [exact B|]. apply expect_le; [apply uniform_ne|]. intros rnd.
  destruct (q_run_ok e 0 0 12 (fdy 1 (-2)) ops ltac:(lia) ltac:(lia) Q0 Q1 eq_refl Hp rnd) as (s & E1 & E2). unfold q_after, after. rewrite E2. rewrite EQ in E1. change (Z.to_nat 12) with 12%nat in E1. rewrite E1.
  rewrite q_push_ops by lia. cbn [qstep Z.eqb app stat_ops_c stat_add_c]. rewrite (cbind_ok_fst _ (fun a => a)). unfold cmap. rewrite (cbind_ok_fst _ StSkip). apply Rle_refl.
Qed.
Theorem C70_log_refuted e rho : quarter_pow e 12 -> forall K, exists n,
  let ops := repeat (OPush (fz 0)) n in length (live 0 (hist ops)) = n /\
  forall D, (n <= D)%nat -> K * ln (INR n + 2) < expect (uniform 53) D (q_after e 0 0 12 (fdy 1 (-2)) ops (fun q => fst (q_push_c q (fz 1)))) rho.
Proof.
  intros He K. set (A := Rmax K 1). assert (HA : 1 <= A) by apply Rmax_r. assert (HK : K <= A) by apply Rmax_l.
  set (m := Z.to_nat (up (A * 20000000))). exists (m * m)%nat. cbv zeta.
  split. { rewrite hist_repeat. cbn. apply repeat_length. }
  intros D HD. eapply Rlt_le_trans; [|apply lower_push; assumption].
  assert (Hm : A * 20000000 < INR m).
  { unfold m. pose proof (archimed (A * 20000000)) as [H _]. rewrite INR_IZR_INZ, Z2Nat.id; [exact H|]. apply le_IZR. lra. }
  rewrite mult_INR. set (X := INR m) in *.
  assert (L1 : ln (X * X + 2) <= 2 * (X + 1)).
  { apply Rle_trans with (ln ((X + 2) * (X + 2))); [left; apply ln_increasing; nra|]. rewrite ln_mult by lra.
    assert (ln (X + 2) <= X + 1); [|lra]. apply Rlt_le. apply exp_lt_inv. rewrite exp_ln by lra. pose proof (exp_ineq1 (X + 1) ltac:(lra)). lra. }
  assert (L0 : 0 <= ln (X * X + 2)) by (rewrite <- ln_1; left; apply ln_increasing; nra).
  apply Rle_lt_trans with (A * (2 * (X + 1))); [nra|]. nra.
Qed.
Print Assumptions C70_log_refuted.

(** A case: a window of 3 with distinct values, maximal level 3, and the 16 equally spaced
    random numbers of 4 bits; math.Pow is exact on these arguments. *)
Definition c70_ops : list (op f64) := [OPush (fz 5); OPush (fz 2); OPush (fz 9); OPush (fz 4); OClear; OPush (fz 1); OPush (fz 7); OPush (fz 3); OPush (fz 8)].
Definition c70_env : env := mkEnv (fun _ y => fdy 1 (- 2 * (fk y / 2 ^ 1074))) (fun _ => fz 0) (fun _ => 0%Z)%Z.
Example C70_case : pushes_nonnan (c70_ops ++ [OPush (fz 6)]) /\ distinct_windows 3 c70_ops /\ quarter_pow c70_env 3 /\ quarter_pow c70_env 12 /\
  (length (live 3 (hist c70_ops)) <= 4 ^ (Z.to_nat 3 - 1))%nat /\ length (uniform 4) = 16%nat /\ passes (uniform 4) (skip_probs c70_env (fdy 1 (-2))) 2 = / 16.
Proof.
  assert (Hn : pushes_nonnan (c70_ops ++ [OPush (fz 6)])) by (intros v Hv; cbn in Hv; repeat (destruct Hv as [Hv|Hv]; [first [discriminate | injection Hv as <-; vm_compute; reflexivity]|]); destruct Hv).
  assert (Q : quarter_pow c70_env 12).
  { intros j Hj. change (Z.to_nat 12) with 12%nat in Hj. unfold c70_env, e_pow. f_equal. do 12 (destruct j as [|j]; [first [lia | vm_compute; reflexivity]|]). lia. }
  assert (Q3 : quarter_pow c70_env 3) by (intros j Hj; apply Q; lia).
  split; [exact Hn|]. split; [apply distinct_windowsb_ok; [apply pushes_app in Hn; apply Hn|vm_compute; reflexivity]|]. split; [exact Q3|]. split; [exact Q|].
  split; [vm_compute; lia|]. split; [vm_compute; reflexivity|]. rewrite (quarter_passes c70_env 3 4) by (auto; lia). cbn [pow]. lra.
Qed.
