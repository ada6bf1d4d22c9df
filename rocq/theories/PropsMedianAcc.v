(** C87: the median is correctly rounded. *)
From Coq Require Import Reals List Lia Lra.
From Flocq Require Import Core BinarySingleNaN Plus_error.
From Verif Require Import Base F64 FloatR HistSpec OrderSpec RingModel MultisetSpec HeapModel QuantileModel QuantileSpec FloatMean FloatErr QuantileProof QuantOrder QuantAcc ScaleArith PropsQuantile PropsQuantOrder PropsHeap.
Local Open Scope Z_scope.

(** ** Specification, in real arithmetic *)
(** [m] is the median of the values: the middle one, or the middle between the two middle ones, exactly. *)
Definition real_median (b : list f64) (m : R) : Prop :=
  (Nat.Odd (length b) -> exists x, is_kth b (Nat.div2 (length b)) x /\ m = B2R x) /\
  (Nat.Even (length b) -> exists lo hi, is_kth b (Nat.div2 (length b) - 1) lo /\ is_kth b (Nat.div2 (length b)) hi /\ m = ((B2R lo + B2R hi) / 2)%R).
(** No float64 is nearer to [m] than [r]. *)
Definition nearest_to (m : R) (r : f64) : Prop := isfin r = true /\ forall y : f64, isfin y = true -> (Rabs (B2R r - m) <= Rabs (B2R y - m))%R.

(** ** The midpoint is rounded once *)
Lemma rnd_nearest m (r : f64) : isfin r = true -> B2R r = rnd m -> nearest_to m r.
Proof. intros F E. split; [exact F|]. intros y Fy. rewrite E. unfold rnd. cbn [round_mode]. apply (round_N_pt radix2 fexp64 (fun x => negb (Z.even x)) m). apply fmt_B2R. Qed.
Lemma mid_once lo hi : in22 lo -> in22 hi -> B2R (fdiv (fadd lo hi) (fz 2)) = rnd ((B2R lo + B2R hi) / 2).
Proof.
  intros Sl Sh. destruct (mid_real lo hi Sl Sh) as [_ E]. rewrite E. set (s := (B2R lo + B2R hi)%R). destruct (Rle_or_lt (bpow radix2 (-1021)) (Rabs s)) as [L|L].
  - assert (H2 : (s / 2 = s * bpow radix2 (-1))%R) by (change (bpow radix2 (-1)) with (/ 2)%R; reflexivity). rewrite H2. unfold Rdiv. change (/ 2)%R with (bpow radix2 (-1)).
    assert (P : rnd (s * bpow radix2 (-1)) = (rnd s * bpow radix2 (-1))%R).
    { apply rnd_scale. right. split; [eapply Rle_trans; [|exact L]; apply bpow_le; lia|]. rewrite Rabs_mult, (Rabs_pos_eq (bpow radix2 (-1))) by apply bpow_ge_0. change (-1022) with (-1021 + -1). rewrite bpow_plus. apply Rmult_le_compat_r; [apply bpow_ge_0|exact L]. }
    rewrite <- P. apply rnd_fmt. apply generic_format_round; typeclasses eauto.
  - f_equal. f_equal. apply rnd_fmt. apply (FLT_format_plus_small radix2 (-1074) 53); [apply fmt_B2R|apply fmt_B2R|]. left. exact L.
Qed.
Lemma kth_same b k x y : Forall nonnan b -> Forall in22 b -> is_kth b k x -> is_kth b k y -> B2R x = B2R y.
Proof.
  intros Hn H22 Hx Hy. destruct (kth_in22 b k x Hn H22 Hx) as [Fx _]. destruct (kth_in22 b k y Hn H22 Hy) as [Fy _].
  apply Rle_antisym; apply key_fin_le; auto; [exact (kth_mono b k k x y Hn ltac:(lia) Hx Hy)|exact (kth_mono b k k y x Hn ltac:(lia) Hy Hx)].
Qed.
Lemma median_nearest b r m : Forall nonnan b -> Forall in22 b -> median_result b r -> real_median b m -> nearest_to m r.
Proof.
  intros Hn H22 (Ro & Re) (Mo & Me). destruct (Nat.Even_or_Odd (length b)) as [H|H].
  - destruct (Re H) as (lo & hi & Hlo & Hhi & ->). destruct (Me H) as (lo' & hi' & Hlo' & Hhi' & ->). pose proof (kth_in22 b _ lo Hn H22 Hlo) as Sl. pose proof (kth_in22 b _ hi Hn H22 Hhi) as Sh.
    rewrite <- (kth_same b _ lo lo' Hn H22 Hlo Hlo'), <- (kth_same b _ hi hi' Hn H22 Hhi Hhi'). apply rnd_nearest; [exact (proj1 (mid_real lo hi Sl Sh))|apply mid_once; assumption].
  - destruct (Mo H) as (x & Hx & ->). pose proof (Ro H) as Hr. rewrite <- (kth_same b _ r x Hn H22 Hr Hx). split; [exact (proj1 (kth_in22 b _ r Hn H22 Hr))|]. intros y _. rewrite Rminus_diag_eq by reflexivity. rewrite Rabs_R0. apply Rabs_pos.
Qed.
Lemma real_median_exists b : Forall nonnan b -> b <> [] -> exists m, real_median b m.
Proof.
  intros Hn Hb. assert (L : (0 < length b)%nat) by (destruct b; [congruence|cbn; lia]). destruct (Nat.Even_or_Odd (length b)) as [H|H].
  - assert (D : (0 < Nat.div2 (length b) < length b)%nat) by (split; [destruct H as (k & E); rewrite E, Nat.div2_double; lia|apply Nat.lt_div2; exact L]).
    destruct (kth_exists b (Nat.div2 (length b) - 1) Hn ltac:(lia)) as (lo & Hlo). destruct (kth_exists b (Nat.div2 (length b)) Hn ltac:(lia)) as (hi & Hhi). exists ((B2R lo + B2R hi) / 2)%R.
    split; [intros C; exfalso; exact (Nat.Even_Odd_False _ H C)|]. intros _. exists lo, hi. auto.
  - destruct (kth_exists b (Nat.div2 (length b)) Hn (Nat.lt_div2 _ L)) as (x & Hx). exists (B2R x). split; [intros _; exists x; auto|]. intros C. exfalso. exact (Nat.Even_Odd_False _ C H).
Qed.

(** ** C87 *)
(** For values up to 2^1022, Median returns the float64 nearest to the exact median of the values in the window (under the storage conditions of C11, always met by AVL), *)
Theorem C87_median_partial : forall e w os ops, 0 <= w -> Forall qopt_num os -> Forall qopt_valid os -> pushes_nonnan ops -> impl_cond (chosen_impl os) w ops ->
  live w (hist ops) <> [] -> zlen (live w (hist ops)) <= 2 ^ 53 -> (forall x, In x (live w (hist ops)) -> isfin x = true /\ (Rabs (B2R x) <= bpow radix2 1022)%R) ->
  exists q r, median_run e w os ops = Ok q /\ median_value e q = Ok r /\ (exists m, real_median (live w (hist ops)) m) /\ forall m, real_median (live w (hist ops)) m -> nearest_to m r.
Proof.
  intros e w os ops Hw Hn Hv Hp Hi Hl Hz Hs. destruct (C13_median_partial e w os ops Hw Hn Hv Hp Hi) as (q & E & _ & V). destruct (V Hl Hz) as (r & Er & R). exists q, r. split; [exact E|]. split; [exact Er|].
  pose proof (pushes_live w ops Hp) as NN. split; [exact (real_median_exists _ NN Hl)|]. intros m Hm. apply (median_nearest _ r m NN); [|exact R|exact Hm]. apply Forall_forall. exact Hs.
Qed.
Print Assumptions C87_median_partial.
(** and so does HeapMedian without a window. Missing: Median over a red-black tree or skip list outside the conditions of C11, a windowed HeapMedian (both C18 and C07: not the median), and larger values (below). *)
Theorem C87_heap_median_partial : forall ops, pushes_nonnan ops -> hist ops <> [] -> (forall x, In x (hist ops) -> isfin x = true /\ (Rabs (B2R x) <= bpow radix2 1022)%R) ->
  exists h r, hm_run 0 ops = Ok h /\ hm_value h = Ok r /\ (exists m, real_median (hist ops) m) /\ forall m, real_median (hist ops) m -> nearest_to m r.
Proof.
  intros ops Hp Hl Hs. destruct (C17_global_heap_median ops Hp) as (h & E & V). assert (R : exists r, hm_value h = Ok r /\ median_result (hist ops) r) by (destruct (hist ops); [congruence|exact V]). destruct R as (r & Er & R). exists h, r.
  split; [exact E|]. split; [exact Er|]. assert (NN : Forall nonnan (hist ops)) by (pose proof (pushes_live 0 ops Hp) as H; exact H). split; [exact (real_median_exists _ NN Hl)|]. intros m Hm. apply (median_nearest _ r m NN); [|exact R|exact Hm]. apply Forall_forall. exact Hs.
Qed.
Print Assumptions C87_heap_median_partial.
(** Beyond 2^1022 it is false: the sum of the two middle values may overflow, and the result is not finite. *)
Theorem C87_large_refuted : forall e, exists x m, nonnan x /\ isfin x = true /\ real_median [x; x] m /\
  exists q r, median_run e 0 [] [OPush x; OPush x] = Ok q /\ median_value e q = Ok r /\ ~ nearest_to m r.
Proof.
  intros e. exists (fdy 3 1022), (B2R (fdy 3 1022)). split; [vm_compute; reflexivity|]. split; [vm_compute; reflexivity|]. split.
  - split; [intros (k & E); cbn in E; lia|]. intros _. exists (fdy 3 1022), (fdy 3 1022). split; [split; [vm_compute; reflexivity|vm_compute; lia]|]. split; [split; [vm_compute; reflexivity|vm_compute; lia]|]. lra.
  - assert (V : rmap isfin (q <- median_run e 0 [] [OPush (fdy 3 1022); OPush (fdy 3 1022)] ;; median_value e q) = Ok false) by (vm_compute; reflexivity).
    destruct (median_run e 0 [] [OPush (fdy 3 1022); OPush (fdy 3 1022)]) as [q|er| | |]; try discriminate V. cbn [bind] in V. destruct (median_value e q) as [r|er| | |] eqn:Er; try discriminate V. cbn [rmap bind] in V. injection V as V.
    exists q, r. split; [reflexivity|]. split; [exact Er|]. intros (F & _). congruence.
Qed.
Print Assumptions C87_large_refuted.
(** The midpoint mode rounds once too, at the cell its position is in (as in C85, away from integers by n * 2^-53). *)
Theorem C87_midpoint_partial : forall e w os ops phi k, 0 <= w -> Forall qopt_num os -> Forall qopt_valid os -> pushes_nonnan ops -> impl_cond (chosen_impl os) w ops ->
  nonnan phi -> in_range phi = true -> live w (hist ops) <> [] -> zlen (live w (hist ops)) <= 2 ^ 53 -> chosen_interp os = 4 ->
  let b := live w (hist ops) in let t := (B2R phi * IZR (zlen b - 1))%R in let g := (bpow radix2 (-53) * IZR (zlen b))%R in
  (forall x, In x b -> isfin x = true /\ (Rabs (B2R x) <= bpow radix2 1022)%R) -> (INR k + g < t < INR k + 1 - g)%R ->
  exists q r lo hi, q_run e w os ops = Ok q /\ q_value e q phi = Ok r /\ is_kth b k lo /\ is_kth b (S k) hi /\ nearest_to ((B2R lo + B2R hi) / 2) r.
Proof.
  intros e w os ops phi k Hw Hn Hv Hp Hi Np Hr Hl Hz Hm b t g Hs Hk. destruct (quantile_ok e w os ops phi Hw Hn Hv Hp Hi Np Hr Hl Hz) as (q & r & E & Er & Q). fold b in Q.
  assert (Hz1 : 1 <= zlen b <= 2 ^ 53) by (split; [|exact Hz]; subst b; destruct (live w (hist ops)); [congruence|unfold zlen; cbn [length]; lia]).
  assert (Hr' : fle phi (fz 0) || fge phi (fz 1) = false) by (rewrite (range_neg phi Np); unfold in_range in Hr; rewrite Hr; reflexivity).
  destruct (position phi (zlen b) Np Hr' Hz1) as (_ & _ & _ & Herr). fold t in Herr. change eps with (bpow radix2 (-53)) in Herr. fold g in Herr. rewrite Hm in Q. destruct Q as (i & Hii & Q). apply Rabs_le_inv in Herr.
  assert (i = k) by (destruct (Nat.lt_trichotomy i k) as [L|[X|L]]; [|exact X|]; exfalso; apply le_INR in L; rewrite S_INR in L; lra). subst i.
  destruct Q as [[X _]|(_ & lo & hi & d & Hlo & Hhi & _ & _ & Hmode)]; [lra|]. assert (Y : r = fdiv (fadd lo hi) (fz 2)) by (destruct Hmode as [[C _]|[[C _]|[[C _]|[(C & _)|[_ Y]]]]]; [discriminate C..|exact Y]). subst r.
  pose proof (pushes_live w ops Hp) as NN. fold b in NN. assert (H22 : Forall in22 b) by (apply Forall_forall; exact Hs). pose proof (kth_in22 b _ lo NN H22 Hlo) as Sl. pose proof (kth_in22 b _ hi NN H22 Hhi) as Sh.
  eexists q, _, lo, hi. split; [exact E|]. split; [exact Er|]. split; [exact Hlo|]. split; [exact Hhi|]. apply rnd_nearest; [exact (proj1 (mid_real lo hi Sl Sh))|apply mid_once; assumption].
Qed.
Print Assumptions C87_midpoint_partial.
Example C87_case : let b := live 4 (hist qcase) in map fbits b = map fbits (map fz [1; 4; 4; 2]) /\ (forall x, In x b -> isfin x = true /\ (Rabs (B2R x) <= bpow radix2 1022)%R) /\ real_median b 3 /\
  rmap fbits (q <- median_run env0 4 [] qcase ;; median_value env0 q) = Ok (fbits (fz 3)) /\ rmap fbits (q <- q_run env0 4 [QInterp 4] qcase ;; q_value env0 q (fdy 1 (-1))) = Ok (fbits (fz 3)).
Proof.
  cbv zeta. split; [vm_compute; reflexivity|]. split.
  { intros x Hx. destruct (qsmall x Hx) as [F B]. split; [exact F|]. eapply Rle_trans; [exact B|]. apply Rle_trans with (bpow radix2 4); [right; reflexivity|apply bpow_le; lia]. }
  split; [|split; vm_compute; reflexivity]. change (length (live 4 (hist qcase))) with 4%nat. split; [intros (k & E); change (4 = 2 * k + 1)%nat in E; lia|]. intros _. exists (fz 2), (fz 4). split; [split; [vm_compute; reflexivity|vm_compute; lia]|]. split; [split; [vm_compute; reflexivity|vm_compute; lia]|].
  rewrite (proj2 (fz_exact 2 ltac:(lia))), (proj2 (fz_exact 4 ltac:(lia))). lra.
Qed.
