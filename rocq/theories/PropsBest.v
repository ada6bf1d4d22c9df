(** C95: no value is closer to the data on average than the median, which is within one standard deviation of the mean. *)
From Coq Require Import ZArith Lia Bool Reals Lra List.
From Flocq Require Import Core BinarySingleNaN.
From Verif Require PropsToward.
From Verif Require Import Base F64 FloatR FloatMean FloatErr HistSpec RingModel NumModel OrderSpec MomentModel MomentSpec RealLib IneqProof JointValue MetricProof QuantileSpec QuantileModel QuantileProof QuantOrder HeapModel PropsMoment PropsQuantile PropsHeap PropsMedianAcc PropsMono PropsStable.
Import ListNotations.
Local Open Scope R_scope.

(** ** Specification *)
(** The sum of the distances of the values from [c] *)
Definition absdev (c : R) (l : list R) : R := rsum (map (fun x => Rabs (x - c)) l).
(** The same history, as real numbers *)
Definition reals (ops : list (op f64)) : list (op R) := map (fun o => match o with OPush x => OPush (B2R x) | OClear => OClear end) ops.

Lemma hist_reals ops : hist (reals ops) = rl (hist ops).
Proof.
  induction ops as [|o ops IH] using rev_ind; [reflexivity|]. assert (E : reals (ops ++ [o]) = reals ops ++ reals [o]) by apply map_app. rewrite E. destruct o as [x|]; cbn [reals map]; [rewrite !hist_push, IH; unfold rl; rewrite map_app; reflexivity|rewrite !hist_clear; reflexivity].
Qed.
Lemma live_reals w ops : live w (hist (reals ops)) = rl (live w (hist ops)).
Proof. rewrite hist_reals. unfold rl. rewrite live_map. reflexivity. Qed.

(** ** Half of the values on either side *)
Definition cle (m : R) (l : list R) : nat := length (filter (fun x => if Rle_dec x m then true else false) l).
Definition cge (m : R) (l : list R) : nat := length (filter (fun x => if Rle_dec m x then true else false) l).
Definition half (m : R) (l : list R) : Prop := (length l <= 2 * cle m l /\ length l <= 2 * cge m l)%nat.
Lemma cle_count v m l : Forall (fun x => isfin x = true) l -> isfin v = true -> B2R v <= m -> (count_le v l <= cle m (rl l))%nat.
Proof.
  intros H Fv L. unfold count_le, cle, rl. induction H as [|x l Fx _ IH]; cbn [filter map length]; [lia|]. destruct (fle x v) eqn:E.
  - apply fle_B in E; [|exact Fx|exact Fv]. destruct (Rle_dec (B2R x) m); [cbn [length]; lia|lra].
  - destruct (Rle_dec (B2R x) m); cbn [length]; lia.
Qed.
Lemma cge_count v m l : Forall (fun x => isfin x = true) l -> isfin v = true -> m <= B2R v -> (length l <= count_lt v l + cge m (rl l))%nat.
Proof.
  intros H Fv L. unfold count_lt, cge, rl. induction H as [|x l Fx _ IH]; cbn [filter map length]; [lia|]. destruct (flt x v) eqn:E.
  - destruct (Rle_dec m (B2R x)); cbn [length]; lia.
  - destruct (Rle_dec m (B2R x)) as [G|G]; cbn [length]; [lia|]. exfalso. assert (flt x v = true) by (apply flt_B; auto; lra). congruence.
Qed.
Lemma median_half l m : Forall (fun x => isfin x = true) l -> l <> [] -> real_median l m -> half m (rl l).
Proof.
  intros H Hl [O E]. unfold half. assert (Len : length (rl l) = length l) by apply map_length. rewrite Len.
  assert (N : Forall nonnan l) by (eapply Forall_impl; [|exact H]; intros x Fx; apply fin_nonnan; exact Fx).
  assert (F : forall k u, is_kth l k u -> isfin u = true).
  { intros k u K. destruct (kth_between l k u N K) as ((a & Ha & Ea) & c & Hc & Ec). rewrite Forall_forall in H. exact (fin_between a u c (H a Ha) (H c Hc) Ea Ec). }
  destruct (Nat.Even_or_Odd (length l)) as [P|P].
  - destruct (E P) as (lo & hi & K1 & K2 & ->). destruct P as [k Ek]. assert (D : Nat.div2 (length l) = k) by (rewrite Ek; apply Nat.div2_double). rewrite D in K1, K2. assert (1 <= k)%nat by (destruct l; [congruence|cbn [length] in Ek; lia]).
    assert (L : B2R lo <= B2R hi) by (apply key_fin_le; [exact (F _ _ K1)|exact (F _ _ K2)|exact (PropsToward.kth_le l _ _ lo hi N K1 K2 ltac:(lia))]).
    pose proof (cle_count lo ((B2R lo + B2R hi) / 2) l H (F _ _ K1) ltac:(lra)). pose proof (cge_count hi ((B2R lo + B2R hi) / 2) l H (F _ _ K2) ltac:(lra)). destruct K1 as (_ & A1 & A2). destruct K2 as (_ & B1 & B2). lia.
  - destruct (O P) as (x & K & ->). destruct P as [k Ek]. assert (D : Nat.div2 (length l) = k) by (rewrite Ek, Nat.add_1_r; apply Nat.div2_succ_double). rewrite D in K.
    pose proof (cle_count x (B2R x) l H (F _ _ K) ltac:(lra)). pose proof (cge_count x (B2R x) l H (F _ _ K) ltac:(lra)). destruct K as (_ & A1 & A2). lia.
Qed.

Lemma dev_up c m l : m <= c -> absdev c l - absdev m l >= (c - m) * (2 * INR (cle m l) - INR (length l)).
Proof.
  intros L. unfold absdev, cle. induction l as [|x l IH]; [unfold rsum; cbn; lra|]. cbn [map filter]. rewrite !rsum_cons. destruct (Rle_dec x m) as [G|G]; cbn [length]; rewrite !S_INR.
  - rewrite (Rabs_left1 (x - c)), (Rabs_left1 (x - m)) by lra. lra.
  - assert (Rabs (x - m) <= Rabs (x - c) + (c - m)) by (replace (x - m) with ((x - c) + (c - m)) by ring; eapply Rle_trans; [apply Rabs_triang|]; rewrite (Rabs_pos_eq (c - m)) by lra; lra). lra.
Qed.
Lemma dev_down c m l : c <= m -> absdev c l - absdev m l >= (m - c) * (2 * INR (cge m l) - INR (length l)).
Proof.
  intros L. unfold absdev, cge. induction l as [|x l IH]; [unfold rsum; cbn; lra|]. cbn [map filter]. rewrite !rsum_cons. destruct (Rle_dec m x) as [G|G]; cbn [length]; rewrite !S_INR.
  - rewrite (Rabs_pos_eq (x - c)), (Rabs_pos_eq (x - m)) by lra. lra.
  - assert (Rabs (x - m) <= Rabs (x - c) + (m - c)) by (replace (x - m) with ((x - c) + (c - m)) by ring; eapply Rle_trans; [apply Rabs_triang|]; rewrite (Rabs_left1 (c - m)) by lra; lra). lra.
Qed.
Lemma half_best m l c : half m l -> absdev m l <= absdev c l.
Proof.
  intros [H1 H2]. apply le_INR in H1. apply le_INR in H2. rewrite mult_INR in H1, H2. cbn [INR] in H1, H2. destruct (Rle_or_lt m c) as [L|L].
  - pose proof (dev_up c m l L). assert (0 <= (c - m) * (2 * INR (cle m l) - INR (length l))) by (apply Rmult_le_pos; lra). lra.
  - pose proof (dev_down c m l ltac:(lra)). assert (0 <= (m - c) * (2 * INR (cge m l) - INR (length l))) by (apply Rmult_le_pos; lra). lra.
Qed.
Lemma rlen_consB (x : R) l : rlen (x :: l) = rlen l + 1.
Proof. unfold rlen, zlen. cbn [length]. rewrite Nat2Z.inj_succ, <- Z.add_1_r, plus_IZR. reflexivity. Qed.
Lemma absdev_sq c l : absdev c l ^ 2 <= rlen l * rsum (map (fun x => (x - c) ^ 2) l).
Proof.
  unfold absdev. induction l as [|x l IH]; [unfold rsum, rlen, zlen; cbn; lra|]. cbn [map]. rewrite !rsum_cons, rlen_consB. pose proof (pow2_abs (x - c)) as E. rewrite <- E. set (u := Rabs (x - c)). assert (Hu : 0 <= u) by apply Rabs_pos.
  destruct l as [|y l]; [unfold rsum, rlen, zlen; cbn; nra|]. pose proof (rlen_pos (y :: l) ltac:(discriminate)) as P. set (A := rsum (map (fun x => Rabs (x - c)) (y :: l))) in *. set (Q := rsum (map (fun x => (x - c) ^ 2) (y :: l))) in *. set (n := rlen (y :: l)) in *.
  assert (2 * u * A <= n * u ^ 2 + Q). { apply (Rmult_le_reg_l n); [exact P|]. pose proof (pow2_ge_0 (n * u - A)). nra. } nra.
Qed.
Lemma absdev_mean m l : l <> [] -> rlen l * Rabs (m - rmean l) <= absdev m l.
Proof.
  intros Hl. pose proof (rlen_pos l Hl) as P. assert (E : rlen l * (rmean l - m) = rsum (map (fun x => x - m) l)).
  { rewrite (rsum_ext _ (fun x => x + - m)) by (intros; ring). rewrite rsum_plus, rsum_map_id, rsum_const. fold (rlen l). rewrite (rsum_mean l Hl). ring. }
  replace (rlen l * Rabs (m - rmean l)) with (Rabs (rsum (map (fun x => x - m) l))) by (rewrite <- E, Rabs_mult, (Rabs_pos_eq (rlen l)), Rabs_minus_sym by lra; reflexivity). unfold absdev. clear. induction l as [|x l IH]; [unfold rsum; cbn; rewrite Rabs_R0; lra|]. cbn [map]. rewrite !rsum_cons. eapply Rle_trans; [apply Rabs_triang|]. lra.
Qed.
Lemma half_std m l : half m l -> (2 <= length l)%nat -> Rabs (m - rmean l) <= sqrt (sample_moment 2 l).
Proof.
  intros Hm Hn. assert (Hl : l <> []) by (intros ->; cbn in Hn; lia). assert (P : 2 <= rlen l) by (unfold rlen, zlen; apply IZR_le; lia). pose proof (absdev_mean m l Hl) as A1. pose proof (half_best m l (rmean l) Hm) as A2. pose proof (absdev_sq (rmean l) l) as A3. fold (csum 2 l) in A3.
  set (n := rlen l) in *. set (u := Rabs (m - rmean l)) in *. assert (Hu : 0 <= u) by apply Rabs_pos. set (Q := csum 2 l) in *. assert (B : n * u ^ 2 <= Q). { assert (n * u <= absdev (rmean l) l) by lra. apply (Rmult_le_reg_l n); [lra|]. assert (0 <= n * u) by nra. nra. }
  rewrite <- (sqrt_pow2 u Hu). apply sqrt_le_1_alt. unfold sample_moment. fold n Q. apply (Rmult_le_reg_r (n - 1)); [lra|]. unfold Rdiv. rewrite Rmult_assoc, Rinv_l, Rmult_1_r by lra. pose proof (pow2_ge_0 u). nra.
Qed.

(** ** C95 *)
Definition best (w : Z) (ops : list (op f64)) (t : R) : Prop :=
  (forall c, absdev t (rl (live w (hist ops))) <= absdev c (rl (live w (hist ops)))) /\
  exists mu, mval (KMean w) (reals ops) = Ok (Fin mu) /\ ((2 <= length (live w (hist ops)))%nat -> exists s, mval (KStd w) (reals ops) = Ok (Fin s) /\ Rabs (t - mu) <= s).
Lemma median_best w ops t : (0 <= w)%Z -> live w (hist ops) <> [] -> Forall (fun x => isfin x = true) (live w (hist ops)) -> real_median (live w (hist ops)) t -> best w ops t.
Proof.
  intros Hw Hl H Ht. pose proof (median_half _ t H Hl Ht) as Hh. split; [intros c; apply half_best; exact Hh|]. destruct (C20_moment_metrics w (reals ops) Hw) as (A & _ & B & _). rewrite live_reals in A, B. exists (rmean (rl (live w (hist ops)))). split.
  - rewrite A. destruct (live w (hist ops)); [congruence|reflexivity].
  - intros Hn. exists (sqrt (sample_moment 2 (rl (live w (hist ops))))). split; [rewrite B; destruct (live w (hist ops)) as [|? [|? ?]]; cbn [length] in Hn; [lia|lia|reflexivity]|]. apply half_std; [exact Hh|]. unfold rl. rewrite map_length. exact Hn.
Qed.
(** Median, under the conditions of C87: its result is the float64 nearest to such a number; Mean and Std in exact arithmetic. *)
Theorem C95_median_partial : forall e w os ops, (0 <= w)%Z -> Forall qopt_num os -> Forall qopt_valid os -> pushes_nonnan ops -> impl_cond (chosen_impl os) w ops ->
  live w (hist ops) <> [] -> (zlen (live w (hist ops)) <= 2 ^ 53)%Z -> (forall x, In x (live w (hist ops)) -> isfin x = true /\ (Rabs (B2R x) <= bpow radix2 1022)%R) ->
  exists q r t, median_run e w os ops = Ok q /\ median_value e q = Ok r /\ nearest_to t r /\ best w ops t.
Proof.
  intros e w os ops Hw Hn Hv Hp Hi Hl Hz Hs. destruct (C87_median_partial e w os ops Hw Hn Hv Hp Hi Hl Hz Hs) as (q & r & E & Er & (t & Ht) & R). exists q, r, t. split; [exact E|]. split; [exact Er|]. split; [exact (R t Ht)|].
  apply median_best; auto. apply Forall_forall. intros x Hx. apply Hs, Hx.
Qed.
Print Assumptions C95_median_partial.
(** HeapMedian without a window *)
Theorem C95_heap_median_partial : forall ops, pushes_nonnan ops -> hist ops <> [] -> (forall x, In x (hist ops) -> isfin x = true /\ (Rabs (B2R x) <= bpow radix2 1022)%R) ->
  exists h r t, hm_run 0 ops = Ok h /\ hm_value h = Ok r /\ nearest_to t r /\ best 0 ops t.
Proof.
  intros ops Hp Hl Hs. destruct (C87_heap_median_partial ops Hp Hl Hs) as (q & r & E & Er & (t & Ht) & R). exists q, r, t. split; [exact E|]. split; [exact Er|]. split; [exact (R t Ht)|].
  apply (median_best 0); auto; [lia|]. apply Forall_forall. intros x Hx. apply Hs, Hx.
Qed.
Print Assumptions C95_heap_median_partial.
(** The mean is the best for the sum of squares. *)
Theorem C95_mean_best : forall w ops, (0 <= w)%Z -> let l := live w (hist ops) in l <> [] -> exists mu, mval (KMean w) ops = Ok (Fin mu) /\ forall c, rsum (map (fun x => (x - mu) ^ 2) l) <= rsum (map (fun x => (x - c) ^ 2) l).
Proof.
  intros w ops Hw l Hl. destruct (C20_moment_metrics w ops Hw) as (A & _). fold l in A. exists (rmean l). split; [rewrite A; destruct l; [congruence|reflexivity]|]. intros c.
  assert (G : forall c, rsum (map (fun x => (x - c) ^ 2) l) = rsum (map (fun x => x * x) l) - 2 * c * rsum l + rlen l * (c * c)).
  { clear. intros c. induction l as [|x l IH]; [unfold rsum, rlen, zlen; cbn; ring|]. cbn [map]. rewrite !rsum_cons, rlen_consB, IH. ring. }
  rewrite !G. pose proof (rlen_pos l Hl) as P. rewrite (rsum_mean l Hl). pose proof (pow2_ge_0 (c - rmean l)). nra.
Qed.
Print Assumptions C95_mean_best.
(** Values 1 2 9: the distances from the median 2 add up to 8, those from the mean 4 to 10; the median is 2 below the mean, and Std is above 4. *)
Example C95_case : pushes_nonnan (hm_ops [1; 2; 9]%Z) /\ Forall in22 (hist (hm_ops [1; 2; 9]%Z)) /\ absdev 2 [1; 2; 9] = 8 /\ absdev 4 [1; 2; 9] = 10 /\
  rmap fbits (q <- median_run env0 0 [] (hm_ops [1; 2; 9]%Z) ;; median_value env0 q) = Ok (fbits (fz 2)).
Proof.
  split; [exact (hm_ops_num [1; 2; 9]%Z ltac:(repeat constructor))|]. split; [apply Forall_in22b; vm_compute; reflexivity|]. unfold absdev, rsum. cbn [map fold_right].
  split; [rewrite (Rabs_left (1 - 2)), (Rabs_pos_eq (2 - 2)), (Rabs_pos_eq (9 - 2)) by lra; lra|]. split; [rewrite (Rabs_left (1 - 4)), (Rabs_left (2 - 4)), (Rabs_pos_eq (9 - 4)) by lra; lra|]. vm_compute. reflexivity.
Qed.
