(** C91: a minority of wrong values cannot move the median out of the range of the others. *)
From Coq Require Import ZArith Lia Bool Reals Lra List.
From Flocq Require Import Core BinarySingleNaN.
From Verif Require Import Base F64 FloatR FloatMean HistSpec RingModel NumModel OrderSpec MomentModel MomentSpec MetricProof QuantileSpec QuantileModel QuantileProof QuantOrder HeapModel PropsMoment PropsQuantile PropsQuantOrder PropsHeap PropsMono.
Import ListNotations.
Local Open Scope Z_scope.

(** More than half of the values lie between [lo] and [hi]. *)
Definition majority (lo hi : f64) (l : list f64) : Prop := (length l < 2 * length (filter (fun x => fle lo x && fle x hi) l))%nat.

Lemma majority_count lo hi l : Forall nonnan l -> nonnan lo -> nonnan hi ->
  (count_lt lo l + length (filter (fun x => fle lo x && fle x hi) l) <= length l /\ length (filter (fun x => fle lo x && fle x hi) l) <= count_le hi l)%nat.
Proof.
  intros H Nl Nh. unfold count_lt, count_le. induction H as [|x l Nx _ [I1 I2]]; cbn [filter length]; [lia|]. rewrite flt_key, !fle_key by assumption.
  destruct (Z.ltb_spec (fk x) (fk lo)); destruct (Z.leb_spec (fk lo) (fk x)); destruct (Z.leb_spec (fk x) (fk hi)); cbn [andb length]; lia.
Qed.
Lemma count_le_lt u v l : Forall nonnan l -> nonnan u -> nonnan v -> fk v < fk u -> (count_le v l <= count_lt u l)%nat.
Proof.
  intros H Nu Nv L. apply (count_up u v l l); [|assumption|assumption|exact L]. induction H as [|x l Nx _ IH]; constructor; [|exact IH]. unfold fup. rewrite fle_key by assumption. apply Z.leb_le. lia.
Qed.
Lemma kth_inside lo hi l k v : Forall nonnan l -> nonnan lo -> nonnan hi -> is_kth l k v -> (count_lt lo l <= k < count_le hi l)%nat -> fk lo <= fk v <= fk hi.
Proof.
  intros H Nl Nh (Nv & Hk) Hc. split.
  - destruct (Z.le_gt_cases (fk lo) (fk v)) as [L|L]; [exact L|]. pose proof (count_le_lt lo v l H Nl Nv L). lia.
  - destruct (Z.le_gt_cases (fk v) (fk hi)) as [L|L]; [exact L|]. pose proof (count_le_lt v hi l H Nv Nh L). lia.
Qed.
Lemma between_in22 lo hi v : in22 lo -> in22 hi -> nonnan v -> fk lo <= fk v <= fk hi -> in22 v.
Proof.
  intros [Fl Bl] [Fh Bh] Nv [H1 H2]. assert (L1 : fle lo v = true) by (rewrite fle_key by (first [exact Nv|apply fin_nonnan; exact Fl]); apply Z.leb_le, H1). assert (L2 : fle v hi = true) by (rewrite fle_key by (first [exact Nv|apply fin_nonnan; exact Fh]); apply Z.leb_le, H2).
  pose proof (fin_between lo v hi Fl Fh L1 L2) as Fv.
  apply fle_R in L1; [|assumption|assumption]. apply fle_R in L2; [|assumption|assumption]. split; [exact Fv|]. apply Rabs_le. apply Rabs_le_inv in Bl. apply Rabs_le_inv in Bh. lra.
Qed.
Lemma median_robust lo hi l r : Forall nonnan l -> in22 lo -> in22 hi -> majority lo hi l -> median_result l r -> fle lo r = true /\ fle r hi = true.
Proof.
  intros H Sl Sh M [O E]. pose proof (fin_nonnan lo (proj1 Sl)) as Nl. pose proof (fin_nonnan hi (proj1 Sh)) as Nh. destruct (majority_count lo hi l H Nl Nh) as [C1 C2]. unfold majority in M.
  destruct (Nat.Even_or_Odd (length l)) as [P|P].
  - destruct (E P) as (a & b & Ka & Kb & ->). destruct P as [k Ek]. assert (D : Nat.div2 (length l) = k) by (rewrite Ek; apply Nat.div2_double). rewrite D in Ka, Kb.
    pose proof (kth_inside lo hi l _ a H Nl Nh Ka ltac:(lia)) as Ba. pose proof (kth_inside lo hi l _ b H Nl Nh Kb ltac:(lia)) as Bb.
    pose proof (between_in22 lo hi a Sl Sh (proj1 Ka) Ba) as Sa. pose proof (between_in22 lo hi b Sl Sh (proj1 Kb) Bb) as Sb.
    assert (Hab : (B2R lo <= B2R a <= B2R hi /\ B2R lo <= B2R b <= B2R hi)%R) by (repeat split; (apply key_fin_le; [first [apply Sl|apply Sa|apply Sb]|first [apply Sa|apply Sb|apply Sh]|lia])).
    assert (Hm : is_finite (fdiv (fadd a b) (fz 2)) = true /\ (B2R lo <= B2R (fdiv (fadd a b) (fz 2)) <= B2R hi)%R).
    { destruct (mid_real a b Sa Sb) as [F X]. split; [exact F|]. destruct (mid_between lo lo Sl Sl ltac:(lra)) as [_ Y]. destruct (mid_between hi hi Sh Sh ltac:(lra)) as [_ Z]. cbv zeta in Y, Z. destruct (mid_real lo lo Sl Sl) as [_ Y']. destruct (mid_real hi hi Sh Sh) as [_ Z']. rewrite X. rewrite Y' in Y. rewrite Z' in Z.
      assert (A1 : (rnd (B2R lo + B2R lo) <= rnd (B2R a + B2R b))%R) by (apply rnd_le; lra). assert (A2 : (rnd (B2R a + B2R b) <= rnd (B2R hi + B2R hi))%R) by (apply rnd_le; lra).
      assert (A3 : (rnd (rnd (B2R lo + B2R lo) / 2) <= rnd (rnd (B2R a + B2R b) / 2))%R) by (apply rnd_le; lra). assert (A4 : (rnd (rnd (B2R a + B2R b) / 2) <= rnd (rnd (B2R hi + B2R hi) / 2))%R) by (apply rnd_le; lra). lra. }
    destruct Hm as [F Hm]. split; (apply fle_R; [first [apply Sl|exact F]|first [exact F|apply Sh]|lra]).
  - pose proof (O P) as K. destruct P as [k Ek]. assert (D : Nat.div2 (length l) = k) by (rewrite Ek, Nat.add_1_r; apply Nat.div2_succ_double). rewrite D in K. pose proof (kth_inside lo hi l _ r H Nl Nh K ltac:(lia)) as B. split; (rewrite fle_key by (first [assumption|apply K]); apply Z.leb_le; lia).
Qed.

(** ** C91 *)
(** Median, under the storage conditions of C11. The wrong values may be infinite. *)
Theorem C91_median_partial : forall e w os ops lo hi, 0 <= w -> Forall qopt_num os -> Forall qopt_valid os -> pushes_nonnan ops -> impl_cond (chosen_impl os) w ops ->
  zlen (live w (hist ops)) <= 2 ^ 53 -> in22 lo -> in22 hi -> majority lo hi (live w (hist ops)) ->
  exists q r, median_run e w os ops = Ok q /\ median_value e q = Ok r /\ fle lo r = true /\ fle r hi = true.
Proof.
  intros e w os ops lo hi Hw Hn Hv Hp Hi Hz Sl Sh M. destruct (C13_median_partial e w os ops Hw Hn Hv Hp Hi) as (q & E & _ & V).
  assert (Hl : live w (hist ops) <> []) by (intros X; unfold majority in M; rewrite X in M; cbn in M; lia).
  destruct (V Hl Hz) as (r & Er & R). exists q, r. split; [exact E|]. split; [exact Er|]. exact (median_robust lo hi _ r (pushes_live w ops Hp) Sl Sh M R).
Qed.
Print Assumptions C91_median_partial.
(** HeapMedian without a window. *)
Theorem C91_heap_median_partial : forall ops lo hi, pushes_nonnan ops -> in22 lo -> in22 hi -> majority lo hi (hist ops) ->
  exists m r, hm_run 0 ops = Ok m /\ hm_value m = Ok r /\ fle lo r = true /\ fle r hi = true.
Proof.
  intros ops lo hi Hp Sl Sh M. destruct (C17_global_heap_median ops Hp) as (m & E & V). assert (NN : Forall nonnan (hist ops)) by (pose proof (pushes_live 0 ops Hp) as X; exact X).
  destruct (hist ops) as [|x l] eqn:El; [unfold majority in M; cbn in M; lia|]. destruct V as (r & Er & R). exists m, r. split; [exact E|]. split; [exact Er|]. exact (median_robust lo hi _ r NN Sl Sh M R).
Qed.
Print Assumptions C91_heap_median_partial.
(** With a window HeapMedian fails even if all live values are right: after 2, 2, 0, 0 with window 2 it is above 0. *)
Theorem C91_heap_median_window_refuted : exists w ops lo hi r, 0 < w /\ pushes_nonnan ops /\ in22 lo /\ in22 hi /\ majority lo hi (live w (hist ops)) /\
  (m <- hm_run w ops ;; hm_value m) = Ok r /\ fle r hi = false.
Proof.
  destruct (both_lt (m <- hm_run 2 (hm_ops [2; 2; 0; 0]) ;; hm_value m) (Ok (fz 0))) as (r & r' & A & B & C); [vm_compute; reflexivity|]. injection B as <-.
  assert (S0 : in22 (fz 0)) by (assert (X : Forall in22 [fz 0]) by (apply Forall_in22b; vm_compute; reflexivity); inversion X; assumption).
  exists 2, (hm_ops [2; 2; 0; 0]), (fz 0), (fz 0), r. split; [lia|]. split; [exact (hm_ops_num [2; 2; 0; 0] ltac:(repeat constructor))|]. split; [exact S0|]. split; [exact S0|]. split; [vm_compute; lia|]. split; [exact A|].
  clear - C. change (flt (fz 0) r = true) in C. destruct (fle r (fz 0)) eqn:E; [|reflexivity]. destruct (fup_num r (fz 0) E) as (N1 & N2 & L). rewrite flt_key in C by assumption. apply Z.ltb_lt in C. lia.
Qed.
Print Assumptions C91_heap_median_window_refuted.
(** The mean has no such property: whatever has been pushed, one value moves it beyond any bound. *)
Lemma live_snoc {A} w (h : list A) : 0 <= w -> exists l, forall y, live w (h ++ [y]) = l ++ [y].
Proof.
  intros Hw. unfold live. destruct (Z.eqb_spec w 0); [exists h; reflexivity|]. unfold lastn. exists (skipn (length h + 1 - Z.to_nat w) h). intros y. rewrite app_length. cbn [length]. rewrite skipn_app. f_equal.
  replace (length h + 1 - Z.to_nat w - length h)%nat with 0%nat by lia. reflexivity.
Qed.
Lemma rsum_snoc l y : rsum (l ++ [y]) = (rsum l + y)%R.
Proof. unfold rsum. induction l as [|x l IH]; cbn [app fold_right]; [lra|]. rewrite IH. lra. Qed.
Theorem C91_mean_refuted : forall w ops b, 0 <= w -> exists y a, mval (KMean w) (ops ++ [OPush y]) = Ok (Fin a) /\ (b < a)%R.
Proof.
  intros w ops b Hw. destruct (live_snoc w (hist ops) Hw) as (l & Hl). set (n := IZR (zlen (l ++ [0%R]))). assert (Pn : (0 < n)%R) by (apply IZR_lt; unfold zlen; rewrite app_length; cbn [length]; lia).
  set (y := ((b + 1) * n - rsum l)%R). exists y, ((rsum l + y) / n)%R. split; [|unfold y; replace ((rsum l + ((b + 1) * n - rsum l)) / n)%R with (b + 1)%R by (field; lra); lra].
  destruct (C20_moment_metrics w (ops ++ [OPush y]) Hw) as (A & _). rewrite A. rewrite hist_push, Hl. assert (X : forall k : list R, k <> [] -> mean_of k = Ok (Fin (rmean k))) by (intros [|? ?] Hk; [contradiction|reflexivity]). rewrite X by (destruct l; discriminate).
  unfold rmean, rlen. rewrite rsum_snoc. replace (IZR (zlen (l ++ [y]))) with n by (unfold n, zlen; rewrite !app_length; reflexivity). reflexivity.
Qed.
Print Assumptions C91_mean_refuted.
(** Window 5, values 8 1 2 +Inf 3 -Inf: three of the five live values lie in [1, 3], and the median is 2. *)
Example C91_case : let ops := map OPush [fz 8; fz 1; fz 2; finf false; fz 3; finf true] in pushes_nonnan ops /\ majority (fz 1) (fz 3) (live 5 (hist ops)) /\ in22 (fz 1) /\ in22 (fz 3) /\
  rmap fbits (q <- median_run env0 5 [] ops ;; median_value env0 q) = Ok (fbits (fz 2)) /\ rmap fbits (m <- hm_run 0 (map OPush [fz 1; finf false; fz 3; fz 2]) ;; hm_value m) = Ok (fbits (fdy 5 (-1))).
Proof.
  cbv zeta. assert (S0 : Forall in22 [fz 1; fz 3]) by (apply Forall_in22b; vm_compute; reflexivity). inversion S0 as [|? ? S1 S2]. inversion S2 as [|? ? S3 _]. subst.
  split; [intros x Hx; repeat (destruct Hx as [Hx|Hx]; [injection Hx as <-; vm_compute; reflexivity|]); destruct Hx|]. split; [vm_compute; lia|]. split; [exact S1|]. split; [exact S3|]. split; vm_compute; reflexivity.
Qed.
