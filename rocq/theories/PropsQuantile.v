(** C11 - C15, C45: Quantile, Median, IQR. *)
From Coq Require Import Reals.
From Flocq Require Import BinarySingleNaN.
From Verif Require Import Base F64 HistSpec OrderSpec RingModel MultisetSpec AvlModel RbModel SkipModel
  QuantileModel QuantileSpec QuantileProof.

(** C45. The default (AVL) storage: for every environment, window, valid option list
    that does not select another implementation, and every history of non-NaN pushes
    and clears, the metric holds the live window: it rejects arguments outside (0,1),
    reports an empty window and otherwise returns the documented quantile. *)
Theorem C45_avl_quantile_is_exact : forall e w os ops, (0 <= w)%Z -> Forall qopt_num os -> Forall qopt_valid os ->
  pushes_nonnan ops -> chosen_impl os = 0%Z ->
  exists q, q_run e w os ops = Ok q /\ forall phi, nonnan phi ->
    (in_range phi = false -> q_value e q phi = Err EBadQuantile) /\
    (in_range phi = true -> live w (hist ops) = [] -> q_value e q phi = Err ENoValues) /\
    (in_range phi = true -> live w (hist ops) <> [] -> (zlen (live w (hist ops)) <= 2 ^ 53)%Z ->
       exists r, q_value e q phi = Ok r /\ quantile_result (chosen_interp os) (live w (hist ops)) phi r).
Proof. exact (fun e w os ops Hw Hn Hv Hp Hi => quantile_correct e w os ops Hw Hn Hv Hp (or_introl Hi)). Qed.
Print Assumptions C45_avl_quantile_is_exact.

(** An environment: pow is replaced by its first argument, the random source yields 0,
    int(NaN) is the amd64 value. *)
Definition env0 : env := mkEnv (fun p _ => p) (fun _ => fz 0) (fun _ => (- 2 ^ 63)%Z).
Definition pushes (l : list Z) : list (op f64) := map (fun z => OPush (fz z)) l.
Definition qcase : list (op f64) := pushes [7; 7]%Z ++ [OClear] ++ pushes [5; 1; 4; 4; 2]%Z.

Lemma pushes_num l : Forall nonnan (map fz l) -> pushes_nonnan (pushes l).
Proof.
  intros H x Hx. unfold pushes in Hx. apply in_map_iff in Hx. destruct Hx as [z [E Hz]]. inversion E. subst x.
  rewrite Forall_forall in H. apply H. apply in_map. exact Hz.
Qed.
Lemma pushes_clear a b : pushes_nonnan a -> pushes_nonnan b -> pushes_nonnan (a ++ [OClear] ++ b).
Proof.
  intros Ha Hb x Hx. apply in_app_or in Hx. destruct Hx as [Hx|[Hx|Hx]]; [apply Ha; exact Hx|discriminate|apply Hb; exact Hx].
Qed.
Lemma qcase_num : pushes_nonnan qcase.
Proof. apply pushes_clear; apply pushes_num; repeat constructor; vm_compute; reflexivity. Qed.

(** The live window is 1 4 4 2; the 0.25-quantile sits at index 0.75: linear 1.75. *)
Example C45_case : Forall qopt_num [QInterp 0] /\ Forall qopt_valid [QInterp 0] /\ pushes_nonnan qcase /\
  chosen_impl [QInterp 0] = 0%Z /\ in_range (fdy 1 (-2)) = true /\ length (live 4 (hist qcase)) = 4 /\
  rmap fbits (q <- q_run env0 4 [QInterp 0] qcase ;; q_value env0 q (fdy 1 (-2))) = Ok (fbits (fdy 7 (-2))) /\
  rmap fbits (q <- q_run env0 4 [QInterp 3] qcase ;; q_value env0 q (fdy 1 (-2))) = Ok (fbits (fz 2)) /\
  rmap fbits (q <- q_run env0 4 [QInterp 3] qcase ;; q_value env0 q (fz 1)) = Err EBadQuantile.
Proof.
  split; [repeat constructor|]. split; [repeat constructor; cbn; lia|]. split; [exact qcase_num|]. concrete.
Qed.

(** C11 is false for the red-black storage: with window 4 it loses values (five pushes
    leave the median of 2 2 1 1 at a wrong value) and a further Push may panic. *)
Theorem C11_quantile_refuted :
  (forall e, exists q r, q_run e 4 [QImpl 1 []] (pushes [2; 2; 2; 1; 1]%Z) = Ok q /\
     q_value e q (fdy 1 (-1)) = Ok r /\ ~ quantile_result 0 (live 4 (hist (pushes [2; 2; 2; 1; 1]%Z))) (fdy 1 (-1)) r) /\
  (forall e, q_run e 4 [QImpl 1 []] (pushes [2; 1; 2; 2; 3; 1]%Z) = Panic).
Proof.
  split.
  - intros e.
    destruct (rmap_ok (fun q => rmap (fun r => (fk r, feq r (fdy 3 (-1)), isnan r)) (q_value e q (fdy 1 (-1))))
      (q_run e 4 [QImpl 1 []] (pushes [2; 2; 2; 1; 1]%Z)) (Ok (fk (fz 1), false, false))) as [q [E H]].
    { vm_compute. reflexivity. }
    apply rmap_ok in H. destruct H as [r [E' H]]. exists q, r. split; [exact E|]. split; [exact E'|].
    apply (f_equal (fun p => (snd (fst p), snd p))) in H. cbn [fst snd] in H.
    intros Hq.
    destruct (quantile_correct e 4 [QImpl 0 []] (pushes [2; 2; 2; 1; 1]%Z)) as [q2 [E2 H2]].
    + lia.
    + repeat constructor.
    + repeat constructor.
    + apply pushes_num; repeat constructor; vm_compute; reflexivity.
    + left. reflexivity.
    + destruct (H2 (fdy 1 (-1))) as [_ [_ H3]]; [vm_compute; reflexivity|].
      destruct H3 as [r2 [E3 H3]]; [vm_compute; reflexivity|discriminate|vm_compute; discriminate|].
      assert (Hu : num_eq r r2).
      { eapply quantile_unique; [|exact Hq|exact H3]. apply pushes_live. apply pushes_num; repeat constructor; vm_compute; reflexivity. }
      destruct (rmap_ok (fun q => rmap (fun r => (fk r, isnan r)) (q_value e q (fdy 1 (-1))))
        (q_run e 4 [QImpl 0 []] (pushes [2; 2; 2; 1; 1]%Z)) (Ok (fk (fdy 3 (-1)), false))) as [q4 [E4 H4]].
      { vm_compute. reflexivity. }
      rewrite E2 in E4. assert (q2 = q4) by congruence. subst q4. rewrite E3 in H4. cbn [rmap bind] in H4.
      assert (H5 : fk r2 = fk (fdy 3 (-1)) /\ isnan r2 = false).
      { apply (f_equal (fun x => match x with Ok p => p | _ => (0%Z, true) end)) in H4.
        split; [exact (f_equal fst H4)|exact (f_equal snd H4)]. }
      destruct H5 as [H5 H6]. assert (Hr : isnan r = false) by exact (f_equal snd H).
      assert (Hf : feq r (fdy 3 (-1)) = false) by exact (f_equal fst H).
      destruct Hu as [Hu|[Hu _]]; [|congruence].
      rewrite feq_key in Hu by assumption. rewrite feq_key in Hf by (exact Hr || (vm_compute; reflexivity)).
      rewrite H5 in Hu. congruence.
  - intros e. vm_compute. reflexivity.
Qed.
Print Assumptions C11_quantile_refuted.

(** What holds: AVL always; red-black if every eviction meets a single copy of the
    evicted value (no eviction at all when w = 0); skip list if no value is pushed
    while an equal one is live. Missing: the red-black and skip list histories with
    duplicates, for which the claim is false. *)
Theorem C11_quantile_partial : forall e w os ops, (0 <= w)%Z -> Forall qopt_num os -> Forall qopt_valid os ->
  pushes_nonnan ops -> impl_cond (chosen_impl os) w ops ->
  exists q, q_run e w os ops = Ok q /\ forall phi, nonnan phi ->
    (in_range phi = false -> q_value e q phi = Err EBadQuantile) /\
    (in_range phi = true -> live w (hist ops) = [] -> q_value e q phi = Err ENoValues) /\
    (in_range phi = true -> live w (hist ops) <> [] -> (zlen (live w (hist ops)) <= 2 ^ 53)%Z ->
       exists r, q_value e q phi = Ok r /\ quantile_result (chosen_interp os) (live w (hist ops)) phi r).
Proof. exact quantile_correct. Qed.
Print Assumptions C11_quantile_partial.

Lemma no_eviction ops : evict_single 0 ops.
Proof. intros p x q y t _ H. lia. Qed.

(** Deciding the side conditions for the examples: all prefixes are inspected. *)
Fixpoint prefixes (p ops : list (op f64)) : list (list (op f64)) :=
  p :: match ops with [] => [] | o :: t => prefixes (p ++ [o]) t end.
Lemma prefixes_in ops : forall p a b, ops = a ++ b -> In (p ++ a) (prefixes p ops).
Proof.
  induction ops as [|o ops IH]; intros p a b E; cbn [prefixes].
  - destruct a; [|discriminate]. rewrite app_nil_r. left. reflexivity.
  - destruct a as [|o' a]; [rewrite app_nil_r; left; reflexivity|]. right. cbn [app] in E. injection E as Eo Ea. subst o'.
    replace (p ++ o :: a) with ((p ++ [o]) ++ a) by (rewrite <- app_assoc; reflexivity). apply (IH (p ++ [o]) a b). assumption.
Qed.
Definition evict_singleb (w : Z) (ops : list (op f64)) : bool :=
  forallb (fun p => match live w (hist p) with y :: t => (zlen (y :: t) <? w)%Z || (count_eq y t =? 0) | [] => true end) (prefixes [] ops).
Lemma evict_singleb_ok w ops : evict_singleb w ops = true -> evict_single w ops.
Proof.
  intros H p x q y t E Hw Hl El. unfold evict_singleb in H. rewrite forallb_forall in H.
  specialize (H p (prefixes_in ops [] p (OPush x :: q) E)). rewrite El in H, Hl. rewrite Hl, Z.ltb_irrefl in H.
  apply Nat.eqb_eq. exact H.
Qed.
Definition distinct_windowsb (w : Z) (ops : list (op f64)) : bool :=
  forallb (fun p => forallb (fun v => count_eq v (live w (hist p)) <=? 1) (live w (hist p))) (prefixes [] ops).
Lemma distinct_windowsb_ok w ops : pushes_nonnan ops -> distinct_windowsb w ops = true -> distinct_windows w ops.
Proof.
  intros Hp H p q v E Hv. unfold distinct_windowsb in H. rewrite forallb_forall in H.
  specialize (H p (prefixes_in ops [] p q E)). rewrite forallb_forall in H.
  assert (Hn : Forall nonnan (live w (hist p))) by (apply pushes_live; subst ops; exact (proj1 (pushes_app _ _ Hp))).
  destruct (filter (fun y => feq y v) (live w (hist p))) as [|a l] eqn:Ef; unfold count_eq at 1; rewrite Ef; [cbn; lia|].
  assert (Ha : In a (live w (hist p)) /\ feq a v = true).
  { apply (filter_In (fun y => feq y v)). rewrite Ef. left. reflexivity. }
  destruct Ha as [Ha1 Ha2]. specialize (H a Ha1). apply Nat.leb_le in H. unfold count_eq in H.
  rewrite Forall_forall in Hn. rewrite feq_key in Ha2 by (exact Hv || (apply Hn; assumption)). apply Z.eqb_eq in Ha2.
  rewrite <- Ef. erewrite filter_ext_in; [exact H|]. intros c Hc. rewrite !feq_key by (exact Hv || (apply Hn; assumption)). rewrite Ha2. reflexivity.
Qed.

(** Red-black storage, duplicates that are not evicted; skip list, distinct values. *)
Definition qcase_rb : list (op f64) := pushes [3; 5; 4; 4; 9]%Z.
Definition qcase_skip : list (op f64) := pushes [7]%Z ++ [OClear] ++ pushes [5; 1; 4; 2; 5]%Z.
Example C11_case :
  pushes_nonnan qcase_rb /\ impl_cond (chosen_impl [QImpl 1 []]) 4 qcase_rb /\
  pushes_nonnan qcase_skip /\ impl_cond (chosen_impl [QImpl 2 [OMaxLevel 3; OProb (fdy 1 (-1))]; QInterp 2]) 3 qcase_skip /\
  Forall qopt_num [QImpl 2 [OMaxLevel 3; OProb (fdy 1 (-1))]; QInterp 2] /\
  Forall qopt_valid [QImpl 2 [OMaxLevel 3; OProb (fdy 1 (-1))]; QInterp 2] /\
  rmap fbits (q <- q_run env0 4 [QImpl 1 []] qcase_rb ;; q_value env0 q (fdy 1 (-1))) = Ok (fbits (fdy 9 (-1))) /\
  rmap fbits (q <- q_run env0 3 [QImpl 2 [OMaxLevel 3; OProb (fdy 1 (-1))]; QInterp 2] qcase_skip ;; q_value env0 q (fdy 3 (-2)))
    = Ok (fbits (fz 5)).
Proof.
  assert (H1 : pushes_nonnan qcase_rb) by (apply pushes_num; repeat constructor; vm_compute; reflexivity).
  assert (H2 : pushes_nonnan qcase_skip) by (apply pushes_clear; apply pushes_num; repeat constructor; vm_compute; reflexivity).
  split; [exact H1|]. split; [right; left; split; [reflexivity|apply evict_singleb_ok; vm_compute; reflexivity]|].
  split; [exact H2|]. split; [right; right; split; [reflexivity|apply distinct_windowsb_ok; [exact H2|vm_compute; reflexivity]]|].
  split; [repeat constructor|]. split.
  { constructor; [right; right; split; [reflexivity|]|repeat constructor; cbn; lia].
    constructor; [cbn; lia|]. constructor; [|constructor]. split; vm_compute; reflexivity. }
  split; vm_compute; reflexivity.
Qed.

(** C12 is false for NaN: for every environment (every result of int(NaN)) the call
    does not return an error in a nonempty state; on amd64 it panics. *)
Theorem C12_quantile_argument_refuted :
  (forall e, exists q, q_run e 0 [] (pushes [1; 2]%Z) = Ok q /\ forall err, q_value e q fnan <> Err err) /\
  (exists q, q_run env0 0 [] (pushes [1; 2]%Z) = Ok q /\ q_value env0 q fnan = Panic).
Proof.
  split.
  - intros e. destruct (rmap_ok (fun q => stat_size (q_stat q)) (q_run e 0 [] (pushes [1; 2]%Z)) 2%Z) as [q [E H]].
    { vm_compute. reflexivity. }
    exists q. split; [exact E|]. intros err. apply nan_no_error; [rewrite H; discriminate|].
    destruct (rmap_ok (fun q => match q_stat q with StAvl _ => true | _ => false end) (q_run e 0 [] (pushes [1; 2]%Z)) true)
      as [q' [E' H']].
    { vm_compute. reflexivity. }
    assert (q' = q) by congruence. subst q'. destruct (q_stat q); try discriminate H'. intros k x. cbn [stat_select]. discriminate.
  - destruct (rmap_ok (fun q => rmap fbits (q_value env0 q fnan)) (q_run env0 0 [] (pushes [1; 2]%Z)) Panic) as [q [E H]].
    { vm_compute. reflexivity. }
    exists q. split; [exact E|]. destruct (q_value env0 q fnan); try discriminate H. reflexivity.
Qed.
Print Assumptions C12_quantile_argument_refuted.

(** What holds, in every state whatsoever: every non-NaN argument outside (0,1),
    infinities included, is rejected. Missing: NaN. *)
Theorem C12_quantile_argument_partial : forall e q phi, nonnan phi ->
  ~ (flt (fz 0) phi = true /\ flt phi (fz 1) = true) -> q_value e q phi = Err EBadQuantile.
Proof. exact reject_out_of_range. Qed.
Print Assumptions C12_quantile_argument_partial.

Example C12_case : Forall (fun phi => nonnan phi /\ ~ (flt (fz 0) phi = true /\ flt phi (fz 1) = true))
  [fz 0; fz 1; fz (-1); finf true; finf false; fdy 3 (-1)].
Proof. repeat constructor; try (vm_compute; reflexivity); intros [H1 H2]; vm_compute in H1, H2; discriminate. Qed.

(** C13 fails with the red-black storage for the same reason as C11. *)
Theorem C13_median_refuted : forall e, median_run e 4 [QImpl 1 []] (pushes [2; 1; 2; 2; 3; 1]%Z) = Panic.
Proof. intros e. vm_compute. reflexivity. Qed.
Print Assumptions C13_median_refuted.

(** What holds (same storage condition as C11, every option list, whatever
    interpolation it asks for). Missing: red-black and skip list with duplicates. *)
Theorem C13_median_partial : forall e w os ops, (0 <= w)%Z -> Forall qopt_num os -> Forall qopt_valid os ->
  pushes_nonnan ops -> impl_cond (chosen_impl os) w ops ->
  exists q, median_run e w os ops = Ok q /\
    (live w (hist ops) = [] -> median_value e q = Err ENoValues) /\
    (live w (hist ops) <> [] -> (zlen (live w (hist ops)) <= 2 ^ 53)%Z ->
       exists r, median_value e q = Ok r /\ median_result (live w (hist ops)) r).
Proof. exact median_correct. Qed.
Print Assumptions C13_median_partial.

Theorem C13_iqr_partial : forall e w os ops, (0 <= w)%Z -> Forall qopt_num os -> Forall qopt_valid os ->
  pushes_nonnan ops -> impl_cond (chosen_impl os) w ops ->
  exists q, iqr_run e w os ops = Ok q /\
    (live w (hist ops) = [] -> iqr_value e q = Err ENoValues) /\
    (live w (hist ops) <> [] -> (zlen (live w (hist ops)) <= 2 ^ 53)%Z ->
       exists q25 q75, iqr_value e q = Ok (fsub q75 q25) /\
         quantile_result 4 (live w (hist ops)) (fdy 1 (-2)) q25 /\ quantile_result 4 (live w (hist ops)) (fdy 3 (-2)) q75).
Proof. exact iqr_correct. Qed.
Print Assumptions C13_iqr_partial.

Example C13_case : Forall qopt_num [QInterp 1] /\ Forall qopt_valid [QInterp 1] /\ pushes_nonnan qcase /\
  impl_cond (chosen_impl [QInterp 1]) 4 qcase /\
  rmap fbits (q <- median_run env0 4 [QInterp 1] qcase ;; median_value env0 q) = Ok (fbits (fz 3)) /\
  rmap fbits (q <- median_run env0 5 [QInterp 1] qcase ;; median_value env0 q) = Ok (fbits (fz 4)) /\
  rmap fbits (q <- iqr_run env0 4 [QInterp 1] qcase ;; iqr_value env0 q) = Ok (fbits (fdy 5 (-1))).
Proof.
  split; [repeat constructor|]. split; [repeat constructor; cbn; lia|]. split; [exact qcase_num|].
  split; [left; reflexivity|]. repeat split; vm_compute; reflexivity.
Qed.


(** C14 is false: AVL and red-black disagree on the median of the same history. *)
Theorem C14_impl_unobservable_refuted : forall e,
  exists q1 q2 r1 r2, q_run e 4 [QImpl 0 []] (pushes [2; 2; 2; 1; 1]%Z) = Ok q1 /\
    q_run e 4 [QImpl 1 []] (pushes [2; 2; 2; 1; 1]%Z) = Ok q2 /\
    q_value e q1 (fdy 1 (-1)) = Ok r1 /\ q_value e q2 (fdy 1 (-1)) = Ok r2 /\ ~ num_eq r1 r2.
Proof.
  intros e.
  destruct (rmap_ok (fun p => rmap (fun rr => (feq (fst rr) (snd rr), isnan (fst rr)))
                (r1 <- q_value e (fst p) (fdy 1 (-1)) ;; r2 <- q_value e (snd p) (fdy 1 (-1)) ;; Ok (r1, r2)))
    (q1 <- q_run e 4 [QImpl 0 []] (pushes [2; 2; 2; 1; 1]%Z) ;; q2 <- q_run e 4 [QImpl 1 []] (pushes [2; 2; 2; 1; 1]%Z) ;; Ok (q1, q2))
    (Ok (false, false))) as [[q1 q2] [E H]].
  { vm_compute. reflexivity. }
  destruct (proj1 (bind_ok _ _ _) E) as [q1' [E1' E']]. destruct (proj1 (bind_ok _ _ _) E') as [q2' [E2' E'']].
  apply (f_equal (fun r => match r with Ok p => p | _ => (q1, q2) end)) in E''.
  pose proof (f_equal fst E'') as Ha'. pose proof (f_equal snd E'') as Hb'. cbn [fst snd] in Ha', Hb'. subst q1' q2'. clear E E' E''.
  cbn [fst snd] in H. destruct (q_value e q1 (fdy 1 (-1))) as [r1| | | |] eqn:E1; try discriminate H. cbn [bind] in H.
  destruct (q_value e q2 (fdy 1 (-1))) as [r2| | | |] eqn:E2; try discriminate H. cbn [bind rmap fst snd] in H.
  exists q1, q2, r1, r2. repeat split; auto.
  apply (f_equal (fun r => match r with Ok p => p | _ => (true, true) end)) in H.
  pose proof (f_equal fst H) as Ha. pose proof (f_equal snd H) as Hb. cbn [fst snd] in Ha, Hb.
  intros [Hu|[Hu _]]; congruence.
Qed.
Print Assumptions C14_impl_unobservable_refuted.

(** What holds: under the storage condition of C11 for both, the two metrics give
    numerically equal answers (or the same error) to every query. *)
Theorem C14_impl_unobservable_partial : forall e w os1 os2 ops, (0 <= w)%Z -> Forall qopt_num os1 -> Forall qopt_num os2 ->
  Forall qopt_valid os1 -> Forall qopt_valid os2 -> pushes_nonnan ops ->
  chosen_interp os1 = chosen_interp os2 ->
  impl_cond (chosen_impl os1) w ops -> impl_cond (chosen_impl os2) w ops -> (zlen (live w (hist ops)) <= 2 ^ 53)%Z ->
  exists q1 q2, q_run e w os1 ops = Ok q1 /\ q_run e w os2 ops = Ok q2 /\
    forall phi, nonnan phi -> res_rel num_eq (q_value e q1 phi) (q_value e q2 phi).
Proof. exact impl_unobservable. Qed.
Print Assumptions C14_impl_unobservable_partial.

Example C14_case : chosen_interp [QImpl 1 []] = chosen_interp [QImpl 2 []] /\
  impl_cond (chosen_impl [QImpl 1 []]) 3 qcase_skip /\ impl_cond (chosen_impl [QImpl 2 []]) 3 qcase_skip /\
  length (live 3 (hist qcase_skip)) = 3.
Proof.
  assert (H2 : pushes_nonnan qcase_skip) by (apply pushes_clear; apply pushes_num; repeat constructor; vm_compute; reflexivity).
  split; [reflexivity|]. split; [right; left; split; [reflexivity|apply evict_singleb_ok; vm_compute; reflexivity]|].
  split; [right; right; split; [reflexivity|apply distinct_windowsb_ok; [exact H2|vm_compute; reflexivity]]|].
  vm_compute. reflexivity.
Qed.

(** C15 is false for a NaN probability, which every constructor accepts. *)
Theorem C15_option_validation_refuted : forall e, exists q,
  new_quantile e 0 [QImpl 2 [OProb fnan]] = Ok q /\ ~ Forall qopt_valid [QImpl 2 [OProb fnan]].
Proof.
  intros e. eexists. split.
  - unfold new_quantile, qopts_apply, qopt_apply, impl_init, skip_create, sopts_apply, sopt_apply.
    change (fle fnan (fz 0)) with false. change (fge fnan (fz 1)) with (fle (fz 1) fnan). rewrite fle_nan_r. reflexivity.
  - intros H. apply Forall_inv in H. destruct H as [H|[H|[_ H]]]; try discriminate.
    apply Forall_inv in H. destruct H as [H _]. rewrite flt_nan_r in H. discriminate.
Qed.
Print Assumptions C15_option_validation_refuted.

(** What holds: without NaN probabilities New succeeds exactly on valid arguments,
    with the last named interpolation and an empty container of the last named kind;
    otherwise it returns an error. NewMedian and NewIQR call New. Missing: NaN. *)
Theorem C15_option_validation_partial : forall e w os, Forall qopt_num os ->
  ((0 <= w)%Z /\ Forall qopt_valid os /\
     exists st, new_quantile e w os = Ok (mkQ w (chosen_interp os) (ring_new w) st) /\ fresh_stat (chosen_impl os) st) \/
  (~ ((0 <= w)%Z /\ Forall qopt_valid os) /\ exists err, new_quantile e w os = Err err).
Proof. exact new_quantile_spec. Qed.
Print Assumptions C15_option_validation_partial.

Example C15_case :
  Forall qopt_num [QImpl 2 [OMaxLevel 64]; QInterp 3; QImpl 1 [OMaxLevel 0]] /\
  Forall qopt_valid [QImpl 2 [OMaxLevel 64]; QInterp 3; QImpl 1 [OMaxLevel 0]] /\
  chosen_impl [QImpl 2 [OMaxLevel 64]; QInterp 3; QImpl 1 [OMaxLevel 0]] = 1%Z /\
  ~ Forall qopt_valid [QImpl 0 []; QImpl 2 [OMaxLevel 65]] /\
  new_quantile env0 3 [QImpl 0 []; QImpl 2 [OMaxLevel 65]] = Err EBadMaxLevel.
Proof.
  split; [repeat constructor|]. split.
  { constructor; [right; right; split; [reflexivity|]; repeat constructor; cbn; lia|]. constructor; [cbn; lia|].
    constructor; [right; left; reflexivity|constructor]. }
  split; [reflexivity|]. split; [|reflexivity].
  intros H. apply Forall_inv_tail, Forall_inv in H. destruct H as [H|[H|[_ H]]]; try discriminate.
  apply Forall_inv in H. cbn in H. lia.
Qed.
