(** Expected number of steps of the skip list's methods after any history, over the random draws of the heights. *)
From Coq Require Import Permutation.
From Verif Require Import Base F64 OrderSpec MultisetSpec SortLib AvlProof SkipModel SkipProof CostModel CostErase CostTree SkipCost SkipCost2 SkipProb.
From Coq Require Import Reals Lra.
Local Open Scope nat_scope.

Lemma height_bounds mx probs u : 1 <= mx -> 1 <= height mx probs u <= mx.
Proof. intros H. unfold height. pose proof (rand_level_bounds probs u (mx - 1) 1). lia. Qed.
Lemma nodup_app_l {X} (l1 l2 : list X) : NoDup (l1 ++ l2) -> NoDup l1.
Proof. induction l1 as [|x l1 IH]; intros H; [constructor|]. inversion H as [|? ? H1 H2]; subst. constructor; [|apply IH, H2]. intros Hx. apply H1, in_or_app. left. exact Hx. Qed.
Lemma recs01 l : (forall x, In x l -> 1 <= x) -> recs 1 l = recs 0 l.
Proof. destruct l as [|x l]; intros H; [reflexivity|]. cbn [recs]. specialize (H x (or_introl eq_refl)). destruct (Nat.leb_spec 1 x); [reflexivity|lia]. Qed.

(** the slots below v, and the others *)
Definition lows (v : f64) (l : list (f64 * nat)) : list (f64 * nat) := filter (fun e => flt (fst e) v) l.
Definition highs (v : f64) (l : list (f64 * nat)) : list (f64 * nat) := filter (fun e => negb (flt (fst e) v)) l.
Lemma filter_split {X} (f : X -> bool) l1 l2 : (forall x, In x l1 -> f x = true) -> (forall x, In x l2 -> f x = false) ->
  filter f (l1 ++ l2) = l1 /\ filter (fun x => negb (f x)) (l1 ++ l2) = l2.
Proof.
  intros H1 H2. rewrite !filter_app. split.
  - rewrite filter_all, filter_none, app_nil_r by assumption. reflexivity.
  - rewrite (filter_none _ l1), (filter_all _ l2); [reflexivity| |]; intros x Hx; [rewrite H2|rewrite H1]; auto.
Qed.
Definition hts (mx : nat) (probs rnd : nat -> f64) (l : list (f64 * nat)) : list nat := map (height mx probs) (map rnd (map snd l)).
Lemma hts_slots mx probs rnd l : map snd (slot_nodes mx probs rnd l) = hts mx probs rnd l.
Proof. unfold slot_nodes, hts. rewrite !map_map. reflexivity. Qed.
Lemma slot_split mx probs rnd ops s L v : SlotInv mx probs rnd ops s L -> nonnan v ->
  exists A B, L = A ++ B /\ (forall a, In a A -> flt (n_val (sk_store s a)) v = true) /\ (forall b, In b B -> flt (n_val (sk_store s b)) v = false) /\
    heights (sk_store s) A = hts mx probs rnd (lows v (snd (slots ops))) /\ heights (sk_store s) B = hts mx probs rnd (highs v (snd (slots ops))).
Proof.
  intros (I & _ & _ & _ & EN & _) Hv. destruct (split_at s L v I Hv) as (A & B & -> & HA & HB & _). exists A, B. split; [reflexivity|]. split; [exact HA|]. split; [exact HB|].
  rewrite nodes_app in EN. symmetry in EN. apply split_in in EN. destruct EN as (l1 & l2 & E12 & E1 & E2).
  destruct (filter_split (fun e : f64 * nat => flt (fst e) v) l1 l2) as [F1 F2].
  - apply (nodes_fst_in s A l1 (fun x => flt x v = true) mx probs rnd (eq_sym E1)). exact HA.
  - apply (nodes_fst_in s B l2 (fun x => flt x v = false) mx probs rnd (eq_sym E2)). exact HB.
  - unfold lows, highs. rewrite E12, F1, F2, !heights_nodes, <- E1, <- E2. split; apply hts_slots.
Qed.
Lemma slots_len mx probs rnd ops s L : SlotInv mx probs rnd ops s L -> length (snd (slots ops)) = length (bag ops) /\ length L = length (bag ops).
Proof.
  intros (_ & _ & _ & Hk & EN & _). assert (length L = length (bag ops)).
  { apply (f_equal (@length Z)) in Hk. unfold skeys, keys, vals in Hk. rewrite !map_length, (Permutation_length (sortz_perm _)), map_length in Hk. exact Hk. }
  split; [|assumption]. apply (f_equal (@length _)) in EN. unfold nodes, slot_nodes in EN. rewrite !map_length in EN. congruence.
Qed.
Lemma hts_ge1 mx probs rnd l : 1 <= mx -> forall x, In x (hts mx probs rnd l) -> 1 <= x.
Proof. intros Hm x Hx. apply in_map_iff in Hx. destruct Hx as (u & <- & _). apply (height_bounds mx probs u Hm). Qed.
Lemma low_high v l : length (lows v l) + length (highs v l) = length l.
Proof. unfold lows, highs. induction l as [|e l IH]; [reflexivity|]. cbn [filter]. destruct (flt (fst e) v); cbn [negb length]; lia. Qed.
Lemma filter_nodup {X} (f : f64 * X -> bool) l : NoDup (map snd l) -> NoDup (map snd (filter f l)) /\ forall i, In i (map snd (filter f l)) -> In i (map snd l).
Proof.
  induction l as [|e l IH]; intros H; [split; [constructor|auto]|]. cbn [filter map] in *. inversion H as [|? ? H1 H2]; subst. destruct (IH H2) as [N S0].
  destruct (f e); cbn [map]; split; auto.
  - constructor; [|exact N]. intros Hi. apply H1, S0, Hi.
  - intros i [<-|Hi]; [left; reflexivity|right; apply S0, Hi].
  - intros i Hi. right. apply S0, Hi.
Qed.

(** the steps of the operation f after ops, as a function of the random numbers *)
Definition after (mx : nat) (probs : nat -> f64) (ops : list sop) (f : skip -> nat) (rnd : nat -> f64) : R :=
  match skip_run mx probs rnd ops with Ok s => INR (f s) | _ => 0%R end.
Fixpoint adds (ops : list sop) : nat := match ops with [] => 0 | SAdd _ :: t => S (adds t) | _ :: t => adds t end.
Lemma slots_adds ops : fst (slots ops) = adds ops.
Proof.
  unfold slots. assert (G : forall p, fst (fold_left slot_step ops p) = fst p + adds ops); [|rewrite (G (0, [])); reflexivity].
  induction ops as [|o ops IH]; intros p; cbn [fold_left adds]; [lia|]. rewrite IH. destruct o; cbn [slot_step fst]; lia.
Qed.

Section EXP.
Local Open Scope R_scope.
Context (U : list f64) (HU : U <> []) (mx : nat) (Hm : (1 <= mx)%nat) (probs : nat -> f64) (ops : list sop) (Hn : Forall sop_nonnan ops) (D : nat) (HD : (adds ops <= D)%nat) (rho : nat -> f64).
Notation h := (height mx probs).
Context (Hq : forall i, (i < mx)%nat -> 0 < above U h i).
Notation G := (ratios U h (mx - 1) 1).
Notation T := (top U h mx).
Notation sl := (snd (slots ops)).
Lemma hb u : In u U -> (1 <= h u <= mx)%nat.
Proof. intros _. apply height_bounds, Hm. Qed.
Lemma gap0 : gap U h mx 0 = G.
Proof.
  rewrite gap_step by lia. unfold ratio. assert (E : prob U (fun u => (h u =? 0)%nat) = 0).
  { unfold prob. rewrite (mean_ext U _ (fun _ => 0)); [apply mean_const, HU|]. intros u Hu. pose proof (hb u Hu). destruct (Nat.eqb_spec (h u) 0); [lia|reflexivity]. }
  rewrite E. unfold gap. unfold Rdiv. rewrite Rmult_0_l, Rplus_0_l. reflexivity.
Qed.
Lemma exp_recs l : NoDup (map snd l) -> (forall i, In i (map snd l) -> In i (map snd sl)) ->
  INR (length l) * T <= expect U D (fun rnd => INR (recs 0 (hts mx probs rnd l))) rho <= G + INR (length l) * T.
Proof.
  intros N Hi. destruct (slots_idx ops) as [_ Hlt].
  assert (E : expect U D (fun rnd => INR (recs 0 (hts mx probs rnd l))) rho = expl U (length l) (fun us => INR (recs 0 (map h us)))).
  { rewrite <- (map_length snd l). rewrite <- (expect_map U HU D (map snd l) (fun us => INR (recs 0 (map h us))) rho N); [reflexivity|].
    intros i Hj. specialize (Hlt i (Hi i Hj)). rewrite slots_adds in Hlt. lia. }
  rewrite E, <- gap0. split; [apply recs_lower; auto using hb; lia|apply recs_upper; auto using hb; lia].
Qed.
Lemma exp_recs_rev l : NoDup (map snd l) -> (forall i, In i (map snd l) -> In i (map snd sl)) ->
  INR (length l) * T <= expect U D (fun rnd => INR (recs 0 (rev (hts mx probs rnd l)))) rho <= G + INR (length l) * T.
Proof.
  intros N Hi. rewrite <- (rev_length l). rewrite (expect_ext U D _ (fun rnd => INR (recs 0 (hts mx probs rnd (rev l))))).
  - apply exp_recs; rewrite map_rev; [apply NoDup_rev, N|]. intros i Hj. apply Hi. apply in_rev. exact Hj.
  - intros rnd. unfold hts. rewrite <- !map_rev. reflexivity.
Qed.
Lemma after_eq f g : (forall rnd s L, skip_run mx probs rnd ops = Ok s -> SlotInv mx probs rnd ops s L -> INR (f s) = g rnd) ->
  expect U D (after mx probs ops f) rho = expect U D g rho.
Proof.
  intros H. apply expect_ext. intros rnd. destruct (skip_slots mx probs rnd ops Hm Hn) as (s & L & E & I). unfold after. rewrite E. apply (H rnd s L E I).
Qed.
Lemma after_le f g : (forall rnd s L, skip_run mx probs rnd ops = Ok s -> SlotInv mx probs rnd ops s L -> INR (f s) <= g rnd) ->
  expect U D (after mx probs ops f) rho <= expect U D g rho.
Proof.
  intros H. apply expect_le; [exact HU|]. intros rnd. destruct (skip_slots mx probs rnd ops Hm Hn) as (s & L & E & I). unfold after. rewrite E. apply (H rnd s L E I).
Qed.
Lemma after_ge f g : (forall rnd s L, skip_run mx probs rnd ops = Ok s -> SlotInv mx probs rnd ops s L -> g rnd <= INR (f s)) ->
  expect U D g rho <= expect U D (after mx probs ops f) rho.
Proof.
  intros H. apply expect_le; [exact HU|]. intros rnd. destruct (skip_slots mx probs rnd ops Hm Hn) as (s & L & E & I). unfold after. rewrite E. apply (H rnd s L E I).
Qed.
Lemma bag_len : length sl = length (bag ops).
Proof. destruct (skip_slots mx probs rho ops Hm Hn) as (s & L & E & I). apply (slots_len _ _ _ _ _ _ I). Qed.
Lemma top_nonneg : 0 <= T.
Proof. unfold top, prob. apply Rle_trans with (mean U (fun _ => 0)); [rewrite mean_const by exact HU; lra|]. apply mean_le; [exact HU|]. intros u _. destruct (h u =? mx)%nat; lra. Qed.
Lemma nd (f : f64 * nat -> bool) : NoDup (map snd (filter f sl)) /\ forall i, In i (map snd (filter f sl)) -> In i (map snd sl).
Proof. apply filter_nodup, (slots_idx ops). Qed.

Lemma exp_add v : nonnan v -> expect U D (after mx probs ops (fun s => fst (skip_add_c s v))) rho <= 6 * INR mx + 2 * G + INR (length (bag ops)) * T.
Proof.
  intros Hv.
  apply Rle_trans with (expect U D (fun rnd => 6 * INR mx + (INR (recs 0 (rev (hts mx probs rnd (lows v sl)))) + INR (recs 0 (hts mx probs rnd (highs v sl))))) rho).
  - apply after_le. intros rnd s L E I. destruct (slot_split _ _ _ _ _ _ v I Hv) as (A & B & -> & HA & HB & E1 & E2).
    destruct I as (I & (Em & _) & _). pose proof (skip_add_cost s A B v I Hv HA HB) as H. rewrite E1, E2, Em, recs01 in H by (apply hts_ge1, Hm).
    apply le_INR in H. rewrite !plus_INR, mult_INR in H. replace (INR 6) with 6 in H by (cbn; lra). lra.
  - rewrite expect_plus, expect_const, expect_plus by exact HU. destruct (nd (fun e => flt (fst e) v)) as [N1 S1]. destruct (nd (fun e => negb (flt (fst e) v))) as [N2 S2].
    pose proof (proj2 (exp_recs_rev (lows v sl) N1 S1)) as B1. pose proof (proj2 (exp_recs (highs v sl) N2 S2)) as B2.
    rewrite <- bag_len, <- (low_high v sl), plus_INR. lra.
Qed.
Lemma exp_remove v : nonnan v -> expect U D (after mx probs ops (fun s => fst (skip_remove_c s v))) rho <= 2 * INR mx + G + INR (length (lows v sl)) * T.
Proof.
  intros Hv. apply Rle_trans with (expect U D (fun rnd => 2 * INR mx + INR (recs 0 (rev (hts mx probs rnd (lows v sl))))) rho).
  - apply after_le. intros rnd s L E I. destruct (slot_split _ _ _ _ _ _ v I Hv) as (A & B & -> & HA & HB & E1 & E2).
    destruct I as (I & (Em & _) & _). pose proof (skip_remove_cost s A B v I HA HB) as H. rewrite E1, Em in H.
    apply le_INR in H. rewrite !plus_INR, mult_INR in H. replace (INR 2) with 2 in H by (cbn; lra). lra.
  - rewrite expect_plus, expect_const by exact HU. destruct (nd (fun e => flt (fst e) v)) as [N1 S1]. pose proof (proj2 (exp_recs_rev (lows v sl) N1 S1)) as B1. lra.
Qed.
Lemma exp_rank v : nonnan v -> INR mx + INR (length (lows v sl)) * T <= expect U D (after mx probs ops (fun s => fst (skip_rank_c s v))) rho <= INR mx + G + INR (length (lows v sl)) * T.
Proof.
  intros Hv. rewrite (after_eq _ (fun rnd => INR mx + INR (recs 0 (rev (hts mx probs rnd (lows v sl)))))).
  - rewrite expect_plus, expect_const by exact HU. destruct (nd (fun e => flt (fst e) v)) as [N1 S1]. pose proof (exp_recs_rev (lows v sl) N1 S1) as B1. lra.
  - intros rnd s L E I. destruct (slot_split _ _ _ _ _ _ v I Hv) as (A & B & -> & HA & HB & E1 & E2).
    destruct I as (I & (Em & _) & _). rewrite (skip_rank_cost s A B v I HA HB), E1, Em, plus_INR. reflexivity.
Qed.
(** Add looks for the place first, which is what Rank does. *)
Lemma exp_add_lower v : nonnan v -> INR mx + INR (length (lows v sl)) * T <= expect U D (after mx probs ops (fun s => fst (skip_add_c s v))) rho.
Proof.
  intros Hv. eapply Rle_trans; [apply (proj1 (exp_rank v Hv))|]. apply expect_le; [exact HU|]. intros rnd.
  destruct (skip_slots mx probs rnd ops Hm Hn) as (s & L & E & I). unfold after. rewrite E. apply le_INR.
  destruct (slot_split _ _ _ _ _ _ v I Hv) as (A & B & -> & HA & HB & E1 & E2). destruct I as (I & _).
  rewrite (skip_rank_cost s A B v I HA HB), <- (linv_prevs_cost s A B v I HA HB). unfold skip_add_c. destruct (linv_prevs s A B v I HA HB) as [prevs [Eprev _]].
  rewrite (cbind_eq _ _ prevs) by (rewrite get_prevs_erase; exact Eprev). lia.
Qed.
Lemma exp_select k : (distinct_adds ops \/ mx = 1%nat) -> (0 <= k < Z.of_nat (length (bag ops)))%Z ->
  INR mx + IZR (k + 1) * T <= expect U D (after mx probs ops (fun s => fst (skip_select_c s k))) rho <= INR mx + G + IZR (k + 1) * T.
Proof.
  intros Hd Hk. set (l := firstn (Z.to_nat (k + 1)) sl). assert (Hl : length l = Z.to_nat (k + 1)) by (unfold l; rewrite firstn_length, bag_len; lia).
  assert (EK : IZR (k + 1) = INR (length l)) by (rewrite Hl, INR_IZR_INZ; f_equal; lia). rewrite EK.
  rewrite (after_eq _ (fun rnd => INR mx + INR (recs 0 (rev (hts mx probs rnd l))))).
  - rewrite expect_plus, expect_const by exact HU.
    assert (N : NoDup (map snd l) /\ forall i, In i (map snd l) -> In i (map snd sl)).
    { unfold l. destruct (slots_idx ops) as [N _]. rewrite <- (firstn_skipn (Z.to_nat (k + 1)) sl), map_app in N. split; [apply (nodup_app_l _ _ N)|].
      intros i Hi. rewrite <- (firstn_skipn (Z.to_nat (k + 1)) sl), map_app. apply in_or_app. left. exact Hi. }
    pose proof (exp_recs_rev l (proj1 N) (proj2 N)). lra.
  - intros rnd s L E I. destruct (slots_len _ _ _ _ _ _ I) as [_ EL]. destruct I as (I & (Em & _) & _ & _ & EN & HW).
    rewrite (skip_select_cost s L k I (proj1 (HW Hd))) by (unfold zlen; rewrite EL; exact Hk). rewrite Em, plus_INR. do 4 f_equal.
    rewrite heights_nodes, EN, hts_slots. unfold hts, l. rewrite !firstn_map. reflexivity.
Qed.
End EXP.

Section LEV.
Local Open Scope R_scope.
Context (U : list f64) (mx : nat) (Hm : (1 <= mx)%nat) (probs : nat -> f64).
Notation h := (height mx probs).
(** consecutive levels at least p apart *)
Lemma above_step i : (1 <= i)%nat -> prob U (fun u => (h u =? i)%nat) = above U h (i - 1) - above U h i.
Proof.
  intros Hi. enough (above U h (i - 1) = prob U (fun u => (h u =? i)%nat) + above U h i) by lra. unfold above, prob. rewrite <- mean_plus. apply mean_ext. intros u _.
  destruct (Nat.ltb_spec (i - 1) (h u)), (Nat.eqb_spec (h u) i), (Nat.ltb_spec i (h u)); try lia; lra.
Qed.
Lemma ratios_le (Hq : forall i, (i < mx)%nat -> 0 < above U h i) p : 0 < p -> (forall i, (1 <= i < mx)%nat -> p * above U h (i - 1) <= above U h i) ->
  forall k i, (1 <= i)%nat -> (i + k <= mx)%nat -> ratios U h k i <= INR k * (1 / p - 1).
Proof.
  intros Hp H. induction k as [|k IH]; intros i Hi Hk; [cbn [ratios INR]; lra|]. cbn [ratios]. rewrite S_INR. specialize (IH (S i) ltac:(lia) ltac:(lia)).
  enough (ratio U h i <= 1 / p - 1) by lra. unfold ratio. rewrite above_step by exact Hi. specialize (H i ltac:(lia)). pose proof (Hq i ltac:(lia)) as Q.
  apply (Rmult_le_reg_r (above U h i)); [exact Q|]. unfold Rdiv. rewrite Rmult_assoc, Rinv_l by lra. rewrite Rmult_1_r.
  apply (Rmult_le_reg_l p); [exact Hp|]. replace (p * ((1 * / p - 1) * above U h i)) with ((1 - p) * above U h i) by (field; lra). lra.
Qed.
Lemma top_above : top U h mx = above U h (mx - 1).
Proof.
  unfold top, above, prob. apply mean_ext. intros u Hu. pose proof (height_bounds mx probs u Hm). destruct (Nat.eqb_spec (h u) mx), (Nat.ltb_spec (mx - 1) (h u)); try lia; reflexivity.
Qed.
End LEV.
