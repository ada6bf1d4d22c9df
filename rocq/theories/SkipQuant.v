(** Quantiles over a skip list that holds equal values. *)
From Coq Require Import Permutation Reals Lra.
From Flocq Require Import Core BinarySingleNaN.
From Verif Require Import Base F64 HistSpec OrderSpec RingModel MultisetSpec SortLib
  AvlModel AvlProof SkipModel SkipProof SkipDup QuantileSpec QuantileModel QuantileProof.

(** Every position is answered with a stored value that is not above the right one. *)
Definition below (b : list f64) (k : Z) (v : f64) : Prop :=
  nonnan v /\ (exists y, In y b /\ feq v y = true) /\ (Z.of_nat (count_lt v b) <= k)%Z.
Definition select_low (b : list f64) (select : Z -> res (option f64)) : Prop :=
  forall k, (0 <= k < zlen b)%Z /\ (exists v, select k = Ok (Some v) /\ below b k v) \/ ~ (0 <= k < zlen b)%Z /\ select k = Ok None.
Definition stat_low (st : stat) (b : list f64) : Prop := stat_size st = zlen b /\ select_low b (stat_select st).

Lemma keys_in_feq b v : Forall nonnan b -> nonnan v -> In (fk v) (keys b) -> exists y, In y b /\ feq v y = true.
Proof.
  intros Hb Hv H. unfold keys in H. apply in_map_iff in H as (y & E & Hy). exists y. split; [exact Hy |].
  rewrite Forall_forall in Hb. rewrite feq_key by (auto; apply Hb; exact Hy). apply Z.eqb_eq. congruence.
Qed.

Lemma skip_low mx probs rnd ops : 1 <= mx -> Forall sop_nonnan ops ->
  exists s, skip_run mx probs rnd ops = Ok s /\ skip_size s = zlen (bag ops) /\ select_low (bag ops) (skip_select s) /\
    forall v, nonnan v -> exists r, skip_rank s v = Ok r /\ (Z.of_nat (count_lt v (bag ops)) <= r)%Z.
Proof.
  intros Hm Hn. destruct (skip_reach_d mx probs rnd ops Hm Hn) as (s & Hs & <- & L & I & Hk & D).
  pose proof (linv_len _ _ _ I Hk) as Hl. pose proof (bag_nonnan _ Hn) as Hb.
  exists s. split; [exact Hs |]. split; [unfold skip_size; rewrite (li_len _ _ I); unfold zlen; now rewrite Hl |]. split.
  - intros k. destruct (Z_lt_ge_dec k 0) as [Hk0 | Hk0].
    { right. split; [lia |]. unfold skip_select. destruct (Z.ltb_spec k 0); [reflexivity | lia]. }
    destruct (Z_lt_ge_dec k (zlen (bag ops))) as [Hk1 | Hk1].
    + left. split; [lia |]. destruct (dinv_select s L k I D) as (n & v & E & Hv & Hle); [unfold zlen in *; lia |].
      exists v. split; [exact E |].
      assert (Hsel : select_ok (bag ops) (fun k => if (k <? 0)%Z then None else nth_error (vals (sk_store s) L) (Z.to_nat k))).
      { apply (select_from_sorted _ (vals (sk_store s) L)); auto using linv_vals_nn.
        - intros j Hj. destruct (Z.ltb_spec j 0); [lia | reflexivity].
        - intros j Hj. destruct (Z.ltb_spec j 0); [reflexivity | lia]. }
      destruct (Hsel (Z.of_nat n)) as [(Hr & v' & E' & Hnn & Hc) | (Hr & E')].
      * destruct (Z.ltb_spec (Z.of_nat n) 0); [lia |]. rewrite Nat2Z.id in *. assert (v' = v) by congruence. subst v'.
        split; [exact Hnn |]. split; [| lia]. apply keys_in_feq; auto.
        apply (Permutation_in _ (sortz_perm (keys (bag ops)))). rewrite <- Hk. unfold skeys. apply in_map. eapply nth_error_In; eauto.
      * destruct (Z.ltb_spec (Z.of_nat n) 0); [lia |]. rewrite Nat2Z.id in *. congruence.
    + right. split; [lia |]. unfold skip_select. rewrite (li_len _ _ I). destruct (Z.ltb_spec k 0); [reflexivity |].
      destruct (Z.geb_spec k (zlen L)); [reflexivity |]. unfold zlen in *. lia.
  - intros v Hv. apply (dinv_rank s L (bag ops) v); auto.
Qed.

Lemma below_perm l1 l2 k v : Forall nonnan l1 -> Forall nonnan l2 -> Permutation (keys l1) (keys l2) -> below l1 k v -> below l2 k v.
Proof.
  intros H1 H2 HP (Hn & (y & Hy & E) & Hk). split; [exact Hn |]. split.
  - apply keys_in_feq; auto. apply (Permutation_in _ HP). rewrite Forall_forall in H1. rewrite feq_key in E by (auto; now apply H1). apply Z.eqb_eq in E. rewrite E.
    unfold keys. now apply in_map.
  - rewrite count_lt_keys in * by assumption. rewrite <- (Permutation_length (filter_perm _ _ _ HP)). exact Hk.
Qed.

Lemma q_reach_skip e w os ops : (0 <= w)%Z -> Forall qopt_num os -> Forall qopt_valid os -> pushes_nonnan ops -> chosen_impl os = 2%Z ->
  exists q, q_run e w os ops = Ok q /\ q_interp q = chosen_interp os /\ stat_low (q_stat q) (live w (hist ops)).
Proof.
  intros Hw Hn Hv Hp Hc.
  destruct (new_quantile_spec e w os Hn) as [[_ [_ [st0 [E Hf]]]]|[H _]]; [|tauto].
  unfold q_run. rewrite E. cbn [bind]. rewrite q_run_stat by exact Hw.
  pose proof (qops_nonnan w ops Hp) as Hqn. rewrite Hc in Hf.
  destruct Hf as [[Hf _]|[[Hf _]|[_ [mx [pr [r [Hm ->]]]]]]]; try discriminate.
  destruct (skip_low mx pr r (qops w ops) Hm Hqn) as (s & Es & Hsz & Hsel & _).
  rewrite (srun_rmap StSkip skip_add skip_remove skip_clear); try reflexivity. unfold skip_run in Es. rewrite Es. cbn [rmap bind].
  eexists. split; [reflexivity |]. split; [reflexivity |]. cbn [q_stat]. pose proof (qops_bag w ops Hw Hp) as HP.
  pose proof (perm_zlen _ _ HP) as Hz. split; [cbn [stat_size]; congruence |].
  intros k. rewrite <- Hz. cbn [stat_select]. destruct (Hsel k) as [(Hk & v & Ev & Hb) | H]; [left | right; exact H].
  split; [exact Hk |]. exists v. split; [exact Ev |]. eapply below_perm; [| | exact HP | exact Hb]; auto using bag_nonnan, pushes_live.
Qed.

Lemma low_sel st b k : stat_low st b -> (0 <= k < zlen b)%Z -> exists v, sel st k = Ok v /\ below b k v.
Proof.
  intros [_ H] Hk. destruct (H k) as [[_ [v [E Hv]]]|[Hn _]]; [|contradiction]. exists v. unfold sel. rewrite E. auto.
Qed.

(** Outside linear and midpoint interpolation a query is one Select at a position fixed by phi, n and the mode. *)
Lemma q_value_select e im (b : list f64) phi : (im = 1 \/ im = 2 \/ im = 3)%Z -> nonnan phi -> in_range phi = true -> (1 <= zlen b <= 2 ^ 53)%Z ->
  exists K, (0 <= K < zlen b)%Z /\ forall q, q_interp q = im -> stat_size (q_stat q) = zlen b -> q_value e q phi = sel (q_stat q) K.
Proof.
  intros Him Hn Hr Hsz. unfold in_range in Hr. pose proof (range_neg phi Hn) as Hr'. rewrite Hr in Hr'. cbn [negb] in Hr'.
  destruct (index_facts e phi (zlen b) Hn Hr' Hsz) as [Fr [Hi [Hlu [Hle [Eidx [Efeq [Fd Rd]]]]]]].
  set (raw := fmul phi (fz (zlen b - 1))) in *. set (i := Zfloor (B2R raw)) in *.
  assert (G : forall q, q_interp q = im -> stat_size (q_stat q) = zlen b -> q_value e q phi =
    if feq raw (ftrunc raw) then sel (q_stat q) i else
    if (im =? 1)%Z then sel (q_stat q) i else if (im =? 2)%Z then sel (q_stat q) (i + 1) else
    if feq (fsub raw (ftrunc raw)) (fdy 1 (-1)) then if (Z.rem i 2 =? 0)%Z then sel (q_stat q) i else sel (q_stat q) (i + 1)
    else if flt (fsub raw (ftrunc raw)) (fdy 1 (-1)) then sel (q_stat q) i else sel (q_stat q) (i + 1)).
  { intros q Hq Hs. unfold q_value. rewrite Hr', Hs. destruct (Z.eqb_spec (zlen b) 0); [lia |]. fold raw. rewrite Eidx, Hq.
    destruct Him as [-> | [-> | ->]]; reflexivity. }
  assert (Hne : feq raw (ftrunc raw) = false -> (i < zlen b - 1)%Z).
  { intros Ef. apply lt_IZR. assert (B2R raw <> IZR i) by (intros H; apply Efeq in H; congruence). lra. }
  destruct (feq raw (ftrunc raw)) eqn:Ef; [exists i; split; [lia | exact G] |]. specialize (Hne eq_refl).
  destruct (im =? 1)%Z; [exists i; split; [lia | exact G] |].
  destruct (im =? 2)%Z; [exists (i + 1)%Z; split; [lia | exact G] |].
  destruct (feq (fsub raw (ftrunc raw)) (fdy 1 (-1))); [destruct (Z.rem i 2 =? 0)%Z | destruct (flt (fsub raw (ftrunc raw)) (fdy 1 (-1)))];
    solve [exists i; split; [lia | exact G] | exists (i + 1)%Z; split; [lia | exact G]].
Qed.

Lemma q_value_low e q phi b : stat_low (q_stat q) b -> interp_valid (q_interp q) = true ->
  nonnan phi -> in_range phi = true -> (1 <= zlen b <= 2 ^ 53)%Z -> exists r, q_value e q phi = Ok r.
Proof.
  intros Hg Hiv Hn Hr0 Hsz. pose proof (proj1 Hg) as Hsize. unfold in_range in Hr0. pose proof (range_neg phi Hn) as Hr. rewrite Hr0 in Hr. cbn [negb] in Hr.
  destruct (index_facts e phi (zlen b) Hn Hr Hsz) as [Fr [Hi [Hlu [Hle [Eidx [Efeq [Fd Rd]]]]]]].
  unfold q_value. rewrite Hr, Hsize. destruct (Z.eqb_spec (zlen b) 0); [lia|].
  set (raw := fmul phi (fz (zlen b - 1))) in *. set (i := Zfloor (B2R raw)) in *. rewrite Eidx.
  destruct (low_sel (q_stat q) b i Hg ltac:(lia)) as [lo [Elo Hlo]].
  destruct (feq raw (ftrunc raw)) eqn:Ef; [eauto |].
  assert (Hlt : (i < zlen b - 1)%Z).
  { apply lt_IZR. assert (B2R raw <> IZR i) by (intros H; apply Efeq in H; congruence). lra. }
  destruct (low_sel (q_stat q) b (i + 1) Hg ltac:(lia)) as [hi [Ehi Hhi]].
  rewrite Elo, Ehi. cbn [bind].
  repeat match goal with |- context [if ?c then _ else _] => destruct c end; eauto.
Qed.

Lemma below_le b k v y : Forall nonnan b -> (0 <= k)%Z -> below b k v -> is_kth b (Z.to_nat k) y -> fle v y = true.
Proof.
  intros Hb Hk0 (Hn & _ & Hk) (Hy & Hc). rewrite fle_key by assumption. apply Z.leb_le.
  rewrite count_lt_keys in Hk by assumption. rewrite count_le_keys in Hc by assumption.
  destruct (Z_lt_ge_dec (fk y) (fk v)) as [Hlt | Hge]; [exfalso | lia].
  assert (G : length (filter (fun z => z <=? fk y)%Z (keys b)) <= length (filter (fun z => z <? fk v)%Z (keys b))); [| lia].
  clear - Hlt. induction (keys b) as [| z l IH]; cbn [filter]; [lia |].
  destruct (Z.leb_spec z (fk y)), (Z.ltb_spec z (fk v)); cbn [length]; lia.
Qed.

Lemma num_le_l x y z : nonnan y -> fle x y = true -> num_eq z y -> nonnan x -> fle x z = true.
Proof.
  intros Hy H [E | [_ E]] Hx; [| unfold nonnan in Hy; congruence].
  assert (Hz : nonnan z). { unfold nonnan. destruct z; try reflexivity. discriminate E. }
  rewrite fle_key in * by assumption. rewrite feq_key in E by assumption. apply Z.eqb_eq in E. apply Z.leb_le. apply Z.leb_le in H. lia.
Qed.

Lemma skip_quantile_low e w os ops : (0 <= w)%Z -> Forall qopt_num os -> Forall qopt_valid os -> pushes_nonnan ops -> chosen_impl os = 2%Z ->
  exists q, q_run e w os ops = Ok q /\ forall phi, nonnan phi ->
    (in_range phi = false -> q_value e q phi = Err EBadQuantile) /\
    (in_range phi = true -> live w (hist ops) = [] -> q_value e q phi = Err ENoValues) /\
    (in_range phi = true -> live w (hist ops) <> [] -> (zlen (live w (hist ops)) <= 2 ^ 53)%Z ->
       exists r, q_value e q phi = Ok r /\
         ((chosen_interp os = 1 \/ chosen_interp os = 2 \/ chosen_interp os = 3)%Z ->
            (exists y, In y (live w (hist ops)) /\ feq r y = true) /\
            forall y, quantile_result (chosen_interp os) (live w (hist ops)) phi y -> fle r y = true)).
Proof.
  intros Hw Hn Hv Hp Hc. destruct (q_reach_skip e w os ops Hw Hn Hv Hp Hc) as (q & Eq & Hi & Hg).
  exists q. split; [exact Eq |]. intros phi Hphi. pose proof (range_neg phi Hphi) as Hr. set (b := live w (hist ops)) in *. split; [| split].
  - unfold in_range. intros H. unfold q_value. rewrite Hr, H. reflexivity.
  - unfold in_range. intros H E. unfold q_value. rewrite Hr, H, (proj1 Hg), E. reflexivity.
  - intros H Hb Hz. assert (Hsz : (1 <= zlen b <= 2 ^ 53)%Z) by (destruct b; [congruence | unfold zlen in *; cbn [length] in *; lia]).
    destruct (q_value_low e q phi b Hg) as (r & Er); auto; [rewrite Hi; now apply valid_interp |].
    exists r. split; [exact Er |]. intros Him.
    destruct (q_value_select e (chosen_interp os) b phi Him Hphi H Hsz) as (K & HK & GK).
    rewrite (GK q Hi (proj1 Hg)) in Er. destruct (low_sel (q_stat q) b K Hg HK) as (v & Ev & Hlow).
    assert (v = r) by congruence. subst v. split; [apply Hlow |]. intros y Hy.
    pose proof (qops_nonnan w ops Hp) as Hqn. pose proof (pushes_live w ops Hp) as Hbn. fold b in Hbn.
    destruct (avl_good (qops w ops) Hqn) as (st & _ & Hst).
    apply (good_perm st _ b (bag_nonnan _ Hqn) Hbn (qops_bag w ops Hw Hp)) in Hst.
    set (q2 := mkQ w (chosen_interp os) (ring_new w) st).
    destruct (q_value_good e q2 phi b Hst) as (y2 & E2 & Hy2); auto.
    { now apply valid_interp. } { rewrite Hr. unfold in_range in H. now rewrite H. }
    rewrite (GK q2 eq_refl (proj1 Hst)) in E2. destruct (good_sel st b K Hst HK) as (v & Ev2 & Hkth).
    assert (v = y2) by (cbn [q_stat q2] in E2; congruence). subst v.
    apply (num_le_l r y2 y); [apply Hkth | apply (below_le b K); [exact Hbn | lia | exact Hlow | exact Hkth] | eapply quantile_unique; eauto | apply Hlow].
Qed.
