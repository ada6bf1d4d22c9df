(** Inequalities between moments (C69): pure real arithmetic over lists. *)
From Coq Require Import Reals Lra Lia.
From Verif Require Import Base HistSpec NumModel MomentSpec RealLib JointSpec JointValue EwmProof MomentProof.
Local Open Scope R_scope.

Lemma rsum_nonneg {A} (f : A -> R) l : (forall x, In x l -> 0 <= f x) -> 0 <= rsum (map f l).
Proof.
  induction l as [|x l IH]; intros H; [cbn; lra|]. cbn [map]. rewrite rsum_cons. specialize (H x (or_introl eq_refl)) as H1.
  assert (0 <= rsum (map f l)) by (apply IH; intros; apply H; right; assumption). lra.
Qed.
Lemma rlen_pos l : l <> [] -> 0 < rlen l.
Proof. intros H. unfold rlen, zlen. apply IZR_lt. destruct l; [congruence|]. cbn [length]. lia. Qed.
Lemma rsum_map_id l : rsum (map (fun x => x) l) = rsum l.
Proof. rewrite map_id. reflexivity. Qed.
Lemma rsum_mean l : l <> [] -> rsum l = rlen l * rmean l.
Proof. intros H. pose proof (rlen_pos l H). unfold rmean. field. lra. Qed.

Lemma mean_between l m M : l <> [] -> (forall x, In x l -> m <= x <= M) -> m <= rmean l <= M.
Proof.
  intros Hl H. pose proof (rlen_pos l Hl) as Hp. pose proof (rsum_mean l Hl) as Hs.
  assert (H1 : 0 <= rsum (map (fun x => x + - m) l)) by (apply rsum_nonneg; intros x Hx; specialize (H x Hx); lra).
  assert (H2 : 0 <= rsum (map (fun x => M + -1 * x) l)) by (apply rsum_nonneg; intros x Hx; specialize (H x Hx); lra).
  rewrite rsum_plus, rsum_map_id, rsum_const in H1. rewrite rsum_plus, rsum_const, (rsum_scale (-1) (fun x => x)), rsum_map_id in H2.
  fold (rlen l) in *. rewrite Hs in *. split; nra.
Qed.

(** Sums of squares about the mean *)
Lemma csum_1 l : l <> [] -> csum 1 l = 0.
Proof.
  intros H. unfold csum. rewrite (rsum_ext _ (fun x => x + - rmean l)) by (intros; ring). rewrite rsum_plus, rsum_map_id, rsum_const. fold (rlen l).
  rewrite (rsum_mean l H). ring.
Qed.
Lemma bhatia_davis l m M : l <> [] -> (forall x, In x l -> m <= x <= M) -> csum 2 l <= rlen l * ((M - rmean l) * (rmean l - m)).
Proof.
  intros Hl H. assert (H1 : 0 <= rsum (map (fun x => (M - x) * (x - m)) l)) by (apply rsum_nonneg; intros x Hx; specialize (H x Hx); nra).
  rewrite (rsum_ext _ (fun x => (-1) * (x - rmean l) ^ 2 + ((M + m - 2 * rmean l) * (x - rmean l) ^ 1 + (M - rmean l) * (rmean l - m)))) in H1 by (intros; ring).
  rewrite rsum_plus, rsum_scale, rsum_plus, rsum_scale, rsum_const in H1. fold (csum 2 l) (csum 1 l) (rlen l) in H1. rewrite (csum_1 l Hl) in H1. lra.
Qed.
(** Pearson's inequality: m3^2 <= m2 (m4 m2^0 ... ), in sums: n c3^2 + c2^3 <= n c2 c4 *)
Lemma pearson_ineq l : l <> [] -> rlen l * csum 3 l ^ 2 + csum 2 l ^ 3 <= rlen l * (csum 2 l * csum 4 l).
Proof.
  intros Hl. pose proof (rlen_pos l Hl) as Hn. set (n := rlen l) in *. set (c2 := csum 2 l). set (c3 := csum 3 l). set (c4 := csum 4 l).
  assert (Hc2 : 0 <= c2) by (unfold c2, csum; apply rsum_nonneg; intros x _; apply pow2_ge_0).
  (* sum of (c2 (x-mu)^2 - c3 (x-mu) - c2^2/n)^2 >= 0 *)
  assert (H : 0 <= rsum (map (fun x => (c2 * (x - rmean l) ^ 2 - c3 * (x - rmean l) - c2 * c2 / n) ^ 2) l)) by (apply rsum_nonneg; intros x _; apply pow2_ge_0).
  rewrite (rsum_ext _ (fun x => c2 ^ 2 * (x - rmean l) ^ 4 + ((-2 * c2 * c3) * (x - rmean l) ^ 3 + ((c3 ^ 2 - 2 * c2 * (c2 * c2 / n)) * (x - rmean l) ^ 2 + (2 * c3 * (c2 * c2 / n) * (x - rmean l) ^ 1 + (c2 * c2 / n) ^ 2))))) in H by (intros; ring).
  rewrite !rsum_plus, !rsum_scale, rsum_const in H. fold (csum 4 l) (csum 3 l) (csum 2 l) (csum 1 l) (rlen l) in H. fold n c2 c3 c4 in H.
  rewrite (csum_1 l Hl) in H.
  assert (E : c2 ^ 2 * c4 + (-2 * c2 * c3 * c3 + ((c3 ^ 2 - 2 * c2 * (c2 * c2 / n)) * c2 + (2 * c3 * (c2 * c2 / n) * 0 + n * (c2 * c2 / n) ^ 2))) = c2 * (n * (c2 * c4) - n * c3 ^ 2 - c2 ^ 3) / n) by (field; lra).
  rewrite E in H. destruct (Rle_lt_or_eq_dec 0 c2 Hc2) as [Hp|Hz].
  - assert (H' : 0 <= c2 * (n * (c2 * c4) - n * c3 ^ 2 - c2 ^ 3)).
    { replace (c2 * (n * (c2 * c4) - n * c3 ^ 2 - c2 ^ 3)) with (c2 * (n * (c2 * c4) - n * c3 ^ 2 - c2 ^ 3) / n * n) by (field; lra). apply Rmult_le_pos; lra. }
    assert (0 <= n * (c2 * c4) - n * c3 ^ 2 - c2 ^ 3); [|lra]. apply (Rmult_le_reg_l c2); [exact Hp|]. lra.
  - (* all deviations are zero *)
    assert (H3 : c3 = 0); [|rewrite H3, <- Hz; lra].
    assert (Hall : forall x, In x l -> x - rmean l = 0).
    { assert (G : forall l', (forall x, In x l' -> 0 <= (x - rmean l) ^ 2) -> rsum (map (fun x => (x - rmean l) ^ 2) l') = 0 -> forall x, In x l' -> x - rmean l = 0).
      { induction l' as [|y l' IH]; intros Hn' Hs x Hx; [destruct Hx|]. cbn [map] in Hs. rewrite rsum_cons in Hs.
        assert (H1 : 0 <= rsum (map (fun x => (x - rmean l) ^ 2) l')) by (apply rsum_nonneg; intros z Hzz; apply Hn'; right; exact Hzz).
        pose proof (Hn' y (or_introl eq_refl)). destruct Hx as [<-|Hx]; [nra|]. apply IH; [intros z Hzz; apply Hn'; right; exact Hzz|lra|exact Hx]. }
      apply G; [intros; apply pow2_ge_0|]. symmetry. exact Hz. }
    unfold c3, csum. rewrite (rsum_ext _ (fun _ => 0)); [apply rsum_zero|]. intros x Hx. rewrite (Hall x Hx). ring.
Qed.
Lemma sum_squares {A} (f : A -> R) l : (forall x, In x l -> 0 <= f x) -> rsum (map (fun x => f x ^ 2) l) <= rsum (map f l) ^ 2.
Proof.
  induction l as [|x l IH]; intros H; [cbn; lra|]. cbn [map]. rewrite !rsum_cons.
  assert (H1 : 0 <= rsum (map f l)) by (apply rsum_nonneg; intros; apply H; right; assumption).
  assert (H2 : rsum (map (fun x => f x ^ 2) l) <= rsum (map f l) ^ 2) by (apply IH; intros; apply H; right; assumption).
  pose proof (H x (or_introl eq_refl)). nra.
Qed.
Lemma csum_4_2 l : csum 4 l <= csum 2 l ^ 2.
Proof.
  unfold csum. rewrite (rsum_ext (fun x => (x - rmean l) ^ 4) (fun x => ((x - rmean l) ^ 2) ^ 2)) by (intros; ring).
  apply (sum_squares (fun x => (x - rmean l) ^ 2)). intros; apply pow2_ge_0.
Qed.

(** Kurtosis, in terms of skewness *)
Lemma kurtosis_bounds l : (3 <= length l)%nat -> csum 2 l <> 0 ->
  skewness l ^ 2 * ((rlen l - 2) ^ 2 / (rlen l * (rlen l - 1))) <= kurtosis l + 2 /\ kurtosis l <= rlen l - 3.
Proof.
  intros Hlen Hz. assert (Hl : l <> []) by (destruct l; [cbn in Hlen; lia|discriminate]).
  assert (Hn : 3 <= rlen l) by (unfold rlen, zlen; apply IZR_le; lia).
  pose proof (pearson_ineq l Hl) as HP. pose proof (csum_4_2 l) as H4.
  assert (Hc2 : 0 < csum 2 l). { assert (0 <= csum 2 l) by (unfold csum; apply rsum_nonneg; intros; apply pow2_ge_0). lra. }
  unfold skewness, kurtosis, pop_moment. set (n := rlen l) in *. set (c2 := csum 2 l) in *. set (c3 := csum 3 l) in *. set (c4 := csum 4 l) in *.
  split.
  - assert (E : (sqrt (n * (n - 1)) / (n - 2) * (c3 / n / (c2 / n * sqrt (c2 / n)))) ^ 2 * ((n - 2) ^ 2 / (n * (n - 1))) = n * c3 ^ 2 / c2 ^ 3).
    { assert (S1 : sqrt (n * (n - 1)) ^ 2 = n * (n - 1)) by (rewrite <- Rsqr_pow2; apply Rsqr_sqrt; nra).
      assert (Hq : 0 < c2 / n) by (apply Rdiv_lt_0_compat; lra).
      assert (S2 : sqrt (c2 / n) ^ 2 = c2 / n) by (rewrite <- Rsqr_pow2; apply Rsqr_sqrt; lra).
      assert (S3 : sqrt (c2 / n) <> 0) by (apply Rgt_not_eq, sqrt_lt_R0, Hq).
      replace ((sqrt (n * (n - 1)) / (n - 2) * (c3 / n / (c2 / n * sqrt (c2 / n)))) ^ 2 * ((n - 2) ^ 2 / (n * (n - 1))))
        with (sqrt (n * (n - 1)) ^ 2 * (c3 / c2) ^ 2 / (sqrt (c2 / n) ^ 2 * (n * (n - 1)))) by (field; repeat split; lra).
      rewrite S1, S2. field. repeat split; lra. }
    rewrite E. replace (c4 / n / (c2 / n) ^ 2 - 3 + 2) with (n * c4 / c2 ^ 2 - 1) by (field; split; lra).
    assert (H3 : 0 < c2 ^ 3) by (apply pow_lt; lra). apply (Rmult_le_reg_r (c2 ^ 3)); [exact H3|].
    replace (n * c3 ^ 2 / c2 ^ 3 * c2 ^ 3) with (n * c3 ^ 2) by (field; lra).
    replace ((n * c4 / c2 ^ 2 - 1) * c2 ^ 3) with (n * (c2 * c4) - c2 ^ 3) by (field; lra). lra.
  - replace (c4 / n / (c2 / n) ^ 2 - 3) with (n * (c4 / c2 ^ 2) - 3) by (field; split; lra).
    assert (H2 : 0 < c2 ^ 2) by (apply pow_lt; lra). assert (c4 / c2 ^ 2 <= 1); [|nra].
    apply (Rmult_le_reg_r (c2 ^ 2)); [exact H2|]. replace (c4 / c2 ^ 2 * c2 ^ 2) with c4 by (field; lra). lra.
Qed.

(** Exponential weights *)
Lemma ewma_between d l m M : 0 < d < 1 -> l <> [] -> (forall x, In x l -> m <= x <= M) -> m <= ewma d l <= M.
Proof.
  intros Hd. induction l as [|x l IH] using rev_ind; intros Hl H; [congruence|]. destruct l as [|y l].
  - cbn [app]. rewrite ewma_one. apply H. left. reflexivity.
  - rewrite ewma_push by discriminate. assert (H1 : m <= ewma d (y :: l) <= M) by (apply IH; [discriminate|intros; apply H, in_or_app; left; assumption]).
    assert (H2 : m <= x <= M) by (apply H, in_or_app; right; left; reflexivity). nra.
Qed.
Lemma ewvar_push d l x : l <> [] -> ewmoment d 2 (l ++ [x]) = (1 - d) * (ewmoment d 2 l + d * (x - ewma d l) ^ 2).
Proof.
  intros H. rewrite ewmoment_push by (assumption || lia). cbn. ring.
Qed.
Lemma ew_bhatia_davis d l m M : 0 < d < 1 -> l <> [] -> (forall x, In x l -> m <= x <= M) -> ewmoment d 2 l <= (M - ewma d l) * (ewma d l - m).
Proof.
  intros Hd. induction l as [|x l IH] using rev_ind; intros Hl H; [congruence|]. destruct l as [|y l].
  - cbn [app]. rewrite ewma_one, ewmoment_one by lia. specialize (H x (or_introl eq_refl)). nra.
  - rewrite ewvar_push, ewma_push by discriminate.
    assert (H1 : ewmoment d 2 (y :: l) <= (M - ewma d (y :: l)) * (ewma d (y :: l) - m)) by (apply IH; [discriminate|intros; apply H, in_or_app; left; assumption]).
    assert (H2 : m <= x <= M) by (apply H, in_or_app; right; left; reflexivity).
    set (u := ewma d (y :: l)) in *. set (v := ewmoment d 2 (y :: l)) in *.
    assert (H3 : 0 <= d * ((M - x) * (x - m))) by (apply Rmult_le_pos; [lra|]; apply Rmult_le_pos; lra).
    assert (H4 : (1 - d) * (v + d * (x - u) ^ 2) <= (1 - d) * ((M - u) * (u - m) + d * (x - u) ^ 2)) by (apply Rmult_le_compat_l; lra).
    nra.
Qed.

(** Pairs (x, x) *)
Lemma dup_fst (l : list R) : map fst (map (fun x => (x, x)) l) = l.
Proof. rewrite map_map. cbn. apply map_id. Qed.
Lemma dup_snd (l : list R) : map snd (map (fun x => (x, x)) l) = l.
Proof. rewrite map_map. cbn. apply map_id. Qed.
Lemma sxy_dup l : sxy (map (fun x => (x, x)) l) = csum 2 l.
Proof. unfold sxy, csum. rewrite dup_fst, dup_snd, map_map. apply rsum_ext. intros x _. cbn [fst snd]. ring. Qed.
Lemma sxy_swap l : sxy (map (fun p => (snd p, fst p)) l) = sxy l.
Proof.
  unfold sxy. assert (E1 : map fst (map (fun p : R * R => (snd p, fst p)) l) = map snd l) by (rewrite map_map; reflexivity).
  assert (E2 : map snd (map (fun p : R * R => (snd p, fst p)) l) = map fst l) by (rewrite map_map; reflexivity).
  rewrite E1, E2, map_map. apply rsum_ext. intros x _. cbn [fst snd]. ring.
Qed.
