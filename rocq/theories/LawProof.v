(** Algebraic laws of the textbook formulas: shifting and scaling, reordering. *)
From Coq Require Import Reals Lra Permutation.
From Verif Require Import Base HistSpec NumModel MomentSpec RealLib MomentProof EwmProof JointSpec JointValue.
Local Open Scope R_scope.

(** The history obtained by applying [f] to every pushed value. *)
Definition map_op {A B} (f : A -> B) (o : op A) : op B := match o with OPush x => OPush (f x) | OClear => OClear end.
Definition map_ops {A B} (f : A -> B) (ops : list (op A)) : list (op B) := map (map_op f) ops.
Lemma hist_map_ops {A B} (f : A -> B) ops : hist (map_ops f ops) = map f (hist ops).
Proof.
  induction ops as [|o ops IH] using rev_ind; [reflexivity|]. unfold map_ops in *. rewrite map_app. cbn [map]. destruct o as [x|]; cbn [map_op].
  - rewrite !hist_push, IH, map_app. reflexivity.
  - rewrite !hist_clear. reflexivity.
Qed.
Lemma live_map_ops {A B} (f : A -> B) w ops : live w (hist (map_ops f ops)) = map f (live w (hist ops)).
Proof. rewrite hist_map_ops. apply live_map. Qed.

(** Change of unit and origin. *)
Definition aff (a b x : R) : R := a * x + b.

Lemma rlen_map f l : rlen (map f l) = rlen l.
Proof. unfold rlen, zlen. rewrite map_length. reflexivity. Qed.
Lemma rsum_aff a b l : rsum (map (aff a b) l) = a * rsum l + rlen l * b.
Proof.
  induction l as [|x l IH]; [unfold rlen, zlen; cbn; ring|]. cbn [map]. rewrite !rsum_cons, IH, rlen_cons. unfold aff. ring.
Qed.
Lemma rmean_aff a b l : l <> [] -> rmean (map (aff a b) l) = aff a b (rmean l).
Proof. intros H. apply rlen_pos in H. unfold rmean. rewrite rsum_aff, rlen_map. unfold aff. field. lra. Qed.
Lemma pow_mult a x k : (a * x) ^ k = a ^ k * x ^ k. Proof. apply Rpow_mult_distr. Qed.
Lemma csum_aff k a b l : csum k (map (aff a b) l) = a ^ k * csum k l.
Proof.
  destruct l as [|y l']; [unfold csum; cbn; ring|]. set (l := y :: l'). assert (H : l <> []) by discriminate.
  unfold csum. rewrite rmean_aff by exact H. rewrite map_map, <- rsum_scale. apply rsum_ext. intros x _. rewrite <- pow_mult. f_equal. unfold aff. ring.
Qed.
Lemma ewma_aff d a b l : l <> [] -> ewma d (map (aff a b) l) = aff a b (ewma d l).
Proof.
  intros H. rewrite (ewma_raw d l). unfold ewma. rewrite eweights_map. rewrite (JointValue.wsum_map _ (aff a b) l). fold (eweights d l). change (pweights d l) with (eweights d l). fold (EL d l).
  pose proof (EL_total d l 0 H) as E. unfold wpow in E.
  rewrite (rsum_ext _ (fun p => a * (fst p * snd p) + b * (fst p * (snd p - 0) ^ 0))) by (intros p _; unfold aff; cbn; ring).
  rewrite rsum_plus, !rsum_scale, E. unfold aff. ring.
Qed.
Lemma ewmoment_aff d k a b l : ewmoment d k (map (aff a b) l) = a ^ k * ewmoment d k l.
Proof.
  destruct l as [|y l']; [cbn [map]; rewrite ewmoment_nil; ring|]. set (l := y :: l'). assert (H : l <> []) by discriminate.
  unfold ewmoment. rewrite ewma_aff by exact H. rewrite eweights_map, map_map, !JointValue.wsum_map. change (pweights d l) with (eweights d l). rewrite <- rsum_scale. apply rsum_ext. intros p _.
  replace (aff a b (snd p) - aff a b (ewma d l)) with (a * (snd p - ewma d l)) by (unfold aff; ring). rewrite pow_mult. ring.
Qed.

(** Pairs: both coordinates change. *)
Definition aff2 (a b c e : R) (p : R * R) : R * R := (aff a b (fst p), aff c e (snd p)).
Lemma fst_aff2 a b c e l : map fst (map (aff2 a b c e) l) = map (aff a b) (map fst l).
Proof. rewrite !map_map. reflexivity. Qed.
Lemma snd_aff2 a b c e l : map snd (map (aff2 a b c e) l) = map (aff c e) (map snd l).
Proof. rewrite !map_map. reflexivity. Qed.
Lemma map_nn {A B} (f : A -> B) l : l <> [] -> map f l <> []. Proof. destruct l; cbn; congruence. Qed.
Lemma sxy_aff a b c e l : sxy (map (aff2 a b c e) l) = a * c * sxy l.
Proof.
  destruct l as [|y l']; [unfold sxy; cbn; ring|]. set (l := y :: l'). assert (H : l <> []) by discriminate.
  unfold sxy. rewrite fst_aff2, snd_aff2, !rmean_aff by (apply map_nn; exact H). rewrite map_map, <- rsum_scale. apply rsum_ext. intros p _. unfold aff2, aff. cbn [fst snd]. ring.
Qed.
Lemma ewcov_aff d a b c e l : ewcov d (map (aff2 a b c e) l) = a * c * ewcov d l.
Proof.
  destruct l as [|y l']; [unfold ewcov, wsum; cbn; ring|]. set (l := y :: l'). assert (H : l <> []) by discriminate.
  unfold ewcov. rewrite fst_aff2, snd_aff2, !ewma_aff by (apply map_nn; exact H). rewrite pweights_map, map_map, !JointValue.wsum_map, <- rsum_scale. apply rsum_ext. intros p _. unfold aff2, aff. cbn [fst snd]. ring.
Qed.
Lemma lagged_map {A B} (f : A -> B) lag l : lagged lag (map f l) = map (fun p => (f (fst p), f (snd p))) (lagged lag l).
Proof.
  unfold lagged. rewrite skipn_map. generalize (skipn lag l). intros u. revert l. induction u as [|x u IH]; intros [|y l]; try reflexivity. cbn [map combine fst snd]. rewrite IH. reflexivity.
Qed.

(** Signs. *)
Definition rsgn (x : R) : R := if Rlt_dec 0 x then 1 else -1.
Lemma rsgn_abs a : a <> 0 -> a = rsgn a * Rabs a /\ 0 < Rabs a.
Proof. intros H. unfold rsgn. destruct (Rlt_dec 0 a); [rewrite Rabs_pos_eq by lra; lra|]. rewrite Rabs_left1 by lra. lra. Qed.
Lemma rsgn_sq a : rsgn a * rsgn a = 1. Proof. unfold rsgn. destruct (Rlt_dec 0 a); ring. Qed.

Lemma is0_scale a x : a <> 0 -> is0 (a * x) = is0 x.
Proof.
  intros H. destruct (Req_dec x 0) as [->|Hx]; [rewrite Rmult_0_r; reflexivity|]. unfold is0. destruct (Req_EM_T (a * x) 0) as [E|_], (Req_EM_T x 0) as [E'|_]; try reflexivity; try contradiction. exfalso. revert E. apply Rmult_integral_contrapositive_currified; assumption.
Qed.

Lemma sqrt_sq_scale a x : sqrt (a ^ 2 * x) = Rabs a * sqrt x.
Proof.
  rewrite sqrt_mult_alt by (apply pow2_ge_0). f_equal. rewrite <- Rsqr_pow2. apply sqrt_Rsqr_abs.
Qed.
Lemma skewness_aff a b l : a <> 0 -> csum 2 l <> 0 -> l <> [] -> skewness (map (aff a b) l) = rsgn a * skewness l.
Proof.
  intros Ha H Hn. apply rlen_pos in Hn. unfold skewness, pop_moment. rewrite !csum_aff, !rlen_map.
  destruct (rsgn_abs a Ha) as (E & P). replace (a ^ 2 * csum 2 l / rlen l) with (a ^ 2 * (csum 2 l / rlen l)) by (field; lra). rewrite sqrt_sq_scale.
  set (m := csum 2 l / rlen l). set (s := sqrt m). set (f := sqrt (rlen l * (rlen l - 1)) / (rlen l - 2)).
  assert (E2 : a ^ 2 = Rabs a ^ 2) by (rewrite <- !Rsqr_pow2; apply Rsqr_abs). assert (E3 : a ^ 3 = rsgn a * (Rabs a) ^ 3) by (replace (a ^ 3) with (a * a ^ 2) by ring; rewrite E2, E at 1; ring).
  rewrite E2, E3. destruct (Req_dec s 0) as [Hs|Hs].
  - rewrite Hs, !Rmult_0_r. unfold Rdiv. rewrite Rinv_0. ring.
  - assert (m <> 0) by (unfold m; intros Em; apply H; apply (f_equal (fun z => z * rlen l)) in Em; unfold Rdiv in Em; rewrite Rmult_assoc, Rinv_l, Rmult_1_r, Rmult_0_l in Em by lra; exact Em).
    clearbody f s m. field. repeat split; try assumption; lra.
Qed.
Lemma kurtosis_aff a b l : a <> 0 -> csum 2 l <> 0 -> l <> [] -> kurtosis (map (aff a b) l) = kurtosis l.
Proof.
  intros Ha H Hn. apply rlen_pos in Hn. unfold kurtosis, pop_moment. rewrite !csum_aff, !rlen_map. field. repeat split; try assumption; lra.
Qed.
Lemma pearson_aff a b c e l : a <> 0 -> c <> 0 -> pearson (map (aff2 a b c e) l) = rsgn a * rsgn c * pearson l.
Proof.
  intros Ha Hc. unfold pearson. rewrite fst_aff2, snd_aff2, sxy_aff, !csum_aff.
  replace (a ^ 2 * csum 2 (map fst l) * (c ^ 2 * csum 2 (map snd l))) with ((a * c) ^ 2 * (csum 2 (map fst l) * csum 2 (map snd l))) by ring. rewrite sqrt_sq_scale, Rabs_mult.
  destruct (rsgn_abs a Ha) as (Ea & Pa), (rsgn_abs c Hc) as (Ec & Pc). rewrite Ea, Ec at 1. set (q := sqrt _). destruct (Req_dec q 0) as [->|Hq]; [rewrite Rmult_0_r; unfold Rdiv; rewrite Rinv_0; ring|]. field. repeat split; lra.
Qed.
Lemma ewcorr_aff d a b c e l : a <> 0 -> c <> 0 -> ewcorr d (map (aff2 a b c e) l) = rsgn a * rsgn c * ewcorr d l.
Proof.
  intros Ha Hc. unfold ewcorr. rewrite fst_aff2, snd_aff2, ewcov_aff, !ewmoment_aff.
  replace (a ^ 2 * ewmoment d 2 (map fst l) * (c ^ 2 * ewmoment d 2 (map snd l))) with ((a * c) ^ 2 * (ewmoment d 2 (map fst l) * ewmoment d 2 (map snd l))) by ring. rewrite sqrt_sq_scale, Rabs_mult.
  destruct (rsgn_abs a Ha) as (Ea & Pa), (rsgn_abs c Hc) as (Ec & Pc). rewrite Ea, Ec at 1. set (q := sqrt _). destruct (Req_dec q 0) as [->|Hq]; [rewrite Rmult_0_r; unfold Rdiv; rewrite Rinv_0; ring|]. field. repeat split; lra.
Qed.

(** Results: a number [r] becomes [s * r + t], errors and NaN stay. *)
Definition xlin (s t : R) (v : res xr) : res xr := match v with Ok (Fin r) => Ok (Fin (s * r + t)) | v => v end.

Lemma mean_aff a b l : mean_of (map (aff a b) l) = xlin a b (mean_of l).
Proof. destruct l as [|x l]; [reflexivity|]. cbn [map mean_of xlin]. change (aff a b x :: map (aff a b) l) with (map (aff a b) (x :: l)). rewrite rmean_aff by discriminate. reflexivity. Qed.
Lemma moment_aff k a b l : moment_of k (map (aff a b) l) = xlin (a ^ k) 0 (moment_of k l).
Proof.
  destruct l as [|x [|y l]]; try reflexivity. unfold moment_of at 2. unfold xlin. change (moment_of k (map (aff a b) (x :: y :: l))) with (Ok (Fin (sample_moment k (map (aff a b) (x :: y :: l))))).
  do 2 f_equal. unfold sample_moment. rewrite csum_aff, rlen_map. unfold Rdiv. ring.
Qed.
Lemma std_aff a b l : std_of (map (aff a b) l) = xlin (Rabs a) 0 (std_of l).
Proof.
  destruct l as [|x [|y l]]; try reflexivity. unfold std_of at 2. unfold xlin. change (std_of (map (aff a b) (x :: y :: l))) with (Ok (Fin (sqrt (sample_moment 2 (map (aff a b) (x :: y :: l)))))).
  do 2 f_equal. unfold sample_moment. rewrite csum_aff, rlen_map. unfold Rdiv. rewrite Rmult_assoc, sqrt_sq_scale. ring.
Qed.
Lemma skew_aff a b l : a <> 0 -> skew_of (map (aff a b) l) = xlin (rsgn a) 0 (skew_of l).
Proof.
  intros Ha. destruct l as [|x [|y [|z l]]]; try reflexivity. set (L := x :: y :: z :: l). assert (HL : L <> []) by discriminate.
  change (skew_of (map (aff a b) L)) with (@Ok xr (if is0 (csum 2 (map (aff a b) L)) then XNaN else Fin (skewness (map (aff a b) L)))).
  change (skew_of L) with (@Ok xr (if is0 (csum 2 L) then XNaN else Fin (skewness L))). rewrite csum_aff, is0_scale by (apply pow_nonzero; exact Ha).
  unfold is0. destruct (Req_EM_T (csum 2 L) 0) as [E|E]; [reflexivity|]. cbn [xlin]. rewrite skewness_aff by assumption. do 2 f_equal. ring.
Qed.
Lemma kurt_aff a b l : a <> 0 -> kurt_of (map (aff a b) l) = kurt_of l.
Proof.
  intros Ha. destruct l as [|x [|y l]]; try reflexivity. set (L := x :: y :: l). assert (HL : L <> []) by discriminate.
  change (kurt_of (map (aff a b) L)) with (@Ok xr (if is0 (csum 2 (map (aff a b) L)) then XNaN else Fin (kurtosis (map (aff a b) L)))).
  change (kurt_of L) with (@Ok xr (if is0 (csum 2 L) then XNaN else Fin (kurtosis L))). rewrite csum_aff, is0_scale by (apply pow_nonzero; exact Ha).
  unfold is0. destruct (Req_EM_T (csum 2 L) 0) as [E|E]; [reflexivity|]. rewrite kurtosis_aff by assumption. reflexivity.
Qed.
Lemma ewma_of_aff d a b l : ewma_of d (map (aff a b) l) = xlin a b (ewma_of d l).
Proof. destruct l as [|x l]; [reflexivity|]. cbn [map ewma_of xlin]. change (aff a b x :: map (aff a b) l) with (map (aff a b) (x :: l)). rewrite ewma_aff by discriminate. reflexivity. Qed.
Lemma ewmoment_of_aff d k a b l : ewmoment_of d k (map (aff a b) l) = xlin (a ^ k) 0 (ewmoment_of d k l).
Proof. destruct l as [|x l]; [reflexivity|]. cbn [map ewmoment_of xlin]. change (aff a b x :: map (aff a b) l) with (map (aff a b) (x :: l)). rewrite ewmoment_aff. do 2 f_equal. ring. Qed.
Lemma ewmstd_of_aff d a b l : ewmstd_of d (map (aff a b) l) = xlin (Rabs a) 0 (ewmstd_of d l).
Proof. destruct l as [|x l]; [reflexivity|]. cbn [map ewmstd_of xlin]. change (aff a b x :: map (aff a b) l) with (map (aff a b) (x :: l)). rewrite ewmoment_aff, sqrt_sq_scale. do 2 f_equal. ring. Qed.
Lemma cov_of_aff a b c e l : cov_of (map (aff2 a b c e) l) = xlin (a * c) 0 (cov_of l).
Proof.
  destruct l as [|x [|y l]]; try reflexivity. set (L := x :: y :: l). change (cov_of (map (aff2 a b c e) L)) with (@Ok xr (Fin (sample_cov (map (aff2 a b c e) L)))). change (cov_of L) with (@Ok xr (Fin (sample_cov L))). cbn [xlin].
  do 2 f_equal. unfold sample_cov. rewrite sxy_aff. unfold zlen. rewrite map_length. unfold Rdiv. ring.
Qed.
Lemma corr_of_aff a b c e l : a <> 0 -> c <> 0 -> corr_of (map (aff2 a b c e) l) = xlin (rsgn a * rsgn c) 0 (corr_of l).
Proof.
  intros Ha Hc. destruct l as [|x l]; [reflexivity|]. set (L := x :: l). set (D := fun L => csum 2 (map fst L) * csum 2 (map snd L)).
  change (corr_of (map (aff2 a b c e) L)) with (@Ok xr (if is0 (D (map (aff2 a b c e) L)) then XNaN else Fin (pearson (map (aff2 a b c e) L)))). change (corr_of L) with (@Ok xr (if is0 (D L) then XNaN else Fin (pearson L))).
  assert (E : D (map (aff2 a b c e) L) = (a ^ 2 * c ^ 2) * D L) by (unfold D; rewrite fst_aff2, snd_aff2, !csum_aff; ring). rewrite E, is0_scale by (apply Rmult_integral_contrapositive_currified; apply pow_nonzero; assumption).
  destruct (is0 (D L)); [reflexivity|]. cbn [xlin]. rewrite pearson_aff by assumption. do 2 f_equal. ring.
Qed.
Lemma ewcov_of_aff d a b c e l : ewcov_of d (map (aff2 a b c e) l) = xlin (a * c) 0 (ewcov_of d l).
Proof. destruct l as [|x l]; [reflexivity|]. set (L := x :: l). change (@Ok xr (Fin (ewcov d (map (aff2 a b c e) L))) = Ok (Fin (a * c * ewcov d L + 0))). rewrite ewcov_aff. do 2 f_equal. ring. Qed.
Lemma ewcorr_of_aff d a b c e l : a <> 0 -> c <> 0 -> ewcorr_of d (map (aff2 a b c e) l) = xlin (rsgn a * rsgn c) 0 (ewcorr_of d l).
Proof.
  intros Ha Hc. destruct l as [|x l]; [reflexivity|]. set (L := x :: l). set (D := fun L => ewmoment d 2 (map fst L) * ewmoment d 2 (map snd L)).
  change (ewcorr_of d (map (aff2 a b c e) L)) with (@Ok xr (if is0 (D (map (aff2 a b c e) L)) then XNaN else Fin (ewcorr d (map (aff2 a b c e) L)))). change (ewcorr_of d L) with (@Ok xr (if is0 (D L) then XNaN else Fin (ewcorr d L))).
  assert (E : D (map (aff2 a b c e) L) = (a ^ 2 * c ^ 2) * D L) by (unfold D; rewrite fst_aff2, snd_aff2, !ewmoment_aff; ring). rewrite E, is0_scale by (apply Rmult_integral_contrapositive_currified; apply pow_nonzero; assumption).
  destruct (is0 (D L)); [reflexivity|]. cbn [xlin]. rewrite ewcorr_aff by assumption. do 2 f_equal. ring.
Qed.

(** ** Reordering *)
Lemma rlen_perm l l' : Permutation l l' -> rlen l = rlen l'.
Proof. intros H. unfold rlen, zlen. rewrite (Permutation_length H). reflexivity. Qed.
Lemma perm_case {A B} (l l' : list A) (a b c : B) : Permutation l l' -> match l with [] => a | [_] => b | _ => c end = match l' with [] => a | [_] => b | _ => c end.
Proof. intros H. apply Permutation_length in H. destruct l as [|? [|? l]], l' as [|? [|? l']]; try discriminate; reflexivity. Qed.
Lemma mean_perm l l' : Permutation l l' -> mean_of l = mean_of l'.
Proof. intros H. unfold mean_of. rewrite (rmean_perm _ _ H). apply Permutation_length in H. destruct l, l'; try discriminate; reflexivity. Qed.
Lemma smoment_perm k l l' : Permutation l l' -> sample_moment k l = sample_moment k l'.
Proof. intros H. unfold sample_moment. rewrite (csum_perm _ _ _ H), (rlen_perm _ _ H). reflexivity. Qed.
Lemma moment_perm k l l' : Permutation l l' -> moment_of k l = moment_of k l'.
Proof. intros H. unfold moment_of. rewrite (smoment_perm k _ _ H). apply (perm_case l l'). exact H. Qed.
Lemma std_perm l l' : Permutation l l' -> std_of l = std_of l'.
Proof. intros H. unfold std_of. rewrite (smoment_perm 2 _ _ H). apply (perm_case l l'). exact H. Qed.
Lemma kurt_perm l l' : Permutation l l' -> kurt_of l = kurt_of l'.
Proof. intros H. unfold kurt_of, kurtosis, pop_moment. rewrite !(csum_perm _ _ _ H), (rlen_perm _ _ H). apply (perm_case l l'). exact H. Qed.
Lemma skew_perm l l' : Permutation l l' -> skew_of l = skew_of l'.
Proof.
  intros H. unfold skew_of, skewness, pop_moment. rewrite !(csum_perm _ _ _ H), (rlen_perm _ _ H). apply Permutation_length in H.
  destruct l as [|? [|? [|? l]]], l' as [|? [|? [|? l']]]; try discriminate; reflexivity.
Qed.
Lemma sxy_perm l l' : Permutation l l' -> sxy l = sxy l'.
Proof.
  intros H. unfold sxy. rewrite (rmean_perm _ _ (Permutation_map fst H)), (rmean_perm _ _ (Permutation_map snd H)). apply rsum_perm. apply Permutation_map. exact H.
Qed.
Lemma cov_perm l l' : Permutation l l' -> cov_of l = cov_of l'.
Proof. intros H. unfold cov_of, sample_cov, zlen. rewrite (sxy_perm _ _ H), (Permutation_length H). apply (perm_case l l'). exact H. Qed.
Lemma corr_perm l l' : Permutation l l' -> corr_of l = corr_of l'.
Proof.
  intros H. unfold corr_of, pearson. rewrite (sxy_perm _ _ H), (csum_perm _ _ _ (Permutation_map fst H)), (csum_perm _ _ _ (Permutation_map snd H)). apply Permutation_length in H. destruct l, l'; try discriminate; reflexivity.
Qed.
Lemma jsum_perm m l l' : Permutation l l' -> jsum m l = jsum m l'.
Proof.
  intros H. unfold jsum, jmeans. rewrite (map_ext (fun i => rmean (coord i l)) (fun i => rmean (coord i l'))); [apply rsum_perm, Permutation_map; exact H|].
  intros i. apply rmean_perm. unfold coord. apply Permutation_map. exact H.
Qed.
