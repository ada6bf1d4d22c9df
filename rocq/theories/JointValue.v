(** Proofs: covariance, correlation and autocorrelation metrics return the textbook values. *)
From Coq Require Import Reals Lra Permutation.
From Verif Require Import Base MathModel MathProof HistSpec RingModel NumModel MomentSpec RealLib MomentProof EwmProof MetricProof JointModel JointSpec TupleProof JointProof JointHist JointMetric.
Local Open Scope R_scope.

(** ** Cauchy-Schwarz *)
Lemma rsum_sq_shift {A} (u a b : A -> R) l t : rsum (map (fun p => u p * (a p + t * b p) ^ 2) l) =
  rsum (map (fun p => u p * a p ^ 2) l) + 2 * t * rsum (map (fun p => u p * (a p * b p)) l) + t ^ 2 * rsum (map (fun p => u p * b p ^ 2) l).
Proof. induction l as [|p l IH]; cbn [map]; rewrite ?rsum_cons; [cbn; ring|]. rewrite IH. ring. Qed.
Lemma cauchy {A} (u a b : A -> R) l : (forall p, In p l -> 0 <= u p) ->
  rsum (map (fun p => u p * (a p * b p)) l) ^ 2 <= rsum (map (fun p => u p * a p ^ 2) l) * rsum (map (fun p => u p * b p ^ 2) l).
Proof.
  intros Hu. set (Sab := rsum (map (fun p => u p * (a p * b p)) l)). set (Sa := rsum (map (fun p => u p * a p ^ 2) l)). set (Sb := rsum (map (fun p => u p * b p ^ 2) l)).
  assert (HQ : forall t, 0 <= Sa + 2 * t * Sab + t ^ 2 * Sb).
  { intros t. unfold Sa, Sab, Sb. rewrite <- rsum_sq_shift. apply rsum_nonneg. intros p Hp. apply Rmult_le_pos; [apply Hu; exact Hp|apply pow2_ge_0]. }
  assert (Ha : 0 <= Sa). { specialize (HQ 0). nra. }
  assert (Hb : 0 <= Sb). { unfold Sb. apply rsum_nonneg. intros p Hp. apply Rmult_le_pos; [apply Hu; exact Hp|apply pow2_ge_0]. }
  destruct (Req_dec Sb 0) as [E|E].
  - assert (Sab = 0). { specialize (HQ (- (Sa + 1) / (2 * Sab))) as H. rewrite E in H. destruct (Req_dec Sab 0) as [Z|Z]; [exact Z|]. exfalso.
      replace (Sa + 2 * (- (Sa + 1) / (2 * Sab)) * Sab + (- (Sa + 1) / (2 * Sab)) ^ 2 * 0) with (-1) in H by (field; exact Z). lra. }
    rewrite H, E. lra.
  - specialize (HQ (- Sab / Sb)). replace (Sa + 2 * (- Sab / Sb) * Sab + (- Sab / Sb) ^ 2 * Sb) with (Sa - Sab ^ 2 / Sb) in HQ by (field; exact E).
    assert (H : Sab ^ 2 / Sb <= Sa) by lra. apply (Rmult_le_compat_r Sb) in H; [|exact Hb]. replace (Sab ^ 2 / Sb * Sb) with (Sab ^ 2) in H by (field; exact E). exact H.
Qed.
Lemma ratio_bound s q : 0 < q -> s ^ 2 <= q -> -1 <= s / sqrt q <= 1.
Proof.
  intros Hq H. pose proof (sqrt_lt_R0 q Hq) as Hs. pose proof (sqrt_sqrt q (Rlt_le _ _ Hq)) as Hss. set (r := sqrt q) in *.
  assert (Hr : - r <= s <= r) by (split; nra). unfold Rdiv. pose proof (Rinv_0_lt_compat r Hs) as Hi. assert (r * / r = 1) by (apply Rinv_r; lra). split; nra.
Qed.

(** ** Sums of pairs *)
Lemma coord0 l : coord 0 (map pt l) = map fst l. Proof. unfold coord. rewrite map_map. reflexivity. Qed.
Lemma coord1 l : coord 1 (map pt l) = map snd l. Proof. unfold coord. rewrite map_map. reflexivity. Qed.
Lemma jmeans_pt l : jmeans 2 (map pt l) = [rmean (map fst l); rmean (map snd l)].
Proof. unfold jmeans. cbn [seq map]. rewrite coord0, coord1. reflexivity. Qed.
Lemma ejmeans_pt d l : ejmeans d 2 (map pt l) = [ewma d (map fst l); ewma d (map snd l)].
Proof. unfold ejmeans. cbn [seq map]. rewrite coord0, coord1. reflexivity. Qed.
Ltac jr := cbn [jprod pt fst snd]; change (Z.to_nat 0) with 0%nat; change (Z.to_nat 1) with 1%nat; change (Z.to_nat 2) with 2%nat; ring.
Lemma jsum_11 l : jsum [1; 1]%Z (map pt l) = sxy l.
Proof. unfold jsum, sxy. cbn [length]. rewrite jmeans_pt, map_map. apply rsum_ext. intros [x y] _. jr. Qed.
Lemma jsum_20 l : jsum [2; 0]%Z (map pt l) = csum 2 (map fst l).
Proof. unfold jsum, csum. cbn [length]. rewrite jmeans_pt, !map_map. apply rsum_ext. intros [x y] _. jr. Qed.
Lemma jsum_02 l : jsum [0; 2]%Z (map pt l) = csum 2 (map snd l).
Proof. unfold jsum, csum. cbn [length]. rewrite jmeans_pt, !map_map. apply rsum_ext. intros [x y] _. jr. Qed.
Lemma pweights_map {A B} d (f : A -> B) l : pweights d (map f l) = pweights d l.
Proof. unfold pweights. rewrite map_length. reflexivity. Qed.
Lemma wsum_ext {A} ws (f g : A -> R) l : (forall x, In x l -> f x = g x) -> wsum ws (map f l) = wsum ws (map g l).
Proof. intros H. unfold wsum. f_equal. f_equal. f_equal. apply map_ext_in. exact H. Qed.
Lemma eweights_map d {A} (f : A -> R) l : eweights d (map f l) = pweights d l.
Proof. unfold eweights, pweights. rewrite map_length. reflexivity. Qed.
Lemma ejsum_11 d l : ejsum d [1; 1]%Z (map pt l) = ewcov d l.
Proof. unfold ejsum, ewcov. cbn [length]. rewrite ejmeans_pt, map_map, pweights_map. apply wsum_ext. intros [x y] _. jr. Qed.
Lemma ejsum_20 d l : ejsum d [2; 0]%Z (map pt l) = ewmoment d 2 (map fst l).
Proof. unfold ejsum, ewmoment. cbn [length]. rewrite ejmeans_pt, !map_map, pweights_map, eweights_map. apply wsum_ext. intros [x y] _. jr. Qed.
Lemma ejsum_02 d l : ejsum d [0; 2]%Z (map pt l) = ewmoment d 2 (map snd l).
Proof. unfold ejsum, ewmoment. cbn [length]. rewrite ejmeans_pt, !map_map, pweights_map, eweights_map. apply wsum_ext. intros [x y] _. jr. Qed.

Lemma sxy_cauchy l : sxy l ^ 2 <= csum 2 (map fst l) * csum 2 (map snd l).
Proof.
  pose proof (cauchy (fun _ => 1) (fun p : R * R => fst p - rmean (map fst l)) (fun p => snd p - rmean (map snd l)) l) as H.
  unfold sxy, csum. rewrite !map_map. eapply Rle_trans; [|eapply Rle_trans; [apply H; intros; lra|]]; apply Req_le.
  - f_equal. apply rsum_ext. intros p _. ring.
  - f_equal; apply rsum_ext; intros p _; ring.
Qed.
Lemma combine_map_r {A B C} (f : B -> C) (w : list A) : forall l, combine w (map f l) = map (fun p => (fst p, f (snd p))) (combine w l).
Proof. induction w as [|x w IH]; intros [|y l]; cbn; [reflexivity..|]. rewrite IH. reflexivity. Qed.
Lemma wsum_map {A} ws (f : A -> R) l : wsum ws (map f l) = rsum (map (fun p => fst p * f (snd p)) (combine ws l)).
Proof. unfold wsum. rewrite combine_map_r, map_map. reflexivity. Qed.
Lemma ewcov_cauchy d l : 0 <= d <= 1 -> ewcov d l ^ 2 <= ewmoment d 2 (map fst l) * ewmoment d 2 (map snd l).
Proof.
  intros Hd. unfold ewcov, ewmoment. rewrite !map_map, !eweights_map, !wsum_map.
  apply (cauchy fst (fun p => fst (snd p) - ewma d (map fst l)) (fun p => snd (snd p) - ewma d (map snd l))).
  intros [u p] Hp. apply in_combine_l in Hp. unfold pweights in Hp. apply in_map_iff in Hp. destruct Hp as (i & <- & Hi). cbn [fst]. apply eweight_nonneg; auto.
Qed.
Lemma pearson_bound l : csum 2 (map fst l) * csum 2 (map snd l) <> 0 -> -1 <= pearson l <= 1.
Proof.
  intros H. pose proof (csum2_nonneg (map fst l)). pose proof (csum2_nonneg (map snd l)). unfold pearson. apply ratio_bound; [nra|apply sxy_cauchy].
Qed.
Lemma ewcorr_bound d l : 0 <= d <= 1 -> ewmoment d 2 (map fst l) * ewmoment d 2 (map snd l) <> 0 -> -1 <= ewcorr d l <= 1.
Proof.
  intros Hd H. pose proof (ewmoment2_nonneg d (map fst l) Hd). pose proof (ewmoment2_nonneg d (map snd l) Hd). unfold ewcorr. apply ratio_bound; [nra|apply ewcov_cauchy; exact Hd].
Qed.

(** ** Histories of pairs *)
Definition ppop (o : op (R * R)) : op (list R) := match o with OPush p => OPush (pt p) | OClear => OClear end.
Definition ppops (ops : list (op (R * R))) : list (op (list R)) := map ppop ops.
Lemma hist_ppops ops : hist (ppops ops) = map pt (hist ops).
Proof.
  induction ops as [|o ops IH] using rev_ind; [reflexivity|]. unfold ppops in *. rewrite map_app. destruct o; cbn [map ppop]; rewrite ?hist_push, ?hist_clear; [|reflexivity].
  rewrite IH, map_app. reflexivity.
Qed.
Lemma arity_ppops ops : arity 2 (ppops ops).
Proof. intros x H. apply in_map_iff in H. destruct H as ([p|] & E & _); inversion E. reflexivity. Qed.
Lemma lastn_map {A B} (f : A -> B) n l : lastn n (map f l) = map f (lastn n l).
Proof. unfold lastn. rewrite map_length. rewrite skipn_map. reflexivity. Qed.

(** ** The four metrics *)
Definition corr_ts : list tuple := [[1; 1]; [2; 0]; [0; 2]]%Z.
Lemma cov_fits w d : jcfg_fits 2 (mkJCfg (Some [[1; 1]]%Z) w None d).
Proof. unfold jcfg_fits. cbn [jf_vars jsums_of jf_sums]. repeat split; try discriminate; try lia. repeat constructor; cbn; lia. Qed.
Lemma corr_fits w d : jcfg_fits 2 (mkJCfg (Some corr_ts) w None d).
Proof. unfold jcfg_fits, corr_ts. cbn [jf_vars jsums_of jf_sums]. repeat split; try discriminate; try lia. repeat constructor; cbn; lia. Qed.
Lemma hash_cov : hash_ok [[1; 1]]%Z.
Proof. apply (hash_ok_digits 2); [lia|]. unfold digits. repeat constructor; cbn; lia. Qed.
Lemma hash_corr : hash_ok corr_ts.
Proof. apply (hash_ok_digits 2); [lia|]. unfold digits, corr_ts. repeat constructor; cbn; lia. Qed.
Lemma tle_pair a b u : tle u [a; b] -> exists i j, u = [i; j] /\ (0 <= i <= a)%Z /\ (0 <= j <= b)%Z.
Proof. intros H. inversion H as [|i ? u' ? Hi H1]; subst. inversion H1 as [|j ? u'' ? Hj H2]; subst. inversion H2; subst. eauto. Qed.
Lemma spread_cov : spread [[1; 1]]%Z.
Proof. repeat constructor. Qed.
Lemma spread_corr : spread corr_ts.
Proof.
  unfold spread, corr_ts. repeat constructor; intros a H1 H2; apply tle_pair in H1; apply tle_pair in H2; destruct H1 as (i & j & -> & ? & ?), H2 as (i' & j' & E & ? & ?); injection E as <- <-; cbn; lia.
Qed.
Lemma below_in ts t : In t ts -> Forall (fun k => (0 <= k)%Z) t -> below ts t.
Proof. intros H F. exists t. split; [exact H|]. apply tle_refl. exact F. Qed.

Lemma jm_run_lift k (ops : list (op (list xr))) : (forall x, In (OPush x) ops -> length x = 2%nat) -> forall c, run (jm_push XN) (jm_clear XN) ops (mkJM k (Some c)) = rmap (fun c' => mkJM k (Some c')) (jcore_run XN c ops).
Proof.
  unfold jcore_run. induction ops as [|[x|] ops IH]; intros H c; [reflexivity| |]; cbn [run].
  - unfold jm_push at 1. cbn [jm_core jm_kind]. rewrite (H x (or_introl eq_refl)). cbn [Nat.eqb negb]. destruct (jpush XN c x); cbn [bind rmap]; try reflexivity. apply IH. intros y Hy. apply H. right. exact Hy.
  - unfold jm_clear at 1. cbn [jm_core jm_kind]. destruct (j_clear XN c); cbn [bind rmap]; try reflexivity. apply IH. intros y Hy. apply H. right. exact Hy.
Qed.
Lemma pops_len2 ops : arity 2 ops -> forall x, In (OPush x) (pops ops) -> length x = 2%nat.
Proof. intros H x Hx. apply in_map_iff in Hx. destruct Hx as ([y|] & E & Hy); inversion E. rewrite map_length. apply H. exact Hy. Qed.

Lemma jsum_get v ts l (k : @vcore xr) a : jwf v ts -> jst v ts l k -> l <> [] -> below ts a -> degree a <> 0%Z -> j_get_sum k a = Ok (Fin (jsum a l)).
Proof.
  intros W S Hl Ha Hd. rewrite (jget_sum_ok v ts _ _ _ k a S); [|destruct l; [contradiction|unfold zlen; cbn [length]; lia]|exact Ha].
  unfold val. destruct (Z.eqb_spec (degree a) 0); [contradiction|]. rewrite (jsum_jw v); [reflexivity|]. apply (below_wf v ts a W Ha).
Qed.
Lemma ejsum_get d v ts l (k : @vcore xr) a : jwf v ts -> ejinv d v ts l k -> l <> [] -> below ts a -> degree a <> 0%Z -> j_get_sum k a = Ok (Fin (ejsum d a l)).
Proof.
  intros W (S & _) Hl Ha Hd. rewrite (jget_sum_ok v ts _ _ _ k a S); [|destruct l; [contradiction|unfold zlen; cbn [length]; lia]|exact Ha].
  unfold val. destruct (Z.eqb_spec (degree a) 0); [contradiction|]. rewrite (ejsum_jw d v); [reflexivity|]. apply (below_wf v ts a W Ha).
Qed.
Lemma corr_div s q : 0 <= q -> s ^ 2 <= q -> xdiv (Fin s) (xsqrt (Fin q)) = if is0 q then XNaN else Fin (s / sqrt q).
Proof.
  intros Hq H. rewrite xsqrt_ok by exact Hq. destruct (Req_dec q 0) as [->|E].
  - rewrite is0_true by reflexivity. rewrite sqrt_0. assert (s = 0) by nra. subst. unfold xdiv. rewrite !is0_true by reflexivity. reflexivity.
  - rewrite is0_false by exact E. apply xdiv_fin. apply Rgt_not_eq. apply sqrt_lt_R0. lra.
Qed.

Lemma cov_value_ok w l (k : @vcore xr) : jst 2 [[1; 1]]%Z (map pt l) k -> jvalue XN (JCov w) k = cov_of l.
Proof.
  intros S. cbn [jvalue]. destruct l as [|p l].
  - rewrite (jget_sum_none 2 [[1; 1]]%Z _ _ k [1; 1]%Z S). reflexivity.
  - rewrite (jsum_get 2 [[1; 1]]%Z (map pt (p :: l))); [|apply (fits_wf 2 _ (cov_fits None None))|exact S|discriminate|apply below_in; [left; reflexivity|repeat constructor; lia]|cbn; lia].
    cbn [bind]. rewrite jsum_11. unfold j_get_count. destruct S as (_ & _ & _ & _ & _ & ->). unfold zlen. rewrite map_length. cbn [ndiv nsub nz XN xsub].
    destruct l as [|q l].
    + cbn [cov_of length]. change (Z.of_nat 1) with 1%Z. replace (1 - 1) with 0 by ring. unfold sxy, rmean, rlen, zlen. cbn [map fst snd rsum fold_right length]. change (Z.of_nat 1) with 1%Z.
      unfold xdiv. rewrite is0_true by reflexivity. rewrite is0_true; [reflexivity|]. field.
    + unfold cov_of, sample_cov. rewrite xdiv_fin; [reflexivity|]. unfold zlen. cbn [length]. rewrite !Nat2Z.inj_succ, !succ_IZR. assert (0 <= IZR (Z.of_nat (length l))) by (apply IZR_le; lia). lra.
Qed.
Lemma corr_value_ok l (k : @vcore xr) : jst 2 corr_ts (map pt l) k -> corr_value XN k = corr_of l.
Proof.
  intros S. unfold corr_value. destruct l as [|p l].
  - rewrite (jget_sum_none 2 corr_ts _ _ k [1; 1]%Z S). reflexivity.
  - assert (G : forall a, In a corr_ts -> j_get_sum k a = Ok (Fin (jsum a (map pt (p :: l))))).
    { intros a Ha. apply (jsum_get 2 corr_ts); [apply (fits_wf 2 _ (corr_fits None None))|exact S|discriminate| |].
      - apply below_in; [exact Ha|]. destruct Ha as [<-|[<-|[<-|[]]]]; repeat constructor; lia.
      - destruct Ha as [<-|[<-|[<-|[]]]]; cbn; lia. }
    rewrite !G by (cbn; auto). cbn [bind]. rewrite jsum_11, jsum_20, jsum_02. cbn [ndiv nsqrt nmul XN xmul].
    pose proof (csum2_nonneg (map fst (p :: l))). pose proof (csum2_nonneg (map snd (p :: l))).
    rewrite corr_div; [reflexivity|nra|apply sxy_cauchy].
Qed.
Lemma ewcov_value_ok d l (k : @vcore xr) : ejinv d 2 [[1; 1]]%Z (map pt l) k -> jvalue XN (JEwmCov (Fin d)) k = ewcov_of d l.
Proof.
  intros S. cbn [jvalue]. destruct l as [|p l].
  - destruct S as (S & _). rewrite (jget_sum_none 2 [[1; 1]]%Z _ _ k [1; 1]%Z S). reflexivity.
  - rewrite (ejsum_get d 2 [[1; 1]]%Z (map pt (p :: l))); [|apply (fits_wf 2 _ (cov_fits None None))|exact S|discriminate|apply below_in; [left; reflexivity|repeat constructor; lia]|cbn; lia].
    rewrite ejsum_11. reflexivity.
Qed.
Lemma ewcorr_value_ok d l (k : @vcore xr) : 0 <= d <= 1 -> ejinv d 2 corr_ts (map pt l) k -> corr_value XN k = ewcorr_of d l.
Proof.
  intros Hd S. unfold corr_value. destruct l as [|p l].
  - destruct S as (S & _). rewrite (jget_sum_none 2 corr_ts _ _ k [1; 1]%Z S). reflexivity.
  - assert (G : forall a, In a corr_ts -> j_get_sum k a = Ok (Fin (ejsum d a (map pt (p :: l))))).
    { intros a Ha. apply (ejsum_get d 2 corr_ts); [apply (fits_wf 2 _ (corr_fits None None))|exact S|discriminate| |].
      - apply below_in; [exact Ha|]. destruct Ha as [<-|[<-|[<-|[]]]]; repeat constructor; lia.
      - destruct Ha as [<-|[<-|[<-|[]]]]; cbn; lia. }
    rewrite !G by (cbn; auto). cbn [bind]. rewrite ejsum_11, ejsum_20, ejsum_02. cbn [ndiv nsqrt nmul XN xmul].
    pose proof (ewmoment2_nonneg d (map fst (p :: l)) Hd). pose proof (ewmoment2_nonneg d (map snd (p :: l)) Hd).
    rewrite corr_div; [reflexivity|nra|apply ewcov_cauchy; exact Hd].
Qed.
Lemma live_map {A B} (f : A -> B) w l : live w (map f l) = map f (live w l).
Proof. unfold live. destruct (w =? 0)%Z; [reflexivity|apply lastn_map]. Qed.

Definition wconfig (ts : list tuple) (w : Z) : @jconfig xr := mkJCfg (Some ts) (Some w) None None.
Lemma jm_window_run k ts w ops : jcfg_fits 2 (wconfig ts w) -> hash_ok ts -> spread ts -> jkconfig k = wconfig ts w -> (0 <= w)%Z ->
  exists c, jm_run XN k (pops (ppops ops)) = Ok (mkJM k (Some c)) /\ jinv w 2 ts (map pt (hist ops)) c.
Proof.
  intros HF HH HS Ek Hw. destruct (jfresh_inv 2 _ w HF eq_refl Hw eq_refl) as (k0 & E0 & I0).
  destruct (jcore_run_ok w 2 ts k0 (ppops ops)) as (c & E & I); auto; [apply (fits_wf 2 _ HF)|apply arity_ppops|].
  exists c. split; [|rewrite <- hist_ppops; exact I]. unfold jm_run, jm_init, new_jmetric. cbn [jm_kind]. rewrite Ek, E0. cbn [bind].
  rewrite jm_run_lift by (apply pops_len2; apply arity_ppops). rewrite E. reflexivity.
Qed.
Lemma jm_decay_run k ts d ops : jcfg_fits 2 (mkJCfg (Some ts) (Some 0%Z) None (Some (Fin d))) -> hash_ok ts -> jkconfig k = mkJCfg (Some ts) (Some 0%Z) None (Some (Fin d)) -> 0 < d < 1 ->
  exists c, jm_run XN k (pops (ppops ops)) = Ok (mkJM k (Some c)) /\ ejinv d 2 ts (map pt (hist ops)) c.
Proof.
  intros HF HH Ek Hd. destruct (jfresh_einv 2 _ d HF eq_refl eq_refl Hd) as (k0 & E0 & I0).
  destruct (ejcore_run_ok d 2 ts k0 (ppops ops)) as (c & E & I); auto; [apply (fits_wf 2 _ HF)|apply arity_ppops|].
  exists c. split; [|rewrite <- hist_ppops; exact I]. unfold jm_run, jm_init, new_jmetric. cbn [jm_kind]. rewrite Ek, E0. cbn [bind].
  rewrite jm_run_lift by (apply pops_len2; apply arity_ppops). rewrite E. reflexivity.
Qed.

(** ** Autocovariance *)
Lemma combine_snoc {A B} (a : list A) : forall (b : list B) x y, length a = length b -> combine (a ++ [x]) (b ++ [y]) = combine a b ++ [(x, y)].
Proof. induction a as [|u a IH]; intros [|v b] x y H; cbn in *; try discriminate; [reflexivity|]. rewrite IH by lia. reflexivity. Qed.
Lemma combine_firstn_r' {A B} (a : list A) : forall b : list B, combine a b = combine a (firstn (length a) b).
Proof. induction a as [|x a IH]; intros [|y b]; cbn; [reflexivity..|]. rewrite <- IH. reflexivity. Qed.
Lemma firstn_S_nth {A} (d : A) l : forall n, (n < length l)%nat -> firstn (S n) l = firstn n l ++ [nth n l d].
Proof. induction l as [|x l IH]; intros [|n] H; cbn in *; try lia; [reflexivity|]. f_equal. apply IH. lia. Qed.
Lemma lagged_short {A} lag (h : list A) : (length h <= lag)%nat -> lagged lag h = [].
Proof. intros H. unfold lagged. rewrite skipn_all2 by exact H. reflexivity. Qed.
Lemma lagged_snoc {A} lag (h : list A) x : (lag <= length h)%nat -> lagged lag (h ++ [x]) = lagged lag h ++ [(x, nth (length h - lag) (h ++ [x]) x)].
Proof.
  intros H. unfold lagged. rewrite skipn_app. replace (lag - length h)%nat with 0%nat by lia. cbn [skipn].
  rewrite combine_firstn_r'. rewrite (combine_firstn_r' (skipn lag h) h). rewrite app_length, skipn_length. cbn [length].
  replace (length h - lag + 1)%nat with (S (length h - lag)) by lia. rewrite (firstn_S_nth x) by (rewrite app_length; cbn [length]; lia).
  rewrite combine_snoc; [|rewrite skipn_length, firstn_length, app_length; cbn [length]; lia]. f_equal. f_equal. rewrite firstn_app. replace (length h - lag - length h)%nat with 0%nat by lia.
  cbn [firstn]. rewrite app_nil_r. reflexivity.
Qed.
Definition auto_ts (k : akind) : list tuple := match k with ACov => [[1; 1]]%Z | ACorr => corr_ts end.
Definition auto_kind (k : akind) (w : Z) : @jkind xr := match k with ACov => JCov w | ACorr => JCorr w end.
Definition ainv (k : akind) (lag : nat) (w : Z) (h : list R) (a : @auto xr) : Prop :=
  a_lag a = Z.of_nat lag /\ (exists c, a_metric a = mkJM (auto_kind k w) (Some c) /\ jinv w 2 (auto_ts k) (map pt (lagged lag h)) c) /\
  (lag <> 0%nat -> rcap (a_queue a) = round_up (Z.of_nat lag) /\ ritems (a_queue a) = map Fin (live (Z.of_nat lag) h)).

Lemma auto_wf k : jwf 2 (auto_ts k) /\ hash_ok (auto_ts k) /\ spread (auto_ts k).
Proof.
  destruct k; cbn [auto_ts].
  - split; [apply (fits_wf 2 _ (cov_fits None None))|]. split; [apply hash_cov|apply spread_cov].
  - split; [apply (fits_wf 2 _ (corr_fits None None))|]. split; [apply hash_corr|apply spread_corr].
Qed.
Lemma auto_jpush k w ps c x y : (0 <= w)%Z -> jinv w 2 (auto_ts k) (map pt ps) c -> exists c', jpush XN c [Fin x; Fin y] = Ok c' /\ jinv w 2 (auto_ts k) (map pt (ps ++ [(x, y)])) c'.
Proof.
  intros Hw I. destruct (auto_wf k) as (W & HH & Sp). destruct (jinv_push w 2 (auto_ts k) (map pt ps) c [x; y] W HH Hw (fun _ => Sp) I eq_refl) as (c' & E & I').
  exists c'. split; [exact E|]. rewrite map_app. exact I'.
Qed.
Lemma live_nth {A} lag (h : list A) y t d x : (0 < lag)%nat -> (lag <= length h)%nat -> live (Z.of_nat lag) h = y :: t -> nth (length h - lag) (h ++ [x]) d = y.
Proof.
  intros H0 H E. unfold live in E. destruct (Z.eqb_spec (Z.of_nat lag) 0); [lia|]. rewrite Nat2Z.id in E. unfold lastn in E. rewrite app_nth1 by lia.
  set (m := (length h - lag)%nat) in *. assert (Hn : (m <= length h)%nat) by (subst m; lia). clearbody m.
  rewrite <- (firstn_skipn m h), E. rewrite app_nth2; rewrite firstn_length; [|lia]. replace (m - Nat.min m (length h))%nat with 0%nat by lia. reflexivity.
Qed.
Lemma zlen_live_nat {A} lag (h : list A) : (0 < lag)%nat -> zlen (live (Z.of_nat lag) h) = Z.of_nat (Nat.min lag (length h)).
Proof. intros H. unfold live, zlen. destruct (Z.eqb_spec (Z.of_nat lag) 0); [lia|]. rewrite lastn_length, Nat2Z.id. reflexivity. Qed.
Lemma ainv_push k lag w h a x : (0 <= w)%Z -> ainv k lag w h a -> exists a', auto_push XN a (Fin x) = Ok a' /\ ainv k lag w (h ++ [x]) a'.
Proof.
  intros Hw (El & (c & Em & I) & Hq). unfold auto_push. rewrite Em. cbn [jm_core jm_kind]. rewrite El.
  destruct (Z.eqb_spec (Z.of_nat lag) 0) as [H0|H0].
  - assert (lag = 0%nat) by lia. subst lag. destruct (auto_jpush k w _ c x x Hw I) as (c' & E & I'). rewrite E. cbn [bind]. eexists. split; [reflexivity|].
    split; [reflexivity|]. split; [|congruence]. exists c'. split; [reflexivity|]. rewrite lagged_snoc by lia. rewrite Nat.sub_0_r, nth_middle. exact I'.
  - assert (H1 : (0 < lag)%nat) by lia. destruct (Hq ltac:(lia)) as [Rc Rq].
    assert (Erl : ring_len (a_queue a) = Z.of_nat (Nat.min lag (length h))) by (unfold ring_len; rewrite Rq; unfold zlen; rewrite map_length; apply zlen_live_nat; exact H1).
    rewrite Erl. pose proof (live_push (Z.of_nat lag) h x ltac:(lia)) as Hp. rewrite zlen_live_nat in Hp by exact H1.
    destruct (Z.geb_spec (Z.of_nat (Nat.min lag (length h))) (Z.of_nat lag)) as [Hge|Hlt].
    + destruct (live (Z.of_nat lag) h) as [|y l] eqn:Eh.
      { pose proof (zlen_live_nat lag h H1) as Z0. rewrite Eh in Z0. unfold zlen in Z0. cbn in Z0. lia. }
      assert (EL : zlen l = (Z.of_nat lag - 1)%Z) by (pose proof (zlen_live_nat lag h H1) as Z0; rewrite Eh in Z0; unfold zlen in *; cbn [length] in Z0; lia).
      unfold ring_get. rewrite Rq. cbn [map bind]. destruct (auto_jpush k w _ c x y Hw I) as (c' & E & I'). rewrite E. cbn [bind].
      rewrite (ring_put_ok _ (Fin x) (Z.of_nat lag)); [|exact Rc|unfold ring_len, zlen in *; cbn [ritems]; rewrite map_length; lia]. cbn [bind rcap ritems].
      eexists. split; [reflexivity|]. split; [reflexivity|]. cbn [a_metric a_queue rcap ritems]. split.
      * exists c'. split; [reflexivity|]. rewrite lagged_snoc by lia. rewrite (live_nth lag h y l) by (auto; lia). exact I'.
      * intros _. split; [exact Rc|]. rewrite Hp. destruct (Z.eqb_spec (Z.of_nat (Nat.min lag (length h))) (Z.of_nat lag)); [|lia]. cbn [tl]. rewrite map_app. reflexivity.
    + cbn [bind]. rewrite (ring_put_ok _ (Fin x) (Z.of_nat lag)); [|exact Rc|rewrite Erl; lia]. cbn [bind].
      eexists. split; [reflexivity|]. split; [reflexivity|]. cbn [a_metric a_queue rcap ritems]. split.
      * exists c. split; [reflexivity|]. rewrite lagged_short in I by lia. rewrite lagged_short by (rewrite app_length; cbn; lia). exact I.
      * intros _. split; [exact Rc|]. rewrite Hp, Rq. destruct (Z.eqb_spec (Z.of_nat (Nat.min lag (length h))) (Z.of_nat lag)); [lia|]. rewrite map_app. reflexivity.
Qed.
Lemma lagged_nil {A} lag : lagged lag (@nil A) = []. Proof. apply lagged_short. cbn. lia. Qed.
Lemma ainv_clear k lag w h a : ainv k lag w h a -> exists a', auto_clear XN a = Ok a' /\ ainv k lag w [] a'.
Proof.
  intros (El & (c & Em & I) & Hq). unfold auto_clear. rewrite Em. cbn [jm_core jm_kind]. destruct (jinv_clear w 2 _ _ c I) as (c' & E & I'). rewrite E. cbn [bind].
  eexists. split; [reflexivity|]. split; [exact El|]. cbn [a_metric a_queue]. split; [exists c'; rewrite lagged_nil; auto|]. intros _. rewrite El, live_nil. auto.
Qed.
Lemma auto_run_ok k lag w ops : (0 <= w)%Z -> exists a, auto_run XN k (Z.of_nat lag) w (fops ops) = Ok a /\ ainv k lag w (hist ops) a.
Proof.
  intros Hw. unfold auto_run, new_auto. destruct (Z.ltb_spec (Z.of_nat lag) 0); [lia|]. cbn [bind].
  assert (Hf : jcfg_fits 2 (wconfig (auto_ts k) w)) by (destruct k; [apply cov_fits|apply corr_fits]).
  destruct (jfresh_inv 2 _ w Hf eq_refl Hw eq_refl) as (k0 & E0 & I0).
  assert (Ei : auto_init XN (mkA (Z.of_nat lag) (ring_new (Z.of_nat lag)) (new_jmetric (auto_kind k w))) = Ok (mkA (Z.of_nat lag) (ring_new (Z.of_nat lag)) (mkJM (auto_kind k w) (Some k0)))).
  { unfold auto_init, jm_init, new_jmetric. cbn [a_metric jm_kind a_lag a_queue]. replace (jkconfig (auto_kind k w)) with (wconfig (auto_ts k) w) by (destruct k; reflexivity). rewrite E0. reflexivity. }
  unfold auto_kind in Ei at 1. rewrite Ei. cbn [bind]. set (a0 := mkA _ _ _).
  assert (I : ainv k lag w [] a0).
  { split; [reflexivity|]. split; [exists k0; rewrite lagged_nil; auto|]. intros _. rewrite live_nil. auto. }
  clearbody a0. clear Ei E0 I0 Hf. induction ops as [|o ops IH] using rev_ind; [exists a0; auto|].
  destruct IH as (a & E & Ia). unfold fops in *. rewrite map_app, run_app, E. cbn [bind map run]. destruct o as [x|]; cbn [fop].
  - destruct (ainv_push k lag w _ a x Hw Ia) as (a' & -> & I'). cbn [bind]. exists a'. rewrite hist_push. auto.
  - destruct (ainv_clear k lag w _ a Ia) as (a' & -> & I'). cbn [bind]. exists a'. rewrite hist_clear. auto.
Qed.
