(** Joint moments: C26 - C34. *)
From Coq Require Import Reals Lra QArith Qreals.
From Verif Require Import Base F64 MathModel MathProof HistSpec RingModel NumModel MomentSpec RealLib MomentProof MetricProof NumRel
  JointModel JointSpec TupleProof JointProof JointHist JointMetric JointValue JointConf JointRel AliasModel AliasProof PropsMoment.
Local Close Scope Q_scope.
Local Open Scope nat_scope.

(** ** C26 and C27: the core *)
(** [m] is between the all-zero tuple and a configured tuple. *)
Definition tracked_tuple (ts : list (list Z)) (m : list Z) : Prop := exists t, In t ts /\ tle m t.
(** No two tracked tuples have the same hash. *)
Definition collision_free (ts : list (list Z)) : Prop := forall a b, tracked_tuple ts a -> tracked_tuple ts b -> t_hash a = t_hash b -> a = b.
(** A configuration for [v] variables, exponents at most 20 and total degrees at most 62. *)
Definition jconfig_fits (v : nat) (c : @jconfig xr) : Prop :=
  2 <= v /\ (forall u, jf_vars c = Some u -> u = Z.of_nat v) /\ (jsums_of c = [] -> jf_vars c = Some (Z.of_nat v)) /\
  Forall (fun t => length t = v /\ Forall (fun k => (0 <= k <= 20)%Z) t /\ (0 < degree t <= 62)%Z) (jsums_of c).
Definition all_arity (v : nat) (ops : list (op (list R))) : Prop := forall x, In (OPush x) ops -> length x = v.
(** The documented answers on the points [l]. *)
Definition jsum_of (m : list Z) (l : list (list R)) : res xr := match l with [] => Err ENoValues | _ => Ok (Fin (jsum m l)) end.
Definition jmean_of (v : nat) (l : list (list R)) (i : Z) : res xr :=
  match l with
  | [] => Err ENoValues
  | _ => if ((0 <=? i) && (i <? Z.of_nat v))%Z then Ok (Fin (rmean (coord (Z.to_nat i) l))) else Err ENotTracked
  end.

Lemma jget_mean_of w v ts h (k : @vcore xr) i : jinv w v ts h k -> j_get_mean XN k i = jmean_of v (live w h) i.
Proof.
  intros (S & _). rewrite (jget_mean_ok v ts _ _ _ k i S). unfold jmean_of. destruct (live w h) as [|x l]; [reflexivity|].
  destruct (Z.eqb_spec (zlen (x :: l)) 0) as [E|_]; [unfold zlen in E; cbn [length] in E; lia|].
  destruct (Z.ltb_spec i 0), (Z.leb_spec 0 i); try lia; [reflexivity|]. cbn [orb andb].
  destruct (Z.ltb_spec i (Z.of_nat v)), (Z.geb_spec i (Z.of_nat v)); try lia; [|reflexivity].
  unfold jmeans. rewrite nth_jm by lia. reflexivity.
Qed.
Lemma jcore_claim v cfg w ops : jconfig_fits v cfg -> collision_free (jsums_of cfg) -> jf_window cfg = Some w -> (0 <= w)%Z -> jf_decay cfg = None -> (w <> 0%Z -> spread (jsums_of cfg)) -> all_arity v ops ->
  exists c0 c, jnew_core XN cfg = Ok c0 /\ jcore_run XN c0 (pops ops) = Ok c /\ jinv w v (jsums_of cfg) (hist ops) c /\
    let l := live w (hist ops) in
    j_get_count c = zlen l /\ (forall i, j_get_mean XN c i = jmean_of v l i) /\ (forall m, tracked_tuple (jsums_of cfg) m -> degree m <> 0%Z -> j_get_sum c m = jsum_of m l).
Proof.
  intros HF HH Hw Hw0 Hd Hsp Ha. destruct (jfresh_inv v cfg w HF Hw Hw0 Hd) as (c0 & E0 & I0). pose proof (fits_wf v cfg HF) as W.
  destruct (jcore_run_ok w v (jsums_of cfg) c0 ops W HH Hw0 Hsp I0 Ha) as (c & E & I). exists c0, c. repeat (split; [assumption|]). cbv zeta.
  split; [apply I|]. split; [intros i; apply (jget_mean_of w v (jsums_of cfg)); exact I|].
  intros m Hm Hdm. unfold jsum_of. destruct I as (S & _). destruct (live w (hist ops)) as [|x l].
  - apply (jget_sum_none v (jsums_of cfg) _ _ c m S).
  - apply (jsum_get v (jsums_of cfg)); auto. discriminate.
Qed.

Theorem C26_joint_core v cfg ops : jconfig_fits v cfg -> collision_free (jsums_of cfg) -> jf_window cfg = Some 0%Z -> jf_decay cfg = None -> all_arity v ops ->
  exists c0 c, jnew_core XN cfg = Ok c0 /\ jcore_run XN c0 (pops ops) = Ok c /\
    let l := hist ops in
    j_get_count c = zlen l /\ (forall i, j_get_mean XN c i = jmean_of v l i) /\ (forall m, tracked_tuple (jsums_of cfg) m -> degree m <> 0%Z -> j_get_sum c m = jsum_of m l).
Proof.
  intros HF HH Hw Hd Ha. destruct (jcore_claim v cfg 0 ops HF HH Hw (Z.le_refl 0) Hd) as (c0 & c & E0 & E & _ & H); [congruence|exact Ha|]. exists c0, c. rewrite live0 in H. auto.
Qed.
Print Assumptions C26_joint_core.
(** Up to 12 variables there are no collisions. *)
Theorem C26_collision_free v cfg : jconfig_fits v cfg -> v <= 12 -> collision_free (jsums_of cfg).
Proof.
  intros (_ & _ & _ & F) Hv. apply (hash_ok_digits v); [exact Hv|]. eapply Forall_impl; [|exact F]. cbn. intros t (L & E & _). split; [exact L|]. eapply Forall_impl; [|exact E]. cbn. lia.
Qed.
Print Assumptions C26_collision_free.
Definition qjcore ts w (l : list (list Z)) : res (@vcore (option Q)) := c <- jnew_core QN (mkJCfg (Some ts) (Some w) None None) ;; jcore_run QN c (qpops (map (fun x => OPush (map inject_Z x)) l)).
Example C26_case : jconfig_fits 3 (mkJCfg (Some [[1; 1; 0]; [2; 1; 1]]%Z) (Some 0%Z) None None) /\
  (* means 2, 3, 1; deviations (-2,-2,0), (-1,2,1), (3,0,-1) *)
  (c <- qjcore [[1; 1; 0]; [2; 1; 1]]%Z 0 [[0; 1; 1]; [1; 5; 2]; [5; 3; 0]]%Z ;; Ok (map (j_get_sum c) [[1; 1; 0]; [2; 1; 1]; [2; 0; 0]; [0; 1; 1]; [2; 1; 2]]%Z))
  = Ok [Ok (Some (2 # 1)%Q); Ok (Some (2 # 1)%Q); Ok (Some (14 # 1)%Q); Ok (Some (2 # 1)%Q); Err ENotTracked].
Proof.
  split; [|vm_compute; reflexivity]. unfold jconfig_fits. cbn [jf_vars jsums_of jf_sums]. repeat split; try discriminate; try lia. repeat constructor; cbn; lia.
Qed.

(** C27 is false: with sums (2,1) and (1,2) the term of the evicted point is taken
    away from the sum (1,1), which is below both, twice. *)
Local Notation ops27 := (map (fun x => OPush (map inject_Z x)) [[0; 0]; [2; 2]; [4; 2]]%Z).
Local Notation cfg27 N := (@mkJCfg N (Some [[2; 1]; [1; 2]]%Z) (Some 2%Z) None None).
Lemma c27_run : (c <- (c <- jnew_core QN (cfg27 (option Q)) ;; jcore_run QN c (qpops ops27)) ;; j_get_sum c [1; 1]%Z) = Ok (Some (-2 # 1)%Q).
Proof. vm_compute. reflexivity. Qed.
Lemma sum_transfer s w v ops m q : (c <- (c <- jnew_core QN (mkJCfg s w v None) ;; jcore_run QN c (qpops ops)) ;; j_get_sum c m) = Ok (Some q) ->
  exists c0 c, jnew_core XN (mkJCfg s w v None) = Ok c0 /\ jcore_run XN c0 (pops (rpops ops)) = Ok c /\ j_get_sum c m = Ok (Fin (Q2R q)).
Proof.
  intros H. apply bind_ok in H. destruct H as (cq & H & G). apply jcore_transfer in H. destruct H as (c0 & c & E0 & E & Rl). exists c0, c. repeat (split; [assumption|]). eapply jsum_transfer; eassumption.
Qed.
Theorem C27_window_refuted : exists cfg ops c0 c, jconfig_fits 2 cfg /\ collision_free (jsums_of cfg) /\ jf_window cfg = Some 2%Z /\ jf_decay cfg = None /\ all_arity 2 ops /\
  jnew_core XN cfg = Ok c0 /\ jcore_run XN c0 (pops ops) = Ok c /\ tracked_tuple (jsums_of cfg) [1; 1]%Z /\
  live 2 (hist ops) = [[2; 2]; [4; 2]]%R /\ jsum [1; 1]%Z [[2; 2]; [4; 2]]%R = 0%R /\ j_get_sum c [1; 1]%Z = Ok (Fin (-2)).
Proof.
  destruct (sum_transfer _ _ _ _ _ _ c27_run) as (c0 & c & E0 & E & G).
  assert (HF : jconfig_fits 2 (cfg27 xr)).
  { unfold jconfig_fits. cbn [jf_vars jsums_of jf_sums]. repeat split; try discriminate; try lia. repeat constructor; cbn; lia. }
  exists (cfg27 xr), (rpops ops27), c0, c. split; [exact HF|]. split; [apply (C26_collision_free 2 _ HF); lia|]. split; [reflexivity|]. split; [reflexivity|].
  split; [|split; [exact E0|split; [exact E|]]].
  - clear. intros x Hx. cbn [rpops map] in Hx. destruct Hx as [Hx|[Hx|[Hx|[]]]]; injection Hx as <-; reflexivity.
  - clear E0 E. split; [exists [2; 1]%Z; split; [left; reflexivity|repeat constructor; lia]|].
    assert (EQ : forall z, Q2R (inject_Z z) = IZR z) by (intros z; unfold Q2R; cbn; field).
    split; [cbn [rpops map]; rewrite !EQ; reflexivity|]. split.
    + unfold jsum, jmeans, coord, rmean, rlen, zlen. cbn [length seq map nth rsum fold_right jprod]. change (Z.to_nat 1) with 1. change (Z.of_nat 2) with 2%Z. cbn [pow]. field.
    + rewrite G. do 2 f_equal. unfold Q2R. cbn. field.
Qed.
Print Assumptions C27_window_refuted.

(** Two configured tuples share no tuple of degree 2 or more. *)
Definition no_overlap (ts : list (list Z)) : Prop := ForallOrdPairs (fun t u => forall a, tle a t -> tle a u -> (degree a <= 1)%Z) ts.
(** Missing: configurations whose tuples overlap in a tuple of degree 2 or more. *)
Theorem C27_window_partial v cfg w ops : jconfig_fits v cfg -> collision_free (jsums_of cfg) -> no_overlap (jsums_of cfg) -> jf_window cfg = Some w -> (0 <= w)%Z -> jf_decay cfg = None -> all_arity v ops ->
  exists c0 c, jnew_core XN cfg = Ok c0 /\ jcore_run XN c0 (pops ops) = Ok c /\
    let l := live w (hist ops) in
    j_get_count c = zlen l /\ (forall i, j_get_mean XN c i = jmean_of v l i) /\ (forall m, tracked_tuple (jsums_of cfg) m -> degree m <> 0%Z -> j_get_sum c m = jsum_of m l).
Proof. intros HF HH Hn Hw Hw0 Hd Ha. destruct (jcore_claim v cfg w ops HF HH Hw Hw0 Hd) as (c0 & c & E0 & E & _ & H); auto. exists c0, c. auto. Qed.
Print Assumptions C27_window_partial.
Lemma single_overlap t : no_overlap [t]. Proof. repeat constructor. Qed.
Example C27_case : no_overlap [[1; 1]; [2; 0]; [0; 2]]%Z /\ no_overlap [[3; 2; 1]]%Z /\
  (c <- qjcore [[3; 2]]%Z 2 [[7; 1]; [0; 0]; [2; 2]; [4; 8]]%Z ;; Ok (map (j_get_sum c) [[1; 1]; [3; 2]; [2; 2]]%Z)) = Ok [Ok (Some (6 # 1)%Q); Ok (Some (0 # 1)%Q); Ok (Some (18 # 1)%Q)].
Proof. split; [apply spread_corr|]. split; [apply single_overlap|]. vm_compute. reflexivity. Qed.

(** ** C28 - C30: the metrics *)
Definition jmval (k : @jkind xr) (ops : list (op (R * R))) : res xr := m <- jm_run XN k (pops (ppops ops)) ;; jm_value XN m.
Lemma jm_window_val k ts w ops : jcfg_fits 2 (wconfig ts w) -> hash_ok ts -> spread ts -> jkconfig k = wconfig ts w -> (0 <= w)%Z ->
  exists c, jmval k ops = jvalue XN k c /\ jst 2 ts (map pt (live w (hist ops))) c.
Proof.
  intros HF HH HS Ek Hw. destruct (jm_window_run k ts w ops HF HH HS Ek Hw) as (c & E & I). exists c. split; [unfold jmval; rewrite E; reflexivity|].
  destruct I as (I & _). rewrite live_map in I. exact I.
Qed.
Theorem C28_cov_corr w ops : (0 <= w)%Z -> let l := live w (hist ops) in
  jmval (JCov w) ops = cov_of l /\ jmval (JCorr w) ops = corr_of l /\ (forall r, jmval (JCorr w) ops = Ok (Fin r) -> (-1 <= r <= 1)%R) /\
  (forall (m : @jmetric xr) xs, jm_core m <> None -> length xs <> 2 -> jm_push XN m xs = Err EArity).
Proof.
  intros Hw l. assert (Hcorr : jmval (JCorr w) ops = corr_of l).
  { destruct (jm_window_val (JCorr w) corr_ts w ops) as (c & -> & S); auto using hash_corr, spread_corr; [apply corr_fits|]. apply corr_value_ok. exact S. }
  repeat split.
  - destruct (jm_window_val (JCov w) [[1; 1]]%Z w ops) as (c & -> & S); auto using hash_cov, spread_cov; [apply cov_fits|]. apply cov_value_ok. exact S.
  - exact Hcorr.
  - rewrite Hcorr in H. unfold corr_of in H. destruct l as [|p l'] eqn:El; [discriminate|]. rewrite <- El in H. injection H as H. destruct (is0 _) eqn:E0; [discriminate|]. injection H as <-.
    apply pearson_bound. intros E. rewrite is0_true in E0 by exact E. discriminate.
  - rewrite Hcorr in H. unfold corr_of in H. destruct l as [|p l'] eqn:El; [discriminate|]. rewrite <- El in H. injection H as H. destruct (is0 _) eqn:E0; [discriminate|]. injection H as <-.
    apply pearson_bound. intros E. rewrite is0_true in E0 by exact E. discriminate.
  - intros m xs Hc Hx. unfold jm_push. destruct (jm_core m); [|contradiction]. destruct (Nat.eqb_spec (length xs) 2); [contradiction|]. reflexivity.
Qed.
Print Assumptions C28_cov_corr.
Example C28_case : let l := [(1, 2); (2, 4); (3, 9)]%R in cov_of l = Ok (Fin (7 / 2)) /\ sxy l = 7%R /\ csum 2 (map fst l) = 2%R /\ csum 2 (map snd l) = 26%R.
Proof.
  cbv zeta. assert (E : sxy [(1, 2); (2, 4); (3, 9)]%R = 7%R) by (unfold sxy, rmean, rlen, zlen; cbn [map fst snd length rsum fold_right]; change (Z.of_nat 3) with 3%Z; field).
  split; [unfold cov_of, sample_cov; rewrite E; do 2 f_equal; unfold zlen; cbn [length]; change (Z.of_nat 3) with 3%Z; field|]. split; [exact E|].
  split; unfold csum, rmean, rlen, zlen; cbn [map fst snd length rsum fold_right pow]; change (Z.of_nat 3) with 3%Z; field.
Qed.

Theorem C29_ewm d ops : (0 < d < 1)%R -> let l := hist ops in
  jmval (JEwmCov (Fin d)) ops = ewcov_of d l /\ jmval (JEwmCorr (Fin d)) ops = ewcorr_of d l /\ (forall r, jmval (JEwmCorr (Fin d)) ops = Ok (Fin r) -> (-1 <= r <= 1)%R).
Proof.
  intros Hd l. assert (Hcorr : jmval (JEwmCorr (Fin d)) ops = ewcorr_of d l).
  { destruct (jm_decay_run (JEwmCorr (Fin d)) corr_ts d ops) as (c & E & I); auto using hash_corr; [apply corr_fits|]. unfold jmval. rewrite E. cbn [bind]. apply ewcorr_value_ok; [lra|exact I]. }
  split; [|split; [exact Hcorr|]].
  - destruct (jm_decay_run (JEwmCov (Fin d)) [[1; 1]]%Z d ops) as (c & E & I); auto using hash_cov; [apply cov_fits|]. unfold jmval. rewrite E. cbn [bind]. apply ewcov_value_ok. exact I.
  - intros r H. rewrite Hcorr in H. unfold ewcorr_of in H. destruct l as [|p l'] eqn:El; [discriminate|]. rewrite <- El in H. injection H as H. destruct (is0 _) eqn:E0; [discriminate|]. injection H as <-.
    apply ewcorr_bound; [lra|]. intros E. rewrite is0_true in E0 by exact E. discriminate.
Qed.
Print Assumptions C29_ewm.
(** Decays outside (0,1) are rejected. *)
Theorem C29_bad_decay d : ~ (0 < d < 1)%R -> (exists e, jm_init XN (new_jmetric (JEwmCov (Fin d))) = Err e) /\ (exists e, jm_init XN (new_jmetric (JEwmCorr (Fin d))) = Err e).
Proof.
  intros Hd. split; unfold jm_init, new_jmetric; cbn [jm_kind jkconfig].
  all: match goal with |- context [jnew_core XN ?c] => destruct (proj2 (jnew_core_spec XN (A := list xr) c)) as [e He] end;
    [intros ((w & Ew & _ & H) & _); destruct (H (Fin d) eq_refl) as (H1 & H2 & _); cbn in H1, H2; destruct (Rle_dec d 0); [discriminate|]; destruct (Rle_dec 1 d); [discriminate|]; lra|].
  all: rewrite He; cbn; eauto.
Qed.
Print Assumptions C29_bad_decay.
Example C29_case : ewcov (1/2) [(0, 0); (2, 4)]%R = 2%R /\ ewcov (1/2) [(0, 0); (2, 4); (4, 4)]%R = (5/2)%R.
Proof.
  split; unfold ewcov, ewma, wsum, eweights, pweights; cbn [map length seq combine fst snd rsum fold_right eweight Nat.sub pow]; field.
Qed.

Definition aval (k : akind) (lag w : Z) (ops : list (op R)) : res xr := a <- auto_run XN k lag w (fops ops) ;; auto_value XN a.
Theorem C30_auto lag w ops : (0 <= w)%Z -> let l := lagged lag (hist ops) in
  aval ACov (Z.of_nat lag) w ops = match l with [] => Err ETooFew | _ => cov_of (live w l) end /\
  aval ACorr (Z.of_nat lag) w ops = match l with [] => Err ETooFew | _ => corr_of (live w l) end.
Proof.
  intros Hw l.
  assert (G : forall k, exists c, aval k (Z.of_nat lag) w ops = (if (j_get_count c =? 0)%Z then Err ETooFew else jvalue XN (auto_kind k w) c) /\ jst 2 (auto_ts k) (map pt (live w l)) c).
  { intros k. destruct (auto_run_ok k lag w ops Hw) as (a & E & (_ & (c & Em & I) & _)). exists c. split.
    - unfold aval. rewrite E. cbn [bind]. unfold auto_value. rewrite Em. reflexivity.
    - destruct I as (I & _). rewrite live_map in I. exact I. }
  assert (Hc : forall k c, jst 2 (auto_ts k) (map pt (live w l)) c -> (j_get_count c =? 0)%Z = match l with [] => true | _ => false end).
  { intros k c (_ & _ & _ & _ & _ & Hn). unfold j_get_count. rewrite Hn. unfold zlen. rewrite map_length. destruct l as [|p l'] eqn:El; [rewrite live_nil; reflexivity|].
    destruct (live w (p :: l')) as [|q l''] eqn:E; [|reflexivity]. apply live_empty in E; [discriminate|exact Hw]. }
  split.
  - destruct (G ACov) as (c & -> & S). rewrite (Hc ACov c S). destruct l as [|p l'] eqn:El; [reflexivity|]. rewrite <- El in *. apply (cov_value_ok w). exact S.
  - destruct (G ACorr) as (c & -> & S). rewrite (Hc ACorr c S). destruct l as [|p l'] eqn:El; [reflexivity|]. rewrite <- El in *. apply corr_value_ok. exact S.
Qed.
Print Assumptions C30_auto.
Lemma combine_nth' {A B} (a : list A) : forall (b : list B) i d e, i < length a -> i < length b -> nth i (combine a b) (d, e) = (nth i a d, nth i b e).
Proof. induction a as [|x a IH]; intros [|y b] [|i] d e H1 H2; cbn in *; try lia; [reflexivity|]. apply IH; lia. Qed.
Lemma nth_skipn {A} (l : list A) d : forall n i, nth i (skipn n l) d = nth (n + i) l d.
Proof. induction l as [|x l IH]; intros [|n] i; cbn; auto; destruct i; reflexivity. Qed.
(** The pairs of [lagged] are (x_t, x_(t-lag)), and there is one from lag+1 values on. *)
Theorem C30_lagged (lag : nat) (h : list R) : length (lagged lag h) = length h - lag /\
  forall i d, i < length h - lag -> nth i (lagged lag h) (d, d) = (nth (i + lag) h d, nth i h d).
Proof.
  unfold lagged. assert (L : length (combine (skipn lag h) h) = length h - lag) by (rewrite combine_length, skipn_length; lia). split; [exact L|].
  intros i d Hi. rewrite combine_nth'; [|rewrite skipn_length; exact Hi|lia]. f_equal. rewrite nth_skipn. f_equal. lia.
Qed.
Print Assumptions C30_lagged.
Theorem C30_bad_lag k lag w ops : (lag < 0)%Z -> auto_run XN k lag w ops = Err ENegLag.
Proof. intros H. unfold auto_run, new_auto. destruct (Z.ltb_spec lag 0); [reflexivity|lia]. Qed.
Print Assumptions C30_bad_lag.

(** ** C31: hashing *)
Definition small (m : list Z) : Prop := Forall (fun k => (0 <= k <= 30)%Z) m.
(** C31 is false: 13 exponents below 31 suffice to wrap around (these are the base 31 digits of 2^64). *)
Theorem C31_hash_refuted : exists m n, length m = 13 /\ length n = 13 /\ small m /\ small n /\ m <> n /\ t_hash m = t_hash n.
Proof.
  exists [23; 13; 0; 7; 5; 18; 11; 4; 5; 20; 8; 6; 16]%Z, (repeat 0%Z 13). unfold small. repeat split; try (repeat constructor; lia); try discriminate.
Qed.
Print Assumptions C31_hash_refuted.
(** Missing: more than 12 exponents. *)
Theorem C31_hash_partial m n : small m -> small n -> length m = length n -> length m <= 12 -> t_hash m = t_hash n -> m = n.
Proof. apply hash_inj. Qed.
Print Assumptions C31_hash_partial.
Example C31_case : small [3; 30; 0]%Z /\ small [4; 0; 0]%Z /\ t_hash [3; 30; 0]%Z = 3813%Z /\ t_hash [4; 0; 0]%Z = 3844%Z.
Proof. unfold small. repeat split; repeat constructor; lia. Qed.

(** ** C32: untracked tuples *)
(** C32 is false: the all-zero tuple is tracked, its sum is the number of points, but 0 is returned; *)
Theorem C32_zero_refuted v cfg ops : jconfig_fits v cfg -> collision_free (jsums_of cfg) -> jsums_of cfg <> [] -> jf_window cfg = Some 0%Z -> jf_decay cfg = None -> all_arity v ops -> hist ops <> [] ->
  exists c0 c, jnew_core XN cfg = Ok c0 /\ jcore_run XN c0 (pops ops) = Ok c /\
    tracked_tuple (jsums_of cfg) (repeat 0%Z v) /\ jsum (repeat 0%Z v) (hist ops) = IZR (zlen (hist ops)) /\ j_get_sum c (repeat 0%Z v) = Ok (Fin 0).
Proof.
  intros HF HH Hne Hw Hd Ha Hh. destruct (jcore_claim v cfg 0 ops HF HH Hw (Z.le_refl 0) Hd) as (c0 & c & E0 & E & I & _); [congruence|exact Ha|]. exists c0, c. split; [exact E0|]. split; [exact E|].
  assert (HT : tracked_tuple (jsums_of cfg) (repeat 0%Z v)).
  { pose proof HF as (_ & _ & _ & F). destruct (jsums_of cfg) as [|t ts]; [contradiction|]. exists t. split; [left; reflexivity|]. inversion F as [|? ? (L & Hn & _) _]; subst. clear -Hn.
    induction t as [|k t IH]; cbn [repeat length]; constructor; inversion Hn; subst; [lia|]. apply IH. assumption. }
  assert (HD : degree (repeat 0%Z v) = 0%Z) by (clear; induction v; cbn [repeat degree fold_right]; [reflexivity|exact IHv]).
  split; [exact HT|]. split.
  - unfold jsum. rewrite (rsum_ext _ (fun _ => 1%R)); [rewrite rsum_const; ring|]. intros x _. generalize (jmeans (length (repeat 0%Z v)) (hist ops)). clear. revert x. induction v as [|v IH]; intros x l; cbn [repeat jprod]; [reflexivity|].
    destruct x, l; try reflexivity. change (Z.to_nat 0) with 0. rewrite pow_O, IH. ring.
  - destruct I as (S & _). rewrite live0 in S. rewrite (jget_sum_ok v _ _ _ _ c _ S); [|destruct (hist ops); [contradiction|unfold zlen; cbn [length]; lia]|exact HT].
    unfold val. rewrite HD. reflexivity.
Qed.
Print Assumptions C32_zero_refuted.
(** and tuples with the hash of a tracked one are taken for it: exponents above 30, *)
Theorem C32_collision_refuted : exists cfg ops c0 c, jconfig_fits 2 cfg /\ jnew_core XN cfg = Ok c0 /\ jcore_run XN c0 (pops ops) = Ok c /\
  ~ tracked_tuple (jsums_of cfg) [0; 32]%Z /\ ~ tracked_tuple (jsums_of cfg) [0; 1; 1]%Z /\
  j_get_sum c [0; 32]%Z = Ok (Fin (1 / 2)) /\ (* and other lengths *) j_get_sum c [0; 1; 1]%Z = Ok (Fin (1 / 2)).
Proof.
  set (cfg := @mkJCfg xr (Some [[1; 1]]%Z) (Some 0%Z) None None). set (ops := [OPush [0; 0]%R; OPush [1; 1]%R]).
  destruct (C26_joint_core 2 cfg ops) as (c0 & c & E0 & E & _ & _ & H).
  - apply cov_fits.
  - apply hash_cov.
  - reflexivity.
  - reflexivity.
  - intros x [Hx|[Hx|[]]]; injection Hx as <-; reflexivity.
  - exists cfg, ops, c0, c. split; [apply cov_fits|]. split; [exact E0|]. split; [exact E|].
    assert (HS : j_get_sum c [1; 1]%Z = Ok (Fin (1 / 2))).
    { rewrite H; [|exists [1; 1]%Z; split; [left; reflexivity|repeat constructor; lia]|discriminate]. unfold jsum_of, ops. change (hist [OPush [0%R; 0%R]; OPush [1%R; 1%R]]) with [[0%R; 0%R]; [1%R; 1%R]]. cbv iota. do 2 f_equal.
      unfold jsum, jmeans, coord, rmean, rlen, zlen. cbn [length seq map nth rsum fold_right jprod]. change (Z.to_nat 1) with 1. change (Z.of_nat 2) with 2%Z. cbn [pow]. field. }
    split; [intros (t & [<-|[]] & Ht); inversion Ht as [|? ? ? ? _ Ht']; inversion Ht'; lia|].
    split; [intros (t & [<-|[]] & Ht); apply tle_length in Ht; discriminate|].
    split; unfold j_get_sum in *; [change (t_hash [0; 32]%Z) with (t_hash [1; 1]%Z)|change (t_hash [0; 1; 1]%Z) with (t_hash [1; 1]%Z)]; exact HS.
Qed.
Print Assumptions C32_collision_refuted.
(** Missing: the all-zero tuple; exponents above 30 and tuples of other lengths in the
    argument; more than 12 variables; windows with overlapping tuples (C27). *)
Theorem C32_untracked_partial v cfg w ops m : jconfig_fits v cfg -> v <= 12 -> no_overlap (jsums_of cfg) -> jf_window cfg = Some w -> (0 <= w)%Z -> jf_decay cfg = None -> all_arity v ops ->
  length m = v -> small m -> degree m <> 0%Z ->
  exists c0 c, jnew_core XN cfg = Ok c0 /\ jcore_run XN c0 (pops ops) = Ok c /\ let l := live w (hist ops) in
    (tracked_tuple (jsums_of cfg) m -> j_get_sum c m = jsum_of m l) /\
    (~ tracked_tuple (jsums_of cfg) m -> j_get_sum c m = match l with [] => Err ENoValues | _ => Err ENotTracked end).
Proof.
  intros HF Hv Hn Hw Hw0 Hd Ha HL HS HD. pose proof (C26_collision_free v cfg HF Hv) as HH.
  destruct (jcore_claim v cfg w ops HF HH Hw Hw0 Hd) as (c0 & c & E0 & E & I & H); auto. exists c0, c. split; [exact E0|]. split; [exact E|]. cbv zeta.
  split; [intros HT; apply H; assumption|]. intros HT. destruct I as (S & _). destruct (live w (hist ops)) as [|x l] eqn:El; [apply (jget_sum_none v (jsums_of cfg) _ _ c m S)|].
  apply (jget_sum_untracked v (jsums_of cfg) _ _ _ c m S); [unfold zlen; cbn [length]; lia|]. intros b Hb Eb. apply HT. replace m with b; [exact Hb|].
  destruct Hb as (t & Ht & Hbt). destruct HF as (_ & _ & _ & F). rewrite Forall_forall in F. destruct (F t Ht) as (Lt & Dt & _).
  pose proof (tle_length _ _ Hbt). assert (Db : digits b) by (apply (digits_le b t Hbt); eapply Forall_impl; [|exact Dt]; cbn; lia). apply hash_inj; auto; congruence.
Qed.
Print Assumptions C32_untracked_partial.

(** ** C33: slices *)
Definition zero_mem : @memory f64 := fun _ => [fz 0; fz 0].
Definition reuse : list (@aop f64) :=
  [APush 0; AWrite 0 0 (fz 1); AWrite 0 1 (fz 2); APush 0; AWrite 0 0 (fz 5); AWrite 0 1 (fz 1); APush 0].
Local Notation cov2 := (@mkJCfg f64 (Some [[1; 1]]%Z) (Some 2%Z) None None).
(** C33 is false with a window: one buffer filled and pushed three times. The live points
    are (1,2) and (5,1), with sum of products of deviations -2; the answer is 1. *)
Theorem C33_alias_refuted : exists (ops : list (@aop f64)) mem,
  rmap fbits (c <- jnew_core FN cov2 ;; c <- arun FN ops mem c ;; j_get_sum c [1; 1]%Z) = Ok (fbits (fz 1)) /\
  rmap fbits (c <- jnew_core FN cov2 ;; c <- jcore_run FN c (captured ops mem) ;; j_get_sum c [1; 1]%Z) = Ok (fbits (fz (-2))).
Proof. exists reuse, zero_mem. split; concrete. Qed.
Print Assumptions C33_alias_refuted.
(** The same outcome, and if it is a state then the same answers to all queries. *)
Definition same_answers {T} (N : Num T) (r : res (@acore T)) (s : res (@vcore T)) : Prop :=
  match r, s with
  | Ok c, Ok d => j_get_count c = j_get_count d /\ (forall i, j_get_mean N c i = j_get_mean N d i) /\ (forall m, j_get_sum c m = j_get_sum d m)
  | Err e, Err e' => e = e'
  | Panic, Panic | Hang, Hang | NoFuel, NoFuel => True
  | _, _ => False
  end.
Lemma rsame_answers {T} (N : Num T) r s : rsame (same_but anyq) r s -> same_answers N r s.
Proof.
  destruct r, s; cbn; auto. intros (H1 & H2 & H3 & H4 & H5 & H6 & H7 & H8). unfold j_get_count, j_get_mean, j_get_sum. rewrite H1, H3, H5. auto.
Qed.
(** Without a window, or when slices are left alone once pushed, the answers are those for
    the points as they were when pushed, in every arithmetic. Missing: windows and slices that are reused. *)
Theorem C33_alias_partial {T} (N : Num T) cfg ops mem : jf_window cfg = Some 0%Z \/ untouched [] ops ->
  same_answers N (c <- jnew_core N cfg ;; arun N ops mem c) (c <- jnew_core N cfg ;; jcore_run N c (captured ops mem)).
Proof.
  intros H. apply rsame_answers. destruct (jvalidate_spec N cfg) as [[V E]|[V [e E]]].
  - destruct (proj1 (jnew_core_spec N (A := nat) cfg) V) as (w & Ew & E1). destruct (proj1 (jnew_core_spec N (A := list T) cfg) V) as (w' & Ew' & E2).
    rewrite E1, E2. cbn [bind]. assert (w' = w) by congruence. subst w'. destruct H as [H|H].
    + apply arun_window0; [repeat split|]. cbn. congruence.
    + apply (arun_untouched N ops []); [exact H|]. do 7 (split; [reflexivity|]). split; [reflexivity|]. split; [reflexivity|]. intros y [].
  - unfold jnew_core. rewrite E. cbn. reflexivity.
Qed.
Print Assumptions C33_alias_partial.
Example C33_case : untouched [] [APush 0; AWrite 1 0 (fz 3); APush 1; APush 0] /\ ~ untouched [] reuse.
Proof. cbn. intuition. Qed.

(** ** C34: configurations *)
(** What the documentation of CoreConfig asks for. *)
Definition jconfig_ok (c : @jconfig f64) : Prop :=
  exists w v, jf_window c = Some w /\ (0 <= w)%Z /\ (2 <= v)%Z /\ (jf_vars c = Some v \/ (jf_vars c = None /\ jsums_of c <> [])) /\
    (forall t, In t (jsums_of c) -> zlen t = v /\ Forall (fun k => (0 <= k)%Z) t /\ (0 < degree t)%Z) /\
    (forall d, jf_decay c = Some d -> decay_ok d /\ w = 0%Z).
Definition jdecay_number (c : @jconfig f64) : Prop := forall d, jf_decay c = Some d -> isnan d = false.
(** No sum of exponents overflows. *)
Definition int_degrees (c : @jconfig f64) : Prop := forall t, In t (jsums_of c) -> Forall (fun k => (0 <= k)%Z) t -> (degree t < 2 ^ 63)%Z.
Lemma fn_decay d : isnan d = false -> (nle FN d (nz FN 0) = false /\ nle FN (nz FN 1) d = false) <-> decay_ok d.
Proof.
  intros Hn. unfold decay_ok. cbn [nle FN nz]. rewrite (fle_key _ _ Hn isnan0), (fle_key _ _ isnan1 Hn), (flt_key _ _ isnan0 Hn), (flt_key _ _ Hn isnan1).
  rewrite !Z.leb_gt, !Z.ltb_lt. tauto.
Qed.
Lemma jcfg_valid_ok c : jdecay_number c -> int_degrees c -> (jcfg_valid FN c <-> jconfig_ok c).
Proof.
  intros Hnum Hint. assert (HT : forall t, In t (jsums_of c) -> tuple_valid t <-> ((2 <= zlen t)%Z /\ Forall (fun k => (0 <= k)%Z) t /\ (0 < degree t)%Z)).
  { intros t Ht. unfold tuple_valid, zlen. split; intros (H1 & H2 & H3); (split; [lia|]; split; [exact H2|]); specialize (Hint t Ht H2).
    - rewrite t_abs_eq in H3 by assumption. assert (0 <= degree t)%Z; [|lia]. clear -H2. induction H2; cbn [degree fold_right]; [lia|]. unfold degree in *. lia.
    - rewrite t_abs_eq by assumption. lia. }
  split.
  - intros ((w & Hw & H0 & Hd) & Hv & v & Ht & He & Hu). exists w, v. split; [exact Hw|]. split; [exact H0|]. rewrite Forall_forall in Ht.
    assert (H2 : (2 <= v)%Z).
    { destruct (jsums_of c) as [|t ts]; [apply Hv; apply He; reflexivity|]. destruct (Ht t (or_introl eq_refl)) as [L V]. apply HT in V; [|left; reflexivity]. lia. }
    split; [exact H2|]. split; [|split].
    + destruct (jf_vars c) as [u|] eqn:Ev; [left; f_equal; apply Hu; reflexivity|]. right. split; [reflexivity|]. intros E. specialize (He E). discriminate.
    + intros t Hin. destruct (Ht t Hin) as [L V]. apply HT in V; [|exact Hin]. tauto.
    + intros d Ed. destruct (Hd d Ed) as (A & B & C). split; [apply fn_decay; auto|exact C].
  - intros (w & v & Hw & H0 & H2 & Hv & Ht & Hd). split; [|split].
    + exists w. split; [exact Hw|]. split; [exact H0|]. intros d Ed. destruct (Hd d Ed) as [D ->]. apply fn_decay in D; [|apply Hnum; exact Ed]. tauto.
    + intros u Eu. destruct Hv as [Hv|[Hv _]]; congruence.
    + exists v. split; [|split].
      * apply Forall_forall. intros t Hin. destruct (Ht t Hin) as (L & N1 & N2). split; [exact L|]. apply HT; [exact Hin|]. rewrite L. auto.
      * intros E. destruct Hv as [Hv|[_ Hv]]; [exact Hv|contradiction].
      * intros u Eu. destruct Hv as [Hv|[Hv _]]; congruence.
Qed.

(** C34 is false: NaN passes for a decay, *)
Theorem C34_nan_refuted : exists cfg c, @jnew_core f64 FN (list f64) cfg = Ok c /\ ~ jconfig_ok cfg.
Proof.
  set (cfg := mkJCfg (Some [[1; 1]]%Z) (Some 0%Z) None (Some fnan)). assert (V : jcfg_valid FN cfg).
  { split; [exists 0%Z; split; [reflexivity|]; split; [lia|]; intros d H; injection H as <-; repeat split|]. split; [discriminate|]. exists 2%Z.
    split; [repeat constructor; try lia; discriminate|]. split; [discriminate|]. discriminate. }
  destruct (proj1 (jnew_core_spec FN (A := list f64) cfg) V) as (w & _ & E). eexists cfg, _. split; [exact E|].
  intros (w' & v & _ & _ & _ & _ & _ & H). destruct (H fnan eq_refl) as ((H1 & _) & _). rewrite flt_nan_r in H1. discriminate.
Qed.
Print Assumptions C34_nan_refuted.
(** merging two valid configurations of different dimensions panics, *)
Theorem C34_panic_refuted : exists c1 c2 : @jconfig f64, jconfig_ok c1 /\ jconfig_ok c2 /\ jmerge_configs FN [c1; c2] = Panic.
Proof.
  exists (mkJCfg (Some [[1; 1]]%Z) (Some 0%Z) None None), (mkJCfg (Some [[1; 1; 1]]%Z) (Some 0%Z) None None). split; [|split; [|reflexivity]].
  - exists 0%Z, 2%Z. repeat split; try lia; try discriminate; try (right; split; [reflexivity|discriminate]); destruct H as [<-|[]]; try reflexivity; repeat constructor; lia.
  - exists 0%Z, 3%Z. repeat split; try lia; try discriminate; try (right; split; [reflexivity|discriminate]); destruct H as [<-|[]]; try reflexivity; repeat constructor; lia.
Qed.
Print Assumptions C34_panic_refuted.
(** and a requested tuple is dropped when its hash is that of a kept one. *)
Theorem C34_drop_refuted : exists (c1 c2 m : @jconfig f64) t, jconfig_ok c1 /\ jconfig_ok c2 /\ jmerge_configs FN [c1; c2] = Ok m /\
  In t (jsums_of c2) /\ forall n, In n (jsums_of m) -> ~ tbelow t n.
Proof.
  exists (mkJCfg (Some [[1; 1]]%Z) (Some 0%Z) None None), (mkJCfg (Some [[0; 32]]%Z) (Some 0%Z) None None), (mkJCfg (Some [[1; 1]]%Z) (Some 0%Z) None None), [0; 32]%Z.
  split; [|split; [|split; [reflexivity|]]].
  - exists 0%Z, 2%Z. repeat split; try lia; try discriminate; try (right; split; [reflexivity|discriminate]); destruct H as [<-|[]]; try reflexivity; repeat constructor; lia.
  - exists 0%Z, 2%Z. repeat split; try lia; try discriminate; try (right; split; [reflexivity|discriminate]); destruct H as [<-|[]]; try reflexivity; repeat constructor; lia.
  - split; [left; reflexivity|]. intros n [<-|[]] H. inversion H as [|? ? ? ? _ H']; subst. inversion H'; subst. lia.
Qed.
Print Assumptions C34_drop_refuted.

Definition requested (cs : list (@jconfig f64)) (t : list Z) : Prop := exists c, In c cs /\ In t (jsums_of c).
Definition jsame (cs : list (@jconfig f64)) : Prop :=
  (forall c1 c2 a b, In c1 cs -> In c2 cs -> jf_window c1 = Some a -> jf_window c2 = Some b -> a = b) /\
  (forall c1 c2 a b, In c1 cs -> In c2 cs -> jf_vars c1 = Some a -> jf_vars c2 = Some b -> a = b) /\
  (forall c1 c2 a b, In c1 cs -> In c2 cs -> jf_decay c1 = Some a -> jf_decay c2 = Some b -> feq a b = true).
Definition jmerged (cs : list (@jconfig f64)) (m : @jconfig f64) : Prop :=
  (forall t, In t (jsums_of m) -> requested cs t) /\ (forall t, requested cs t -> exists n, In n (jsums_of m) /\ tbelow t n) /\
  (forall w, jf_window m = Some w <-> exists c, In c cs /\ jf_window c = Some w) /\ (forall v, jf_vars m = Some v <-> exists c, In c cs /\ jf_vars c = Some v) /\
  match jf_decay m with
  | None => forall c, In c cs -> jf_decay c = None
  | Some d => (exists c, In c cs /\ jf_decay c = Some d) /\ forall c d', In c cs -> jf_decay c = Some d' -> feq d d' = true
  end.
Lemma in_opts {A} (f : @jconfig f64 -> option A) cs x : In x (flat_map (fun c => opt_list (f c)) cs) <-> exists c, In c cs /\ f c = Some x.
Proof.
  rewrite in_flat_map. split; intros (c & Hc & H); exists c; (split; [exact Hc|]); destruct (f c); cbn in *; [destruct H as [<-|[]]; reflexivity|destruct H|injection H as ->; auto|discriminate].
Qed.
Lemma feq_refl d : isnan d = false -> feq d d = true.
Proof. intros H. rewrite (feq_key _ _ H H). apply Z.eqb_refl. Qed.
Lemma feq_trans a b c : isnan a = false -> isnan b = false -> isnan c = false -> feq a b = true -> feq a c = true -> feq b c = true.
Proof. intros Ha Hb Hc. rewrite (feq_key _ _ Ha Hb), (feq_key _ _ Ha Hc), (feq_key _ _ Hb Hc). rewrite !Z.eqb_eq. congruence. Qed.
Lemma hd_zin {A} (l : list A) : (forall x y, In x l -> In y l -> x = y) -> forall x, hd_error l = Some x <-> In x l.
Proof. destruct l as [|a l]; intros H x; cbn; [split; [discriminate|tauto]|]. split; [intros E; injection E as ->; auto|]. intros Hx. f_equal. apply H; cbn; auto. Qed.
Lemma jmerge_claim cs v : Forall jdecay_number cs -> (forall t, requested cs t -> length t = v) -> (forall s t, requested cs s -> requested cs t -> t_hash s = t_hash t -> s = t) ->
  match cs with
  | [] => jmerge_configs FN cs = Err ENoConfigs
  | _ => (jsame cs -> exists m, jmerge_configs FN cs = Ok m /\ jmerged cs m) /\ (~ jsame cs -> exists e, jmerge_configs FN cs = Err e)
  end.
Proof.
  intros Hnum HL HH. assert (Hdn : forall c d, In c cs -> jf_decay c = Some d -> isnan d = false) by (intros c d Hc; rewrite Forall_forall in Hnum; apply Hnum; exact Hc).
  assert (Hreq : forall t, In t (flat_map jsums_of cs) <-> requested cs t) by (intros t; apply in_flat_map).
  destruct cs as [|c [|c' cs]]; [reflexivity| |].
  - assert (S1 : jsame [c]).
    { repeat split; intros c1 c2 a b [<-|[]] [<-|[]] E1 E2; try congruence. rewrite E1 in E2. injection E2 as <-. apply feq_refl. apply (Hdn c a); [left; reflexivity|exact E1]. }
    split; [|contradiction]. intros _. exists c. split; [reflexivity|]. split; [|split; [|split; [|split]]].
    + intros t Ht. exists c. cbn; auto.
    + intros t (c1 & [<-|[]] & Ht). exists t. split; [exact Ht|apply tbelow_refl].
    + intros w. split; [intros E; exists c; cbn; auto|intros (c1 & [<-|[]] & E); exact E].
    + intros w. split; [intros E; exists c; cbn; auto|intros (c1 & [<-|[]] & E); exact E].
    + destruct (jf_decay c) as [d|] eqn:Ed; [|intros c1 [<-|[]]; exact Ed]. split; [exists c; cbn; auto|]. intros c1 d' [<-|[]] E. rewrite Ed in E. injection E as <-. apply feq_refl. apply (Hdn c d); [left; reflexivity|exact Ed].
  - set (l := c :: c' :: cs) in *. change (jmerge_configs FN l) with (jmerge_loop FN l [] None None None).
    destruct (jmerge_loop_spec FN l [] None None None) as [H1 H2]. cbn [opt_list app] in H1, H2.
    assert (Az : forall f : @jconfig f64 -> option Z, agree Z.eqb (flat_map (fun c => opt_list (f c)) l) <-> (forall c1 c2 a b, In c1 l -> In c2 l -> f c1 = Some a -> f c2 = Some b -> a = b)).
    { intros f. rewrite (agree_all Z.eqb (fun _ => True)); [|intros; apply Z.eqb_refl|intros x y z _ _ _ E1 E2; apply Z.eqb_eq in E1, E2; apply Z.eqb_eq; congruence|auto]. split.
      - intros H c1 c2 a b I1 I2 E1 E2. apply Z.eqb_eq. apply H; apply in_opts; eauto.
      - intros H x y Hx Hy. apply in_opts in Hx, Hy. destruct Hx as (c1 & I1 & E1), Hy as (c2 & I2 & E2). apply Z.eqb_eq. exact (H c1 c2 x y I1 I2 E1 E2). }
    assert (Hdn' : forall d, In d (jdecays l) -> isnan d = false) by (intros d Hd; apply in_opts in Hd; destruct Hd as (c1 & I1 & E1); exact (Hdn c1 d I1 E1)).
    assert (Ad : agree (neqb FN) (jdecays l) <-> (forall c1 c2 a b, In c1 l -> In c2 l -> jf_decay c1 = Some a -> jf_decay c2 = Some b -> feq a b = true)).
    { rewrite (agree_all (neqb FN) (fun d => isnan d = false)); [|intros; apply feq_refl; assumption|intros x y z; apply feq_trans|exact Hdn']. split.
      - intros H c1 c2 a b I1 I2 E1 E2. apply (H a b); apply in_opts; eauto.
      - intros H x y Hx Hy. apply in_opts in Hx, Hy. destruct Hx as (c1 & I1 & E1), Hy as (c2 & I2 & E2). exact (H c1 c2 x y I1 I2 E1 E2). }
    unfold jwindows, jvarss in *. rewrite !Az, Ad in H1, H2. fold (jsame l) in H1, H2. split; [|exact H2]. intros HS. rewrite H1 by exact HS.
    destruct (simplify_ok v (flat_map jsums_of l)) as (k & Ek & K1 & K2 & _).
    { intros m Hm. apply HL. apply Hreq. exact Hm. }
    { intros m n Hm Hn. apply HH; apply Hreq; assumption. }
    rewrite Ek. cbn [bind]. eexists. split; [reflexivity|]. destruct HS as (S1 & S2 & S3). split; [|split; [|split; [|split]]]; cbn [jsums_of jf_sums jf_window jf_vars jf_decay].
    + intros t Ht. apply Hreq. apply K1. exact Ht.
    + intros t Ht. apply K2. apply Hreq. exact Ht.
    + intros w. rewrite hd_zin; [apply (in_opts jf_window)|]. intros x y Hx Hy. apply in_opts in Hx, Hy. destruct Hx as (c1 & I1 & E1), Hy as (c2 & I2 & E2). exact (S1 c1 c2 x y I1 I2 E1 E2).
    + intros w. rewrite hd_zin; [apply (in_opts jf_vars)|]. intros x y Hx Hy. apply in_opts in Hx, Hy. destruct Hx as (c1 & I1 & E1), Hy as (c2 & I2 & E2). exact (S2 c1 c2 x y I1 I2 E1 E2).
    + destruct (jdecays l) as [|d0 t] eqn:Ed; cbn [hd_error].
      * intros c1 I1. destruct (jf_decay c1) as [d|] eqn:E1; [|reflexivity]. assert (I0 : In d (jdecays l)) by (apply in_opts; eauto). rewrite Ed in I0. destruct I0.
      * assert (I0 : In d0 (jdecays l)) by (rewrite Ed; left; reflexivity). apply in_opts in I0. split; [exact I0|]. destruct I0 as (c1 & I1 & E1). intros c2 d' I2 E2. exact (S3 c1 c2 d0 d' I1 I2 E1 E2).
Qed.
(** With decays that are numbers: acceptance is exact; merging is exact for tuples of one
    length without hash collisions. Missing: NaN, tuples of different lengths, collisions,
    configurations whose exponents add up to 2^63 or more. *)
Theorem C34_config_partial :
  (forall c, jdecay_number c -> int_degrees c -> (jconfig_ok c -> exists k, @jnew_core f64 FN (list f64) c = Ok k) /\ (~ jconfig_ok c -> exists e, @jnew_core f64 FN (list f64) c = Err e)) /\
  (forall cs v, Forall jdecay_number cs -> (forall t, requested cs t -> length t = v) -> (forall s t, requested cs s -> requested cs t -> t_hash s = t_hash t -> s = t) ->
     match cs with
     | [] => jmerge_configs FN cs = Err ENoConfigs
     | _ => (jsame cs -> exists m, jmerge_configs FN cs = Ok m /\ jmerged cs m) /\ (~ jsame cs -> exists e, jmerge_configs FN cs = Err e)
     end).
Proof.
  split; [|exact jmerge_claim]. intros c Hn Hi. rewrite <- (jcfg_valid_ok c Hn Hi). destruct (jnew_core_spec FN (A := list f64) c) as [H1 H2]. split; [|exact H2].
  intros H. destruct (H1 H) as (w & _ & E). eauto.
Qed.
Print Assumptions C34_config_partial.
(** Without assumptions on the configuration: it is accepted or rejected, without panic. *)
Theorem C34_total {T} (N : Num T) c : (exists k, @jnew_core T N (list T) c = Ok k) \/ exists e, @jnew_core T N (list T) c = Err e.
Proof.
  destruct (jvalidate_spec N c) as [[V _]|[V _]]; destruct (jnew_core_spec N (A := list T) c) as [H1 H2]; [left; destruct (H1 V) as (w & _ & E); eauto|right; apply H2; exact V].
Qed.
Print Assumptions C34_total.
Example C34_case : rmap (fun c => (jf_sums c, jf_window c, jf_vars c)) (jmerge_configs FN [mkJCfg (Some [[1; 1]]%Z) (Some 3%Z) None None; mkJCfg (Some [[2; 1]; [1; 1]; [0; 2]; [1; 0]]%Z) None (Some 2%Z) None])
  = Ok (Some [[1; 1]; [2; 1]; [0; 2]]%Z, Some 3%Z, Some 2%Z).
Proof. vm_compute. reflexivity. Qed.
