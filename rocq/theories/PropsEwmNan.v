(** C88: a non-finite value in the exponentially weighted metrics. *)
From Coq Require Import ZArith Lia Bool Reals Lra List.
From Flocq Require Import Core BinarySingleNaN.
From Verif Require Import Base F64 FloatR HistSpec RingModel MathModel NumModel MomentModel MomentProof MetricProof StdFloat CoreInv FloatErr NanCore ClearProof JointModel JointMetric JointConf TotalProof JointShare JointErr JointRun JointEwm JointSym JointSpec JointNan PropsEwm.
Import ListNotations.
Local Open Scope Z_scope.

(** ** The mean *)
Definition positive (e : f64) : Prop := Bsign e = false /\ isfin e = true /\ e <> B754_zero false.
Lemma decay_positive d : decay_ok d -> positive d.
Proof.
  intros Hd. destruct (decay_real d Hd) as [F R]. destruct d as [s|s| |s m e H]; try discriminate F; [cbn in R; lra|]. destruct s; [|split; [reflexivity|split; [reflexivity|discriminate]]].
  exfalso. assert (B2R (B754_finite true m e H) < 0)%R by (apply (F2R_lt_0 radix2 (Float radix2 (Zneg m) e)); reflexivity). lra.
Qed.
Lemma one_positive : positive (fz 1).
Proof. destruct (fz_sign 1 ltac:(lia)) as [Sg _]. destruct (fz_exact 1 ltac:(lia)) as [F R]. split; [exact Sg|]. split; [exact F|]. intros E. rewrite E in R. cbn in R. lra. Qed.
Lemma ew_mean_nan e m x : positive e -> isfin m = false -> fadd m (fmul e (fsub x m)) = fnan.
Proof.
  intros (Se & Fe & Ne) Hm. destruct m as [?|s| |? ? ? ?]; try discriminate Hm; [|apply fadd_nan_l]. destruct e as [se|se| |se me ee He]; try discriminate Fe; cbn [Bsign] in Se; subst se; [congruence|].
  destruct x as [sx|sx| |sx mx ex Hx]; destruct s; try destruct sx; reflexivity.
Qed.
Lemma ew_mean_inf e m x : positive e -> isfin x = false -> isfin (fadd m (fmul e (fsub x m))) = false.
Proof.
  intros (Se & Fe & Ne) Hx. destruct x as [?|s| |? ? ? ?]; try discriminate Hx; [|rewrite fsub_nan_l, fmul_nan_r, fadd_nan_r; reflexivity]. destruct e as [se|se| |se me ee He]; try discriminate Fe; cbn [Bsign] in Se; subst se; [congruence|].
  destruct m as [sm|sm| |sm mm em Hm]; destruct s; try destruct sm; reflexivity.
Qed.

(** ** The sums *)
Lemma c_add_decay_nan c d x c' : c_mean c = fnan -> c_add_decay FN c d x = Ok c' -> forall k, (2 <= k < c_len c)%nat -> c_sums c' k = fnan.
Proof.
  intros Hm E k Hk. unfold c_add_decay in E. cbv zeta in E. apply bind_ok in E. destruct E as (g & E & E'). injection E' as <-. cbn [c_sums].
  eapply (outer_all _ (fun v => v = fnan)) with (2 := E).
  - clear - Hm. intros f k v Hk Ev. apply in_rev, in_seq in Hk. eapply inner_nan; [|reflexivity|].
    2:{ cbn [nadd nsub nmul ndiv npow nz FN] in Ev. rewrite Hm, fsub_nan_r in Ev. rewrite (fpow_nan k ltac:(lia)) in Ev. rewrite !fmul_nan_r, fadd_nan_r in Ev. exact Ev. }
    apply fadd_nan_l.
  - rewrite <- in_rev. apply in_seq. lia.
Qed.

(** ** Runs *)
Definition ecore (d : f64) (len : nat) (c : @core f64) : Prop := c_len c = len /\ c_window c = 0 /\ c_decay c = Some d /\ 0 <= c_count c.
Lemma ecore_push d len c x : (len <= 66)%nat -> decay_ok d -> ecore d len c -> exists c', c_push FN c x = Ok c' /\ ecore d len c' /\ 0 < c_count c' /\
  (isfin x = false -> isfin (c_mean c') = false) /\ (isfin (c_mean c) = false -> c_mean c' = fnan) /\ (c_mean c = fnan -> forall k, (2 <= k < len)%nat -> c_sums c' k = fnan).
Proof.
  intros Hl Hd (L & W & D & C). destruct (c_add_decay_any FN c d x ltac:(lia)) as (c' & E & (L' & W' & D' & _) & C' & M'). cbn [nadd nmul nsub nz FN] in M'. exists c'. split.
  - unfold c_push. rewrite W. cbn [Z.eqb negb bind]. rewrite D. exact E.
  - assert (P : positive (if c_count c + 1 =? 1 then fz 1 else d)) by (destruct (_ =? _); [apply one_positive|apply decay_positive, Hd]).
    split; [unfold ecore; rewrite L', W', D', C'; repeat split; auto; lia|]. split; [lia|]. rewrite M'. split; [intros Hx; apply ew_mean_inf; assumption|]. split; [intros Hm; apply ew_mean_nan; assumption|].
    intros Hm k Hk. apply (c_add_decay_nan c d x c' Hm E). lia.
Qed.
(** Beyond two values after the non-finite one everything is NaN. *)
Definition gone (len : nat) (c : @core f64) : Prop := c_mean c = fnan /\ forall k, (2 <= k < len)%nat -> c_sums c k = fnan.
Lemma gone_pushes d len ys : (len <= 66)%nat -> decay_ok d -> forall c, ecore d len c -> gone len c -> 0 < c_count c -> exists c', run (c_push FN) (c_clear FN) (map OPush ys) c = Ok c' /\ gone len c' /\ 0 < c_count c' /\ ecore d len c'.
Proof.
  intros Hl Hd. induction ys as [|y ys IH]; intros c I G P; [exists c; auto|]. cbn [map run]. destruct (ecore_push d len c y Hl Hd I) as (c' & -> & I' & P' & _ & Hm & Hs). cbn [bind]. destruct G as (G1 & _).
  apply IH; [exact I'| |exact P']. split; [apply Hm; rewrite G1; reflexivity|]. intros k Hk. exact (Hs G1 k Hk).
Qed.
Lemma ecore_run d len ops : (len <= 66)%nat -> decay_ok d -> exists c, core_run FN (mkCore (fz 0) len (fun _ => fz 0) 0 0 (Some d) (ring_new 0)) ops = Ok c /\ ecore d len c.
Proof.
  intros Hl Hd. destruct (run_inv (c_push FN) (c_clear FN) (fun _ c => ecore d len c) (mkCore (fz 0) len (fun _ => fz 0) 0 0 (Some d) (ring_new 0))) with (ops := ops) as (c & E & I).
  - repeat split; cbn; lia.
  - intros _ c x I. destruct (ecore_push d len c x Hl Hd I) as (c' & E & I' & _). eauto.
  - intros _ c (L & W & D & C). eexists. split; [reflexivity|]. repeat split; cbn; auto; lia.
  - exists c. split; [exact E|exact I].
Qed.

(** ** C88 *)
(** EWMA, EWMMoment of an order from 2 to 65, EWMStd. *)
Inductive ekind (d : f64) : @kind f64 -> Prop := ek_ewma : ekind d (KEwma d) | ek_moment p : 2 <= p <= 65 -> ekind d (KEwmMoment p d) | ek_std : ekind d (KEwmStd d).
Lemma ekind_core d k : decay_ok d -> ekind d k -> exists len, (len <= 66)%nat /\ new_core FN (kconfig k) = Ok (mkCore (fz 0) len (fun _ => fz 0) 0 0 (Some d) (ring_new 0)) /\
  forall c, c_len c = len -> gone len c -> 0 < c_count c -> kvalue FN k c = Ok fnan.
Proof.
  intros Hd Hk.
  assert (G : forall c p, 2 <= p -> p < Z.of_nat (c_len c) -> gone (c_len c) c -> 0 < c_count c -> c_get_sum c p = Ok fnan).
  { intros c p Hp1 Hp2 (_ & G) P. unfold c_get_sum. destruct (Z.eqb_spec (c_count c) 0); [lia|]. destruct (Z.leb_spec p 0); [lia|]. rewrite Z.geb_leb. destruct (Z.leb_spec (Z.of_nat (c_len c)) p); [lia|]. cbn [orb]. rewrite G by lia. reflexivity. }
  destruct Hk as [|p Hp|].
  - exists 0%nat. split; [lia|]. split; [exact (new_core_ewm (KEwma d) d None Hd eq_refl (or_introl eq_refl))|]. intros c _ (M & _) P. cbn [kvalue]. unfold c_get_mean. destruct (Z.eqb_spec (c_count c) 0); [lia|]. rewrite M. reflexivity.
  - exists (Z.to_nat (p + 1)). split; [lia|]. split.
    + destruct (decay_real d Hd) as [Fd Rd]. unfold new_core. cbv zeta. unfold validate.
      assert (H1 : fle d (fz 0) = false). { destruct (fz_exact 0 ltac:(lia)) as [F0 E0]. destruct (fle d (fz 0)) eqn:H1; [apply fle_R in H1; [lra|exact Fd|exact F0]|reflexivity]. }
      assert (H2 : fle (fz 1) d = false). { destruct (fz_exact 1 ltac:(lia)) as [F1 E1]. destruct (fle (fz 1) d) eqn:H2; [apply fle_R in H2; [lra|exact F1|exact Fd]|reflexivity]. }
      cbn [set_defaults kconfig cf_window cf_decay cf_sums sums_of existsb nle nz FN]. change (0 <? 0) with false. cbv iota. rewrite H1, H2. replace (p <=? 0) with false by (symmetry; apply Z.leb_gt; lia).
      unfold max_sum. cbn [orb bind fold_left]. replace (p >? -1) with true by (symmetry; apply Z.gtb_lt; lia). reflexivity.
    + intros c L Gc P. cbn [kvalue]. apply G; [lia|lia|rewrite L; exact Gc|exact P].
  - exists 3%nat. split; [lia|]. split; [exact (new_core_ewm (KEwmStd d) d (Some [2]) Hd eq_refl (or_intror eq_refl))|]. intros c L Gc P. cbn [kvalue]. rewrite G; [reflexivity|lia|lia|rewrite L; exact Gc|exact P].
Qed.
(** The influence of old values should fade. That of a NaN or an infinity does not: two values later, and whatever follows, EWMA, EWMMoment
    and EWMStd are NaN. *)
Theorem C88_fades_refuted : forall d k ops x ys, decay_ok d -> ekind d k -> isfin x = false -> (2 <= length ys)%nat ->
  exists m, m_run FN k (ops ++ OPush x :: map OPush ys) = Ok m /\ m_value FN m = Ok fnan.
Proof.
  intros d k ops x ys Hd Hk Hx Hy. destruct (ekind_core d k Hd Hk) as (len & Hl & En & V). destruct (ecore_run d len ops Hl Hd) as (c & E & I).
  destruct (ecore_push d len c x Hl Hd I) as (c1 & E1 & I1 & _ & M1 & _). specialize (M1 Hx). destruct ys as [|y1 [|y2 ys]]; cbn [length] in Hy; try lia.
  destruct (ecore_push d len c1 y1 Hl Hd I1) as (c2 & E2 & I2 & _ & _ & M2 & _). specialize (M2 M1).
  destruct (ecore_push d len c2 y2 Hl Hd I2) as (c3 & E3 & I3 & P3 & _ & M3 & S3). rewrite M2 in M3. specialize (M3 eq_refl). specialize (S3 M2).
  destruct (gone_pushes d len ys Hl Hd c3 I3 (conj M3 S3) P3) as (c4 & E4 & G4 & P4 & I4). exists (mkM k (Some c4)). split.
  - rewrite m_run_eq, En. cbn [bind]. unfold core_run in *. rewrite run_app, E. cbn [bind map run]. rewrite E1. cbn [bind]. rewrite E2. cbn [bind]. rewrite E3. cbn [bind]. rewrite E4. reflexivity.
  - unfold m_value. cbn [m_core m_kind]. apply V; [apply I4|exact G4|exact P4].
Qed.
Print Assumptions C88_fades_refuted.
(** What is left: Clear forgets it. *)
Theorem C88_clear_partial : forall d k ops ops', decay_ok d -> ekind d k ->
  (m <- m_run FN k (ops ++ OClear :: ops') ;; m_value FN m) = (m <- m_run FN k ops' ;; m_value FN m).
Proof.
  intros d k ops ops' Hd Hk. destruct (ekind_core d k Hd Hk) as (len & Hl & En & _). destruct (ecore_run d len ops Hl Hd) as (c & E & _).
  rewrite (metric_clear_fresh FN k ops ops' (mkM k (Some c))); [reflexivity|]. rewrite m_run_eq, En. cbn [bind]. rewrite E. reflexivity.
Qed.
Print Assumptions C88_clear_partial.
Example C88_case : decay_ok (fdy 1 (-1)) /\ isfin (finf false) = false /\ isfin fnan = false /\
  rmap fbits (m <- m_run FN (KEwmStd (fdy 1 (-1))) (map OPush [fz 1; finf false; fz 1; fz 2; fz 3]) ;; m_value FN m) = Ok (fbits fnan) /\
  rmap fbits (m <- m_run FN (KEwma (fdy 1 (-1))) (map OPush [fz 1; finf false] ++ OClear :: map OPush [fz 1; fz 2]) ;; m_value FN m) = Ok (fbits (fdy 3 (-1))).
Proof. split; [split; vm_compute; reflexivity|]. repeat split; vm_compute; reflexivity. Qed.

(** ** EWMCov and EWMCorr *)
Local Notation vc := (@jcore f64 (list f64)).
Lemma decay_bad d (c c' : vc) x y n : decay_ok d -> j_tuples c = corr_sums -> j_add_decay FN c d [x; y] = Ok c' ->
  (exists mx my, j_means c = [mx; my] /\ ((1 <= n)%nat -> isfin mx = false) /\ ((2 <= n)%nat -> mx = fnan)) -> (n = 0%nat -> isfin x = false) -> jbad (S n) c'.
Proof.
  intros Hd Et E (mx & my & Em & H1 & H2) Hx. unfold j_add_decay in E. cbv zeta in E. rewrite Et, Em in E.
  change (deltas FN [x; y] [mx; my]) with [fsub x mx; fsub y my] in E. set (e := if j_count c + 1 =? 1 then nz FN 1 else d) in *.
  assert (P : positive e) by (unfold e; destruct (_ =? _); [apply one_positive|apply decay_positive, Hd]).
  destruct (decay6 FN e (fsub x mx) (fsub y my) (j_sums c) (j_new c)) as (m & Eu & _ & _ & _ & K32 & K62 & K2 & _ & _).
  rewrite Eu in E. cbn [bind] in E. injection E as <-. split; cbn [j_means j_sums].
  - unfold add_means. cbn [combine map fst snd nadd nmul FN]. exists (fadd mx (fmul e (fsub x mx))), (fadd my (fmul e (fsub y my))). split; [reflexivity|]. split; intros Hn.
    + destruct n as [|n]; [apply ew_mean_inf; auto|]. rewrite ew_mean_nan; [reflexivity|exact P|apply H1; lia].
    + apply ew_mean_nan; [exact P|apply H1; lia].
  - intros Hn. rewrite K32, K62, K2. split; [|eauto]. f_equal. rewrite (H2 ltac:(lia)), fsub_nan_r, pw_nan. unfold dsq. cbn [nmul nadd FN]. rewrite fmul_nan_r. apply fadd_nan_r.
Qed.
Lemma ebad_push d h (c c' : vc) x y n : decay_ok d -> jtot 2 corr_sums 0 (Some d) h c -> jpush FN c [x; y] = Ok c' -> jbad n c -> (n = 0%nat -> isfin x = false) -> jbad (S n) c'.
Proof.
  intros Hd ((Lm & Et & Ew & Ed) & _) E ((mx & my & Em & B1 & B2) & _) Hx.
  unfold jpush, j_push in E. rewrite Em, Ew in E. cbn [length Nat.eqb negb Z.eqb bind] in E. rewrite Ed in E. apply (decay_bad d c c' x y n Hd Et E); eauto.
Qed.
Lemma ebad_pushes d ys : decay_ok d -> (forall p, In p ys -> length p = 2%nat) -> forall h (c : vc) n, jtot 2 corr_sums 0 (Some d) h c -> jbad n c -> (1 <= n)%nat ->
  exists c', jcore_run FN c (map OPush ys) = Ok c' /\ jtot 2 corr_sums 0 (Some d) (h ++ ys) c' /\ jbad (n + length ys) c'.
Proof.
  intros Hd. induction ys as [|y ys IH]; intros Hy h c n I Hb Hn.
  - exists c. rewrite app_nil_r, Nat.add_0_r. auto.
  - destruct (jtot_push FN 2 corr_sums 0 (Some d) h c y corr_small ltac:(lia) (Hy y (or_introl eq_refl)) I) as (c1 & E & I1). unfold jcore_run in *. cbn [map run]. rewrite E. cbn [bind].
    destruct (two y (Hy y (or_introl eq_refl))) as (a & b & ->).
    destruct (IH (fun p Hp => Hy p (or_intror Hp)) (h ++ [[a; b]]) c1 (S n) I1) as (c' & E' & I' & B'); [apply (ebad_push d h c c1 a b n); auto; lia|lia|].
    exists c'. split; [exact E'|]. rewrite <- app_assoc in I'. split; [exact I'|]. cbn [length]. rewrite Nat.add_succ_r. exact B'.
Qed.
Lemma ewcorr_core d : decay_ok d -> jnew_core FN (jkconfig (JEwmCorr d)) = Ok (core0 FN corr_sums 0 (Some d)).
Proof. intros Hd. destruct (decay_real d Hd) as [F R]. exact (new_ewcorr d F R). Qed.
Lemma ewcov_core d : decay_ok d -> jnew_core FN (jkconfig (JEwmCov d)) = Ok (core0 FN cov_sums 0 (Some d)).
Proof. intros Hd. destruct (decay_real d Hd) as [F R]. exact (new_ewcov d F R). Qed.
Definition ejkind (d : f64) (k : @jkind f64) : Prop := k = JEwmCov d \/ k = JEwmCorr d.
Lemma ebad_run_x d k ops x y ps : decay_ok d -> ejkind d k -> isfin x = false -> (2 <= length ps)%nat ->
  (forall p, In (OPush p) ops -> length p = 2%nat) -> (forall p, In p ps -> length p = 2%nat) ->
  (m <- jm_run FN k (ops ++ OPush [x; y] :: map OPush ps) ;; jm_value FN m) = Ok fnan.
Proof.
  intros Hd Hk Hx Hps Hops Hp.
  destruct (jcore_total FN (jkconfig (JEwmCorr d)) (core0 FN corr_sums 0 (Some d)) ops (ewcorr_core d Hd)) as (c & E & w' & Ew & I); [repeat constructor; lia|exact Hops|].
  cbn [jkconfig jf_window jf_decay] in Ew, I. injection Ew as <-. change (jtot 2 corr_sums 0 (Some d) (hist ops) c) in I.
  destruct (jtot_push FN 2 corr_sums 0 (Some d) (hist ops) c [x; y] corr_small ltac:(lia) eq_refl I) as (c1 & E1 & I1).
  assert (B0 : jbad 0 c). { destruct I as ((Lm & _) & _). destruct (two (j_means c) Lm) as (a & b & Em). split; [exists a, b; split; [exact Em|split; intros; lia]|intros; lia]. }
  assert (B1 : jbad 1 c1) by (apply (ebad_push d (hist ops) c c1 x y 0 Hd I E1 B0); auto).
  destruct (ebad_pushes d ps Hd Hp (hist ops ++ [[x; y]]) c1 1 I1 B1 (le_n 1)) as (c2 & E2 & I2 & _ & B2).
  destruct B2 as (S32 & u & v & S62 & S2); [lia|].
  assert (Er : jcore_run FN (core0 FN corr_sums 0 (Some d)) (ops ++ OPush [x; y] :: map OPush ps) = Ok c2).
  { unfold jcore_run in *. rewrite run_app, E. cbn [bind run]. rewrite E1. cbn [bind]. exact E2. }
  assert (Hall : forall p, In (OPush p) (ops ++ OPush [x; y] :: map OPush ps) -> length p = 2%nat).
  { intros p Hi. apply in_app_iff in Hi as [Hi|[Hi|Hi]]; [auto|injection Hi as <-; reflexivity|]. apply in_map_iff in Hi as (q & Eq & Hq). injection Eq as <-. auto. }
  assert (Hc : j_count c2 <> 0).
  { destruct I2 as (_ & C2 & _). rewrite C2. intros Hz. destruct (live 0 _) as [|a l] eqn:El in Hz; [|unfold zlen in Hz; cbn [length] in Hz; lia]. apply live_empty in El; [|lia]. destruct (hist ops); discriminate El. }
  destruct Hk as [->| ->]; unfold jm_run, jm_init, new_jmetric; cbn [jm_kind].
  - rewrite ewcov_core by exact Hd. cbn [bind]. rewrite (jm_lift FN _ _ Hall). destruct (jrel_run _ _ _ c2 (core0_rel 0 (Some d) (or_introl eq_refl)) Er) as (c' & Ec' & Rc). rewrite Ec'. cbn [rmap bind].
    unfold jm_value. cbn [jm_core jm_kind]. rewrite (jrel_value (JEwmCov d) _ _ Rc eq_refl). cbn [jvalue]. unfold j_get_sum. destruct (Z.eqb_spec (j_count c2) 0); [contradiction|].
    change (t_hash [1; 1]) with 32. rewrite S32. reflexivity.
  - rewrite ewcorr_core by exact Hd. cbn [bind]. rewrite (jm_lift FN _ _ Hall), Er. cbn [rmap bind]. unfold jm_value. cbn [jm_core jm_kind jvalue]. unfold corr_value, j_get_sum.
    destruct (Z.eqb_spec (j_count c2) 0); [contradiction|]. change (t_hash [1; 1]) with 32. change (t_hash [2; 0]) with 62. change (t_hash [0; 2]) with 2. rewrite S32, S62, S2.
    cbn [bind ndiv FN]. rewrite fdiv_nan_l. reflexivity.
Qed.
(** EWMCov and EWMCorr: the same from one non-finite coordinate of one pair. *)
Theorem C88_joint_refuted : forall d k ops p ps, decay_ok d -> ejkind d k -> length p = 2%nat -> (exists x, In x p /\ isfin x = false) -> (2 <= length ps)%nat ->
  (forall p, In (OPush p) ops -> length p = 2%nat) -> (forall p, In p ps -> length p = 2%nat) ->
  (m <- jm_run FN k (ops ++ OPush p :: map OPush ps) ;; jm_value FN m) = Ok fnan.
Proof.
  intros d k ops p ps Hd Hk Lp (z & Hz & Fz) Hps Hops Hp. destruct (two p Lp) as (x & y & ->). destruct Hz as [->|[->|[]]]; [apply (ebad_run_x d); auto; lia|].
  rewrite (sw_all k), map_app. cbn [map swap_op]. change (rev [x; z]) with [z; x]. rewrite map_map, <- (map_map (@rev f64) OPush). apply (ebad_run_x d); auto; try lia.
  - rewrite map_length. exact Hps.
  - intros q Hq. apply (swap_len ops q Hq Hops).
  - intros q Hq. apply in_map_iff in Hq as (r & <- & Hr). rewrite rev_length. auto.
Qed.
Print Assumptions C88_joint_refuted.
Example C88_joint_case : let d := fdy 1 (-1) in ejkind d (JEwmCorr d) /\ ejkind d (JEwmCov d) /\
  rmap fbits (m <- jm_run FN (JEwmCov d) (map OPush [[fz 1; fz 2]; [fz 1; finf true]; [fz 3; fz 1]; [fz 2; fz 2]]) ;; jm_value FN m) = Ok (fbits fnan) /\
  rmap fbits (m <- jm_run FN (JEwmCov d) (map OPush [[fz 1; fz 2]; [fz 3; fz 1]]) ;; jm_value FN m) = Ok (fbits (fdy (-1) (-1))).
Proof. split; [right; reflexivity|]. split; [left; reflexivity|]. split; vm_compute; reflexivity. Qed.
