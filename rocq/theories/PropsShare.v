(** Metrics on one core: C62. *)
From Coq Require Import Reals Lra.
From Flocq Require Import Core BinarySingleNaN.
From Verif Require Import Base F64 FloatR HistSpec RingModel NumModel MomentModel MetricProof TotalProof JointModel JointMetric ShareModel ShareProof JointShare.
Local Open Scope Z_scope.

(** ** Specification *)
(** The calls, wherever they are made: on the core or on one of the metrics. *)
Definition calls (l : list (@via_op f64)) : list (op f64) := map (fun o => match o with SPush _ x => OPush x | SClear _ => OClear end) l.
Definition jcalls (l : list (@jvia_op f64)) : list (op (list f64)) := map (fun o => match o with JSPush _ x => OPush x | JSClear _ => OClear end) l.
Definition made_on (l : list (@via_op f64)) : list (option nat) := map (fun o => match o with SPush v _ => v | SClear v => v end) l.
Definition jmade_on (l : list (@jvia_op f64)) : list (option nat) := map (fun o => match o with JSPush v _ => v | JSClear v => v end) l.
(** The exponentially weighted metrics *)
Definition weighted (k : @kind f64) : Prop := match k with KEwma _ | KEwmMoment _ _ | KEwmStd _ => True | _ => False end.
Definition jweighted (k : @jkind f64) : Prop := match k with JEwmCov _ | JEwmCorr _ => True | _ => False end.
Definition decay_of (k : @kind f64) : option f64 := match k with KEwma d | KEwmMoment _ d | KEwmStd d => Some d | _ => None end.
Definition jdecay_of (k : @jkind f64) : option f64 := match k with JEwmCov d | JEwmCorr d => Some d | _ => None end.
Definition window_of (k : @kind f64) : Z := match k with KMean w | KMoment _ w | KStd w | KSkew w | KKurt w => w | _ => 0 end.
Definition jwindow_of (k : @jkind f64) : Z := match k with JCov w | JCorr w => w | _ => 0 end.
(** All of them are weighted, or none is. *)
Definition all_or_none {K} (P : K -> Prop) (ks : list K) : Prop := (forall k, In k ks -> P k) \/ (forall k, In k ks -> ~ P k).
(** Metric i, on the shared core, returns what a metric of its kind with a core of its own returns after the same calls. *)
Definition same_alone (ks : list (@kind f64)) (l : list (@via_op f64)) (s : @shared f64) : Prop :=
  forall i k, nth_error ks i = Some k -> exists m, m_run FN k (calls l) = Ok m /\ sh_value FN s i = m_value FN m.
Definition jsame_alone (ks : list (@jkind f64)) (l : list (@jvia_op f64)) (s : @jshared f64) : Prop :=
  forall i k, nth_error ks i = Some k -> exists m, jm_run FN k (jcalls l) = Ok m /\ js_value FN s i = jm_value FN m.

(** ** Two positive decays that compare equal are the same float64. *)
Lemma same_decay d e : neqb FN d e = true -> nle FN d (nz FN 0) = false -> d = e.
Proof.
  cbn [neqb nle FN]. intros H P. assert (Nd : isnan d = false) by (destruct d; try reflexivity; change (feq fnan e = true) in H; rewrite feq_nan_l in H; discriminate).
  assert (Ne : isnan e = false) by (destruct e; try reflexivity; change (feq d fnan = true) in H; rewrite feq_nan_r in H; discriminate).
  destruct d as [s|s| |s m x Hb]; try discriminate.
  - destruct e as [t|t| |t n y Hc]; try discriminate; unfold feq in H; rewrite fcmp_Bcompare in H; destruct s; try destruct t; try reflexivity; discriminate H.
  - destruct e as [t|t| |t n y Hc]; try discriminate.
    + apply feq_R in H; [|reflexivity|reflexivity]. exfalso. change (B2R (B754_zero t)) with 0%R in H. apply eq_0_F2R in H. destruct s; discriminate.
    + exfalso. unfold feq in H. rewrite fcmp_Bcompare in H. destruct s, t; discriminate H.
    + apply feq_R in H; [|reflexivity|reflexivity]. apply B2R_inj; [reflexivity|reflexivity|exact H].
Qed.
Lemma uniform_of ks : all_or_none weighted ks -> uniform ks.
Proof.
  assert (X : forall k : @kind f64, decayed k = true <-> weighted k) by (intros k; destruct k; cbn; split; intros; easy).
  intros [H|H] k k' Hk Hk'; apply eq_true_iff_eq; rewrite !X; [split; auto|]. pose proof (H k Hk). pose proof (H k' Hk'). tauto.
Qed.
Lemma juniform_of ks : all_or_none jweighted ks -> juniform ks.
Proof.
  assert (X : forall k : @jkind f64, jdecayed k = true <-> jweighted k) by (intros k; destruct k; cbn; split; intros; easy).
  intros [H|H] k k' Hk Hk'; apply eq_true_iff_eq; rewrite !X; [split; auto|]. pose proof (H k Hk). pose proof (H k' Hk'). tauto.
Qed.

(** ** C62: sharing a core changes no result, bit for bit
    Missing: a group that mixes weighted and unweighted metrics, for which it is false (below). *)
Theorem C62_moment_partial : forall ks l s, sh_run FN ks l = Ok s -> all_or_none weighted ks -> same_alone ks l s.
Proof. intros ks l s E U i k Ei. exact (shared_same FN same_decay ks l s i k E (uniform_of ks U) Ei). Qed.
Print Assumptions C62_moment_partial.
(** A group can be formed if each metric is accepted on its own (with an order up to 65) and the
    windows and decays agree; no call then fails. *)
Theorem C62_moment_total : forall ks l, ks <> [] ->
  (forall k, In k ks -> (exists m, m_run FN k [] = Ok m) /\ match k with KMoment p _ | KEwmMoment p _ => p <= 65 | _ => True end) ->
  (forall k k', In k ks -> In k' ks -> window_of k = window_of k' /\ decay_of k = decay_of k') ->
  (forall k d, In k ks -> decay_of k = Some d -> isnan d = false) ->
  (forall i, In (Some i) (made_on l) -> (i < length ks)%nat) ->
  exists s, sh_run FN ks l = Ok s /\ same_alone ks l s.
Proof.
  intros ks l Hne Hok Hag Hn Hi. destruct (shared_total FN ks l Hne) as (s & E).
  - intros k Hk. destruct (Hok k Hk) as [(m & Em) Ho]. split; [rewrite m_run_eq in Em; apply bind_ok in Em as (c & Ec & _); apply bind_ok in Ec as (c0 & Ec & _); exists c0; exact Ec|]. destruct k; cbn [korder]; lia.
  - intros k k' Hk Hk'. specialize (Hag k k' Hk Hk'). destruct k, k'; exact Hag.
  - intros k d Hk Hd. cbn [neqb FN]. rewrite feq_key by (apply (Hn k d Hk); destruct k; exact Hd). apply Z.eqb_refl.
  - exact Hi.
  - exists s. split; [exact E|]. apply C62_moment_partial; [exact E|]. destruct ks as [|k0 ks]; [congruence|].
    destruct (decay_of k0) eqn:D.
    + left. intros k Hk. destruct (Hag k0 k (or_introl eq_refl) Hk) as [_ H]. rewrite D in H. destruct k; try discriminate; exact I.
    + right. intros k Hk W. destruct (Hag k0 k (or_introl eq_refl) Hk) as [_ H]. rewrite D in H. destruct k; try discriminate; exact W.
Qed.
Print Assumptions C62_moment_total.
(** Mean, Std and Kurtosis on one core, with a window of 3; one value is pushed through the Std, the others on the core. *)
Definition ex_kinds : list (@kind f64) := [KMean 3; KStd 3; KKurt 3].
Definition ex_calls : list (@via_op f64) := [SPush None (fz 1); SClear (Some 2%nat); SPush None (fz 2); SPush (Some 1%nat) (fz 4); SPush None (fz 9); SPush None (fz 5)].
Example C62_moment_meets : rmap (fun _ => true) (sh_run FN ex_kinds ex_calls) = Ok true /\ all_or_none weighted ex_kinds.
Proof. split; [vm_compute; reflexivity|]. right. intros k [<-|[<-|[<-|[]]]] H; exact H. Qed.
Example C62_total_meets : exists s, sh_run FN ex_kinds ex_calls = Ok s /\ same_alone ex_kinds ex_calls s.
Proof.
  apply C62_moment_total.
  - discriminate.
  - intros k [<-|[<-|[<-|[]]]]; (split; [|exact I]).
    + assert (H : rmap (fun _ => true) (m_run FN (KMean 3) []) = Ok true) by (vm_compute; reflexivity). apply rmap_ok in H as (m & H & _). eauto.
    + assert (H : rmap (fun _ => true) (m_run FN (KStd 3) []) = Ok true) by (vm_compute; reflexivity). apply rmap_ok in H as (m & H & _). eauto.
    + assert (H : rmap (fun _ => true) (m_run FN (KKurt 3) []) = Ok true) by (vm_compute; reflexivity). apply rmap_ok in H as (m & H & _). eauto.
  - intros k k' [<-|[<-|[<-|[]]]] [<-|[<-|[<-|[]]]]; split; reflexivity.
  - intros k d [<-|[<-|[<-|[]]]]; discriminate.
  - intros i H. cbn in H. cbn. repeat destruct H as [H|H]; try discriminate; try (injection H as <-; lia). destruct H.
Qed.

(** Cov, Corr, EWMCov and EWMCorr. Pushes that were accepted have two values. *)
Theorem C62_joint_partial : forall ks l s, js_run FN ks l = Ok s -> all_or_none jweighted ks -> jsame_alone ks l s.
Proof. intros ks l s E U i k Ei. exact (jshared_same same_decay ks l s i k E (juniform_of ks U) Ei). Qed.
Print Assumptions C62_joint_partial.
Theorem C62_joint_total : forall ks l, ks <> [] -> (forall k, In k ks -> exists m, jm_run FN k [] = Ok m) ->
  (forall k k', In k ks -> In k' ks -> jwindow_of k = jwindow_of k' /\ jdecay_of k = jdecay_of k') ->
  (forall k d, In k ks -> jdecay_of k = Some d -> isnan d = false) ->
  (forall i, In (Some i) (jmade_on l) -> (i < length ks)%nat) -> (forall x, In (OPush x) (jcalls l) -> length x = 2%nat) ->
  exists s, js_run FN ks l = Ok s /\ jsame_alone ks l s.
Proof.
  intros ks l Hne Hok Hag Hn Hi Hx. destruct (jshared_total FN ks l Hne) as (s & E).
  - intros k Hk. destruct (Hok k Hk) as (m & Em). unfold jm_run in Em. apply bind_ok in Em as (m0 & Ei & _). unfold jm_init in Ei. apply bind_ok in Ei as (c & Ec & _). exists c. exact Ec.
  - intros k k' Hk Hk'. specialize (Hag k k' Hk Hk'). destruct k, k'; exact Hag.
  - intros k d Hk Hd. cbn [neqb FN]. rewrite feq_key by (apply (Hn k d Hk); destruct k; exact Hd). apply Z.eqb_refl.
  - exact Hi.
  - exact Hx.
  - exists s. split; [exact E|]. apply C62_joint_partial; [exact E|]. destruct ks as [|k0 ks]; [congruence|].
    destruct (jdecay_of k0) eqn:D.
    + left. intros k Hk. destruct (Hag k0 k (or_introl eq_refl) Hk) as [_ H]. rewrite D in H. destruct k; try discriminate; exact I.
    + right. intros k Hk W. destruct (Hag k0 k (or_introl eq_refl) Hk) as [_ H]. rewrite D in H. destruct k; try discriminate; exact W.
Qed.
Print Assumptions C62_joint_total.
Definition ex_jkinds : list (@jkind f64) := [JCov 2; JCorr 2; JCov 2].
Definition ex_jcalls : list (@jvia_op f64) := [JSPush None [fz 1; fz 2]; JSPush (Some 0%nat) [fz 4; fz 3]; JSClear (Some 1%nat); JSPush None [fz 5; fz 1]; JSPush None [finf false; fz 1]; JSPush (Some 1%nat) [fz 7; fz 2]].
Example C62_joint_meets : rmap (fun _ => true) (js_run FN ex_jkinds ex_jcalls) = Ok true /\ all_or_none jweighted ex_jkinds.
Proof. split; [vm_compute; reflexivity|]. right. intros k [<-|[<-|[<-|[]]]] H; exact H. Qed.
Example C62_joint_total_meets : exists s, js_run FN ex_jkinds ex_jcalls = Ok s /\ jsame_alone ex_jkinds ex_jcalls s.
Proof.
  apply C62_joint_total.
  - discriminate.
  - assert (H1 : exists m, jm_run FN (JCov 2) [] = Ok m) by (assert (H : rmap (fun _ => true) (jm_run FN (JCov 2) []) = Ok true) by (vm_compute; reflexivity); apply rmap_ok in H as (m & H & _); eauto).
    assert (H2 : exists m, jm_run FN (JCorr 2) [] = Ok m) by (assert (H : rmap (fun _ => true) (jm_run FN (JCorr 2) []) = Ok true) by (vm_compute; reflexivity); apply rmap_ok in H as (m & H & _); eauto).
    intros k [<-|[<-|[<-|[]]]]; assumption.
  - intros k k' [<-|[<-|[<-|[]]]] [<-|[<-|[<-|[]]]]; split; reflexivity.
  - intros k d [<-|[<-|[<-|[]]]]; discriminate.
  - intros i H. cbn in H. cbn. repeat destruct H as [H|H]; try discriminate; try (injection H as <-; lia). destruct H.
  - intros x H. cbn [jcalls map ex_jcalls] in H. repeat destruct H as [H|H]; try discriminate; try (injection H as <-; reflexivity). destruct H.
Qed.

(** MergeConfigs takes the decay of an EWMA into a group with a Mean without an error: on the shared core the
    Mean of 1, 2, 3 is 2.25, and 2 on its own. *)
Definition mixed_kinds : list (@kind f64) := [KMean 0; KEwma (fdy 1 (-1))].
Definition mixed_calls : list (@via_op f64) := [SPush None (fz 1); SPush None (fz 2); SPush None (fz 3)].
Lemma mixed_values : rmap fbits (s <- sh_run FN mixed_kinds mixed_calls ;; sh_value FN s 0) = Ok (fbits (fdy 9 (-2))) /\
  rmap fbits (m <- m_run FN (KMean 0) (calls mixed_calls) ;; m_value FN m) = Ok (fbits (fz 2)).
Proof. split; vm_compute; reflexivity. Qed.
Theorem C62_moment_refuted : ~ (forall ks l s, sh_run FN ks l = Ok s -> same_alone ks l s).
Proof.
  intros H. destruct mixed_values as [H1 H2]. apply rmap_ok in H1 as (v & H1 & Ev). apply bind_ok in H1 as (s & Es & H1).
  destruct (H _ _ _ Es 0%nat (KMean 0) eq_refl) as (m & Em & E). rewrite Em in H2. cbn [bind] in H2. rewrite <- E, H1 in H2. cbn [rmap bind] in H2.
  assert (X : fbits (fdy 9 (-2)) <> fbits (fz 2)) by (vm_compute; discriminate). congruence.
Qed.
Print Assumptions C62_moment_refuted.
Definition jmixed_kinds : list (@jkind f64) := [JCov 0; JEwmCov (fdy 1 (-1))].
Definition jmixed_calls : list (@jvia_op f64) := [JSPush None [fz 1; fz 1]; JSPush None [fz 2; fz 2]; JSPush None [fz 3; fz 3]].
Lemma jmixed_values : rmap fbits (s <- js_run FN jmixed_kinds jmixed_calls ;; js_value FN s 0) = Ok (fbits (fdy 11 (-5))) /\
  rmap fbits (m <- jm_run FN (JCov 0) (jcalls jmixed_calls) ;; jm_value FN m) = Ok (fbits (fz 1)).
Proof. split; vm_compute; reflexivity. Qed.
Theorem C62_joint_refuted : ~ (forall ks l s, js_run FN ks l = Ok s -> jsame_alone ks l s).
Proof.
  intros H. destruct jmixed_values as [H1 H2]. apply rmap_ok in H1 as (v & H1 & Ev). apply bind_ok in H1 as (s & Es & H1).
  destruct (H _ _ _ Es 0%nat (JCov 0) eq_refl) as (m & Em & E). rewrite Em in H2. cbn [bind] in H2. rewrite <- E, H1 in H2. cbn [rmap bind] in H2.
  assert (X : fbits (fdy 11 (-5)) <> fbits (fz 1)) by (vm_compute; discriminate). congruence.
Qed.
Print Assumptions C62_joint_refuted.
