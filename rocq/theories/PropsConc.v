(** Concurrency: C40 - C42. *)
From Coq Require Import QArith.
From Verif Require Import Base F64 HistSpec NumModel RingModel MinMaxModel HeapModel QuantileModel MomentModel JointModel MathModel MathProof ConcModel ConcProof LockModel LockProof ConcRun.
Local Close Scope Q_scope.
Local Open Scope nat_scope.

(** ** C40: linearizability *)
(** Every execution by [n] goroutines of any calls on one object shows a history that the sequential object
    [apply] explains, each call taking effect at one moment between invocation and response; once all calls have
    returned, the state is that of making the same calls one after the other in some order
    that keeps each goroutine's own order. *)
Definition atomic {S O R} (code : O -> prog S R) (apply : O -> S -> S * R) : Prop :=
  forall n s calls h c, exec code n (start s calls) h c ->
    linearizable apply s h /\
    ((forall i, t_cur (c_ths c i) = None /\ t_todo (c_ths c i) = []) ->
     exists order, c_sh c = fold_left (fun s p => fst (apply (snd p) s)) order s /\
       forall i, map snd (filter (fun p => Nat.eqb (fst p) i) order) = calls i).
Lemma disciplined_atomic {S O R} (code : O -> prog S R) apply : disciplined code apply -> atomic code apply.
Proof.
  intros D n s calls h c Hx. split; [eapply disciplined_linearizable; eassumption|]. intros Hf. exact (finished_state code apply D n s calls h c Hx Hf).
Qed.

(** Moment cores and the metrics on them. *)
Theorem C40_moment : forall T (N : Num T), atomic (mcode N) (mapply N).
Proof. intros T N. apply disciplined_atomic, mcode_disc. Qed.
Print Assumptions C40_moment.
(** Joint cores and Cov, Corr, EWMCov, EWMCorr. *)
Theorem C40_joint : forall T (N : Num T), atomic (jcode N) (japply N).
Proof. intros T N. apply disciplined_atomic, jcode_disc. Qed.
Print Assumptions C40_joint.
(** Quantile, Median, IQR. *)
Theorem C40_quantile : forall e, atomic (qcode e) (qapply e).
Proof. intros e. apply disciplined_atomic, qcode_disc. Qed.
Print Assumptions C40_quantile.
Theorem C40_min : atomic (vcode min_push min_clear min_value) (vapply min_push min_clear min_value).
Proof. apply disciplined_atomic, vcode_disc. Qed.
Print Assumptions C40_min.
Theorem C40_max : atomic (vcode max_push max_clear max_value) (vapply max_push max_clear max_value).
Proof. apply disciplined_atomic, vcode_disc. Qed.
Print Assumptions C40_max.
Theorem C40_heap_median : atomic (vcode hm_push hm_clear hm_value) (vapply hm_push hm_clear hm_value).
Proof. apply disciplined_atomic, vcode_disc. Qed.
Print Assumptions C40_heap_median.

(** Two pushes and two reads of the mean that overlap: the reader gets the mean of the first value only
    although the second Push has begun, then the mean of both. *)
Definition core0 : @core (option Q) := mkCore (nz QN 0) 4 (fun _ => nz QN 0) 0%Z 0%Z None (ring_new 0).
Definition two_calls (i : nat) : list (@mcall (option Q)) :=
  match i with 0 => [MPush (nz QN 1); MPush (nz QN 3)] | 1 => [MValue (KMean 0); MValue (KMean 0)] | _ => [] end.
Example C40_overlap : exists c, exec (mcode QN) 2 (start core0 two_calls)
  [Inv 0 (MPush (nz QN 1)); Res 0 (MUnit (Ok tt)); Inv 1 (MValue (KMean 0)); Inv 0 (MPush (nz QN 3)); Res 1 (MVal (Ok (nz QN 1))); Inv 1 (MValue (KMean 0)); Res 0 (MUnit (Ok tt)); Res 1 (MVal (Ok (nz QN 2)))] c.
Proof. apply (runs_hist (mcode QN) 2 _ [0;0;0;0;0;0;0; 1;1; 0; 1;1;1;1;1; 1; 0;0;0;0;0;0; 1;1;1;1;1;1]). vm_compute. reflexivity. Qed.

(** Autocov and Autocorr look at the count and compute the value in two critical sections. The property is
    false: if a Clear comes between, Value fails with "no values seen yet", an error it never gives alone. *)
Definition auto1 : @auto (option Q) := mkA 0%Z (ring_new 0)
  (mkJM (JCov 0) (Some (mkJ [nz QN 0; nz QN 0] [[1%Z; 1%Z]] (hput (fun _ => None) (t_hash [1%Z; 1%Z]) (nz QN 0)) (fun _ => None) 1%Z 0%Z None (ring_new 0)))).
Definition clear_calls (i : nat) : list (@acall (option Q)) := match i with 0 => [AValue] | 1 => [AClear] | _ => [] end.
Theorem C40_auto_refuted : exists h c, exec (acode QN (fun r => r) (JCov 0)) 2 (start auto1 clear_calls) h c /\ In (Res 0 (AVal (Err ENoValues))) h /\
  ~ linearizable (aapply QN (fun r => r) (JCov 0)) auto1 h.
Proof.
  destruct (runs_hist (acode QN (fun r => r) (JCov 0)) 2 (start auto1 clear_calls) [0;0;0;0; 1;1;1;1;1;1;1; 0;0;0;0;0;0]
    [Inv 0 AValue; Inv 1 AClear; Res 1 (AUnit (Ok tt)); Res 0 (AVal (Err ENoValues))]) as (c & Hx); [vm_compute; reflexivity|].
  eexists _, c. split; [exact Hx|]. split; [cbn; auto|]. intros (f & s & X). apply auto_no_novalues in X as (_ & X). apply (X 0). cbn. auto.
Qed.
Print Assumptions C40_auto_refuted.
(** Auto1 is reachable: one Push to a fresh Autocov with lag 0. *)
Example auto1_reached : rmap (fun a => (a_lag a, option_map (fun c => (j_means c, j_count c, j_get_sum c [1%Z; 1%Z])) (jm_core (a_metric a)))) (auto_run QN ACov 0 0 [OPush (nz QN 0)])
  = Ok (a_lag auto1, option_map (fun c => (j_means c, j_count c, j_get_sum c [1%Z; 1%Z])) (jm_core (a_metric auto1))).
Proof. vm_compute. reflexivity. Qed.
(** To a caller who looks at the value and at whether there is an error, but not at which, they are
    atomic. Missing: the identity of the error. [k]: the kind of the inner metric, which never changes. *)
Theorem C40_auto_partial : forall T (N : Num T) V (view : res T -> V) k, view (Err ENoValues) = view (Err ETooFew) -> atomic (acode N view k) (aapply N view k).
Proof. intros T N V view k H. apply disciplined_atomic, acode_disc, H. Qed.
Print Assumptions C40_auto_partial.
Example C40_auto_view : forall T (N : Num T) (a : @auto T) V (view : res T -> V), aapply N view (jm_kind (a_metric a)) AValue a = (a, AVal (view (auto_value N a))).
Proof. intros T N a V view. cbn [aapply]. rewrite as_kind_same. reflexivity. Qed.

(** ** C41: deadlock *)
(** Value of Mean, Moment, Std, Skewness, Kurtosis and EWMA takes the read lock twice. With a Push
    in between, both goroutines wait for ever, in every state. *)
Theorem C41_moment_refuted : forall T (N : Num T) (k : @kind T) x s, mflat (MValue k) = false ->
  exists h c, exec (mcode N) 2 (start s (duel (MValue k) (MPush x))) h c /\ deadlock (mcode N) 2 c.
Proof. intros T N k x s H. destruct (mnested N (MValue k) s H) as (n & kk & A). eapply nested_deadlock; [exact A|reflexivity]. Qed.
Print Assumptions C41_moment_refuted.
Example C41_which : map (fun k => mflat (MValue k)) [KMean 0; KMoment 2 5; KStd 0; KSkew 0; KKurt 0; KEwma (nz QN 0); KEwmMoment 2 (nz QN 0); KEwmStd (nz QN 0)]
  = [false; false; false; false; false; false; true; true].
Proof. reflexivity. Qed.
(** So does Value of Cov, Corr and EWMCorr, *)
Theorem C41_joint_refuted : forall T (N : Num T) (k : @jkind T) xs s, jflat (JValue k) = false ->
  exists h c, exec (jcode N) 2 (start s (duel (JValue k) (JPush xs))) h c /\ deadlock (jcode N) 2 c.
Proof. intros T N k xs s H. destruct (jnested N (JValue k) s H) as (n & kk & A). eapply nested_deadlock; [exact A|reflexivity]. Qed.
Print Assumptions C41_joint_refuted.
(** of IQR, *)
Theorem C41_iqr_refuted : forall e x q, exists h c, exec (qcode e) 2 (start q (duel QIqr (QPush x))) h c /\ deadlock (qcode e) 2 c.
Proof. intros e x q. destruct (qnested e q) as (n & kk & A). eapply nested_deadlock; [exact A|reflexivity]. Qed.
Print Assumptions C41_iqr_refuted.
(** and of Autocov and Autocorr that have seen enough values. *)
Theorem C41_auto_refuted : forall T (N : Num T) V (view : res T -> V) ak x (a : @auto T) c, jm_core (a_metric a) = Some c -> j_get_count c <> 0%Z ->
  exists h c, exec (acode N view (match ak with ACov => JCov 0 | ACorr => JCorr 0 end)) 2 (start a (duel AValue (APush x))) h c /\ deadlock (acode N view (match ak with ACov => JCov 0 | ACorr => JCorr 0 end)) 2 c.
Proof. intros T N V view ak x a c Ec Hn. destruct (auto_nested N view (match ak with ACov => JCov 0 | ACorr => JCorr 0 end) a c ltac:(destruct ak; reflexivity) Ec Hn) as (n & kk & A). eapply nested_deadlock; [exact A|reflexivity]. Qed.
Print Assumptions C41_auto_refuted.

(** Every execution of calls from [good] goes on until all calls have returned: as long as one has not, some
    goroutine can move, and there is no infinite execution. *)
Definition completes {S O R} (code : O -> prog S R) (good : O -> Prop) : Prop :=
  forall n s calls, (forall i, Forall good (calls i)) ->
    (forall h c, exec code n (start s calls) h c -> ~ deadlock code n c) /\ well_founded (fun c' c => exists e, step code n c e c').
Lemma completes_of {S O R} (code : O -> prog S R) apply (good : O -> Prop) : disciplined code apply -> (forall o, good o -> nonest false (code o)) -> completes code good.
Proof. intros D F n s calls G. split; [|apply finite]. intros h c. exact (flat_no_deadlock code apply D good F n s calls h c G). Qed.
(** Missing in the _partial theorems: the calls just named, for which it is false. *)
Theorem C41_moment_partial : forall T (N : Num T), completes (mcode N) (fun o => mflat o = true).
Proof. intros T N. exact (completes_of _ _ _ (mcode_disc N) (mflat_nonest N)). Qed.
Print Assumptions C41_moment_partial.
Theorem C41_joint_partial : forall T (N : Num T), completes (jcode N) (fun o => jflat o = true).
Proof. intros T N. exact (completes_of _ _ _ (jcode_disc N) (jflat_nonest N)). Qed.
Print Assumptions C41_joint_partial.
Theorem C41_quantile_partial : forall e, completes (qcode e) (fun o => o <> QIqr).
Proof. intros e. apply (completes_of _ _ _ (qcode_disc e)). intros o H. apply qflat_nonest. destruct o; try reflexivity. contradiction. Qed.
Print Assumptions C41_quantile_partial.
Theorem C41_min : completes (vcode min_push min_clear min_value) (fun _ => True).
Proof. apply (completes_of _ _ _ (vcode_disc _ _ _)). intros o _. apply vcode_nonest. Qed.
Print Assumptions C41_min.
Theorem C41_max : completes (vcode max_push max_clear max_value) (fun _ => True).
Proof. apply (completes_of _ _ _ (vcode_disc _ _ _)). intros o _. apply vcode_nonest. Qed.
Print Assumptions C41_max.
Theorem C41_heap_median : completes (vcode hm_push hm_clear hm_value) (fun _ => True).
Proof. apply (completes_of _ _ _ (vcode_disc _ _ _)). intros o _. apply vcode_nonest. Qed.
Print Assumptions C41_heap_median.
Example C41_flat_calls : Forall (fun o => mflat o = true) [MPush (nz QN 1); MClear; MValue (KEwmStd (nz QN 0)); MCount; MMean; MSum 2].
Proof. repeat constructor. Qed.

(** ** C42: the package-level cache of factorials *)
Definition binoms (i : nat) : list bcall := match i with 0 | 1 => [BBinom 8 1] | _ => [] end.
(** A ninth moment of four values, computed by the metric's core with the cache in state [cache]. *)
Definition ninth (cache : list Z) : res (option Q) :=
  rmap (fun c => c_sums c 9) (adds_in QN cache (mkCore (nz QN 0) 10 (fun _ => nz QN 0) 0%Z 0%Z None (ring_new 0)) [nz QN 0; nz QN 1; nz QN 3; nz QN 7]).
(** False: two goroutines, each adding a value to its own eighth moment (hence calling Binom(8, 1)), can leave 9! in the
    cache as 8!. From then on Binom(9, 1) is 1 for everybody, and a ninth moment comes out wrong. *)
Theorem C42_refuted : exists h c, exec bcode 2 (start factorials0 binoms) h c /\ (forall i, t_cur (c_ths c i) = None /\ t_todo (c_ths c i) = []) /\
  (forall i r, In (Res i r) h -> r = Ok 8%Z) /\
  (forall cache, later (c_sh c) cache -> binom_in cache 9 1 = Ok 1%Z) /\ binom 9 1 = Ok 9%Z /\
  (exists v w, ninth factorials0 = Ok (Some v) /\ ninth (c_sh c) = Ok (Some w) /\ ~ (v == w)%Q).
Proof.
  set (sch := [0;0;0; 1;1;1; 0;1; 0;0;0;0;0;0;0; 1;1;1;1;1;1;1]).
  assert (B : match runs bcode 2 sch (start factorials0 binoms) with Some _ => true | None => false end = true) by (vm_compute; reflexivity).
  destruct (runs bcode 2 sch (start factorials0 binoms)) as [(h, c)|] eqn:E; [|discriminate B]. clear B.
  assert (H : (option_map fst (runs bcode 2 sch (start factorials0 binoms)) = Some [Inv 0 (BBinom 8 1); Inv 1 (BBinom 8 1); Res 0 (Ok 8%Z); Res 1 (Ok 8%Z)]) /\
              (option_map (fun p => c_sh (snd p)) (runs bcode 2 sch (start factorials0 binoms)) = Some (factorials0 ++ [40320; 40320])%Z) /\
              (option_map (fun p => (c_ths (snd p) 0, c_ths (snd p) 1)) (runs bcode 2 sch (start factorials0 binoms)) = Some (mkT None [], mkT None []))) by (vm_compute; auto).
  rewrite E in H. cbn [option_map fst snd] in H. destruct H as (Hh & Hs & Ht). injection Hh as ->. injection Hs as Hs. injection Ht as Ht0 Ht1.
  exists [Inv 0 (BBinom 8 1); Inv 1 (BBinom 8 1); Res 0 (Ok 8%Z); Res 1 (Ok 8%Z)], c. pose proof (runs_sound bcode 2 _ _ _ _ E) as Hx. split; [exact Hx|]. split; [|split; [|split; [|split; [reflexivity|]]]].
  - intros i. destruct i as [|[|i]]; [rewrite Ht0; auto|rewrite Ht1; auto|]. assert (K : forall h0 c0, exec bcode 2 (start factorials0 binoms) h0 c0 -> c_ths c0 (S (S i)) = mkT None []).
    { induction 1 as [|h0 c0 e c1 _ IH Hst]; [reflexivity|]. apply step_tnext in Hst as (j & Hj & _ & Ho). rewrite Ho by lia. exact IH. }
    rewrite (K _ _ Hx). auto.
  - clear. intros i r Hin. cbn [In] in Hin. destruct Hin as [X|[X|[X|[X|[]]]]]; try discriminate X; injection X; intros <- _; reflexivity.
  - intros cache HL. apply later_prefix in HL as (t & ->). rewrite Hs. clear.
    set (c := [1; 1; 2; 6; 24; 120; 720; 5040; 40320; 40320]%Z).
    assert (F : forall n v, (0 <= n < 10)%Z -> nth_error c (Z.to_nat n) = Some v -> factorial_c (c ++ t) n = Ok (c ++ t, v)).
    { intros n v Hn Hv. rewrite factorial_c_old, Hv; [reflexivity|exact Hn]. }
    unfold binom_in, binom_c. change ((1 =? 0) || (1 =? 9))%Z with false. cbn iota.
    rewrite (F 9%Z 40320%Z) by (lia || reflexivity). cbn [bind]. rewrite (F 1%Z 1%Z) by (lia || reflexivity). cbn [bind].
    change (9 - 1)%Z with 8%Z. rewrite (F 8%Z 40320%Z) by (lia || reflexivity). reflexivity.
  - rewrite Hs. clear.
    set (r1 := ninth factorials0). set (r2 := ninth _).
    assert (K : match r1, r2 with Ok (Some v), Ok (Some w) => Qeq_bool v w = false | _, _ => False end) by (vm_compute; reflexivity).
    clearbody r1 r2. destruct r1 as [[v|]|e| | |]; try contradiction. destruct r2 as [[w|]|e| | |]; try contradiction.
    exists v, w. split; [reflexivity|]. split; [reflexivity|]. intros Q. apply Qeq_bool_iff in Q. congruence.
Qed.
Print Assumptions C42_refuted.
(** [ninth] is what the metric computes when the cache is sound. *)
Example C42_ninth : ninth factorials0 = rmap (fun c => c_sums c 9) (run (c_add QN) (c_clear QN) (map OPush [nz QN 0; nz QN 1; nz QN 3; nz QN 7]) (mkCore (nz QN 0) 10 (fun _ => nz QN 0) 0%Z 0%Z None (ring_new 0))).
Proof. vm_compute. reflexivity. Qed.
Theorem C42_add_in : forall T (N : Num T) cache c x, cache_ok cache -> add_in N cache c x = c_add N c x.
Proof. intros T N cache c x. apply add_in_ok. Qed.

(** True as long as no call has to extend the cache: any number of goroutines may use metrics of order up to 7, or up
    to an order m that has been used before the goroutines start; the cache stays as it is, and
    every Binom returns its value. Missing: calls that extend the cache. *)
Theorem C42_partial : forall n cache calls h c, cache_ok cache -> (forall i, Forall (fun o => match o with BBinom n k => (0 <= k <= n)%Z /\ (n < zlen cache)%Z end) (calls i)) ->
  exec bcode n (start cache calls) h c -> c_sh c = cache /\ linearizable (fun o s => (s, match o with BBinom n k => binom n k end)) cache h.
Proof.
  intros n cache calls h c Hc Hg Hx. refine (ro_exec bcode bval cache (bgood cache) _ n calls h c _ Hx).
  - intros o Ho. apply bcode_evals; assumption.
  - intros i. specialize (Hg i). eapply Forall_impl; [|exact Hg]. intros [a b]. exact (fun x => x).
Qed.
Print Assumptions C42_partial.
Example C42_partial_case : cache_ok factorials0 /\ Forall (fun o => match o with BBinom n k => (0 <= k <= n)%Z /\ (n < zlen factorials0)%Z end) [BBinom 7 3; BBinom 4 2].
Proof. split; [apply cache0_ok|]. repeat constructor; vm_compute; congruence. Qed.
