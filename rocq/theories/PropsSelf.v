(** C81: the covariance and correlation of a stream with itself, in float64. *)
From Coq Require Import Reals Lra Lia.
From Flocq Require Import Core BinarySingleNaN.
From Verif Require Import Base F64 FloatR HistSpec RingModel NumModel MomentModel JointModel JointMetric JointSpec LagProof PropsJoint PropsConst PropsCross PropsQuantile SelfCorr.
Local Open Scope nat_scope.
Local Open Scope list_scope.

(** The values considered: finite, of at most 2^100, and multiples of 2^-200. Every float64 of absolute value
    between 2^-147 and 2^100 is one, and so is zero. *)
Definition moderate (x : f64) : Prop := is_finite x = true /\ (Rabs (B2R x) <= 2 ^ 100)%R /\ exists k : Z, (B2R x * 2 ^ 200)%R = IZR k.
Lemma pow_bpow n : (2 ^ n)%R = bpow radix2 (Z.of_nat n).
Proof. rewrite bpow_powerRZ, <- pow_powerRZ. reflexivity. Qed.
Lemma moderate_grid x : moderate x -> grid x.
Proof.
  intros (F & H & k & E). rewrite pow_bpow in H, E. split; [exact F|]. split; [exact H|]. exists k. rewrite <- E, Rmult_assoc, <- bpow_plus.
  change (Z.of_nat 200 + -200)%Z with 0%Z. change (bpow radix2 0) with 1%R. ring.
Qed.
Definition both_same (ops : list (op f64)) : list (op (list f64)) := map (fun o => match o with OPush x => OPush [x; x] | OClear => OClear end) ops.

Lemma lagged0_nil {A} (l : list A) : l <> [] -> exists p t, lagged 0 l = p :: t.
Proof. intros H. destruct l as [|a l]; [congruence|]. eexists _, _. reflexivity. Qed.
Lemma auto0 k ops : hist ops <> [] ->
  (a <- auto_run FN k 0 0 ops ;; auto_value FN a) = (m <- jm_run FN (match k with ACov => JCov 0 | ACorr => JCorr 0 end) (both_same ops) ;; jm_value FN m).
Proof.
  intros Hh. destruct (C67_auto FN k 0 0 ops) as [_ E]. cbv zeta in E. change (Z.of_nat 0) with 0%Z in E. rewrite E, lag0_calls. destruct (lagged0_nil (hist ops) Hh) as (p & t & ->). reflexivity.
Qed.

(** Without a window, Cov of a variable with itself is Moment(2) of that variable, to the last bit, and an
    error exactly if that is one; Autocov with lag 0 is the same once something was pushed. *)
Theorem C81_cov_self ops : (forall x, In (OPush x) ops -> moderate x) -> (zlen ops <= 2 ^ 40)%Z ->
  (m <- jm_run FN (JCov 0) (both_same ops) ;; jm_value FN m) = (m <- m_run FN (KMoment 2 0) ops ;; m_value FN m) /\
  (hist ops <> [] -> (a <- auto_run FN ACov 0 0 ops ;; auto_value FN a) = (m <- m_run FN (KMoment 2 0) ops ;; m_value FN m)).
Proof.
  intros Hr Hl. pose proof (self_cov ops (fun x Hx => moderate_grid x (Hr x Hx)) Hl) as H. split; [exact H|]. intros Hh. rewrite <- H. exact (auto0 ACov ops Hh).
Qed.
Print Assumptions C81_cov_self.

(** Without a window, Corr of a variable with itself and Autocorr with lag 0 are exactly 1 if two of the values
    since the last Clear differ, and NaN (0/0) if all of them are equal. *)
Theorem C81_corr_self ops : (forall x, In (OPush x) ops -> moderate x) -> (zlen ops <= 2 ^ 40)%Z -> hist ops <> [] ->
  exists v, (m <- jm_run FN (JCorr 0) (both_same ops) ;; jm_value FN m) = Ok v /\ (a <- auto_run FN ACorr 0 0 ops ;; auto_value FN a) = Ok v /\
    ((exists a b, In a (hist ops) /\ In b (hist ops) /\ B2R a <> B2R b) -> v = fz 1) /\
    ((forall a b, In a (hist ops) -> In b (hist ops) -> B2R a = B2R b) -> v = fnan).
Proof.
  intros Hr Hl Hh. destruct (self_corr ops (fun x Hx => moderate_grid x (Hr x Hx)) Hl Hh) as (v & E & H). exists v. split; [exact E|]. split; [|exact H]. rewrite <- E. exact (auto0 ACorr ops Hh).
Qed.
Print Assumptions C81_corr_self.

(** With a window this fails, although in exact arithmetic it holds (C69): after 5, 4, 4, 4 the window of three
    holds 4, 4, 4, and the rounding errors of the removed 5 are all that is left in the sums. Autocorr(0, 3)
    then returns -1: the stream is reported as perfectly anticorrelated with itself. *)
Theorem C81_window_refuted : exists w ops, (0 < w)%Z /\ (forall x, In (OPush x) ops -> moderate x) /\
  rmap fbits (a <- auto_run FN ACorr 0 w ops ;; auto_value FN a) = Ok (fbits (fz (-1))).
Proof.
  exists 3%Z, (pushes [5; 4; 4; 4]%Z). split; [lia|]. split; [|concrete]. intros x Hx. 
  assert (H : exists z, x = fz z /\ (4 <= z <= 5)%Z).
  { apply in_map_iff in Hx. destruct Hx as (z & E & Hz). injection E as <-. exists z. split; [reflexivity|]. cbn [In] in Hz. lia. }
  destruct H as (z & -> & Hz). destruct (fz_exact z ltac:(lia)) as [F E]. split; [exact F|]. rewrite E. split.
  - rewrite Rabs_pos_eq by (apply IZR_le; lia). apply Rle_trans with 5%R; [apply IZR_le; lia|]. replace 100%nat with (3 + 97)%nat by reflexivity. rewrite pow_add. assert (1 <= 2 ^ 97)%R by (apply pow_R1_Rle; lra). lra.
  - exists (z * 2 ^ 200)%Z. rewrite mult_IZR. f_equal. rewrite pow_bpow. reflexivity.
Qed.
Print Assumptions C81_window_refuted.
Example C81_case : let ops := pushes [5; 4; 4; 4]%Z in
  rmap fbits (a <- auto_run FN ACorr 0 0 ops ;; auto_value FN a) = Ok (fbits (fz 1)) /\
  rmap fbits (a <- auto_run FN ACorr 0 0 (pushes [4; 4]%Z) ;; auto_value FN a) = Ok (fbits fnan) /\
  rmap fbits (a <- auto_run FN ACov 0 0 ops ;; auto_value FN a) = rmap fbits (m <- m_run FN (KMoment 2 0) ops ;; m_value FN m) /\
  rmap fbits (a <- auto_run FN ACov 0 0 ops ;; auto_value FN a) <> Ok (fbits (fz 0)).
Proof. cbv zeta. split; [concrete|]. split; [concrete|]. split; [concrete|]. vm_compute. discriminate. Qed.
