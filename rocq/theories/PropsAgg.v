(** Aggregates and String methods: C38, C39, C43. *)
From Coq Require Import String Ascii Permutation Eqdep_dec.
From Verif Require Import Base F64 HistSpec NumModel RingModel MinMaxModel HeapModel QuantileModel MomentModel JointModel AggModel AggProof NameModel NameProof.
From Flocq Require Import BinarySingleNaN.
Local Open Scope nat_scope.

(** ** C38: Push reaches every metric exactly once *)
(** Whatever the metrics and the schedule: each metric has had exactly one Push of [x], nothing else has
    changed; nil is returned iff no metric failed; otherwise the error holds the errors of exactly the failing metrics. *)
Theorem C38_push : forall (M X E : Type) (push : M -> X -> M * option E) n w x w' r,
  agg_push push n w x w' r ->
  (forall i, i < n -> w' i = fst (push (w i) x)) /\
  (forall i, n <= i -> w' i = w i) /\
  (r = None <-> forall i, i < n -> snd (push (w i) x) = None) /\
  (forall errs, r = Some errs -> Permutation (map Some errs) (filter (fun o => match o with Some _ => true | None => false end) (map (fun i => snd (push (w i) x)) (seq 0 n)))).
Proof.
  intros M X E push n w x w' r H. apply agg_push_spec in H as (H & errs & P & ->).
  split; [intros i Hi; rewrite H; destruct (Nat.ltb_spec i n); [auto | lia] |].
  split; [intros i Hi; rewrite H; destruct (Nat.ltb_spec i n); [lia | auto] |].
  assert (Q : Permutation (map Some errs) (filter (fun o => match o with Some _ => true | None => false end) (map (fun i => snd (push (w i) x)) (seq 0 n)))).
  { apply (Permutation_map (@Some E)) in P. rewrite P. unfold errors_of. clear.
    induction (seq 0 n) as [| i l IH]; [constructor |]. cbn. rewrite map_app. destruct (snd (push (w i) x)); cbn; auto. }
  split.
  - split.
    + destruct errs as [| e errs]; [| discriminate]. intros _ i Hi. apply Permutation_nil in Q.
      destruct (snd (push (w i) x)) as [e |] eqn:Ei; auto. exfalso.
      assert (I : In (Some e) (filter (fun o => match o with Some _ => true | None => false end) (map (fun i => snd (push (w i) x)) (seq 0 n)))).
      { apply filter_In. split; auto. apply in_map_iff. exists i. rewrite in_seq. split; auto. lia. }
      now rewrite Q in I.
    + intros Hn. destruct errs as [| e errs]; auto. exfalso.
      assert (I : In (Some e) (filter (fun o => match o with Some _ => true | None => false end) (map (fun i => snd (push (w i) x)) (seq 0 n)))).
      { apply (Permutation_in _ Q). now left. }
      apply filter_In in I as [I _]. apply in_map_iff in I as (i & Hi & I). apply in_seq in I. rewrite Hn in Hi; [discriminate | lia].
  - intros errs' E'. destruct errs as [| e errs]; [discriminate |]. now injection E' as <-.
Qed.
Print Assumptions C38_push.

(** Metrics that share state (one core, or one metric listed twice): the outcome is that of the metrics' methods called one
    after the other in some order, each exactly once. *)
Theorem C38_shared : forall (W V A : Type) n (call : nat -> W -> W * V) (note : nat -> V -> option (A -> A)) w a w' a',
  pool n call note w a w' a' ->
  exists order, Permutation order (seq 0 n) /\ w' = fold_left (fun w i => fst (call i w)) order w.
Proof.
  intros * H. apply pool_spec in H as (l & _ & Hl & P & _). exists (map fst l). split; auto. clear P.
  induction Hl as [| l w1 i w2 v _ IH Hc]; auto. now rewrite map_app, fold_left_app, <- IH; cbn; rewrite Hc.
Qed.
Print Assumptions C38_shared.

(** The method returns: from every configuration its goroutines can reach they can run to the end, and no schedule runs for ever. *)
Theorem C38_returns : forall (W V A : Type) n (call : nat -> W -> W * V) (note : nat -> V -> option (A -> A)) w a,
  (forall c, wexec n call note (spawn w a) c -> exists c', wexec n call note c c' /\ joined n c') /\
  ~ (exists f, f 0 = spawn w a /\ forall k, wstep n call note (f k) (f (S k))).
Proof.
  intros W V A n call note w a. split.
  - intros c H. eapply pool_total; [| eassumption]. apply Nat.lt_succ_diag_r.
  - intros (f & H0 & Hf).
    assert (H : forall k, work n (f k) + k <= work n (f 0)).
    { induction k as [| k IH]; [lia |]. pose proof (wstep_work n call note _ _ (Hf k)). lia. }
    specialize (H (S (work n (f 0)))). lia.
Qed.
Print Assumptions C38_returns.

Theorem C38_clear : forall (M : Type) (clear : M -> M) n w w', agg_clear clear n w w' ->
  forall i, w' i = if i <? n then clear (w i) else w i.
Proof. intros M clear n w w' H. exact (agg_clear_spec clear n w w' H). Qed.
Print Assumptions C38_clear.

(** ** C39: Values *)
(** An error iff some metric's Value fails, and then the errors of exactly the failing metrics. *)
Theorem C39_error : forall (M E F : Type) (value : M -> F + E) name n w w' r,
  agg_values value name n w w' r ->
  w' = w /\ ((exists errs, r = inr errs) <-> exists i e, i < n /\ value (w i) = inr e) /\
  (forall errs, r = inr errs -> Permutation (map inr errs) (filter (fun o => match o with inr _ => true | inl _ => false end) (map (fun i => value (w i)) (seq 0 n)))).
Proof.
  intros M E F value name n w w' r H. apply agg_values_spec in H as [-> H]. split; auto.
  assert (Q : Permutation (map inr (value_errors value n w)) (filter (fun o => match o with inr _ => true | inl _ => false end) (map (fun i => value (w i)) (seq 0 n)))).
  { unfold value_errors. induction (seq 0 n) as [| i l IH]; [constructor |]. cbn. rewrite map_app. destruct (value (w i)); cbn; auto. }
  assert (I : forall e, In e (value_errors value n w) <-> exists i, i < n /\ value (w i) = inr e).
  { intros e. unfold value_errors. rewrite in_flat_map. split.
    - intros (i & Hi & He). apply in_seq in Hi. exists i. split; [lia |]. destruct (value (w i)); [destruct He |]. now destruct He as [-> | []].
    - intros (i & Hi & He). exists i. rewrite in_seq, He. split; [lia | now left]. }
  destruct H as [(errs & Hn & P & ->) | (m & He & -> & _)].
  - split; [| intros errs' [= <-]; now rewrite P].
    split; [| intros _; eauto]. intros _. destruct errs as [| e errs]; [contradiction |].
    destruct (proj1 (I e)) as (i & Hi & Ei); [apply (Permutation_in _ P); now left | eauto].
  - split; [| discriminate]. split; [intros (errs & [=]) |]. intros (i & e & Hi & Ei).
    exfalso. assert (X : In e (value_errors value n w)) by (apply I; eauto). now rewrite He in X.
Qed.
Print Assumptions C39_error.

(** Metrics with pairwise different names: the map holds each metric's value under its name and nothing else. *)
Theorem C39_partial : forall (M E F : Type) (value : M -> F + E) name n w w' m,
  agg_values value name n w w' (inl m) ->
  (forall i j, i < n -> j < n -> name (w i) = name (w j) -> i = j) ->
  (forall i, i < n -> exists v, value (w i) = inl v /\ m (name (w i)) = Some v) /\
  (forall k, (forall i, i < n -> name (w i) <> k) -> m k = None).
Proof.
  intros M E F value name n w w' m H Hd. apply agg_values_spec in H as [_ [(errs & _ & _ & [=]) | (m' & He & [= <-] & H)]].
  split.
  - intros i Hi. destruct (H (name (w i))) as [(j & v & Hj & En & Ev & Em) | [Hn _]]; [| now destruct (Hn i Hi)].
    rewrite (Hd j i Hj Hi En) in Ev. eauto.
  - intros k Hk. destruct (H k) as [(j & v & Hj & En & _) | [_ Em]]; auto. now destruct (Hk j Hj).
Qed.
Print Assumptions C39_partial.

(** In general a name holds the value of one of the metrics with that name. *)
Theorem C39_some_partial : forall (M E F : Type) (value : M -> F + E) name n w w' m,
  agg_values value name n w w' (inl m) -> forall k,
  match m k with
  | Some v => exists i, i < n /\ name (w i) = k /\ value (w i) = inl v
  | None => forall i, i < n -> name (w i) <> k
  end.
Proof.
  intros M E F value name n w w' m H k. apply agg_values_spec in H as [_ [(errs & _ & _ & [=]) | (m' & He & [= <-] & H)]].
  destruct (H k) as [(j & v & Hj & En & Ev & ->) | [Hn ->]]; eauto.
Qed.
Print Assumptions C39_some_partial.

(** Two metrics with equal names but different values: the map depends on the schedule. The metrics are two minima over a
    window of one value, the first of which has seen 1 and the second 2. *)
Definition min_seen (x : f64) : smetric :=
  SMin (match min_run 1 [OPush x] with Ok m => m | _ => new_global_min end).
Definition twins (i : nat) : smetric := if i =? 0 then min_seen (fz 1) else min_seen (fz 2).
Definition no_env : env := mkEnv (fun _ y => y) (fun _ => fz 0) (fun _ => 0%Z).
Theorem C39_refuted : exists (fshow : f64 -> string) m1 m2,
    agg_values (as_value (s_value FN no_env)) (s_string fshow) 2 twins twins (inl m1) /\
    agg_values (as_value (s_value FN no_env)) (s_string fshow) 2 twins twins (inl m2) /\
    m1 "minmax.Min_{window:1}"%string = Some (fz 2) /\ m2 "minmax.Min_{window:1}"%string = Some (fz 1) /\ fz 1 <> fz 2.
Proof.
  exists (fun _ => EmptyString).
  assert (V : forall x, as_value (s_value FN no_env) (min_seen x) = inl x) by reflexivity.
  assert (K : forall x, s_string (fun _ => EmptyString) (min_seen x) = "minmax.Min_{window:1}"%string) by reflexivity.
  set (val := as_value (s_value FN no_env)) in *. set (nm := s_string (fun _ => EmptyString)) in *.
  assert (E : forall a b, a < 2 -> b < 2 -> a <> b ->
    exists m, agg_values val nm 2 twins twins (inl m) /\ m (nm (twins b)) = Some (if b =? 0 then fz 1 else fz 2)).
  { intros a b Ha Hb Hab. exists (map_set (map_set (fun _ => None) (nm (twins a)) (if a =? 0 then fz 1 else fz 2)) (nm (twins b)) (if b =? 0 then fz 1 else fz 2)).
    split; [| unfold map_set at 1; now rewrite String.eqb_refl].
    exists (map_set (map_set (fun _ => None) (nm (twins a)) (if a =? 0 then fz 1 else fz 2)) (nm (twins b)) (if b =? 0 then fz 1 else fz 2)), [].
    split; auto.
    assert (Vt : forall i, i < 2 -> val (twins i) = inl (if i =? 0 then fz 1 else fz 2)).
    { intros [| [| i]] Hi; [apply V | apply V | lia]. }
    eexists. split; [eapply (wruns_sound 2 _ _ [a; a; a; a; a; b; b; b; b; b]) |].
    - cbn [wruns wstepi spawn w_pc w_st w_acc w_mux value_at value_note]. unfold wstepi.
      assert (La : (a <? 2) = true) by now apply Nat.ltb_lt.
      assert (Lb : (b <? 2) = true) by now apply Nat.ltb_lt.
      assert (Lab : (b =? a) = false) by (apply Nat.eqb_neq; auto).
      repeat (rewrite ?La, ?Lb, ?Lab, ?Nat.eqb_refl, ?Vt by auto; cbn [wruns spawn w_pc w_st w_acc w_mux value_at value_note updf fst snd]; unfold updf).
      reflexivity.
    - split; [| split; reflexivity].
      intros i Hi. cbn [w_pc]. destruct (Nat.eqb_spec i b); auto. destruct (Nat.eqb_spec i a); auto. lia. }
  destruct (E 0 1) as (m1 & H1 & M1); try lia. destruct (E 1 0) as (m2 & H2 & M2); try lia.
  exists m1, m2. split; auto. split; auto. split; [exact M1 |]. split; [exact M2 |].
  intros H. apply (f_equal (fun x => flt x (fz 2))) in H. vm_compute in H. discriminate H.
Qed.
Print Assumptions C39_refuted.

(** ** C43: String *)
(** Different kinds or parameters give different strings, if Go prints different decays differently. *)
Theorem C43_string : forall fshow, (forall x y, fshow x = fshow y -> x = y) ->
  forall a b : descr, show fshow a = show fshow b -> a = b.
Proof. intros fshow Hf a b. now apply show_inj. Qed.
Print Assumptions C43_string.
(** Without any assumption on how decays are printed: same kind and same window, lag, order and interpolation. *)
Theorem C43_integers : forall fshow (a b : descr), show fshow a = show fshow b ->
  exists d d', fshow d = fshow d' /\
  (a = b \/ (a = DEWMA d /\ b = DEWMA d') \/ (a = DEWMStd d /\ b = DEWMStd d') \/ (a = DEWMCov d /\ b = DEWMCov d') \/
   (a = DEWMCorr d /\ b = DEWMCorr d') \/ exists k, a = DEWMMoment k d /\ b = DEWMMoment k d').
Proof.
  intros fshow a b H. apply show_same in H.
  destruct a, b; cbn [same_descr] in H;
    try (exists (fz 0), (fz 0); split; [reflexivity | left; exact H]);
    try (exists d, d0; split; [exact H |]; tauto).
  destruct H as [<- H]. exists d, d0. split; [exact H |]. do 5 right. eauto.
Qed.
Print Assumptions C43_integers.
(** A metric's string never changes. *)
Theorem C43_stable : forall fN fshow m x m',
  (s_push fN m x = Ok m' -> s_string fshow m' = s_string fshow m) /\ (s_clear fN m = Ok m' -> s_string fshow m' = s_string fshow m).
Proof.
  intros fN fshow m x m'. unfold s_string. split; intros H; [rewrite (s_push_descr fN m x m' H) | rewrite (s_clear_descr fN m m' H)]; reflexivity.
Qed.
Print Assumptions C43_stable.
Theorem C43_joint_stable : forall fN fshow (m : jsmetric) xs m',
  (jm_push fN m xs = Ok m' -> j_string fshow m' = j_string fshow m) /\ (jm_clear fN m = Ok m' -> j_string fshow m' = j_string fshow m).
Proof.
  intros fN fshow m xs m'. unfold j_string. split; intros H; [rewrite (jm_push_kind fN m xs m' H) | rewrite (jm_clear_kind fN m m' H)]; reflexivity.
Qed.
Print Assumptions C43_joint_stable.
(** The implementation is not shown: medians on an AVL tree and on a red black tree have the same string. *)
Theorem C43_implementation_refuted : forall fshow e w, (0 <= w)%Z ->
  exists a b, new_median e w [QImpl 0 []] = Ok a /\ new_median e w [QImpl 1 []] = Ok b /\
    q_stat a <> q_stat b /\ s_string fshow (SMedian a) = s_string fshow (SMedian b).
Proof.
  intros fshow e w Hw. unfold new_median, new_quantile. destruct (Z.ltb_spec w 0); [lia |].
  cbn. do 2 eexists. split; [reflexivity |]. split; [reflexivity |]. split; [discriminate | reflexivity].
Qed.
Print Assumptions C43_implementation_refuted.

(** ** C39 for the metrics of /repo *)
(** Metrics that differ in kind or in a shown parameter do not overwrite each other, whatever has been pushed to them. *)
Theorem C39_metrics_partial : forall fN e fshow n w w' m,
  (forall x y, fshow x = fshow y -> x = y) ->
  (forall i j, i < n -> j < n -> sdescr (w i) = sdescr (w j) -> i = j) ->
  agg_values (as_value (s_value fN e)) (s_string fshow) n w w' (inl m) ->
  forall i, i < n -> exists v, s_value fN e (w i) = Ok v /\ m (s_string fshow (w i)) = Some v.
Proof.
  intros fN e fshow n w w' m Hf Hd H i Hi.
  eapply C39_partial in H as [H _]; [| intros j k Hj Hk E; apply Hd; auto; now apply (show_inj fshow _ _ Hf)].
  destruct (H i Hi) as (v & Hv & Hm). exists v. split; auto. unfold as_value in Hv. destruct (s_value fN e (w i)); congruence.
Qed.
Print Assumptions C39_metrics_partial.
Theorem C39_joint_metrics_partial : forall fN fshow n w w' m,
  (forall x y, fshow x = fshow y -> x = y) ->
  (forall i j, i < n -> j < n -> jm_kind (w i) = jm_kind (w j) -> i = j) ->
  agg_values (as_value (jm_value fN)) (j_string fshow) n w w' (inl m) ->
  forall i, i < n -> exists v, jm_value fN (w i) = Ok v /\ m (j_string fshow (w i)) = Some v.
Proof.
  intros fN fshow n w w' m Hf Hd H i Hi.
  eapply C39_partial in H as [H _].
  - destruct (H i Hi) as (v & Hv & Hm). exists v. split; auto. unfold as_value in Hv. destruct (jm_value fN (w i)); congruence.
  - intros j k Hj Hk E. apply Hd; auto. apply (show_inj fshow _ _ Hf) in E.
    destruct (jm_kind (w j)), (jm_kind (w k)); cbn in E; congruence.
Qed.
Print Assumptions C39_joint_metrics_partial.

(** ** The hypotheses can be met *)
(** A printing of floats that is injective. *)
Definition toy_fshow (x : f64) : string :=
  match x with
  | B754_zero s => if s then "-0" else "0"
  | B754_infinity s => if s then "-Inf" else "+Inf"
  | B754_nan => "NaN"
  | B754_finite s m e _ => (if s then "f" else "g") ++ (zshow (Zpos m) ++ String "," (zshow e))
  end%string.
Lemma toy_fshow_inj x y : toy_fshow x = toy_fshow y -> x = y.
Proof.
  destruct x as [s | s | | s m e h], y as [s' | s' | | s' m' e' h']; cbn [toy_fshow];
    try (destruct s); try (destruct s'); cbn [append]; intros H; try reflexivity; try discriminate H;
    injection H as H; apply comma_split in H as [H1 H2]; auto using zshow_nocomma;
    apply zshow_inj in H1; apply zshow_inj in H2; injection H1 as ->; subst e'; f_equal; apply UIP_dec, Bool.bool_dec.
Qed.
(** Three metrics of which one has not been initialized: its Push fails, the other two get the value. *)
Definition three (i : nat) : smetric :=
  match i with 0 => SMin (mkMM 1 0 (ring_new 1) [] (finf false)) | 1 => SMoment (new_metric (KMean 3)) | _ => SMax (mkMM 2 0 (ring_new 2) [] (finf true)) end.
Lemma pool_exists {W V A} n (call : nat -> W -> W * V) (note : nat -> V -> option (A -> A)) w a : exists w' a', pool n call note w a w' a'.
Proof.
  destruct (C38_returns W V A n call note w a) as [H _]. destruct (H (spawn w a)) as (c & Hc & Hj); [constructor |].
  exists (w_st c), (w_acc c), c. auto.
Qed.
Example C38_example : forall x, exists w' errs, agg_push (as_push (s_push FN)) 3 three x w' (Some errs) /\
  errs = [Err ECoreNotSet] /\ s_value FN no_env (w' 0) = Ok x /\ s_value FN no_env (w' 2) = Ok x.
Proof.
  intros x. destruct (pool_exists 3 (push_at (as_push (s_push FN)) x) push_note three []) as (w' & errs & H).
  assert (G : agg_push (as_push (s_push FN)) 3 three x w' (match errs with [] => None | _ => Some errs end)) by (exists errs; auto).
  pose proof (C38_push _ _ _ _ _ _ _ _ _ G) as (G1 & _ & G2 & G3).
  exists w', errs. destruct errs as [| e errs].
  { exfalso. destruct G2 as [G2 _]. specialize (G2 eq_refl 1 ltac:(lia)). discriminate G2. }
  split; [exact G |]. specialize (G3 _ eq_refl). change (filter _ _) with [Some (@Err unit ECoreNotSet)] in G3.
  split; [apply Permutation_sym, Permutation_length_1_inv in G3; now destruct errs; injection G3 as -> |].
  rewrite (G1 0), (G1 2) by lia. split; reflexivity.
Qed.
Definition pair_of (x y : f64) (i : nat) : smetric := if i =? 0 then min_seen x else SMax (mkMM 0 1 (ring_new 0) [] y).
Example C39_example : forall x y, exists m, agg_values (as_value (s_value FN no_env)) (s_string toy_fshow) 2
    (pair_of x y) (pair_of x y) (inl m) /\
  m "minmax.Min_{window:1}"%string = Some x /\ m "minmax.Max_{window:0}"%string = Some y.
Proof.
  intros x y. set (w := pair_of x y).
  destruct (pool_exists 2 (value_at (as_value (s_value FN no_env)) (s_string toy_fshow)) value_note w (fun _ => None, [])) as (w' & (m & errs) & H).
  assert (G : agg_values (as_value (s_value FN no_env)) (s_string toy_fshow) 2 w w' (match errs with [] => inl m | _ => inr errs end)) by (exists m, errs; auto).
  pose proof (C39_error _ _ _ _ _ _ _ _ _ G) as (-> & G2 & _). destruct errs as [| e errs].
  - exists m. split; [exact G |]. apply C39_partial in G as [G _].
    + destruct (G 0 ltac:(lia)) as (v & E0 & G0). destruct (G 1 ltac:(lia)) as (u & E1 & G1). injection E0 as <-. injection E1 as <-. auto.
    + intros [| [| i]] [| [| j]] Hi Hj; try lia; intros E; discriminate E.
  - exfalso. destruct G2 as [G2 _]. destruct G2 as (i & e' & Hi & Ev); [eauto |]. destruct i as [| [| i]]; try lia; discriminate Ev.
Qed.
Example C43_example : show toy_fshow (DMoment 3 (-12)) = "moment.Moment_{k:3,window:-12}"%string /\
  show toy_fshow (DMedian 0 4) = "quantile.Median_{quantile:quantile.Quantile_{window:0,interpolation:4}}"%string.
Proof. split; reflexivity. Qed.
