(** Proofs about the aggregates' goroutines. *)
From Coq Require Import String Permutation Lia.
From Verif Require Import Base AggModel.

Lemma updf_same {B} (f : nat -> B) i b : updf f i b i = b.
Proof. unfold updf. now rewrite Nat.eqb_refl. Qed.
Lemma updf_other {B} (f : nat -> B) i j b : j <> i -> updf f i b j = f j.
Proof. unfold updf. intros H. destruct (Nat.eqb_spec j i); [contradiction | auto]. Qed.

Section Workers.
Context {W V A : Type}.
Variable n : nat.
Variable call : nat -> W -> W * V.
Variable note : nat -> V -> option (A -> A).

(** The calls were made one after the other, in the order of the list. *)
Inductive played (w0 : W) : list (nat * V) -> W -> Prop :=
| pl_nil : played w0 [] w0
| pl_snoc l w i w' v : played w0 l w -> call i w = (w', v) -> played w0 (l ++ [(i, v)]) w'.
Definition noted (a : A) (p : nat * V) : A := match note (fst p) (snd p) with Some f => f a | None => a end.

(** Status of goroutine i given the calls made [l] and those noted [d]. *)
Definition status (l d : list (nat * V)) (mux : option nat) (acc : A) (i : nat) (p : pc V A) : Prop :=
  match p with
  | PCall => ~ In i (map fst l) /\ ~ In i (map fst d)
  | PNote v => In (i, v) l /\ ~ In i (map fst d)
  | PHold f => mux = Some i /\ ~ In i (map fst d) /\ exists v, In (i, v) l /\ note i v = Some f
  | PSaw f a => mux = Some i /\ a = acc /\ ~ In i (map fst d) /\ exists v, In (i, v) l /\ note i v = Some f
  | PUnl => mux = Some i /\ In i (map fst d)
  | PDone => In i (map fst d)
  end.
Definition winv (w0 : W) (a0 : A) (c : conf W V A) : Prop :=
  exists l d, played w0 l (w_st c) /\ NoDup (map fst l) /\ NoDup (map fst d) /\ incl d l /\
    Forall (fun p => fst p < n) l /\ w_acc c = fold_left noted d a0 /\
    (forall i, w_mux c = Some i -> i < n /\ match w_pc c i with PHold _ | PSaw _ _ | PUnl => True | _ => False end) /\
    (forall i, i < n -> status l d (w_mux c) (w_acc c) i (w_pc c i)).

Lemma NoDup_snoc {B} (l : list B) x : NoDup l -> ~ In x l -> NoDup (l ++ [x]).
Proof. intros H Hx. apply Permutation_NoDup with (x :: l); [apply Permutation_cons_append | now constructor]. Qed.

Lemma winv_step w0 a0 c c' : winv w0 a0 c -> wstep n call note c c' -> winv w0 a0 c'.
Proof.
  intros (l & d & Hl & Nl & Nd & I & Fl & Ha & Hm & Hs) H.
  destruct H as [i w v Hi Hp Hc | i v Hi Hp Hn | i v f Hi Hp Hn Hx | i f Hi Hp | i f a Hi Hp | i Hi Hp];
    pose proof (Hs i Hi) as Si; rewrite Hp in Si; cbn [status] in Si.
  - exists (l ++ [(i, v)]), d. cbn [w_st w_acc w_mux w_pc]. destruct Si as [S1 S2].
    split; [econstructor; eauto |]. split; [rewrite map_app; apply NoDup_snoc; auto |].
    split; auto. split; [now apply incl_appl |]. split; [apply Forall_app; auto |]. split; auto.
    split.
    + intros j Hj. destruct (Hm j Hj) as [Hj1 Hj2]. split; auto. rewrite updf_other; auto. intros ->. now rewrite Hp in Hj2.
    + intros j Hj. destruct (Nat.eq_dec j i) as [-> | Hji].
      * rewrite updf_same. cbn [status]. split; auto. apply in_or_app. right. now left.
      * rewrite updf_other by auto. specialize (Hs j Hj). destruct (w_pc c j); cbn [status] in *; auto.
        -- destruct Hs as [H1 H2]. split; auto. rewrite map_app, in_app_iff. cbn. intuition.
        -- destruct Hs. split; auto. apply in_or_app. auto.
        -- destruct Hs as (H1 & H2 & u & H3 & H4). split; auto. split; auto. exists u. split; auto. apply in_or_app. auto.
        -- destruct Hs as (H1 & H1' & H2 & u & H3 & H4). split; auto. split; auto. split; auto. exists u. split; auto. apply in_or_app. auto.
  - exists l, (d ++ [(i, v)]). cbn [w_st w_acc w_mux w_pc]. destruct Si as [S1 S2].
    split; auto. split; auto. split; [rewrite map_app; apply NoDup_snoc; auto |].
    split; [apply incl_app; auto; intros y [<- | []]; auto |]. split; auto.
    split; [rewrite fold_left_app; cbn [fold_left]; unfold noted at 1; cbn [fst snd]; rewrite Hn; auto |].
    split.
    + intros j Hj. destruct (Hm j Hj) as [Hj1 Hj2]. split; auto. rewrite updf_other; auto. intros ->. now rewrite Hp in Hj2.
    + intros j Hj. destruct (Nat.eq_dec j i) as [-> | Hji].
      * rewrite updf_same. cbn [status]. rewrite map_app, in_app_iff. cbn. auto.
      * rewrite updf_other by auto. specialize (Hs j Hj).
        destruct (w_pc c j); cbn [status] in *; rewrite map_app, in_app_iff; cbn; intuition.
  - exists l, d. cbn [w_st w_acc w_mux w_pc]. destruct Si as [S1 S2].
    repeat (split; [assumption |]). split.
    + intros j [= <-]. now rewrite updf_same.
    + intros j Hj. destruct (Nat.eq_dec j i) as [-> | Hji].
      * rewrite updf_same. cbn [status]. eauto.
      * rewrite updf_other by auto. specialize (Hs j Hj).
        destruct (w_pc c j); cbn [status] in *; auto; rewrite Hx in Hs; destruct Hs; congruence.
  - exists l, d. cbn [w_st w_acc w_mux w_pc]. destruct Si as (S1 & S2 & S3).
    repeat (split; [assumption |]). split.
    + intros j Hj. destruct (Hm j Hj) as [Hj1 Hj2]. split; auto.
      assert (j = i) as -> by congruence. now rewrite updf_same.
    + intros j Hj. destruct (Nat.eq_dec j i) as [-> | Hji].
      * rewrite updf_same. cbn [status]. auto.
      * rewrite updf_other by auto. auto.
  - destruct Si as (S1 & -> & S2 & v & S3 & S4).
    exists l, (d ++ [(i, v)]). cbn [w_st w_acc w_mux w_pc].
    split; auto. split; auto. split; [rewrite map_app; apply NoDup_snoc; auto |].
    split; [apply incl_app; auto; intros y [<- | []]; auto |]. split; auto.
    split; [rewrite fold_left_app; cbn [fold_left]; unfold noted at 1; cbn [fst snd]; rewrite S4, Ha; auto |].
    split.
    + intros j Hj. destruct (Hm j Hj) as [Hj1 Hj2]. split; auto.
      assert (j = i) as -> by congruence. now rewrite updf_same.
    + intros j Hj. destruct (Nat.eq_dec j i) as [-> | Hji].
      * rewrite updf_same. cbn [status]. split; auto. rewrite map_app, in_app_iff. cbn. auto.
      * rewrite updf_other by auto. specialize (Hs j Hj).
        destruct (w_pc c j); cbn [status] in *; rewrite map_app, in_app_iff; cbn; intuition congruence.
  - destruct Si as (S1 & S2). exists l, d. cbn [w_st w_acc w_mux w_pc].
    repeat (split; [assumption |]). split; [discriminate |].
    intros j Hj. destruct (Nat.eq_dec j i) as [-> | Hji].
    + rewrite updf_same. auto.
    + rewrite updf_other by auto. specialize (Hs j Hj).
      destruct (w_pc c j); cbn [status] in *; auto; destruct Hs; congruence.
Qed.

Lemma winv_exec w0 a0 c : wexec n call note (spawn w0 a0) c -> winv w0 a0 c.
Proof.
  induction 1 as [| c c' _ IH H]; [| eapply winv_step; eauto].
  exists [], []. cbn. split; [constructor |]. split; [constructor |]. split; [constructor |]. split; [intros ? [] |].
  split; [constructor |]. split; [auto |]. split; [discriminate |]. auto.
Qed.

Lemma incl_perm {B} (d l : list (nat * B)) : NoDup (map fst d) -> NoDup (map fst l) -> incl d l -> incl (map fst l) (map fst d) -> Permutation d l.
Proof.
  intros Nd Nl I J. apply NoDup_Permutation; try (now eapply NoDup_map_inv; eauto).
  intros [i v]. split; [apply I |]. intros Hl.
  assert (Hi : In i (map fst d)) by (apply J; change i with (fst (i, v)); now apply in_map).
  apply in_map_iff in Hi as ([i' u] & E & Hd). cbn in E. subst i'.
  assert (E : (i, u) = (i, v)); [| now rewrite <- E].
  pose proof (I _ Hd) as Hu. clear - Nl Hl Hu.
  induction l as [| p l IH]; [destruct Hl |]. cbn in Nl. inversion Nl as [| ? ? N1 N2]; subst.
  destruct Hl as [-> | Hl], Hu as [Hu | Hu]; auto.
  - exfalso. apply N1. cbn. change i with (fst (i, u)). now apply in_map.
  - subst p. exfalso. apply N1. cbn. change i with (fst (i, v)). now apply in_map.
Qed.

(** Every execution that runs to the end made each call exactly once, one after the other in
    some order, and noted the results one after the other in some order. *)
Lemma pool_spec w0 a0 w a : pool n call note w0 a0 w a ->
  exists l d, played w0 l w /\ Permutation (map fst l) (seq 0 n) /\ Permutation d l /\ a = fold_left noted d a0.
Proof.
  intros (c & He & Hj & <- & <-).
  destruct (winv_exec _ _ _ He) as (l & d & Hl & Nl & Nd & I & Fl & Ha & _ & Hs).
  assert (Hd : forall i, i < n -> In i (map fst d)) by (intros i Hi; specialize (Hs i Hi); rewrite (Hj i Hi) in Hs; exact Hs).
  assert (Hb : forall i, In i (map fst l) -> i < n).
  { intros i Hi. apply in_map_iff in Hi as (p & <- & Hp). rewrite Forall_forall in Fl. auto. }
  exists l, d. split; auto. split; [| split; auto].
  - apply NoDup_Permutation; auto using seq_NoDup. intros i. rewrite in_seq. split.
    + intros Hi. specialize (Hb i Hi). lia.
    + intros Hi. assert (Hi' : i < n) by lia. specialize (Hd i Hi').
      apply in_map_iff in Hd as (p & <- & Hp). apply in_map. auto.
  - apply incl_perm; auto. intros i Hi. auto.
Qed.

(** ** wg.Wait() returns: no deadlock, finitely many steps *)
Lemma wprogress w0 a0 c : winv w0 a0 c -> joined n c \/ exists c', wstep n call note c c'.
Proof.
  intros (l & d & _ & _ & _ & _ & _ & _ & Hm & Hs).
  destruct (w_mux c) as [h |] eqn:Em.
  - right. destruct (Hm h eq_refl) as [Hh Hp]. destruct (w_pc c h) eqn:Ep; try contradiction; eexists.
    + eapply w_read; eauto. + eapply w_write; eauto. + eapply w_unlock; eauto.
  - assert (D : (forall i, i < n -> w_pc c i = PDone) \/ exists i, i < n /\ w_pc c i <> PDone).
    { clear Hm Hs. generalize n as m. induction m as [| m IH]; [left; intros; lia |].
      destruct IH as [IH | (i & Hi & Hp)]; [| right; exists i; split; auto; lia].
      destruct (w_pc c m) eqn:Em'; try (right; exists m; split; [lia | congruence]).
      left. intros i Hi. destruct (Nat.eq_dec i m) as [-> |]; auto. apply IH. lia. }
    destruct D as [D | (i & Hi & Hp)]; [now left |]. right.
    specialize (Hs i Hi). destruct (w_pc c i) eqn:Ep; try contradiction; cbn [status] in Hs; try (destruct Hs; congruence).
    + destruct (call i (w_st c)) as [w v] eqn:Ec. eexists. eapply w_call; eauto.
    + destruct (note i v) as [f |] eqn:En; eexists; [eapply w_lock | eapply w_skip]; eauto.
Qed.

Definition rank (p : pc V A) : nat := match p with PCall => 5 | PNote _ => 4 | PHold _ => 3 | PSaw _ _ => 2 | PUnl => 1 | PDone => 0 end.
Fixpoint total (f : nat -> nat) (m : nat) : nat := match m with 0 => 0 | S m => f m + total f m end.
Lemma total_ext f g m : (forall i, i < m -> f i = g i) -> total f m = total g m.
Proof. induction m; cbn; auto. intros H. rewrite (H m), IHm; auto. Qed.
Lemma total_upd (f : nat -> pc V A) i p m : i < m -> rank p < rank (f i) ->
  total (fun j => rank (updf f i p j)) m < total (fun j => rank (f j)) m.
Proof.
  induction m as [| m IH]; [lia |]. cbn. intros Hi H.
  destruct (Nat.eq_dec m i) as [-> | Hm].
  - rewrite updf_same, (total_ext _ (fun j => rank (f j))); [lia |]. intros j Hj. rewrite updf_other; auto. lia.
  - rewrite updf_other by auto. assert (i < m) by lia. specialize (IH H0 H). lia.
Qed.
Definition work (c : conf W V A) : nat := total (fun i => rank (w_pc c i)) n.
Lemma wstep_work c c' : wstep n call note c c' -> work c' < work c.
Proof. intros H. destruct H; unfold work; cbn [w_pc]; apply total_upd; auto; rewrite H0; cbn; lia. Qed.
Lemma pool_total w0 a0 : forall k c, work c < k -> wexec n call note (spawn w0 a0) c ->
  exists c', wexec n call note c c' /\ joined n c'.
Proof.
  induction k as [| k IH]; [lia |]. intros c Hk He.
  destruct (wprogress w0 a0 c) as [J | (c1 & H)]; [now apply winv_exec | exists c; split; [constructor | auto] |].
  destruct (IH c1) as (c' & H1 & H2).
  - apply wstep_work in H. lia.
  - econstructor; eauto.
  - exists c'. split; auto. clear - H H1. induction H1; [econstructor; [constructor | auto] | econstructor; eauto].
Qed.
Lemma work_spawn w0 a0 : work (spawn w0 a0) = 5 * n.
Proof. unfold work. cbn [spawn w_pc rank]. induction n as [| m IH]; cbn [total]; lia. Qed.
Lemma wexec_length c0 c : wexec n call note c0 c -> work c <= work c0.
Proof. induction 1 as [| c c' _ IH H]; [lia |]. apply wstep_work in H. lia. Qed.

Lemma wstepi_sound c i c' : wstepi n call note c i = Some c' -> wstep n call note c c'.
Proof.
  unfold wstepi. destruct (Nat.ltb_spec i n) as [Hi |]; [| discriminate].
  destruct (w_pc c i) eqn:Ep.
  - destruct (call i (w_st c)) as [w v] eqn:Ec. intros [= <-]. eapply w_call; eauto.
  - destruct (note i v) as [f |] eqn:En; [destruct (w_mux c) eqn:Em; [discriminate |] |]; intros [= <-].
    + eapply w_lock; eauto. + eapply w_skip; eauto.
  - intros [= <-]. eapply w_read; eauto.
  - intros [= <-]. eapply w_write; eauto.
  - intros [= <-]. eapply w_unlock; eauto.
  - discriminate.
Qed.
Lemma wexec_trans c0 c1 c2 : wexec n call note c0 c1 -> wexec n call note c1 c2 -> wexec n call note c0 c2.
Proof. intros H H1. induction H1; auto. econstructor; eauto. Qed.
Lemma wruns_sound l : forall c c', wruns n call note c l = Some c' -> wexec n call note c c'.
Proof.
  induction l as [| i l IH]; cbn [wruns]; intros c c'; [intros [= <-]; constructor |].
  destruct (wstepi n call note c i) as [c1 |] eqn:E; [| discriminate]. intros H.
  eapply wexec_trans; [| eapply IH; eauto]. econstructor; [constructor | now apply wstepi_sound in E].
Qed.
End Workers.

Section Aggregate.
Context {M X E F : Type}.
Variable push : M -> X -> M * option E.
Variable value : M -> F + E.
Variable clear : M -> M.
Variable name : M -> string.

(** Pushing to separate metrics, each at most once. *)
Lemma played_push x w0 l w : played (push_at push x) w0 l w -> NoDup (map fst l) ->
  (forall i, w i = if in_dec Nat.eq_dec i (map fst l) then fst (push (w0 i) x) else w0 i) /\
  Forall (fun p => snd p = snd (push (w0 (fst p)) x)) l.
Proof.
  induction 1 as [| l w i w' v H IH Hc]; intros Hn; [split; [intros i; now destruct (in_dec _ _ _) as [[] |] | constructor] |].
  rewrite map_app in Hn. cbn [map fst] in Hn.
  assert (Hi : ~ In i (map fst l)) by (apply NoDup_remove_2 in Hn; now rewrite app_nil_r in Hn).
  apply NoDup_remove_1 in Hn. rewrite app_nil_r in Hn. destruct (IH Hn) as [I1 I2].
  unfold push_at in Hc. injection Hc as <- <-.
  assert (Ewi : w i = w0 i) by (rewrite I1; destruct (in_dec _ _ _); [contradiction | auto]).
  split.
  - intros j. destruct (Nat.eq_dec j i) as [-> | Hj].
    + rewrite updf_same, Ewi. destruct (in_dec _ _ _) as [| N]; auto. exfalso. apply N. rewrite map_app, in_app_iff. cbn. auto.
    + rewrite updf_other, I1 by auto. repeat destruct (in_dec _ _ _); auto; exfalso; rewrite map_app, in_app_iff in *; cbn in *; intuition.
  - apply Forall_app. split; auto. constructor; [| constructor]. cbn [fst snd]. now rewrite Ewi.
Qed.
Lemma fold_push_note l : forall errs, fold_left (noted (@push_note E)) l errs = (errs ++ flat_map (fun p => match snd p with Some e => [e] | None => [] end) l)%list.
Proof.
  induction l as [| [i o] l IH]; intros errs; cbn [fold_left flat_map]; [now rewrite app_nil_r |].
  rewrite IH. unfold noted. cbn [fst snd]. destruct o; cbn [push_note]; auto. now rewrite <- app_assoc.
Qed.
(** The errors of the metrics, in the order of the list of metrics. *)
Definition errors_of (n : nat) (w : nat -> M) (x : X) : list E :=
  flat_map (fun i => match snd (push (w i) x) with Some e => [e] | None => [] end) (seq 0 n).

Lemma flat_map_map {A B C} (f : A -> B) (g : B -> list C) l : flat_map g (map f l) = flat_map (fun a => g (f a)) l.
Proof. induction l; cbn; congruence. Qed.
Lemma flat_map_in_ext {A B} (f g : A -> list B) l : Forall (fun a => f a = g a) l -> flat_map f l = flat_map g l.
Proof. induction 1; cbn; congruence. Qed.

Lemma agg_push_spec n w x w' r : agg_push push n w x w' r ->
  (forall i, w' i = if i <? n then fst (push (w i) x) else w i) /\
  exists errs, Permutation errs (errors_of n w x) /\ r = match errs with [] => None | _ => Some errs end.
Proof.
  intros (errs & H & ->). apply pool_spec in H as (l & d & Hl & Pl & Pd & Ha).
  assert (Nl : NoDup (map fst l)) by (eapply Permutation_NoDup; [symmetry; eauto | apply seq_NoDup]).
  apply played_push in Hl as [H1 H2]; auto. split.
  - intros i. rewrite H1. destruct (Nat.ltb_spec i n) as [Hi | Hi], (in_dec _ _ _) as [Hn | Hn]; auto; exfalso.
    + apply Hn. apply (Permutation_in i (Permutation_sym Pl)). apply in_seq. lia.
    + apply (Permutation_in i Pl) in Hn. apply in_seq in Hn. lia.
  - exists errs. split; auto. rewrite Ha, fold_push_note. cbn [app].
    unfold errors_of. rewrite <- Pl, flat_map_map.
    rewrite (flat_map_in_ext (fun a => match snd (push (w (fst a)) x) with Some e => [e] | None => [] end) (fun p => match snd p with Some e => [e] | None => [] end)).
    + now apply Permutation_flat_map.
    + eapply Forall_impl; [| exact H2]. cbn. intros p ->. auto.
Qed.

Lemma played_value w0 l w : played (value_at value name) w0 l w ->
  w = w0 /\ Forall (fun p => snd p = (name (w0 (fst p)), value (w0 (fst p)))) l.
Proof.
  induction 1 as [| l w i w' v H [-> IH] Hc]; [split; auto |].
  unfold value_at in Hc. injection Hc as <- <-. split; auto. apply Forall_app. split; auto.
Qed.
Lemma played_clear w0 l w : played (clear_at clear) w0 l w -> NoDup (map fst l) ->
  forall i, w i = if in_dec Nat.eq_dec i (map fst l) then clear (w0 i) else w0 i.
Proof.
  induction 1 as [| l w i w' v H IH Hc]; intros Hn; [intros i; now destruct (in_dec _ _ _) as [[] |] |].
  rewrite map_app in Hn. cbn [map fst] in Hn.
  assert (Hi : ~ In i (map fst l)) by (apply NoDup_remove_2 in Hn; now rewrite app_nil_r in Hn).
  apply NoDup_remove_1 in Hn. rewrite app_nil_r in Hn. specialize (IH Hn).
  unfold clear_at in Hc. injection Hc as <- <-. intros j.
  destruct (Nat.eq_dec j i) as [-> | Hj].
  - rewrite updf_same, IH. destruct (in_dec _ _ _); [contradiction |]. destruct (in_dec _ _ _) as [| N]; auto. exfalso. apply N. rewrite map_app, in_app_iff. cbn. auto.
  - rewrite updf_other, IH by auto. repeat destruct (in_dec _ _ _); auto; exfalso; rewrite map_app, in_app_iff in *; cbn in *; intuition.
Qed.
Lemma agg_clear_spec n w w' : agg_clear clear n w w' -> forall i, w' i = if i <? n then clear (w i) else w i.
Proof.
  intros H i. apply pool_spec in H as (l & d & Hl & Pl & _).
  assert (Nl : NoDup (map fst l)) by (eapply Permutation_NoDup; [symmetry; eauto | apply seq_NoDup]).
  rewrite (played_clear _ _ _ Hl Nl). destruct (Nat.ltb_spec i n) as [Hi | Hi], (in_dec _ _ _) as [Hn | Hn]; auto; exfalso.
  + apply Hn. apply (Permutation_in i (Permutation_sym Pl)). apply in_seq. lia.
  + apply (Permutation_in i Pl) in Hn. apply in_seq in Hn. lia.
Qed.

(** The last value stored under a key; the errors, in order. *)
Lemma fold_value_note l : forall m errs,
  fold_left (noted (value_note (F:=F))) l (m, errs) =
  (fold_left (fun m p => match snd (snd p) with inl v => map_set m (fst (snd p)) v | inr _ => m end) l m,
   (errs ++ flat_map (fun p : nat * (string * (F + E)) => match snd (snd p) with inl _ => [] | inr e => [e] end) l)%list).
Proof.
  induction l as [| [i [k o]] l IH]; intros m errs; cbn [fold_left flat_map]; [now rewrite app_nil_r |].
  change (noted value_note (m, errs) (i, (k, o))) with (match o with inr e => (m, errs ++ [e])%list | inl v => (map_set m k v, errs) end).
  cbn [fst snd]. destruct o as [v | e]; rewrite IH; auto. now rewrite <- app_assoc.
Qed.
Lemma fold_map_get (l : list (nat * (string * (F + E)))) : forall m k,
  let m' := fold_left (fun m p => match snd (snd p) with inl v => map_set m (fst (snd p)) v | inr _ => m end) l m in
  (exists i v, In (i, (k, inl v)) l /\ m' k = Some v) \/ ((forall i v, ~ In (i, (k, inl v)) l) /\ m' k = m k).
Proof.
  induction l as [| [i [k' o]] l IH]; intros m k; cbn [fold_left fst snd]; [right; split; auto |].
  destruct o as [v | e].
  - destruct (IH (map_set m k' v) k) as [(j & u & H1 & H2) | [H1 H2]].
    + left. exists j, u. split; auto. now right.
    + rewrite H2. unfold map_set. destruct (String.eqb_spec k k') as [-> | Hk].
      * left. exists i, v. split; auto. now left.
      * right. split; auto. intros j u [[= <- <- <-] | H]; [auto | now apply H1 in H].
  - destruct (IH m k) as [(j & u & H1 & H2) | [H1 H2]].
    + left. exists j, u. split; auto. now right.
    + right. split; auto. intros j u [[=] | H]. now apply H1 in H.
Qed.

Definition value_errors (n : nat) (w : nat -> M) : list E :=
  flat_map (fun i => match value (w i) with inl _ => [] | inr e => [e] end) (seq 0 n).
Lemma agg_values_spec n w w' r : agg_values value name n w w' r -> w' = w /\
  ((exists errs, errs <> [] /\ Permutation errs (value_errors n w) /\ r = inr errs) \/
   (exists m, value_errors n w = [] /\ r = inl m /\
     forall k, (exists i v, i < n /\ name (w i) = k /\ value (w i) = inl v /\ m k = Some v) \/
               ((forall i, i < n -> name (w i) <> k) /\ m k = None))).
Proof.
  intros (m & errs & H & Hr). apply pool_spec in H as (l & d & Hl & Pl & Pd & Ha).
  apply played_value in Hl as [-> Hl]. split; auto. rewrite fold_value_note in Ha. injection Ha as Hm He.
  cbn [app] in He.
  assert (Hd : Forall (fun p => snd p = (name (w (fst p)), value (w (fst p)))) d) by (rewrite Forall_forall in *; intros p Hp; apply Hl; now apply (Permutation_in _ Pd)).
  assert (Pd' : Permutation (map fst d) (seq 0 n)) by (rewrite <- Pl; now apply Permutation_map).
  assert (Pe : Permutation errs (value_errors n w)).
  { unfold value_errors. rewrite <- Pd', flat_map_map, He.
    rewrite (flat_map_in_ext _ (fun a => match value (w (fst a)) with inl _ => [] | inr e => [e] end)); auto.
    eapply Forall_impl; [| exact Hd]. cbn. intros p ->. auto. }
  destruct errs as [| e errs'] eqn:Ee; [right | left; exists (e :: errs'); rewrite Hr; repeat split; auto; discriminate].
  exists m. split; [now apply Permutation_nil in Pe |]. split; auto. intros k.
  assert (Ev : value_errors n w = []) by now apply Permutation_nil in Pe.
  assert (Hv : forall i, i < n -> exists v, value (w i) = inl v).
  { intros i Hi. destruct (value (w i)) as [v | e] eqn:Evi; [eauto |]. exfalso.
    assert (In e (value_errors n w)); [| rewrite Ev in *; auto].
    unfold value_errors. apply in_flat_map. exists i. rewrite in_seq, Evi. split; [lia | now left]. }
  destruct (fold_map_get d (fun _ => None) k) as [(i & v & H1 & H2) | [H1 H2]]; cbv zeta in H2; rewrite <- Hm in H2.
  - left. exists i, v. pose proof Hd as Hd'. rewrite Forall_forall in Hd'. specialize (Hd' _ H1). cbn [fst snd] in Hd'.
    injection Hd' as E1 E2.
    assert (Hi : In i (map fst d)) by (apply in_map_iff; eexists; split; [| exact H1]; auto).
    apply (Permutation_in _ Pd') in Hi. apply in_seq in Hi. repeat split; auto. lia.
  - right. split; auto. intros i Hi Ek. destruct (Hv i Hi) as [v Hvi]. apply (H1 i v).
    assert (Hin : In i (map fst d)) by (apply (Permutation_in _ (Permutation_sym Pd')); apply in_seq; lia).
    apply in_map_iff in Hin as ([j o] & <- & Hin). rewrite Forall_forall in Hd. pose proof (Hd _ Hin) as Ho. cbn [fst snd] in Ho, Ek, Hvi |- *.
    rewrite <- Ek, <- Hvi, <- Ho. exact Hin.
Qed.
End Aggregate.
