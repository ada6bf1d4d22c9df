(** Clear gives back the fresh state: moments, joint cores, trees. *)
From Coq Require Import FunctionalExtensionality.
From Verif Require Import Base F64 HistSpec NumModel RingModel MinMaxModel AvlModel RbModel SkipModel HeapModel QuantileModel MomentModel JointModel JointSpec TupleProof JointMetric.

(** If Clear of every state the history can reach is the initial state, then a history with a Clear in it
    is the history after that Clear. *)
Lemma clear_fresh {S A} (push : S -> A -> res S) (clear : S -> res S) (Inv : S -> Prop) s0 :
  Inv s0 -> (forall s x s', Inv s -> push s x = Ok s' -> Inv s') -> (forall s, Inv s -> clear s = Ok s0) ->
  forall ops ops' s, run push clear ops s0 = Ok s -> run push clear (ops ++ OClear :: ops') s0 = run push clear ops' s0.
Proof.
  intros H0 Hp Hc ops ops' s H. rewrite run_app, H. cbn [bind run].
  assert (I : Inv s).
  { clear ops'. revert s H. induction ops as [| o ops IH] using rev_ind; intros s H; [injection H as <-; auto |].
    rewrite run_app in H. apply bind_ok in H as (s1 & H1 & H). specialize (IH _ H1).
    destruct o as [x |]; cbn [run] in H; apply bind_ok in H as (s2 & H2 & [= <-]); [eauto |].
    rewrite (Hc _ IH) in H2. now injection H2 as <-. }
  now rewrite (Hc _ I).
Qed.

Ltac okall := repeat match goal with
  | H : Ok _ = Ok _ |- _ => injection H as H; subst
  | H : Err _ = Ok _ |- _ => discriminate H
  | H : Panic = Ok _ |- _ => discriminate H
  | H : Hang = Ok _ |- _ => discriminate H
  | H : bind _ _ = Ok _ |- _ => apply bind_ok in H as (? & ? & H)
  | H : context [let '(_, _) := ?p in _] |- _ => destruct p
  | H : context [if ?b then _ else _] |- _ => destruct b
  | H : context [match ?b with _ => _ end] |- _ => destruct b
  end.

(** ** Min and Max *)
Lemma min_push_fields m x m' : min_push m x = Ok m' -> mm_window m' = mm_window m.
Proof. unfold min_push. intros H. okall; auto. Qed.
Lemma max_push_fields m x m' : max_push m x = Ok m' -> mm_window m' = mm_window m.
Proof. unfold max_push. intros H. okall; auto. Qed.
Lemma min_clear_fresh w ops ops' m : min_run w ops = Ok m -> min_run w (ops ++ OClear :: ops') = min_run w ops'.
Proof.
  unfold min_run. intros H. apply bind_ok in H as (m0 & H0 & H). rewrite H0. cbn [bind].
  unfold new_min in H0. destruct (w <? 0)%Z; [discriminate |]. injection H0 as <-.
  eapply (clear_fresh _ _ (fun m => mm_window m = w)); eauto.
  - intros s x s' <- Hp. now apply min_push_fields in Hp.
  - intros s <-. reflexivity.
Qed.
Lemma max_clear_fresh w ops ops' m : max_run w ops = Ok m -> max_run w (ops ++ OClear :: ops') = max_run w ops'.
Proof.
  unfold max_run. intros H. apply bind_ok in H as (m0 & H0 & H). rewrite H0. cbn [bind].
  unfold new_max in H0. destruct (w <? 0)%Z; [discriminate |]. injection H0 as <-.
  eapply (clear_fresh _ _ (fun m => mm_window m = w)); eauto.
  - intros s x s' <- Hp. now apply max_push_fields in Hp.
  - intros s <-. reflexivity.
Qed.

(** ** Moments *)
Section Moment.
Context {T : Type} (N : Num T).
Definition cparams (c d : @core T) : Prop := c_len d = c_len c /\ c_window d = c_window c /\ c_decay d = c_decay c.
Lemma c_remove_params c x d : c_remove N c x = Ok d -> cparams c d.
Proof. unfold c_remove, cparams. intros H. okall; auto. Qed.
Lemma c_add_params c x d : c_add N c x = Ok d -> cparams c d.
Proof. unfold c_add, cparams. intros H. okall; auto. Qed.
Lemma c_add_decay_params c e x d : c_add_decay N c e x = Ok d -> cparams c d.
Proof. unfold c_add_decay, cparams. intros H. okall; auto. Qed.
Lemma c_push_params c x d : c_push N c x = Ok d -> cparams c d.
Proof.
  unfold c_push. intros H. apply bind_ok in H as (c' & H1 & H).
  assert (P : cparams c c').
  { destruct (negb (c_window c =? 0)%Z); [| injection H1 as <-; repeat split].
    apply bind_ok in H1 as (c1 & H1 & H2). apply bind_ok in H2 as (q & Hq & [= <-]).
    destruct (ring_len (c_queue c) =? c_window c)%Z; [| injection H1 as <-; repeat split].
    apply bind_ok in H1 as ((y & q') & _ & H1). apply c_remove_params in H1. exact H1. }
  assert (Q : cparams c' d) by (destruct (c_decay c'); [apply c_add_decay_params in H | apply c_add_params in H]; exact H).
  unfold cparams in *. destruct P as (P1 & P2 & P3), Q as (Q1 & Q2 & Q3). rewrite Q1, Q2, Q3. auto.
Qed.
Lemma core_clear_fresh cfg c0 ops ops' c : new_core N cfg = Ok c0 -> core_run N c0 ops = Ok c ->
  core_run N c0 (ops ++ OClear :: ops') = core_run N c0 ops'.
Proof.
  intros H0 H. unfold new_core in H0. apply bind_ok in H0 as (_ & _ & H0).
  destruct (cf_window (set_defaults cfg)) as [w |]; [| discriminate]. injection H0 as <-.
  set (c0 := mkCore _ _ _ _ _ _ _) in *. unfold core_run in *.
  eapply (clear_fresh _ _ (cparams c0)); eauto.
  - repeat split.
  - intros s x s' (P1 & P2 & P3) Hp. apply c_push_params in Hp as (Q1 & Q2 & Q3). unfold cparams. rewrite Q1, Q2, Q3. auto.
  - intros s (P1 & P2 & P3). unfold c_clear. rewrite P1, P2, P3. reflexivity.
Qed.
Lemma metric_clear_fresh k ops ops' m : m_run N k ops = Ok m -> m_run N k (ops ++ OClear :: ops') = m_run N k ops'.
Proof.
  unfold m_run. intros H. apply bind_ok in H as (m0 & H0 & H). rewrite H0. cbn [bind].
  unfold m_init in H0. apply bind_ok in H0 as (c0 & Hc & [= <-]).
  unfold new_core in Hc. apply bind_ok in Hc as (_ & _ & Hc).
  destruct (cf_window _) as [w |]; [| discriminate]. injection Hc as <-. cbn [m_kind new_metric] in *.
  set (c0 := mkCore _ _ _ _ _ _ _) in *.
  eapply (clear_fresh _ _ (fun m => m_kind m = k /\ exists c, m_core m = Some c /\ cparams c0 c)); eauto.
  - split; auto. exists c0. repeat split.
  - intros s x s' (Hk & c & Hs & P1 & P2 & P3) Hp. unfold m_push in Hp. rewrite Hs in Hp. apply bind_ok in Hp as (c' & Hp & [= <-]).
    split; auto. exists c'. split; auto. apply c_push_params in Hp as (Q1 & Q2 & Q3). unfold cparams. rewrite Q1, Q2, Q3. auto.
  - intros s (Hk & c & Hs & P1 & P2 & P3). unfold m_clear. rewrite Hs. unfold c_clear. cbn [bind]. now rewrite P1, P2, P3, Hk.
Qed.
End Moment.

(** ** Joint cores *)
Section Joint.
Context {T : Type} (N : Num T).
Definition dom (m n : @hmap T) : Prop := forall h, m h = None <-> n h = None.
Lemma dom_refl m : dom m m. Proof. intros h. tauto. Qed.
Lemma dom_trans a b c : dom a b -> dom b c -> dom a c.
Proof. intros H1 H2 h. rewrite (H1 h). apply H2. Qed.
Lemma hput_dom m h v : m h <> None -> dom (hput m h v) m.
Proof. intros H k. unfold hput. destruct (Z.eqb_spec k h) as [-> |]; [| tauto]. split; [discriminate | contradiction]. Qed.
Lemma hcopy_dom n m : dom n m -> dom (hcopy n m) m.
Proof. intros H k. unfold hcopy. specialize (H k). destruct (n k); [| tauto]. split; [discriminate |]. intros E. apply H in E. discriminate. Qed.
Lemma hzero_dom m : dom (hzero N m) m.
Proof. intros k. unfold hzero. destruct (m k); cbn; split; congruence. Qed.
Lemma dom_ne m n h : dom m n -> n h <> None -> m h <> None.
Proof. intros H Hn E. apply Hn. now apply H. Qed.

(** The keys of a fresh core. *)
Definition keyed (ts : list tuple) (m : @hmap T) : Prop := forall t a, In t ts -> tle a t -> m (t_hash a) <> None.
Lemma keyed_dom ts m n : dom n m -> keyed ts m -> keyed ts n.
Proof. intros D K t a Ht Ha. eapply dom_ne; eauto. Qed.
Lemma hput_keep (m : @hmap T) h v k : m k <> None -> hput m h v k <> None.
Proof. intros H. unfold hput. destruct (k =? h)%Z; [discriminate | auto]. Qed.
Lemma init_inner (l : list tuple) (m : @hmap T) :
  let m' := fold_left (fun m xs => hput m (t_hash xs) (nz N 0)) l m in
  (forall k, m k <> None -> m' k <> None) /\ (forall a, In a l -> m' (t_hash a) <> None) /\
  (forall k, (m k = None \/ m k = Some (nz N 0)) -> m' k = None \/ m' k = Some (nz N 0)).
Proof.
  revert m. induction l as [| x l IH]; intros m; cbn [fold_left]; [split; [auto | split; [intros a [] | auto]] |].
  destruct (IH (hput m (t_hash x) (nz N 0))) as (I1 & I2 & I3). split; [| split].
  - intros k Hk. apply I1. now apply hput_keep.
  - intros a [<- | Ha]; [| auto]. apply I1. unfold hput. rewrite Z.eqb_refl. discriminate.
  - intros k Hk. apply I3. unfold hput. destruct (k =? t_hash x)%Z; auto.
Qed.
Lemma init_outer ts (m : @hmap T) :
  let m' := fold_left (fun m t => fold_left (fun m xs => hput m (t_hash xs) (nz N 0)) (iter_list t false) m) ts m in
  (forall k, m k <> None -> m' k <> None) /\ (forall t a, In t ts -> In a (iter_list t false) -> m' (t_hash a) <> None) /\
  (forall k, (m k = None \/ m k = Some (nz N 0)) -> m' k = None \/ m' k = Some (nz N 0)).
Proof.
  revert m. induction ts as [| t ts IH]; intros m; cbn [fold_left]; [split; [auto | split; [intros t a [] | auto]] |].
  destruct (init_inner (iter_list t false) m) as (I1 & I2 & I3).
  set (m1 := fold_left _ (iter_list t false) m) in *. destruct (IH m1) as (J1 & J2 & J3). split; [| split].
  - intros k Hk. apply J1. auto.
  - intros t' a [<- | Ht] Ha; [apply J1; auto | eauto].
  - intros k Hk. apply J3. auto.
Qed.
Lemma init_keyed ts : keyed ts (init_keys N ts).
Proof. intros t a Ht Ha. apply (proj1 (proj2 (init_outer ts (fun _ => None))) t a Ht). now apply in_iter. Qed.
Lemma init_zero ts k : init_keys N ts k = None \/ init_keys N ts k = Some (nz N 0).
Proof. apply (proj2 (proj2 (init_outer ts (fun _ => None)))). auto. Qed.
Lemma hzero_init ts m : dom m (init_keys N ts) -> hzero N m = init_keys N ts.
Proof.
  intros D. apply functional_extensionality. intros k. unfold hzero. specialize (D k).
  destruct (init_zero ts k) as [E | E]; rewrite E in *; destruct (m k); cbn; auto; exfalso; destruct D as [D1 D2].
  - now specialize (D2 eq_refl).
  - now specialize (D1 eq_refl).
Qed.

Lemma upd_b_dom term a bs : forall m m', m (t_hash a) <> None -> upd_b N term a bs m = Ok m' -> dom m' m.
Proof.
  induction bs as [| b bs IH]; cbn; intros m m' Hk H; [injection H as <-; apply dom_refl |].
  apply bind_ok in H as (f & _ & H).
  eapply dom_trans; [eapply IH; [| exact H] |]; [now apply hput_keep | now apply hput_dom].
Qed.
Lemma upd_a_dom term as_ : forall m m', (forall a, In a as_ -> m (t_hash a) <> None) -> upd_a N term as_ m = Ok m' -> dom m' m.
Proof.
  induction as_ as [| a as_ IH]; cbn [upd_a]; intros m m' Hk H; [injection H as <-; apply dom_refl |].
  apply bind_ok in H as (m1 & H1 & H).
  assert (Ha : m (t_hash a) <> None) by (apply Hk; now left).
  assert (D1 : dom m1 m).
  { eapply dom_trans; [eapply upd_b_dom; [| exact H1]; now apply hput_keep | now apply hput_dom]. }
  eapply dom_trans; [eapply IH; [| exact H] | exact D1].
  intros b Hb. eapply dom_ne; [exact D1 |]. apply Hk. now right.
Qed.
Lemma upd_tuples_dom term r ts : forall m m', keyed ts m -> upd_tuples N term r ts m = Ok m' -> dom m' m.
Proof.
  induction ts as [| t ts IH]; cbn [upd_tuples]; intros m m' K H; [injection H as <-; apply dom_refl |].
  apply bind_ok in H as (m1 & H1 & H).
  assert (D1 : dom m1 m).
  { eapply upd_a_dom; [| exact H1]. intros a Ha. apply (K t); [now left | now apply in_iter in Ha]. }
  eapply dom_trans; [eapply IH; [| exact H] | exact D1].
  eapply keyed_dom; [exact D1 |]. intros u a Hu. apply K. now right.
Qed.
Lemma rem_tuples_dom c d ts : forall s n s' n', keyed ts n -> dom n s -> rem_tuples N c d ts s n = Ok (s', n') -> dom s' s /\ dom n' n.
Proof.
  induction ts as [| t ts IH]; cbn [rem_tuples]; intros s n s' n' K Dn H; [injection H as <- <-; split; apply dom_refl |].
  apply bind_ok in H as (m1 & H1 & H).
  assert (D1 : dom m1 n).
  { eapply upd_a_dom; [| exact H1]. intros a Ha. apply (K t); [now left | now apply in_iter in Ha]. }
  assert (D2 : dom (hcopy m1 s) s) by (apply hcopy_dom; eapply dom_trans; eauto).
  destruct (IH _ _ _ _ (keyed_dom _ _ _ D1 (fun u a Hu => K u a (or_intror Hu))) (dom_trans _ _ _ D1 (dom_trans _ _ _ Dn (fun h => iff_sym (D2 h)))) H) as [E1 E2].
  split; [eapply dom_trans; eauto | eapply dom_trans; eauto].
Qed.

(** What a core keeps for ever. *)
Definition jkeep (v : nat) (ts : list tuple) (w : Z) (d : option T) (c : @vcore T) : Prop :=
  length (j_means c) = v /\ j_tuples c = ts /\ j_window c = w /\ j_decay c = d /\
  dom (j_sums c) (init_keys N ts) /\ dom (j_new c) (init_keys N ts) /\ Forall (fun x => length x = v) (ritems (j_queue c)).
Lemma deltas_length xs (ms : list T) : length xs = length ms -> length (deltas N xs ms) = length ms.
Proof. intros H. unfold deltas. rewrite map_length, combine_length. lia. Qed.
Lemma keep_add v ts w d c xs c' : jkeep v ts w d c -> length xs = v -> j_add N c xs = Ok c' -> jkeep v ts w d c'.
Proof.
  intros (K1 & K2 & K3 & K4 & K5 & K6 & K7) Hx H. unfold j_add in H. apply bind_ok in H as (m & H & [= <-]).
  assert (D : dom m (init_keys N ts)).
  { eapply dom_trans; [eapply upd_tuples_dom; [| exact H] | exact K6]. rewrite K2. eapply keyed_dom; [exact K6 | apply init_keyed]. }
  unfold jkeep. cbn [j_means j_tuples j_sums j_new j_window j_decay j_queue]. repeat split; auto.
  - unfold add_means. rewrite map_length, combine_length, deltas_length; lia.
  - intros E. apply (dom_trans _ _ _ (hcopy_dom _ _ (dom_trans _ _ _ D (fun h => iff_sym (K5 h)))) K5) in E. exact E.
  - intros E. apply (dom_trans _ _ _ (hcopy_dom _ _ (dom_trans _ _ _ D (fun h => iff_sym (K5 h)))) K5). exact E.
  - apply D. - apply D.
Qed.
Lemma keep_add_decay v ts w d c e xs c' : jkeep v ts w d c -> length xs = v -> j_add_decay N c e xs = Ok c' -> jkeep v ts w d c'.
Proof.
  intros (K1 & K2 & K3 & K4 & K5 & K6 & K7) Hx H. unfold j_add_decay in H. apply bind_ok in H as (m & H & [= <-]).
  assert (D : dom m (init_keys N ts)).
  { eapply dom_trans; [eapply upd_tuples_dom; [| exact H] | exact K6]. rewrite K2. eapply keyed_dom; [exact K6 | apply init_keyed]. }
  unfold jkeep. cbn [j_means j_tuples j_sums j_new j_window j_decay j_queue]. repeat split; auto.
  - unfold add_means. rewrite map_length, combine_length, deltas_length; lia.
  - intros E. apply (dom_trans _ _ _ (hcopy_dom _ _ (dom_trans _ _ _ D (fun h => iff_sym (K5 h)))) K5) in E. exact E.
  - intros E. apply (dom_trans _ _ _ (hcopy_dom _ _ (dom_trans _ _ _ D (fun h => iff_sym (K5 h)))) K5). exact E.
  - apply D. - apply D.
Qed.
Lemma keep_remove v ts w d c xs c' : jkeep v ts w d c -> length xs = v -> j_remove N c xs = Ok c' -> jkeep v ts w d c'.
Proof.
  intros (K1 & K2 & K3 & K4 & K5 & K6 & K7) Hx H. unfold j_remove in H. destruct (j_count c - 1 >? 0)%Z.
  - apply bind_ok in H as ((s & m) & H & [= <-]).
    assert (D : dom s (j_sums c) /\ dom m (j_new c)).
    { eapply rem_tuples_dom; [| | exact H].
      - rewrite K2. eapply keyed_dom; [exact K6 | apply init_keyed].
      - eapply dom_trans; [exact K6 |]. intros h. apply iff_sym, K5. }
    destruct D as [D1 D2]. unfold jkeep. cbn [j_means j_tuples j_sums j_new j_window j_decay j_queue].
    split; [rewrite map_length, combine_length; lia |].
    repeat (split; [assumption |]). split; [eapply dom_trans; eauto |]. split; [eapply dom_trans; eauto | exact K7].
  - injection H as <-. unfold jkeep. cbn [j_means j_tuples j_sums j_new j_window j_decay j_queue].
    split; [rewrite map_length; auto |]. repeat (split; [assumption |]).
    split; [eapply dom_trans; [apply hzero_dom | auto] |]. split; [eapply dom_trans; [apply hzero_dom | auto] | exact K7].
Qed.
Lemma keep_queue v ts w d c q : jkeep v ts w d c -> Forall (fun x => length x = v) (ritems q) ->
  jkeep v ts w d (mkJ (j_means c) (j_tuples c) (j_sums c) (j_new c) (j_count c) (j_window c) (j_decay c) q).
Proof. intros (K1 & K2 & K3 & K4 & K5 & K6 & K7) Hq. unfold jkeep. cbn. tauto. Qed.
Lemma keep_push v ts w d c xs c' : jkeep v ts w d c -> jpush N c xs = Ok c' -> jkeep v ts w d c'.
Proof.
  intros K H. unfold jpush, j_push in H. destruct (Nat.eqb_spec (length xs) (length (j_means c))) as [Hx |]; [| discriminate].
  cbn [negb] in H. rewrite (proj1 K) in Hx. apply bind_ok in H as (c1 & H1 & H).
  assert (K1 : jkeep v ts w d c1).
  { destruct (negb (j_window c =? 0)%Z); [| now injection H1 as <-].
    apply bind_ok in H1 as (c2 & H2 & H1). apply bind_ok in H1 as (q & Hq & [= <-]).
    assert (K2 : jkeep v ts w d c2).
    { destruct (ring_len (j_queue c) =? j_window c)%Z; [| now injection H2 as <-].
      apply bind_ok in H2 as ((y & q') & Hg & H2). unfold ring_get in Hg. destruct (ritems (j_queue c)) as [| z l] eqn:Er; [discriminate |].
      injection Hg as <- <-. assert (F : Forall (fun x => length x = v) (z :: l)) by (rewrite <- Er; apply K). inversion F; subst.
      eapply keep_remove; [| | exact H2]; auto. apply keep_queue; auto. }
    apply keep_queue; auto. unfold ring_put in Hq. destruct (_ <? _)%Z; [| discriminate]. injection Hq as <-. cbn. apply Forall_app. split; [apply K2 | auto]. }
  destruct (j_decay c1); [eapply keep_add_decay | eapply keep_add]; eauto.
Qed.
Lemma map_const (l : list T) : map (fun _ => nz N 0) l = repeat (nz N 0) (length l).
Proof. induction l; cbn; congruence. Qed.
Lemma keep_clear v ts w d c : jkeep v ts w d c ->
  j_clear N c = Ok (mkJ (repeat (nz N 0) v) ts (init_keys N ts) (init_keys N ts) 0%Z w d (ring_new w)).
Proof.
  intros (K1 & K2 & K3 & K4 & K5 & K6 & K7). unfold j_clear. rewrite (hzero_init ts _ K5), (hzero_init ts _ K6), map_const, K1, K2, K3, K4. reflexivity.
Qed.
Lemma jnew_keep cfg (c : @vcore T) : jnew_core N cfg = Ok c -> exists v ts w d,
  c = mkJ (repeat (nz N 0) v) ts (init_keys N ts) (init_keys N ts) 0%Z w d (ring_new w) /\ jkeep v ts w d c.
Proof.
  unfold jnew_core. intros H. apply bind_ok in H as (_ & _ & H).
  destruct (jf_window cfg) as [w |]; [| discriminate].
  destruct (match jf_vars cfg with Some v => Some v | None => _ end) as [v |]; [| discriminate]. injection H as <-.
  exists (Z.to_nat v), (jsums_of cfg), w, (jf_decay cfg). split; auto. unfold jkeep. cbn.
  rewrite repeat_length. split; auto. split; auto. split; auto. split; auto. split; [apply dom_refl |]. split; [apply dom_refl | constructor].
Qed.
Lemma jcore_clear_fresh cfg c0 ops ops' c : jnew_core N cfg = Ok c0 -> jcore_run N c0 ops = Ok c ->
  jcore_run N c0 (ops ++ OClear :: ops') = jcore_run N c0 ops'.
Proof.
  intros H0 H. apply jnew_keep in H0 as (v & ts & w & d & -> & K). unfold jcore_run in *.
  eapply (clear_fresh _ _ (jkeep v ts w d)); eauto.
  - intros s x s' Ks Hp. eapply keep_push; eauto.
  - intros s Ks. now apply keep_clear.
Qed.
Lemma jmetric_clear_fresh k ops ops' m : jm_run N k ops = Ok m -> jm_run N k (ops ++ OClear :: ops') = jm_run N k ops'.
Proof.
  unfold jm_run. intros H. apply bind_ok in H as (m0 & H0 & H). rewrite H0. cbn [bind].
  unfold jm_init in H0. apply bind_ok in H0 as (c0 & Hc & [= <-]). apply jnew_keep in Hc as (v & ts & w & d & -> & K).
  eapply (clear_fresh _ _ (fun m => jm_kind m = k /\ exists c, jm_core m = Some c /\ jkeep v ts w d c)); eauto.
  - split; auto. eexists. split; [reflexivity | exact K].
  - intros s x s' (Hk & c & Hs & Ks) Hp. unfold jm_push in Hp. rewrite Hs in Hp.
    destruct (negb _); [discriminate |]. apply bind_ok in Hp as (c' & Hp & [= <-]). split; auto. exists c'. split; auto. eapply keep_push; eauto.
  - intros s (Hk & c & Hs & Ks). unfold jm_clear. rewrite Hs, (keep_clear _ _ _ _ _ Ks). cbn [bind]. now rewrite Hk.
Qed.
Lemma auto_clear_fresh k lag w ops ops' a : auto_run N k lag w ops = Ok a -> auto_run N k lag w (ops ++ OClear :: ops') = auto_run N k lag w ops'.
Proof.
  unfold auto_run. intros H. apply bind_ok in H as (a0 & H0 & H). rewrite H0. cbn [bind].
  apply bind_ok in H as (a1 & H1 & H). rewrite H1. cbn [bind].
  unfold new_auto in H0. destruct (lag <? 0)%Z; [discriminate |]. injection H0 as <-. cbn in H1.
  unfold auto_init in H1. apply bind_ok in H1 as (m0 & H1 & [= <-]). cbn [a_lag a_queue a_metric] in *.
  unfold jm_init in H1. apply bind_ok in H1 as (c0 & Hc & [= <-]). apply jnew_keep in Hc as (v & ts & w' & d & -> & K).
  set (kk := match k with ACov => _ | ACorr => _ end) in *.
  eapply (clear_fresh _ _ (fun a => a_lag a = lag /\ jm_kind (a_metric a) = kk /\ exists c, jm_core (a_metric a) = Some c /\ jkeep v ts w' d c)); eauto.
  - split; auto. split; auto. eexists. split; [reflexivity | exact K].
  - intros s x s' (Hl & Hk & c & Hs & Ks) Hp. unfold auto_push in Hp. rewrite Hs in Hp.
    destruct (a_lag s =? 0)%Z.
    + apply bind_ok in Hp as (c' & Hp & [= <-]). cbn [a_lag a_metric jm_kind jm_core]. split; auto. split; auto. exists c'. split; auto. eapply keep_push; eauto.
    + apply bind_ok in Hp as ((c1 & q1) & H1 & Hp). apply bind_ok in Hp as (q2 & _ & [= <-]). cbn [a_lag a_metric jm_kind jm_core]. split; auto. split; auto.
      exists c1. split; auto. destruct (_ >=? _)%Z; [| now injection H1 as <- <-].
      apply bind_ok in H1 as ((y & q) & _ & H1). apply bind_ok in H1 as (c' & Hp & [= <- <-]). eapply keep_push; eauto.
  - intros s (Hl & Hk & c & Hs & Ks). unfold auto_clear. rewrite Hs, (keep_clear _ _ _ _ _ Ks). cbn [bind]. now rewrite Hk, Hl.
Qed.
End Joint.

(** ** Quantiles over the two trees *)
Definition treed (st : stat) : bool := match st with StAvl ALeaf => true | StRb RLeaf => true | _ => false end.
Definition stat_kind (st st' : stat) : Prop :=
  match st, st' with StAvl _, StAvl _ => True | StRb _, StRb _ => True | StSkip _, StSkip _ => True | _, _ => False end.
Lemma stat_add_kind st x st' : stat_add st x = Ok st' -> stat_kind st st'.
Proof. destruct st; cbn; intros H; apply rmap_ok in H as (? & _ & <-); exact I. Qed.
Lemma stat_remove_kind st x st' : stat_remove st x = Ok st' -> stat_kind st st'.
Proof. destruct st; cbn; intros H; apply rmap_ok in H as (? & _ & <-); exact I. Qed.
Lemma stat_kind_trans a b c : stat_kind a b -> stat_kind b c -> stat_kind a c.
Proof. destruct a, b, c; cbn; tauto. Qed.
Lemma stat_kind_refl a : stat_kind a a.
Proof. destruct a; exact I. Qed.
Lemma q_push_keep q x q' : q_push q x = Ok q' -> q_window q' = q_window q /\ q_interp q' = q_interp q /\ stat_kind (q_stat q) (q_stat q').
Proof.
  unfold q_push. intros H. apply bind_ok in H as (q1 & H1 & H). apply bind_ok in H as (st & Hs & [= <-]). apply stat_add_kind in Hs.
  cbn [q_window q_interp q_stat].
  enough (q_window q1 = q_window q /\ q_interp q1 = q_interp q /\ stat_kind (q_stat q) (q_stat q1)) as (E1 & E2 & E3)
    by (split; auto; split; auto; eapply stat_kind_trans; eauto).
  destruct (negb _); [| injection H1 as <-; auto using stat_kind_refl].
  apply bind_ok in H1 as (q2 & H2 & H1). apply bind_ok in H1 as (r & _ & [= <-]). cbn [q_window q_interp q_stat].
  destruct (_ =? _)%Z; [| injection H2 as <-; auto using stat_kind_refl].
  apply bind_ok in H2 as ((y & r') & _ & H2). apply bind_ok in H2 as (st' & Hr & [= <-]). apply stat_remove_kind in Hr. auto.
Qed.
Lemma tree_quant_fresh q0 ops ops' q : treed (q_stat q0) = true -> q_queue q0 = ring_new (q_window q0) ->
  run q_push q_clear ops q0 = Ok q -> run q_push q_clear (ops ++ OClear :: ops') q0 = run q_push q_clear ops' q0.
Proof.
  intros Ht Hq H.
  eapply (clear_fresh _ _ (fun q => q_window q = q_window q0 /\ q_interp q = q_interp q0 /\ stat_kind (q_stat q0) (q_stat q))); eauto.
  - auto using stat_kind_refl.
  - intros s x s' (E1 & E2 & E3) Hp. apply q_push_keep in Hp as (F1 & F2 & F3). rewrite F1, F2. split; auto. split; auto. eapply stat_kind_trans; eauto.
  - intros s (E1 & E2 & E3). unfold q_clear. rewrite E1, E2. destruct q0 as [w i r st]. cbn in *. subst r.
    destruct st as [[|] | [|] |]; try discriminate; destruct (q_stat s); try contradiction; reflexivity.
Qed.
Lemma qopts_queue e os : forall q q', qopts_apply e q os = Ok q' -> q_window q' = q_window q /\ q_queue q' = q_queue q.
Proof.
  induction os as [| o os IH]; cbn [qopts_apply]; intros q q' H; [injection H as <-; auto |].
  apply bind_ok in H as (q1 & H1 & H). apply IH in H as [-> ->].
  destruct o; cbn in H1; destruct (negb _); try discriminate.
  - apply bind_ok in H1 as (st & _ & [= <-]). auto.
  - injection H1 as <-. auto.
Qed.
Lemma new_quantile_queue e w os q : new_quantile e w os = Ok q -> q_window q = w /\ q_queue q = ring_new w.
Proof. unfold new_quantile. destruct (w <? 0)%Z; [discriminate |]. cbn. intros H. now apply qopts_queue in H. Qed.
(** The options leave a tree in place, unless they ask for a skip list. *)
Lemma qopts_treed e os : forall q q', (forall so, ~ In (QImpl 2 so) os) -> treed (q_stat q) = true -> qopts_apply e q os = Ok q' -> treed (q_stat q') = true.
Proof.
  induction os as [| o os IH]; cbn [qopts_apply]; intros q q' Hn Ht H; [injection H as <-; auto |].
  apply bind_ok in H as (q1 & H1 & H). eapply IH; [| | exact H]; [intros so Hi; apply (Hn so); now right |].
  destruct o as [i so | i]; cbn in H1; destruct (negb _) eqn:Ev; try discriminate.
  - apply bind_ok in H1 as (st & Hi & [= <-]). cbn. unfold impl_init in Hi.
    destruct (i =? 0)%Z; [injection Hi as <-; auto |]. destruct (i =? 1)%Z; [injection Hi as <-; auto |].
    destruct (Z.eqb_spec i 2) as [-> |]; [| discriminate]. exfalso. apply (Hn so). now left.
  - injection H1 as <-. auto.
Qed.
Lemma quantile_clear_fresh e w os ops ops' q : (forall so, ~ In (QImpl 2 so) os) -> q_run e w os ops = Ok q ->
  q_run e w os (ops ++ OClear :: ops') = q_run e w os ops'.
Proof.
  intros Hn H. unfold q_run in *. apply bind_ok in H as (q0 & H0 & H). rewrite H0. cbn [bind].
  pose proof (new_quantile_queue _ _ _ _ H0) as [Ew Eq]. eapply tree_quant_fresh; eauto; [| now rewrite Ew, Eq].
  unfold new_quantile in H0. destruct (w <? 0)%Z; [discriminate |]. cbn in H0. eapply qopts_treed; [exact Hn | | exact H0]. reflexivity.
Qed.
