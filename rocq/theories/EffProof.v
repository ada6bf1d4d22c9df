(** A Push that returns an error leaves the state as it was. *)
From Verif Require Import Base F64 HistSpec RingModel MathModel NumModel MomentModel JointModel JointSpec TupleProof JointMetric ClearProof MinMaxModel HeapModel AvlModel RbModel SkipModel QuantileModel NameModel EffModel.

Definition noerr {A} (r : res A) : Prop := forall e, r <> Err e.
Lemma noerr_bind {A B} (r : res A) (k : A -> res B) : noerr r -> (forall a, noerr (k a)) -> noerr (bind r k).
Proof. intros H K e. destruct r; cbn; try discriminate; [apply K | intros E; apply (H e0 eq_refl)]. Qed.
Lemma noerr_rmap {A B} (f : A -> B) (r : res A) : noerr r -> noerr (rmap f r).
Proof. intros H. apply noerr_bind; [exact H |]. discriminate. Qed.
Lemma noerr_ok {A} (a : A) : noerr (Ok a). Proof. discriminate. Qed.
Lemma noerr_panic {A} : noerr (@Panic A). Proof. discriminate. Qed.
Lemma noerr_hang {A} : noerr (@Hang A). Proof. discriminate. Qed.
Lemma noerr_fuel {A} : noerr (@NoFuel A). Proof. discriminate. Qed.
Global Hint Resolve noerr_ok noerr_panic noerr_hang noerr_fuel : ne.
Ltac ne :=
  repeat first
    [ solve [auto with ne nocore]
    | apply noerr_bind; [| intros ?]
    | apply noerr_rmap
    | match goal with |- noerr (match ?x with _ => _ end) => destruct x end
    | progress cbv zeta ].

Lemma ne_get {A} (r : ring A) : noerr (ring_get r). Proof. unfold ring_get. ne. Qed.
Lemma ne_put {A} (r : ring A) x : noerr (ring_put r x). Proof. unfold ring_put. ne. Qed.
Lemma ne_front {A} (l : list A) : noerr (dq_front l). Proof. unfold dq_front. ne. Qed.
Lemma ne_pop_front {A} (l : list A) : noerr (dq_pop_front l). Proof. unfold dq_pop_front. ne. Qed.
Global Hint Resolve ne_get ne_put ne_front ne_pop_front : ne.
Lemma ne_min m x : noerr (min_push m x). Proof. unfold min_push. ne. Qed.
Lemma ne_max m x : noerr (max_push m x). Proof. unfold max_push. ne. Qed.

(** *** Trees *)
Lemma ne_hd n : noerr (height_diff n). Proof. unfold height_diff. ne. Qed.
Lemma ne_arl n : noerr (avl_rotate_left n). Proof. unfold avl_rotate_left. ne. Qed.
Lemma ne_arr n : noerr (avl_rotate_right n). Proof. unfold avl_rotate_right. ne. Qed.
Global Hint Resolve ne_hd ne_arl ne_arr : ne.
Lemma ne_abal n : noerr (avl_balance n). Proof. unfold avl_balance. ne. Qed.
Global Hint Resolve ne_abal : ne.
Lemma ne_aref l r v : noerr (avl_refresh l r v). Proof. unfold avl_refresh. ne. Qed.
Global Hint Resolve ne_aref : ne.
Lemma ne_aadd n x : noerr (avl_add n x). Proof. induction n; cbn [avl_add]; ne. Qed.
Lemma ne_amin n : noerr (avl_min n). Proof. induction n; cbn [avl_min]; ne. Qed.
Lemma ne_armin n : noerr (avl_remove_min n). Proof. induction n; cbn [avl_remove_min]; ne. Qed.
Global Hint Resolve ne_aadd ne_amin ne_armin : ne.
Lemma ne_arem n x : noerr (avl_remove n x). Proof. induction n; cbn [avl_remove]; ne. Qed.
Global Hint Resolve ne_arem : ne.

Lemma ne_rl n : noerr (rleft n). Proof. unfold rleft. ne. Qed.
Lemma ne_rr n : noerr (rright n). Proof. unfold rright. ne. Qed.
Global Hint Resolve ne_rl ne_rr : ne.
Lemma ne_rrl n : noerr (rb_rotate_left n). Proof. unfold rb_rotate_left. ne. Qed.
Lemma ne_rrr n : noerr (rb_rotate_right n). Proof. unfold rb_rotate_right. ne. Qed.
Lemma ne_rfn n : noerr (rb_flip_node n). Proof. unfold rb_flip_node. ne. Qed.
Global Hint Resolve ne_rrl ne_rrr ne_rfn : ne.
Lemma ne_rfc n : noerr (rb_flip_colors n). Proof. unfold rb_flip_colors. ne. Qed.
Global Hint Resolve ne_rfc : ne.
Lemma ne_mrl n : noerr (rb_move_red_left n). Proof. unfold rb_move_red_left. ne. Qed.
Lemma ne_mrr n : noerr (rb_move_red_right n). Proof. unfold rb_move_red_right. ne. Qed.
Lemma ne_rbt n : noerr (rb_balance_tail n). Proof. unfold rb_balance_tail. ne. Qed.
Global Hint Resolve ne_mrl ne_mrr ne_rbt : ne.
Lemma ne_rab n : noerr (rb_add_balance n). Proof. unfold rb_add_balance. ne. Qed.
Lemma ne_rrb n : noerr (rb_remove_balance n). Proof. unfold rb_remove_balance. ne. Qed.
Global Hint Resolve ne_rab ne_rrb : ne.
Lemma ne_radd n x : noerr (rb_add n x). Proof. induction n; cbn [rb_add]; ne. Qed.
Lemma ne_rmin n : noerr (rb_min n). Proof. induction n; cbn [rb_min]; ne. Qed.
Lemma ne_rbb n : noerr (rb_black_black n). Proof. unfold rb_black_black. ne. Qed.
Global Hint Resolve ne_radd ne_rmin ne_rbb : ne.
Lemma ne_rrmin f : forall n, noerr (rb_remove_min f n). Proof. induction f; intros n; cbn [rb_remove_min]; ne. Qed.
Global Hint Resolve ne_rrmin : ne.
Lemma ne_rrem f : forall n x, noerr (rb_remove f n x). Proof. induction f; intros n x; cbn [rb_remove]; ne. Qed.
Global Hint Resolve ne_rrem : ne.

(** *** Skip list *)
Lemma ne_gn st a i : noerr (get_next st a i). Proof. unfold get_next. ne. Qed.
Lemma ne_gw st a i : noerr (get_width st a i). Proof. unfold get_width. ne. Qed.
Lemma ne_sn st a i p : noerr (set_next st a i p). Proof. unfold set_next. ne. Qed.
Lemma ne_sw st a i w : noerr (set_width st a i w). Proof. unfold set_width. ne. Qed.
Global Hint Resolve ne_gn ne_gw ne_sn ne_sw : ne.
Lemma ne_wp f : forall st i v p, noerr (walk_prev f st i v p). Proof. induction f; intros; cbn [walk_prev]; ne. Qed.
Global Hint Resolve ne_wp : ne.
Lemma ne_gp f i : forall st v p, noerr (get_prevs f st i v p). Proof. induction i; intros; cbn [get_prevs]; ne. Qed.
Lemma ne_ll n : forall i pr x st, noerr (link_levels n i pr x st). Proof. induction n; intros; cbn [link_levels]; ne. Qed.
Lemma ne_iw n : forall i pr st, noerr (incr_widths n i pr st). Proof. induction n; intros; cbn [incr_widths]; ne. Qed.
Lemma ne_ww f : forall st j t c a, noerr (width_walk f st j t c a). Proof. induction f; intros; cbn [width_walk]; ne. Qed.
Global Hint Resolve ne_gp ne_ll ne_iw ne_ww : ne.
Lemma ne_nw n : forall f i pr x st, noerr (new_widths f n i pr x st). Proof. induction n; intros; cbn [new_widths]; ne. Qed.
Lemma ne_ul n : forall i pr a st, noerr (unlink_levels n i pr a st). Proof. induction n; intros; cbn [unlink_levels]; ne. Qed.
Global Hint Resolve ne_nw ne_ul : ne.
Lemma ne_sadd s x : noerr (skip_add s x). Proof. unfold skip_add. ne. Qed.
Lemma ne_srem s x : noerr (skip_remove s x). Proof. unfold skip_remove. ne. Qed.
Global Hint Resolve ne_sadd ne_srem : ne.
Lemma ne_stadd s x : noerr (stat_add s x). Proof. unfold stat_add. ne. Qed.
Lemma ne_strem s x : noerr (stat_remove s x). Proof. unfold stat_remove, rb_tree_remove. ne. Qed.
Global Hint Resolve ne_stadd ne_strem : ne.
Lemma ne_quant q x : noerr (q_push q x). Proof. unfold q_push. ne. Qed.

(** *** Heaps *)
Lemma ne_hget l i : noerr (HeapModel.hget l i). Proof. unfold HeapModel.hget. ne. Qed.
Global Hint Resolve ne_hget : ne.
Lemma ne_hless c st l i j : noerr (h_less c st l i j). Proof. unfold h_less. ne. Qed.
Lemma ne_hswap st l i j : noerr (h_swap st l i j). Proof. unfold h_swap. ne. Qed.
Global Hint Resolve ne_hless ne_hswap : ne.
Lemma ne_hup f : forall c st l j, noerr (h_up f c st l j). Proof. induction f; intros; cbn [h_up]; ne. Qed.
Lemma ne_hdown f : forall c st l i n, noerr (h_down f c st l i n). Proof. induction f; intros; cbn [h_down]; ne. Qed.
Global Hint Resolve ne_hup ne_hdown : ne.
Lemma ne_hpush st h a : noerr (h_push st h a). Proof. unfold h_push. ne. Qed.
Lemma ne_hpl st l : noerr (h_pop_last st l). Proof. unfold h_pop_last. ne. Qed.
Lemma ne_hfix c st l k n : noerr (h_fix c st l k n). Proof. unfold h_fix. ne. Qed.
Global Hint Resolve ne_hpush ne_hpl ne_hfix : ne.
Lemma ne_hpop st h : noerr (h_pop st h). Proof. unfold h_pop. ne. Qed.
Lemma ne_hupd st h a v : noerr (h_update st h a v). Proof. unfold h_update. ne. Qed.
Lemma ne_hrem st h a : noerr (h_remove st h a). Proof. unfold h_remove. ne. Qed.
Lemma ne_hpeek st h : noerr (h_peek st h). Proof. unfold h_peek. ne. Qed.
Global Hint Resolve ne_hpop ne_hupd ne_hrem ne_hpeek : ne.
Lemma ne_hreb st lo hi a : noerr (hm_rebalance st lo hi a). Proof. unfold hm_rebalance. ne. Qed.
Global Hint Resolve ne_hreb : ne.
Lemma ne_heap m x : noerr (hm_push m x). Proof. unfold hm_push. ne. Qed.

(** *** Moments *)
Lemma ne_fact n : noerr (factorial n). Proof. unfold factorial. ne. Qed.
Lemma ne_idiv a b : noerr (idiv a b). Proof. unfold idiv. ne. Qed.
Global Hint Resolve ne_fact ne_idiv : ne.
Lemma ne_binom n k : noerr (binom n k). Proof. unfold binom. ne. Qed.
Global Hint Resolve ne_binom : ne.
Section Moment.
Context {T : Type} (N : Num T).
Lemma ne_coef k i : noerr (coef N k i). Proof. unfold coef. ne. Qed.
Hint Resolve ne_coef : ne.
Lemma ne_inner op term k l : forall s, noerr (inner N op term k l s). Proof. induction l; intros; cbn [inner]; ne. Qed.
Hint Resolve ne_inner : ne.
Lemma ne_outer step l : (forall f k, noerr (step f k)) -> forall f : nat -> T, noerr (outer step l f).
Proof. intros H. induction l; intros; cbn [outer]; ne. Qed.
Lemma ne_cadd c x : noerr (c_add N c x). Proof. unfold c_add. cbv zeta. apply noerr_bind; [apply ne_outer; intros; ne | ne]. Qed.
Lemma ne_caddd c d x : noerr (c_add_decay N c d x). Proof. unfold c_add_decay. cbv zeta. apply noerr_bind; [apply ne_outer; intros; ne | ne]. Qed.
Lemma ne_crem c x : noerr (c_remove N c x). Proof. unfold c_remove. cbv zeta. destruct (_ >? _)%Z; [apply noerr_bind; [apply ne_outer; intros; ne | ne] | ne]. Qed.
Hint Resolve ne_cadd ne_caddd ne_crem : ne.
Lemma ne_cpush c x : noerr (c_push N c x). Proof. unfold c_push. ne. Qed.
End Moment.

(** *** Joint cores: the inner errors are about tuples of different lengths, which NewCore rules out *)
Section Joint.
Context {T : Type} (N : Num T).
Implicit Types c : @vcore T.
Lemma ne_upd_b term a bs : (forall b m, In b bs -> noerr (term a b m)) -> forall m, noerr (upd_b N term a bs m).
Proof.
  intros H. induction bs as [| b bs IH]; intros m; cbn [upd_b]; [ne |]. apply noerr_bind; [apply H; now left |].
  intros f. apply IH. intros. apply H. now right.
Qed.
Lemma ne_upd_a term as_ : (forall a b m, In a as_ -> tle b a -> noerr (term a b m)) -> forall m, noerr (upd_a N term as_ m).
Proof.
  intros H. induction as_ as [| a as_ IH]; intros m; cbn [upd_a]; [ne |]. apply noerr_bind.
  - apply ne_upd_b. intros b m' Hb. apply H; [now left | now apply in_iter in Hb].
  - intros m'. apply IH. intros. apply H; [now right | assumption].
Qed.
Lemma ne_upd_tuples term r ts : (forall t a b m, In t ts -> tle a t -> tle b a -> noerr (term a b m)) -> forall m, noerr (upd_tuples N term r ts m).
Proof.
  intros H. induction ts as [| t ts IH]; intros m; cbn [upd_tuples]; [ne |]. apply noerr_bind.
  - apply ne_upd_a. intros a b m' Ha. apply (H t); [now left | now apply in_iter in Ha].
  - intros m'. apply IH. intros t' a b m'' Ht. apply (H t'). now right.
Qed.
Lemma ne_tpow (x : list T) n : length x = length n -> noerr (t_pow N x n).
Proof. intros H. unfold t_pow. rewrite H, Nat.eqb_refl. cbn [negb]. ne. Qed.
Lemma ne_mloop m : forall n r, noerr (multinom_loop m n r).
Proof. induction m; intros [| b n] r; cbn [multinom_loop]; ne. Qed.
Lemma ne_multinom m n : length m = length n -> noerr (multinom m n).
Proof. intros H. unfold multinom. rewrite H, Nat.eqb_refl. apply ne_mloop. Qed.
Lemma ne_tsub m n : length m = length n -> noerr (t_sub m n).
Proof. intros H. unfold t_sub. rewrite H, Nat.eqb_refl. cbn [negb]. ne. Qed.
Lemma ne_terms (x : T) (dl : list T) s a b m v : length dl = v -> length a = v -> tle b a ->
  noerr (add_term N x dl s a b m) /\ noerr (decay_term N x dl s a b m) /\ noerr (rem_term N x dl s a b m).
Proof.
  intros Hd Ha Hb. apply tle_length in Hb.
  unfold add_term, decay_term, rem_term.
  repeat split; (apply noerr_bind; [apply ne_tpow; congruence |]; intros dp; cbv zeta;
    destruct (_ =? _)%Z; [ne |]; destruct (t_eq _ _); [ne |];
    apply noerr_bind; [apply ne_multinom; congruence |]; intros mn; apply noerr_bind; [apply ne_tsub; congruence | ne]).
Qed.
Definition tuples_of (v : nat) (ts : list tuple) : Prop := forall t, In t ts -> length t = v.
Lemma ne_jadd c xs v : length (j_means c) = v -> length xs = v -> tuples_of v (j_tuples c) -> noerr (j_add N c xs).
Proof.
  intros Hm Hx Ht. unfold j_add. cbv zeta. apply noerr_bind; [| ne]. apply ne_upd_tuples. intros t a b m Hi Ha Hb.
  apply tle_length in Ha. eapply ne_terms with (v := v); eauto; [rewrite deltas_length; congruence | rewrite Ha; auto].
Qed.
Lemma ne_jaddd c d xs v : length (j_means c) = v -> length xs = v -> tuples_of v (j_tuples c) -> noerr (j_add_decay N c d xs).
Proof.
  intros Hm Hx Ht. unfold j_add_decay. cbv zeta. apply noerr_bind; [| ne]. apply ne_upd_tuples. intros t a b m Hi Ha Hb.
  apply tle_length in Ha. eapply ne_terms with (v := v); eauto; [rewrite deltas_length; congruence | rewrite Ha; auto].
Qed.
Lemma ne_remt count dl v ts : length dl = v -> tuples_of v ts -> forall s m, noerr (rem_tuples N count dl ts s m).
Proof.
  intros Hd Ht. induction ts as [| t ts IH]; intros s m; cbn [rem_tuples]; [ne |]. apply noerr_bind.
  - apply ne_upd_a. intros a b m' Ha Hb. apply in_iter, tle_length in Ha. eapply ne_terms with (v := v); eauto. rewrite Ha. apply Ht. now left.
  - intros m'. apply IH. intros u Hu. apply Ht. now right.
Qed.
Lemma ne_jrem c xs v : length (j_means c) = v -> length xs = v -> tuples_of v (j_tuples c) -> noerr (j_remove N c xs).
Proof.
  intros Hm Hx Ht. unfold j_remove. cbv zeta. destruct (_ >? _)%Z; [| ne]. apply noerr_bind; [| intros [s m]; ne].
  eapply ne_remt; [| exact Ht]. unfold deltas. rewrite map_length, combine_length, map_length, combine_length. lia.
Qed.

Definition jgood (v : nat) c : Prop := exists ts w d, tuples_of v ts /\ jkeep N v ts w d c.
Lemma jgood_vars v c : jgood v c -> length (j_means c) = v. Proof. intros (ts & w & d & _ & K). apply K. Qed.
Lemma ne_jpush v c xs : jgood v c -> length xs = v -> noerr (jpush N c xs).
Proof.
  intros (ts & w & d & Ht & K) Hx. unfold jpush, j_push. rewrite (proj1 K), Hx, Nat.eqb_refl. cbn [negb].
  assert (H : forall c1, jkeep N v ts w d c1 -> noerr (match j_decay c1 with None => j_add N c1 xs | Some e => j_add_decay N c1 e xs end)).
  { intros c1 (K1 & K2 & _). destruct (j_decay c1); [eapply ne_jaddd | eapply ne_jadd]; eauto; rewrite K2; exact Ht. }
  intros e E. destruct (negb (j_window c =? 0)%Z); [| cbn [bind] in E; eapply H; eauto].
  destruct (ring_len (j_queue c) =? j_window c)%Z.
  - destruct (ring_get (j_queue c)) as [[y q] | | | |] eqn:Eg; cbn [bind] in E; try discriminate; [| eapply ne_get; eauto].
    assert (F : length y = v /\ Forall (fun x => length x = v) (ritems q)).
    { unfold ring_get in Eg. destruct (ritems (j_queue c)) as [| z l] eqn:Er; [discriminate |]. injection Eg as <- <-.
      assert (F : Forall (fun x => length x = v) (z :: l)) by (rewrite <- Er; apply K). inversion F; subst; auto. }
    destruct F as [Fy Fq]. pose proof (keep_queue N v ts w d c q K Fq) as Kq. revert E.
    match goal with |- context [j_remove N ?c0 y] => set (c1 := c0) in *; destruct (j_remove N c1 y) as [c2 | e2 | | |] eqn:Er; cbn [bind] end; intros E; try discriminate.
    + destruct (ring_put (j_queue c2) xs) as [q2 | | | |] eqn:Ep; cbn [bind] in E; try discriminate; [| eapply ne_put; eauto].
      eapply H; [| exact E]. apply keep_queue; [eapply keep_remove; eauto |].
      unfold ring_put in Ep. destruct (_ <? _)%Z; [| discriminate]. injection Ep as <-. cbn. apply Forall_app. split; [| auto].
      eapply keep_remove in Kq; [| exact Fy | exact Er]. apply Kq.
    + eapply (ne_jrem c1 y v); eauto; [apply Kq |]. rewrite (proj1 (proj2 Kq)). exact Ht.
  - cbn [bind] in E. destruct (ring_put (j_queue c) xs) as [q2 | | | |] eqn:Ep; cbn [bind] in E; try discriminate; [| eapply ne_put; eauto].
    eapply H; [| exact E]. apply keep_queue; [exact K |]. unfold ring_put in Ep. destruct (_ <? _)%Z; [| discriminate]. injection Ep as <-. cbn.
    apply Forall_app. split; [apply K | auto].
Qed.
Lemma jnew_good cfg c : jnew_core N cfg = Ok c -> exists v, jgood v c.
Proof.
  intros E. destruct (jvalidate_spec N cfg) as [[V _] | [V _]]; destruct (jnew_core_spec N (A := list T) cfg) as [H1 H2].
  2:{ destruct (H2 V) as [e E']. congruence. }
  destruct (H1 V) as (w & Ew & E'). rewrite E in E'. injection E' as ->.
  destruct V as (_ & _ & v & F & Hnil & Hv).
  assert (Ev : tuples_of (Z.to_nat (vars_of cfg)) (jsums_of cfg)).
  { intros t Ht. rewrite Forall_forall in F. destruct (F t Ht) as [Lt _]. unfold vars_of. unfold zlen in Lt.
    destruct (jf_vars cfg) as [u |]; [rewrite (Hv u eq_refl); lia |]. destruct (jsums_of cfg) as [| t0 ts]; [destruct Ht |].
    destruct (F t0 (or_introl eq_refl)) as [L0 _]. unfold zlen in *. lia. }
  exists (Z.to_nat (vars_of cfg)), (jsums_of cfg), w, (jf_decay cfg). split; [exact Ev |]. unfold jkeep. cbn. rewrite repeat_length.
  repeat (split; [reflexivity |]). split; [apply dom_refl |]. split; [apply dom_refl | constructor].
Qed.
Lemma jpush_good v c xs c' : jgood v c -> jpush N c xs = Ok c' -> jgood v c'.
Proof. intros (ts & w & d & Ht & K) H. exists ts, w, d. split; [exact Ht |]. eapply keep_push; eauto. Qed.
Lemma jclear_good v c c' : jgood v c -> j_clear N c = Ok c' -> jgood v c'.
Proof.
  intros (ts & w & d & Ht & K) H. exists ts, w, d. split; [exact Ht |]. rewrite (keep_clear _ _ _ _ _ _ K) in H. injection H as <-.
  unfold jkeep. cbn. rewrite repeat_length. repeat (split; [reflexivity |]). split; [apply dom_refl |]. split; [apply dom_refl | constructor].
Qed.

Variable junk : @vcore T -> list T -> @vcore T.
Lemma outcome_err {A} (r : res A) e : outcome r = Err e -> r = Err e.
Proof. destruct r; cbn; intros H; try discriminate. now injection H as <-. Qed.
(** The three ways a push to a good core ends *)
Lemma jpush_eff_good v c xs : jgood v c ->
  (length xs <> v /\ jpush_eff N junk c xs = (c, Err EArity)) \/
  (length xs = v /\ forall e, snd (jpush_eff N junk c xs) <> Err e) /\
  (forall c', jpush N c xs = Ok c' -> jpush_eff N junk c xs = (c', Ok tt)) /\
  (snd (jpush_eff N junk c xs) = Ok tt -> jpush N c xs = Ok (fst (jpush_eff N junk c xs))).
Proof.
  intros G. unfold jpush_eff. rewrite (jgood_vars v c G). destruct (Nat.eqb_spec (length xs) v) as [E | E]; cbn [negb]; [right | left; auto].
  pose proof (ne_jpush v c xs G E) as Hn. unfold half. destruct (jpush N c xs) as [c2 | e2 | | |] eqn:Ep; cbn [fst snd outcome rmap bind].
  - repeat split; auto; try discriminate. intros c' [= ->]. reflexivity.
  - exfalso. eapply Hn; reflexivity.
  - repeat split; auto; discriminate.
  - repeat split; auto; discriminate.
  - repeat split; auto; discriminate.
Qed.
Lemma jpush_eff_keep v c xs : jgood v c -> returned (snd (jpush_eff N junk c xs)) -> jgood v (fst (jpush_eff N junk c xs)).
Proof.
  intros G R. destruct (jpush_eff_good v c xs G) as [[_ ->] | [[_ Hn] [_ Hk]]]; [exact G |].
  destruct R as [R | [e R]]; [| exfalso; eapply Hn; eauto]. eapply jpush_good; eauto.
Qed.
Lemma jpush_eff_failed v c xs e : jgood v c -> snd (jpush_eff N junk c xs) = Err e -> fst (jpush_eff N junk c xs) = c.
Proof.
  intros G E. destruct (jpush_eff_good v c xs G) as [[_ ->] | [[_ Hn] _]]; [reflexivity |]. exfalso. eapply Hn; eauto.
Qed.
Lemma core_reach_good c : core_reach N junk c -> exists v, jgood v c.
Proof.
  induction 1 as [cfg c H | c xs _ [v IH] R | c c' _ [v IH] H]; [eapply jnew_good; eauto | |].
  - exists v. now apply jpush_eff_keep.
  - exists v. eapply jclear_good; eauto.
Qed.
Definition mgood (m : @jmetric T) : Prop := forall c, jm_core m = Some c -> exists v, jgood v c.
Lemma jm_push_failed m xs e : mgood m -> snd (jm_push_eff N junk m xs) = Err e -> fst (jm_push_eff N junk m xs) = m.
Proof.
  intros G. unfold jm_push_eff. destruct (jm_core m) as [c |] eqn:Ec; [| auto]. destruct (negb _); [auto |].
  destruct (G c Ec) as [v Gv]. pose proof (jpush_eff_failed v c xs e Gv) as H. destruct (jpush_eff N junk c xs) as [c' r]. cbn [fst snd] in *.
  intros E. rewrite (H E). destruct m as [k o]. cbn in *. congruence.
Qed.
Lemma jm_reach_good m : jm_reach N junk m -> mgood m.
Proof.
  induction 1 as [k | m m' _ IH H | m c _ IH Hc | m xs _ IH R | m m' _ IH H]; intros c0 E0.
  - discriminate.
  - unfold jm_init in H. apply bind_ok in H as (c1 & H & [= <-]). injection E0 as <-. eapply jnew_good; eauto.
  - cbn in E0. injection E0 as <-. eapply core_reach_good; eauto.
  - revert R E0. unfold jm_push_eff. destruct (jm_core m) as [c |] eqn:Ec; [| cbn [fst]; intros; apply IH; assumption].
    destruct (negb _); [cbn [fst]; intros; apply IH; assumption |]. destruct (IH c Ec) as [v Gv]. pose proof (jpush_eff_keep v c xs Gv) as K.
    destruct (jpush_eff N junk c xs) as [c' r]. cbn [fst snd jm_core] in *. intros R [= <-]. exists v. auto.
  - unfold jm_clear in H. destruct (jm_core m) as [c |] eqn:Ec; [| injection H as <-; apply IH; assumption].
    apply bind_ok in H as (c' & H & [= <-]). injection E0 as <-. destruct (IH c Ec) as [v Gv]. exists v. eapply jclear_good; eauto.
Qed.

(** Autocov, Autocorr *)
Definition agood (a : @auto T) : Prop := forall c, jm_core (a_metric a) = Some c -> jgood 2 c.
Lemma auto_push_failed a x e : agood a -> snd (auto_push_eff N junk a x) = Err e -> fst (auto_push_eff N junk a x) = a.
Proof.
  intros G. unfold auto_push_eff. cbv zeta. destruct (jm_core (a_metric a)) as [c |] eqn:Ec; [| auto]. specialize (G c Ec).
  destruct a as [lag q [k o]]. cbn [a_lag a_queue a_metric jm_kind jm_core] in *. subst o.
  destruct (lag =? 0)%Z.
  - pose proof (jpush_eff_failed 2 c [x; x] e G) as H. destruct (jpush_eff N junk c [x; x]) as [c' r]. cbn [fst snd] in *. intros E. now rewrite (H E).
  - destruct (_ >=? _)%Z.
    + destruct (ring_get q) as [[y q'] | e1 | | |] eqn:Eg; cbn [outcome rmap bind fst snd]; try (intros; discriminate); [| exfalso; eapply ne_get; eauto].
      destruct (jpush_eff_good 2 c [x; y] G) as [[Hl _] | [[_ Hn] _]]; [cbn in Hl; lia |].
      destruct (jpush_eff N junk c [x; y]) as [c' r]. cbn [fst snd] in *. destruct r as [[] | e2 | | |]; cbn [fst snd a_queue]; try (intros; discriminate); [| exfalso; eapply Hn; reflexivity].
      destruct (ring_put q' x) as [q2 | e2 | | |] eqn:Ep; cbn [outcome rmap bind fst snd]; try (intros; discriminate). exfalso. eapply ne_put; eauto.
    + cbn [a_queue]. destruct (ring_put q x) as [q2 | e2 | | |] eqn:Ep; cbn [outcome rmap bind fst snd]; try (intros; discriminate). reflexivity.
Qed.
Lemma auto_push_keep a x : agood a -> returned (snd (auto_push_eff N junk a x)) -> agood (fst (auto_push_eff N junk a x)).
Proof.
  intros G. unfold auto_push_eff. cbv zeta. destruct (jm_core (a_metric a)) as [c |] eqn:Ec; [| auto]. pose proof (G c Ec) as Gc.
  destruct a as [lag q [k o]]. cbn [a_lag a_queue a_metric jm_kind jm_core] in *. subst o.
  destruct (lag =? 0)%Z.
  - pose proof (jpush_eff_keep 2 c [x; x] Gc) as H. destruct (jpush_eff N junk c [x; x]) as [c' r]. cbn [fst snd] in *. intros R c0 [= <-]. auto.
  - destruct (_ >=? _)%Z.
    + destruct (ring_get q) as [[y q'] | e1 | | |] eqn:Eg; cbn [outcome rmap bind fst snd]; try (intros R; destruct R as [R | [? R]]; discriminate); [| exfalso; eapply ne_get; eauto].
      pose proof (jpush_eff_keep 2 c [x; y] Gc) as H. destruct (jpush_eff N junk c [x; y]) as [c' r]. cbn [fst snd] in *.
      destruct r as [[] | e2 | | |]; cbn [fst snd a_queue a_lag a_metric]; try (intros R; destruct R as [R | [? R]]; discriminate).
      * destruct (ring_put q' x) as [q2 | e2 | | |] eqn:Ep; cbn [outcome rmap bind fst snd]; intros R c0 [= <-]; apply H; left; reflexivity.
      * intros R c0 [= <-]. auto.
    + cbn [a_queue a_lag a_metric]. destruct (ring_put q x) as [q2 | e2 | | |] eqn:Ep; cbn [outcome rmap bind fst snd]; intros R c0 [= <-]; exact Gc.
Qed.
Lemma auto_kind_two k lag w (a : @auto T) : new_auto k lag w = Ok a -> jm_kind (a_metric a) = JCov w \/ jm_kind (a_metric a) = JCorr w.
Proof. unfold new_auto. destruct (lag <? 0)%Z; [discriminate |]. intros [= <-]. destruct k; cbn; auto. Qed.
Lemma auto_init_two (m m' : @jmetric T) w : jm_kind m = JCov w \/ jm_kind m = JCorr w -> jm_init N m = Ok m' -> exists c, jm_core m' = Some c /\ jgood 2 c.
Proof.
  intros Hk H. unfold jm_init in H. apply bind_ok in H as (c & H & [= <-]). exists c. split; [reflexivity |].
  destruct (jnew_good _ _ H) as [v Gv]. replace 2 with v; [exact Gv |]. rewrite <- (jgood_vars v c Gv).
  destruct (jvalidate_spec N (jkconfig (jm_kind m))) as [[V _] | [V _]]; destruct (jnew_core_spec N (A := list T) (jkconfig (jm_kind m))) as [H1 H2].
  2:{ destruct (H2 V) as [e E']. congruence. }
  destruct (H1 V) as (w' & Ew & E'). rewrite H in E'. injection E' as ->. cbn [j_means]. rewrite repeat_length. destruct Hk as [-> | ->]; reflexivity.
Qed.
Lemma auto_reach_good (ok : @vcore T -> Prop) a : (forall c, ok c -> length (j_means c) = 2) -> auto_reach N junk ok a ->
  agood a /\ exists w, jm_kind (a_metric a) = JCov w \/ jm_kind (a_metric a) = JCorr w.
Proof.
  intros Hok. induction 1 as [k lag w a H | a a' _ [IH [w Hw]] H | a c _ [IH Hw] Hc Ho | a x _ [IH [w Hw]] R | a a' _ [IH [w Hw]] H].
  - split; [| exists w; eapply auto_kind_two; eauto]. unfold new_auto in H. destruct (lag <? 0)%Z; [discriminate |]. injection H as <-. intros c E. discriminate.
  - unfold auto_init in H. apply bind_ok in H as (m & H & [= <-]). cbn [a_metric]. split.
    + intros c E. destruct (auto_init_two _ _ w Hw H) as (c' & E' & G). unfold agood in *. cbn [a_metric] in E. congruence.
    + exists w. unfold jm_init in H. apply bind_ok in H as (c & _ & [= <-]). exact Hw.
  - split; [| exact Hw]. intros c0 [= <-]. destruct (core_reach_good c Hc) as [v Gv]. replace 2 with v; [exact Gv |].
    rewrite <- (jgood_vars v c Gv). auto.
  - split; [now apply auto_push_keep |]. exists w. clear -Hw. unfold auto_push_eff. cbv zeta. destruct (jm_core (a_metric a)) as [c |]; [| exact Hw].
    destruct (a_lag a =? 0)%Z; [destruct (jpush_eff _ _ _ _); exact Hw |].
    destruct (_ >=? _)%Z.
    + destruct (ring_get _) as [[y q'] | e1 | | |]; cbn [outcome rmap bind fst snd]; try exact Hw.
      destruct (jpush_eff _ _ _ _) as [c' r]. destruct r as [[] | e2 | | |]; cbn [fst snd a_queue a_lag a_metric]; try exact Hw.
      destruct (ring_put _ _); exact Hw.
    + destruct (ring_put _ _); exact Hw.
  - unfold auto_clear in H. destruct (jm_core (a_metric a)) as [c |] eqn:Ec; [| injection H as <-; eauto].
    apply bind_ok in H as (c' & H & [= <-]). cbn [a_metric jm_kind]. split; [| eauto]. intros c0 [= <-]. eapply jclear_good; eauto.
Qed.
End Joint.

(** *** The calls of the other model files are these calls *)
Definition agrees {S} (r : res S) (p : S * res unit) : Prop :=
  match r with Ok s => p = (s, Ok tt) | _ => snd p = outcome r end.
Lemma half_agrees {S X} (junk : S -> X -> S) push s x : agrees (push s x) (half junk push s x).
Proof. unfold half. destruct (push s x); reflexivity. Qed.
Lemma half_failed {S X} (junk : S -> X -> S) push s x e : noerr (push s x) -> snd (half junk push s x) <> Err e.
Proof. unfold half. intros H. destruct (push s x) eqn:E; cbn; try discriminate. exfalso. eapply H; reflexivity. Qed.
Lemma agrees_rmap {S S'} (f : S -> S') r p : agrees r p -> agrees (rmap f r) (let '(s, q) := p in (f s, q)).
Proof. destruct p as [s q]. destruct r; cbn; intros H; try exact H. now injection H as -> ->. Qed.
Section Agree.
Context {T : Type} (N : Num T) (junk : @vcore T -> list T -> @vcore T) (mjunk : @core T -> T -> @core T).
Lemma jpush_agrees c xs : agrees (jpush N c xs) (jpush_eff N junk c xs).
Proof.
  unfold jpush_eff. destruct (negb _) eqn:E; [| apply half_agrees]. unfold jpush, j_push. rewrite E. reflexivity.
Qed.
Lemma jm_push_agrees m xs : agrees (jm_push N m xs) (jm_push_eff N junk m xs).
Proof.
  unfold jm_push, jm_push_eff. destruct (jm_core m) as [c |]; [| reflexivity]. destruct (negb _); [reflexivity |].
  apply (agrees_rmap (fun c' => mkJM (jm_kind m) (Some c'))). apply jpush_agrees.
Qed.
Lemma m_push_agrees m x : agrees (m_push N m x) (m_push_eff N mjunk m x).
Proof.
  unfold m_push, m_push_eff. destruct (m_core m) as [c |]; [| reflexivity].
  apply (agrees_rmap (fun c' => mkM (m_kind m) (Some c'))). apply half_agrees.
Qed.
Lemma auto_push_agrees a x : agrees (auto_push N a x) (auto_push_eff N junk a x).
Proof.
  unfold auto_push, auto_push_eff. cbv zeta. destruct (jm_core (a_metric a)) as [c |] eqn:Ec; [| reflexivity].
  destruct (a_lag a =? 0)%Z.
  - apply (agrees_rmap (fun c' => mkA (a_lag a) (a_queue a) (mkJM (jm_kind (a_metric a)) (Some c')))). apply jpush_agrees.
  - destruct (_ >=? _)%Z.
    + destruct (ring_get (a_queue a)) as [[y q] | | | |]; try reflexivity. cbn [bind].
      pose proof (jpush_agrees c [x; y]) as H. destruct (jpush N c [x; y]) as [c' | | | |]; destruct (jpush_eff N junk c [x; y]) as [c2 r]; cbn [agrees outcome rmap bind snd] in H;
        try (subst r; reflexivity). injection H as -> ->. cbn [bind a_queue a_lag a_metric]. destruct (ring_put q x); reflexivity.
    + cbn [bind]. destruct (ring_put (a_queue a) x); cbn; try reflexivity. destruct a as [l q0 [k o]]. cbn in *. now rewrite Ec.
Qed.
End Agree.
