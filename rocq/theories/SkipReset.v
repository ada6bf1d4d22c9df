(** A Quantile over a skip list after Clear. *)
From Verif Require Import Base F64 HistSpec OrderSpec RingModel MultisetSpec SortLib AvlModel AvlProof SkipModel SkipProof QuantileModel SkipQuant SkipClear ClearProof QuantileProof.

Lemma sel_fuel st b k : stat_low st b -> sel st k <> NoFuel.
Proof. intros [_ H]. unfold sel. destruct (H k) as [(_ & v & -> & _) | (_ & ->)]; discriminate. Qed.
Lemma bind_fuel {A B} (x : res A) (f : A -> res B) : x <> NoFuel -> (forall a, f a <> NoFuel) -> bind x f <> NoFuel.
Proof. destruct x; cbn; intros; try discriminate; auto. Qed.
Lemma q_value_fuel e q phi b : stat_low (q_stat q) b -> q_value e q phi <> NoFuel.
Proof.
  intros H. unfold q_value. repeat match goal with |- context [if ?c then _ else _] => destruct c end; try discriminate; try (eapply sel_fuel; exact H);
    (apply bind_fuel; [eapply sel_fuel; exact H |]; intros ?; apply bind_fuel; [eapply sel_fuel; exact H |]; intros; discriminate).
Qed.

Lemma skip_stat_low w interp mx pr r ops : (0 <= w)%Z -> 1 <= mx -> pushes_nonnan ops ->
  exists q, run q_push q_clear ops (mkQ w interp (ring_new w) (StSkip (skip_new mx pr r))) = Ok q /\ stat_low (q_stat q) (live w (hist ops)).
Proof.
  intros Hw Hm Hp. pose proof (qops_nonnan w ops Hp) as Hqn. rewrite q_run_stat by exact Hw.
  destruct (skip_low mx pr r (qops w ops) Hm Hqn) as (s & Es & Hsz & Hsel & _).
  rewrite (srun_rmap StSkip skip_add skip_remove skip_clear); try reflexivity. unfold skip_run in Es. rewrite Es. cbn [rmap bind].
  eexists. split; [reflexivity |]. cbn [q_stat]. pose proof (qops_bag w ops Hw Hp) as HP.
  pose proof (perm_zlen _ _ HP) as Hz. split; [cbn [stat_size]; congruence |].
  intros k. rewrite <- Hz. cbn [stat_select]. destruct (Hsel k) as [(Hk & v & Ev & Hb) | H]; [left | right; exact H].
  split; [exact Hk |]. exists v. split; [exact Ev |]. eapply below_perm; [| | exact HP | exact Hb]; auto using bag_nonnan, pushes_live.
Qed.

Lemma skip_quant_reset e w os q0 ops ops' q : Forall qopt_num os -> new_quantile e w os = Ok q0 -> chosen_impl os = 2%Z ->
  run q_push q_clear ops q0 = Ok q -> pushes_nonnan ops' ->
  exists qa qb, run q_push q_clear (ops ++ OClear :: ops') q0 = Ok qa /\ run q_push q_clear ops' (reseed (sdraws (q_stat q)) q0) = Ok qb /\
    forall phi, q_value e qa phi = q_value e qb phi.
Proof.
  intros Hn H0 Hc H Hp. destruct (q_clear_fresh e w os q0 ops ops' q H0 H) as (off & R).
  destruct (new_quantile_spec e w os Hn) as [(Hw & _ & st & E & Hf) | (_ & err & E)]; [| congruence].
  rewrite E in H0. injection H0 as <-. rewrite Hc in Hf.
  destruct Hf as [[Hf _] | [[Hf _] | (_ & mx & pr & r & Hm & ->)]]; try discriminate.
  set (d := sdraws (q_stat q)) in *. unfold reseed in R |- *. cbn [q_stat q_window q_interp q_queue] in R |- *.
  change (Skip _ _ _ _ _ _ _) with (skip_new mx pr (fun n => r (d + n))) in R |- *.
  destruct (skip_stat_low w (chosen_interp os) mx pr (fun n => r (d + n)) ops' Hw Hm Hp) as (qb & Eb & Hl).
  rewrite Eb in R. destruct (run q_push q_clear (ops ++ OClear :: ops') _) as [qa | | | |] eqn:Ea; cbn [frel] in R; try contradiction.
  exists qa, qb. split; [reflexivity |]. split; [exact Eb |]. intros phi. apply frel_eq_inv; [eapply q_value_rel; exact R | eapply q_value_fuel; exact Hl].
Qed.

Lemma qopts_treed' e os : forall q q' i, (i <> 2%Z -> treed (q_stat q) = true) -> qopts_apply e q os = Ok q' ->
  fold_left (fun a o => match o with QImpl i _ => i | QInterp _ => a end) os i <> 2%Z -> treed (q_stat q') = true.
Proof.
  induction os as [| o os IH]; cbn [qopts_apply fold_left]; intros q q' i Ht H Hc; [injection H as <-; auto |].
  apply bind_ok in H as (q1 & H1 & H). eapply IH; [| exact H | exact Hc]. clear IH H Hc.
  destruct o as [j so | j]; cbn in H1; destruct (negb _) eqn:Ev; try discriminate.
  - intros Hj. apply bind_ok in H1 as (st & Hi & [= <-]). cbn. unfold impl_init in Hi.
    destruct (j =? 0)%Z; [injection Hi as <-; auto |]. destruct (j =? 1)%Z; [injection Hi as <-; auto |].
    destruct (Z.eqb_spec j 2) as [-> |]; [contradiction | discriminate].
  - injection H1 as <-. auto.
Qed.
Lemma quantile_clear_fresh' e w os ops ops' q : chosen_impl os <> 2%Z -> q_run e w os ops = Ok q ->
  q_run e w os (ops ++ OClear :: ops') = q_run e w os ops'.
Proof.
  intros Hn H. unfold q_run in *. apply bind_ok in H as (q0 & H0 & H). rewrite H0. cbn [bind].
  pose proof (new_quantile_queue _ _ _ _ H0) as [Ew Eq]. eapply tree_quant_fresh; eauto; [| now rewrite Ew, Eq].
  unfold new_quantile in H0. destruct (w <? 0)%Z; [discriminate |]. cbn in H0. eapply (qopts_treed' _ _ _ _ 0%Z); [| exact H0 | exact Hn]. reflexivity.
Qed.
