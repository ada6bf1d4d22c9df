(** A skip list after Clear: its nodes have higher addresses than those of a fresh list, and its random
    source has been used; nothing else differs. *)
From Verif Require Import Base F64 HistSpec RingModel MultisetSpec AvlModel RbModel SkipModel QuantileModel.
Local Open Scope nat_scope.

(** Like rrel of HeapClear.v, but nothing is said where the right-hand computation runs out of fuel. *)
Definition frel {A B} (R : A -> B -> Prop) (x : res A) (y : res B) : Prop :=
  match y with
  | Ok b => match x with Ok a => R a b | _ => False end
  | Err e => match x with Err e' => e' = e | _ => False end
  | Panic => match x with Panic => True | _ => False end
  | Hang => match x with Hang => True | _ => False end
  | NoFuel => True
  end.
Lemma frel_bind {A B C D} (R : A -> B -> Prop) (Q : C -> D -> Prop) x y f g :
  frel R x y -> (forall a b, R a b -> frel Q (f a) (g b)) -> frel Q (bind x f) (bind y g).
Proof. intros H F. destruct y; cbn in *; destruct x; cbn in *; auto; contradiction. Qed.
Lemma frel_eq_refl {A} (x : res A) : frel eq x x.
Proof. destruct x; cbn; auto. Qed.
Lemma frel_rmap {A B C D} (R : A -> B -> Prop) (Q : C -> D -> Prop) x y f g :
  frel R x y -> (forall a b, R a b -> Q (f a) (g b)) -> frel Q (rmap f x) (rmap g y).
Proof. intros H F. destruct y; cbn in *; destruct x; cbn in *; auto; contradiction. Qed.
Lemma frel_eq_inv {A} (x y : res A) : frel eq x y -> y <> NoFuel -> x = y.
Proof. destruct y; cbn; destruct x; intros H Hn; try contradiction; congruence. Qed.

Section Shift.
Variable off : nat.
Definition ro (a : nat) : nat := match a with O => O | S _ => a + off end.
Lemma ro_eqb a b : (ro a =? ro b) = (a =? b).
Proof. unfold ro. destruct a, b; cbn; auto. destruct (Nat.eqb_spec a b), (Nat.eqb_spec (a + off) (b + off)); auto; lia. Qed.

Definition orel (n : nat) (p p' : option nat) : Prop := p = option_map ro p' /\ (forall b, p' = Some b -> b < n).
Definition nrel (n : nat) (x x' : snode) : Prop :=
  n_lvl x = n_lvl x' /\ n_val x = n_val x' /\ (forall i, n_width x i = n_width x' i) /\ (forall i, orel n (n_next x i) (n_next x' i)).
Definition strel (n : nat) (st st' : nat -> snode) : Prop := forall a, a < n -> nrel n (st (ro a)) (st' a).
Definition arel n (a a' : nat) : Prop := a = ro a' /\ a' < n.
Definition prel n (p p' : nat -> nat) : Prop := forall i, arel n (p i) (p' i).

Lemma get_next_rel n st st' a i : strel n st st' -> a < n -> frel (orel n) (get_next st (ro a) i) (get_next st' a i).
Proof. intros Hs Ha. destruct (Hs a Ha) as (E1 & _ & _ & E4). unfold get_next. rewrite E1. destruct (_ <? _); cbn; auto. Qed.
Lemma get_width_rel n st st' a i : strel n st st' -> a < n -> frel eq (get_width st (ro a) i) (get_width st' a i).
Proof. intros Hs Ha. destruct (Hs a Ha) as (E1 & _ & E3 & _). unfold get_width. rewrite E1. destruct (_ <? _); cbn; auto. Qed.
Lemma strel_upd n st st' a x x' : strel n st st' -> nrel n x x' -> strel n (upd st (ro a) x) (upd st' a x').
Proof. intros Hs Hx b Hb. unfold upd. rewrite ro_eqb. destruct (b =? a); auto. Qed.
Lemma set_next_rel n st st' a i p p' : strel n st st' -> a < n -> orel n p p' -> frel (strel n) (set_next st (ro a) i p) (set_next st' a i p').
Proof.
  intros Hs Ha Hp. destruct (Hs a Ha) as (E1 & E2 & E3 & E4). unfold set_next. rewrite E1. destruct (_ <? _); cbn; auto.
  apply strel_upd; auto. split; [| split; [| split]]; cbn; auto. intros j. unfold upd. destruct (j =? i); auto.
Qed.
Lemma set_width_rel n st st' a i w : strel n st st' -> a < n -> frel (strel n) (set_width st (ro a) i w) (set_width st' a i w).
Proof.
  intros Hs Ha. destruct (Hs a Ha) as (E1 & E2 & E3 & E4). unfold set_width. rewrite E1. destruct (_ <? _); cbn; auto.
  apply strel_upd; auto. split; [| split; [| split]]; cbn; auto. intros j. unfold upd. destruct (j =? i); auto.
Qed.
Lemma val_rel n st st' a : strel n st st' -> a < n -> n_val (st (ro a)) = n_val (st' a).
Proof. intros Hs Ha. now destruct (Hs a Ha) as (_ & E & _). Qed.

Lemma walk_prev_rel n st st' i v : strel n st st' -> forall f' f a, f' <= f -> a < n -> frel (arel n) (walk_prev f st i v (ro a)) (walk_prev f' st' i v a).
Proof.
  intros Hs. induction f' as [| f' IH]; intros f a Hf Ha; [exact I |]. destruct f as [| f]; [lia |]. cbn [walk_prev].
  eapply frel_bind; [eapply get_next_rel; eauto |]. intros p p' [-> Hp]. destruct p' as [b |]; cbn [option_map]; [| cbn; split; auto].
  specialize (Hp b eq_refl). rewrite (val_rel _ _ _ _ Hs Hp). destruct (flt _ _); [apply IH; auto; lia | cbn; split; auto].
Qed.
Lemma get_prevs_rel n st st' v f f' : strel n st st' -> f' <= f -> forall i a, a < n -> frel (prel n) (get_prevs f st i v (ro a)) (get_prevs f' st' i v a).
Proof.
  intros Hs Hf. induction i as [| i IH]; intros a Ha; cbn [get_prevs]; [cbn; intros j; split; auto |].
  eapply frel_bind; [eapply walk_prev_rel; eauto |]. intros p p' [-> Hp].
  eapply frel_bind; [apply IH; auto |]. intros r r' Hr. cbn. intros j. unfold upd. destruct (j =? i); [split; auto | apply Hr].
Qed.
Lemma link_levels_rel n prevs prevs' x : prel n prevs prevs' -> x < n -> forall k i st st', strel n st st' ->
  frel (strel n) (link_levels k i prevs (ro x) st) (link_levels k i prevs' x st').
Proof.
  intros Hp Hx. induction k as [| k IH]; intros i st st' Hs; cbn [link_levels]; [exact Hs |].
  destruct (Hp i) as [-> Hi]. eapply frel_bind; [eapply get_next_rel; eauto |]. intros p p' Ho.
  eapply frel_bind; [eapply set_next_rel; eauto |]. intros s1 s1' H1.
  eapply frel_bind; [eapply set_next_rel; eauto; split; auto; intros ? [= <-]; auto |]. intros s2 s2' H2. now apply IH.
Qed.
Lemma incr_widths_rel n prevs prevs' : prel n prevs prevs' -> forall k i st st', strel n st st' ->
  frel (strel n) (incr_widths k i prevs st) (incr_widths k i prevs' st').
Proof.
  intros Hp. induction k as [| k IH]; intros i st st' Hs; cbn [incr_widths]; [exact Hs |].
  destruct (Hp i) as [-> Hi]. eapply frel_bind; [eapply get_width_rel; eauto |]. intros w ? ->.
  eapply frel_bind; [eapply set_width_rel; eauto |]. intros s1 s1' H1. now apply IH.
Qed.
Lemma node_equals_rel n st st' p p' q q' : strel n st st' -> orel n p p' -> orel n q q' -> node_equals st p q = node_equals st' p' q'.
Proof.
  intros Hs [-> Hp] [-> Hq]. destruct p' as [a |], q' as [b |]; cbn; auto.
  now rewrite (val_rel n st st' a Hs (Hp a eq_refl)), (val_rel n st st' b Hs (Hq b eq_refl)).
Qed.
Lemma width_walk_rel n st st' j t t' : strel n st st' -> orel n t t' -> forall f' f c c' acc, f' <= f -> orel n c c' ->
  frel eq (width_walk f st j t c acc) (width_walk f' st' j t' c' acc).
Proof.
  intros Hs Ht. induction f' as [| f' IH]; intros f c c' acc Hf Hc; [exact I |]. destruct f as [| f]; [lia |]. cbn [width_walk].
  rewrite (node_equals_rel n st st' c c' t t' Hs Hc Ht). destruct (node_equals _ _ _); [reflexivity |].
  destruct Hc as [-> Hc]. destruct c' as [a |]; cbn [option_map]; [| exact I]. specialize (Hc a eq_refl).
  eapply frel_bind; [eapply get_width_rel; eauto |]. intros w ? ->. eapply frel_bind; [eapply get_next_rel; eauto |].
  intros p p' Hp. apply IH; auto. lia.
Qed.
Lemma new_widths_rel n f f' prevs prevs' x : f' <= f -> prel n prevs prevs' -> x < n -> forall k i st st', strel n st st' ->
  frel (strel n) (new_widths f k i prevs (ro x) st) (new_widths f' k i prevs' x st').
Proof.
  intros Hf Hp Hx. induction k as [| k IH]; intros i st st' Hs; cbn [new_widths]; [exact Hs |].
  eapply frel_bind; [eapply get_next_rel; eauto |]. intros t t' Ht.
  eapply frel_bind; [eapply get_width_rel; eauto |]. intros w ? ->.
  eapply frel_bind; [eapply width_walk_rel; eauto; split; auto; intros ? [= <-]; auto |]. intros w' ? ->.
  eapply frel_bind; [eapply set_width_rel; eauto |]. intros s1 s1' H1. destruct (Hp i) as [-> Hi].
  eapply frel_bind; [eapply get_width_rel; eauto |]. intros w1 ? ->.
  eapply frel_bind; [eapply set_width_rel; eauto |]. intros s2 s2' H2. now apply IH.
Qed.

Definition krel (s s' : skip) : Prop :=
  sk_max s = sk_max s' /\ sk_len s = sk_len s' /\ sk_probs s = sk_probs s' /\ 0 < sk_fresh s' /\ sk_fresh s = ro (sk_fresh s') /\
  strel (sk_fresh s') (sk_store s) (sk_store s') /\ forall k, sk_rnd s (sk_draws s + k) = sk_rnd s' (sk_draws s' + k).
Lemma ro_le a : a <= ro a.
Proof. unfold ro. destruct a; lia. Qed.
Lemma strel_le n k st st' : strel n st st' -> n <= k -> (forall a, n <= a < k -> nrel k (st (ro a)) (st' a)) -> strel k st st'.
Proof.
  intros Hs Hk Hn a Ha. destruct (Nat.lt_ge_cases a n); [| apply Hn; lia]. destruct (Hs a) as (E1 & E2 & E3 & E4); auto.
  split; [| split; [| split]]; auto. intros i. destruct (E4 i) as [E5 E6]. split; auto. intros b Hb. apply E6 in Hb. lia.
Qed.
Lemma skip_add_rel s s' v : krel s s' -> frel krel (skip_add s v) (skip_add s' v).
Proof.
  intros (E1 & E2 & E3 & Hp & E4 & Hs & Er). unfold skip_add.
  assert (El : skip_rand_level s = skip_rand_level s').
  { unfold skip_rand_level. specialize (Er 0). rewrite !Nat.add_0_r in Er. now rewrite E1, E3, Er. }
  rewrite El, E1, E4.
  eapply frel_bind. { apply (get_prevs_rel (sk_fresh s')); auto. unfold sfuel. rewrite E4. pose proof (ro_le (sk_fresh s')). lia. }
  intros p p' Hpr. set (n := sk_fresh s') in *.
  assert (Hpr' : prel (S n) p p') by (intros i; destruct (Hpr i) as [A B]; split; auto).
  assert (Hx : n < S n) by lia.
  assert (H0 : strel (S n) (upd (sk_store s) (ro n) (SNode (skip_rand_level s') (fun _ => None) (fun _ => 0%Z) v))
                           (upd (sk_store s') n (SNode (skip_rand_level s') (fun _ => None) (fun _ => 0%Z) v))).
  { intros a Ha. unfold upd. rewrite ro_eqb. destruct (Nat.eqb_spec a n) as [-> | Hne].
    - split; [| split; [| split]]; cbn; auto. intros i. split; [reflexivity | discriminate].
    - destruct (Hs a) as (F1 & F2 & F3 & F4); [lia |]. split; [| split; [| split]]; auto.
      intros i. destruct (F4 i) as [F5 F6]. split; auto. intros b Hb. apply F6 in Hb. lia. }
  eapply frel_bind; [eapply link_levels_rel; eauto |]. intros s1 s1' H1.
  eapply frel_bind; [eapply set_width_rel; eauto |]. intros s2 s2' H2.
  eapply frel_bind; [eapply incr_widths_rel; eauto |]. intros s3 s3' H3.
  eapply frel_bind; [eapply new_widths_rel; [| eauto | | eauto]; auto; unfold sfuel; rewrite E4; pose proof (ro_le n); lia |]. intros s4 s4' H4.
  cbn. unfold krel. cbn. rewrite E2. repeat (split; [first [assumption | reflexivity | lia] |]). split; [unfold ro, n; destruct (sk_fresh s'); lia |].
  split; [exact H4 |]. intros k. specialize (Er (S k)). rewrite <- !Nat.add_succ_comm in Er. exact Er.
Qed.
Lemma unlink_levels_rel n prevs prevs' a : prel n prevs prevs' -> a < n -> forall k i st st', strel n st st' ->
  frel (strel n) (unlink_levels k i prevs (ro a) st) (unlink_levels k i prevs' a st').
Proof.
  intros Hp Ha. induction k as [| k IH]; intros i st st' Hs; cbn [unlink_levels]; [exact Hs |].
  destruct (Hs a Ha) as (E1 & _). rewrite E1. destruct (Hp i) as [-> Hi]. destruct (_ <? _).
  - eapply frel_bind; [eapply get_next_rel; eauto |]. intros p p' Ho.
    eapply frel_bind; [eapply set_next_rel; eauto |]. intros s1 s1' H1.
    eapply frel_bind; [eapply get_width_rel; eauto |]. intros w ? ->.
    eapply frel_bind; [eapply get_width_rel; eauto |]. intros w' ? ->.
    eapply frel_bind; [eapply set_width_rel; eauto |]. intros s2 s2' H2. now apply IH.
  - eapply frel_bind; [eapply get_width_rel; eauto |]. intros w ? ->.
    eapply frel_bind; [eapply set_width_rel; eauto |]. intros s1 s1' H1. now apply IH.
Qed.
Lemma skip_remove_rel s s' v : krel s s' -> frel krel (skip_remove s v) (skip_remove s' v).
Proof.
  intros K. pose proof K as (E1 & E2 & E3 & Hp & E4 & Hs & Er). unfold skip_remove. rewrite E1.
  eapply frel_bind. { apply (get_prevs_rel (sk_fresh s')); auto. unfold sfuel. rewrite E4. pose proof (ro_le (sk_fresh s')). lia. }
  intros p p' Hpr. destruct (Hpr 0) as [-> H0].
  eapply frel_bind; [eapply get_next_rel; eauto |]. intros x x' [-> Hx]. destruct x' as [a |]; cbn [option_map]; [| exact K].
  specialize (Hx a eq_refl). rewrite (val_rel _ _ _ _ Hs Hx). destruct (feq _ _); [| exact K].
  eapply frel_bind; [eapply unlink_levels_rel; eauto |]. intros s1 s1' H1. cbn. unfold krel. cbn. rewrite E2. auto 10.
Qed.
Lemma skip_clear_rel s s' : krel s s' -> frel krel (skip_clear s) (skip_clear s').
Proof.
  intros (E1 & E2 & E3 & Hp & E4 & Hs & Er). cbn. unfold krel. cbn. repeat (split; [assumption || reflexivity |]). split; auto.
  rewrite E1. apply (strel_upd (sk_fresh s') (sk_store s) (sk_store s') 0); auto. split; [| split; [| split]]; cbn; auto. intros i. split; [reflexivity | discriminate].
Qed.
Lemma select_walk_rel n st st' i k : strel n st st' -> forall f' f c c' pos, f' <= f -> orel n c c' ->
  frel (fun p p' => orel n (fst p) (fst p') /\ snd p = snd p') (select_walk f st i k c pos) (select_walk f' st' i k c' pos).
Proof.
  intros Hs. induction f' as [| f' IH]; intros f c c' pos Hf Hc; [exact I |]. destruct f as [| f]; [lia |]. cbn [select_walk].
  pose proof Hc as [-> Hc']. destruct c' as [a |]; cbn [option_map]; [| exact I]. specialize (Hc' a eq_refl).
  eapply frel_bind; [eapply get_width_rel; eauto |]. intros w ? ->. destruct (_ <=? _)%Z; [| cbn; auto].
  eapply frel_bind; [eapply get_next_rel; eauto |]. intros p p' Hp. apply IH; auto. lia.
Qed.
Lemma select_levels_rel n st st' k f f' : strel n st st' -> f' <= f -> forall i c c' pos, orel n c c' ->
  frel (orel n) (select_levels f st i k c pos) (select_levels f' st' i k c' pos).
Proof.
  intros Hs Hf. induction i as [| i IH]; intros c c' pos Hc; cbn [select_levels]; [exact Hc |].
  eapply frel_bind; [eapply select_walk_rel; eauto |]. intros (p & w) (p' & w') [H1 H2]. cbn [fst snd] in *. subst w'. now apply IH.
Qed.
Lemma skip_select_rel s s' k : krel s s' -> frel eq (skip_select s k) (skip_select s' k).
Proof.
  intros (E1 & E2 & E3 & Hp & E4 & Hs & Er). unfold skip_select. rewrite E1, E2. destruct (_ || _); [reflexivity |].
  eapply frel_bind. { apply (select_levels_rel (sk_fresh s')); eauto. - unfold sfuel. rewrite E4. pose proof (ro_le (sk_fresh s')). lia.
    - split; [reflexivity | intros ? [= <-]; auto]. }
  intros p p' [-> H]. destruct p' as [a |]; cbn; auto. rewrite (val_rel _ _ _ _ Hs); auto.
Qed.
Lemma rank_walk_rel n st st' i v : strel n st st' -> forall f' f a r, f' <= f -> a < n ->
  frel (fun p p' => arel n (fst p) (fst p') /\ snd p = snd p') (rank_walk f st i v (ro a) r) (rank_walk f' st' i v a r).
Proof.
  intros Hs. induction f' as [| f' IH]; intros f a r Hf Ha; [exact I |]. destruct f as [| f]; [lia |]. cbn [rank_walk].
  eapply frel_bind; [eapply get_next_rel; eauto |]. intros p p' [-> Hp]. destruct p' as [b |]; cbn [option_map]; [| cbn; split; auto; split; auto].
  specialize (Hp b eq_refl). rewrite (val_rel _ _ _ _ Hs Hp). destruct (flt _ _); [| cbn; split; auto; split; auto].
  eapply frel_bind; [eapply get_width_rel; eauto |]. intros w ? ->. apply IH; auto; lia.
Qed.
Lemma rank_levels_rel n st st' v f f' : strel n st st' -> f' <= f -> forall i a r, a < n ->
  frel eq (rank_levels f st i v (ro a) r) (rank_levels f' st' i v a r).
Proof.
  intros Hs Hf. induction i as [| i IH]; intros a r Ha; cbn [rank_levels]; [reflexivity |].
  eapply frel_bind; [eapply rank_walk_rel; eauto |]. intros (b & w) (b' & w') [H1 H2]. cbn [fst snd] in *. destruct H1 as [-> Hb]. subst w'. now apply IH.
Qed.
Lemma skip_rank_rel s s' v : krel s s' -> frel eq (skip_rank s v) (skip_rank s' v).
Proof.
  intros (E1 & E2 & E3 & Hp & E4 & Hs & Er). unfold skip_rank. rewrite E1. change 0 with (ro 0) at 1.
  apply (rank_levels_rel (sk_fresh s')); auto. unfold sfuel. rewrite E4. pose proof (ro_le (sk_fresh s')). lia.
Qed.

(** ** Quantile over a skip list *)
Definition strel' (st st' : stat) : Prop :=
  match st, st' with StSkip s, StSkip s' => krel s s' | StAvl t, StAvl t' => t = t' | StRb t, StRb t' => t = t' | _, _ => False end.
Definition qrel (q q' : quant) : Prop := q_window q = q_window q' /\ q_interp q = q_interp q' /\ q_queue q = q_queue q' /\ strel' (q_stat q) (q_stat q').
Lemma stat_add_rel st st' x : strel' st st' -> frel strel' (stat_add st x) (stat_add st' x).
Proof.
  destruct st, st'; cbn [strel' stat_add]; try contradiction; [intros -> | intros -> | intros H]; (eapply frel_rmap; [| intros a b Hab; exact Hab]);
    [apply frel_eq_refl | apply frel_eq_refl | now apply skip_add_rel].
Qed.
Lemma stat_remove_rel st st' x : strel' st st' -> frel strel' (stat_remove st x) (stat_remove st' x).
Proof.
  destruct st, st'; cbn [strel' stat_remove]; try contradiction; [intros -> | intros -> | intros H]; (eapply frel_rmap; [| intros a b Hab; exact Hab]);
    [apply frel_eq_refl | apply frel_eq_refl | now apply skip_remove_rel].
Qed.
Lemma stat_clear_rel st st' : strel' st st' -> frel strel' (stat_clear st) (stat_clear st').
Proof.
  destruct st, st'; cbn [strel' stat_clear]; try contradiction; [intros -> | intros -> | intros H]; (eapply frel_rmap; [| intros a b Hab; exact Hab]);
    [apply frel_eq_refl | apply frel_eq_refl | now apply skip_clear_rel].
Qed.
Lemma stat_size_rel st st' : strel' st st' -> stat_size st = stat_size st'.
Proof. destruct st, st'; cbn; try contradiction; try congruence. intros K. apply K. Qed.
Lemma stat_rank_rel st st' x : strel' st st' -> frel eq (stat_rank st x) (stat_rank st' x).
Proof. destruct st, st'; cbn [strel' stat_rank]; try contradiction; [intros -> | intros -> | intros H]; [apply frel_eq_refl | apply frel_eq_refl | now apply skip_rank_rel]. Qed.
Lemma sel_rel st st' k : strel' st st' -> frel eq (sel st k) (sel st' k).
Proof.
  intros H. unfold sel. eapply frel_bind with (R := eq); [| intros o ? ->; apply frel_eq_refl].
  destruct st, st'; cbn [strel' stat_select] in *; try contradiction; [subst; apply frel_eq_refl | subst; apply frel_eq_refl | now apply skip_select_rel].
Qed.
Lemma q_push_rel q q' x : qrel q q' -> frel qrel (q_push q x) (q_push q' x).
Proof.
  intros (E1 & E2 & E3 & H). unfold q_push. rewrite E1, E3.
  eapply frel_bind with (R := qrel).
  - destruct (negb _); [| cbn; repeat split; auto]. eapply frel_bind with (R := qrel).
    + destruct (_ =? _)%Z; [| cbn; repeat split; auto]. eapply frel_bind; [apply frel_eq_refl |]. intros (y & r) ? <-.
      eapply frel_bind; [now apply stat_remove_rel |]. intros s1 s1' H1. cbn. repeat split; auto.
    + intros q1 q1' (F1 & F2 & F3 & G). rewrite F3. eapply frel_bind; [apply frel_eq_refl |]. intros r ? <-. cbn. repeat split; auto.
  - intros q1 q1' (F1 & F2 & F3 & G). eapply frel_bind; [now apply stat_add_rel |]. intros s1 s1' H1. cbn. repeat split; auto.
Qed.
Lemma q_clear_rel q q' : qrel q q' -> frel qrel (q_clear q) (q_clear q').
Proof.
  intros (E1 & E2 & E3 & H). unfold q_clear. rewrite E1, E2. eapply frel_bind; [now apply stat_clear_rel |]. intros s1 s1' H1. cbn. repeat split; auto.
Qed.
Lemma q_value_rel e q q' phi : qrel q q' -> frel eq (q_value e q phi) (q_value e q' phi).
Proof.
  intros (E1 & E2 & E3 & H). unfold q_value. rewrite E2, (stat_size_rel _ _ H).
  destruct (_ || _); [reflexivity |]. destruct (_ =? 0)%Z; [reflexivity |]. cbv zeta.
  destruct (feq _ _); [now apply sel_rel |].
  destruct (_ =? 0)%Z; [| destruct (_ =? 1)%Z; [now apply sel_rel |]; destruct (_ =? 2)%Z; [now apply sel_rel |]; destruct (_ =? 3)%Z].
  - eapply frel_bind; [now apply sel_rel |]. intros d ? ->. eapply frel_bind; [now apply sel_rel |]. intros c ? ->. reflexivity.
  - destruct (feq _ _); [destruct (_ =? 0)%Z; now apply sel_rel |]. destruct (flt _ _); now apply sel_rel.
  - eapply frel_bind; [now apply sel_rel |]. intros d ? ->. eapply frel_bind; [now apply sel_rel |]. intros c ? ->. reflexivity.
Qed.
End Shift.

Lemma frun_rel {S S' A} (R : S -> S' -> Prop) (push : S -> A -> res S) (clear : S -> res S) push' clear' :
  (forall s s' x, R s s' -> frel R (push s x) (push' s' x)) -> (forall s s', R s s' -> frel R (clear s) (clear' s')) ->
  forall ops s s', R s s' -> frel R (run push clear ops s) (run push' clear' ops s').
Proof.
  intros Hp Hc. induction ops as [| o ops IH]; intros s s' H; [exact H |].
  cbn [run]. destruct o; (eapply frel_bind; [| intros a b Hab; apply IH; exact Hab]); auto.
Qed.
Lemma fsrun_rel {S S'} (R : S -> S' -> Prop) (add rem : S -> f64 -> res S) (clear : S -> res S) add' rem' clear' :
  (forall s s' x, R s s' -> frel R (add s x) (add' s' x)) -> (forall s s' x, R s s' -> frel R (rem s x) (rem' s' x)) ->
  (forall s s', R s s' -> frel R (clear s) (clear' s')) ->
  forall ops s s', R s s' -> frel R (srun add rem clear ops s) (srun add' rem' clear' ops s').
Proof.
  intros Ha Hr Hc. induction ops as [| o ops IH]; intros s s' H; [exact H |].
  cbn [srun]. destruct o; (eapply frel_bind; [| intros a b Hab; apply IH; exact Hab]); auto.
Qed.

(** What the options and the parameters are, Clear or not *)
Definition kparams (s s' : skip) : Prop := sk_max s' = sk_max s /\ sk_probs s' = sk_probs s /\ sk_rnd s' = sk_rnd s /\ sk_fresh s <= sk_fresh s'.
Lemma skip_add_params s v s' : skip_add s v = Ok s' -> kparams s s'.
Proof.
  unfold skip_add. intros H. apply bind_ok in H as (? & _ & H). apply bind_ok in H as (? & _ & H). apply bind_ok in H as (? & _ & H).
  apply bind_ok in H as (? & _ & H). apply bind_ok in H as (? & _ & [= <-]). unfold kparams. cbn. auto 10.
Qed.
Lemma skip_remove_params s v s' : skip_remove s v = Ok s' -> kparams s s'.
Proof.
  unfold skip_remove. intros H. apply bind_ok in H as (? & _ & H). apply bind_ok in H as ([a |] & _ & H); [| injection H as <-; repeat split; auto].
  destruct (feq _ _); [| injection H as <-; repeat split; auto]. apply bind_ok in H as (? & _ & [= <-]). unfold kparams. cbn. auto 10.
Qed.
Lemma skip_clear_params s s' : skip_clear s = Ok s' -> kparams s s'.
Proof. intros [= <-]. unfold kparams. cbn. auto 10. Qed.
Lemma kparams_trans a b c : kparams a b -> kparams b c -> kparams a c.
Proof. intros (A & B & C & D) (E & F & G & H). unfold kparams. rewrite E, F, G. repeat split; auto. lia. Qed.
Lemma kparams_refl a : kparams a a.
Proof. repeat split; auto. Qed.
(** A cleared list, and a new list with the rest of the random numbers *)
Lemma cleared_rel mx probs rnd s : kparams (skip_new mx probs rnd) s ->
  exists t, skip_clear s = Ok t /\ krel (sk_fresh s - 1) t (skip_new mx probs (fun n => rnd (sk_draws s + n))).
Proof.
  intros (A & B & C & D). cbn in *. eexists. split; [reflexivity |]. unfold krel. cbn. rewrite A.
  repeat (split; [first [assumption | reflexivity | lia] |]). split.
  - intros a Ha. assert (a = 0) by lia. subst a. cbn. split; [| split; [| split]]; auto. intros i. split; [reflexivity | discriminate].
  - intros k. now rewrite C.
Qed.
Lemma skip_run_params mx probs rnd ops : forall s s', kparams (skip_new mx probs rnd) s -> srun skip_add skip_remove skip_clear ops s = Ok s' -> kparams (skip_new mx probs rnd) s'.
Proof.
  induction ops as [| o ops IH]; cbn [srun]; intros s s' H R; [now injection R as <- |].
  destruct o; apply bind_ok in R as (s1 & H1 & R); (eapply IH; [| exact R]); (eapply kparams_trans; [exact H |]);
    [now apply skip_add_params in H1 | now apply skip_remove_params in H1 | now apply skip_clear_params in H1].
Qed.
Lemma srun_app {S} (add rem : S -> f64 -> res S) clear a b : forall s, srun add rem clear (a ++ b) s = s' <- srun add rem clear a s ;; srun add rem clear b s'.
Proof. induction a as [| o a IH]; intros s; [reflexivity |]. cbn [srun app]. destruct o; cbn [srun]; [destruct (add s v) | destruct (rem s v) | destruct (clear s)]; cbn; auto. Qed.

(** The order statistic itself *)
Lemma skip_clear_fresh mx probs rnd ops ops' s : skip_run mx probs rnd ops = Ok s ->
  exists off, frel (krel off) (skip_run mx probs rnd (ops ++ SClear :: ops')) (skip_run mx probs (fun n => rnd (sk_draws s + n)) ops').
Proof.
  intros H. unfold skip_run in *. rewrite srun_app, H. cbn [bind srun].
  destruct (cleared_rel mx probs rnd s) as (t & -> & K).
  { eapply skip_run_params; [apply kparams_refl | exact H]. }
  cbn [bind]. exists (sk_fresh s - 1). apply fsrun_rel; auto using skip_add_rel, skip_remove_rel, skip_clear_rel.
Qed.

(** The quantile *)
Definition sdraws (st : stat) : nat := match st with StSkip s => sk_draws s | _ => 0 end.
Definition reseed (d : nat) (q : quant) : quant :=
  match q_stat q with
  | StSkip s => mkQ (q_window q) (q_interp q) (q_queue q) (StSkip (Skip (sk_max s) (sk_store s) (sk_fresh s) (sk_len s) (sk_probs s) (fun n => sk_rnd s (d + n)) (sk_draws s)))
  | _ => q
  end.
Definition skeep (a b : stat) : Prop := match a, b with StSkip s0, StSkip s => kparams s0 s | StAvl _, StAvl _ => True | StRb _, StRb _ => True | _, _ => False end.
Lemma skeep_trans a b c : skeep a b -> skeep b c -> skeep a c.
Proof. destruct a, b, c; cbn; try tauto. apply kparams_trans. Qed.
Lemma skeep_refl a : skeep a a.
Proof. destruct a; cbn; auto using kparams_refl. Qed.
Lemma stat_add_keep st x st' : stat_add st x = Ok st' -> skeep st st'.
Proof. destruct st; cbn; intros H; apply rmap_ok in H as (? & H & <-); auto. now apply skip_add_params in H. Qed.
Lemma stat_remove_keep st x st' : stat_remove st x = Ok st' -> skeep st st'.
Proof. destruct st; cbn; intros H; apply rmap_ok in H as (? & H & <-); auto. now apply skip_remove_params in H. Qed.
Lemma stat_clear_keep st st' : stat_clear st = Ok st' -> skeep st st'.
Proof. destruct st; cbn [stat_clear]; intros H; apply rmap_ok in H as (? & H & <-); cbn; auto. now apply skip_clear_params in H. Qed.
Lemma q_push_keep q x q' : q_push q x = Ok q' -> q_window q' = q_window q /\ q_interp q' = q_interp q /\ skeep (q_stat q) (q_stat q').
Proof.
  unfold q_push. intros H. apply bind_ok in H as (q1 & H1 & H). apply bind_ok in H as (st & Hs & [= <-]). apply stat_add_keep in Hs.
  cbn [q_window q_interp q_stat].
  enough (q_window q1 = q_window q /\ q_interp q1 = q_interp q /\ skeep (q_stat q) (q_stat q1)) as (E1 & E2 & E3)
    by (split; auto; split; auto; eapply skeep_trans; eauto).
  destruct (negb _); [| injection H1 as <-; auto using skeep_refl].
  apply bind_ok in H1 as (q2 & H2 & H1). apply bind_ok in H1 as (r & _ & [= <-]). cbn [q_window q_interp q_stat].
  destruct (_ =? _)%Z; [| injection H2 as <-; auto using skeep_refl].
  apply bind_ok in H2 as ((y & r') & _ & H2). apply bind_ok in H2 as (st' & Hr & [= <-]). apply stat_remove_keep in Hr. auto.
Qed.
Lemma q_clear_keep q q' : q_clear q = Ok q' -> q_window q' = q_window q /\ q_interp q' = q_interp q /\ skeep (q_stat q) (q_stat q').
Proof. unfold q_clear. intros H. apply bind_ok in H as (st & Hs & [= <-]). apply stat_clear_keep in Hs. auto. Qed.
Lemma q_run_keep q0 ops : forall q q', (q_window q = q_window q0 /\ q_interp q = q_interp q0 /\ skeep (q_stat q0) (q_stat q)) ->
  run q_push q_clear ops q = Ok q' -> q_window q' = q_window q0 /\ q_interp q' = q_interp q0 /\ skeep (q_stat q0) (q_stat q').
Proof.
  induction ops as [| o ops IH]; cbn [run]; intros q q' (E1 & E2 & E3) H; [injection H as <-; auto |].
  destruct o; apply bind_ok in H as (q1 & H1 & H); (eapply IH; [| exact H]); [apply q_push_keep in H1 as (F1 & F2 & F3) | apply q_clear_keep in H1 as (F1 & F2 & F3)];
    (split; [congruence | split; [congruence | eapply skeep_trans; eauto]]).
Qed.
(** An empty statistic as a constructor makes it *)
Definition fresh_stat (st : stat) : Prop :=
  match st with StAvl t => t = ALeaf | StRb t => t = RLeaf | StSkip s => exists mx probs rnd, s = skip_new mx probs rnd end.
Lemma impl_init_fresh e i os st : impl_init e i os = Ok st -> fresh_stat st.
Proof.
  unfold impl_init. destruct (i =? 0)%Z; [intros [= <-]; reflexivity |]. destruct (i =? 1)%Z; [intros [= <-]; reflexivity |].
  destruct (i =? 2)%Z; [| discriminate]. intros H. apply rmap_ok in H as (s & H & <-). unfold skip_create in H. apply bind_ok in H as (p & _ & [= <-]). cbn. eauto.
Qed.
Lemma qopts_fresh e os : forall q q', fresh_stat (q_stat q) -> qopts_apply e q os = Ok q' -> fresh_stat (q_stat q') /\ q_window q' = q_window q /\ q_queue q' = q_queue q.
Proof.
  induction os as [| o os IH]; cbn [qopts_apply]; intros q q' Hf H; [injection H as <-; auto |].
  apply bind_ok in H as (q1 & H1 & H).
  destruct o as [i so | i]; cbn in H1; destruct (negb _); try discriminate.
  - apply bind_ok in H1 as (st & Hi & [= <-]). apply impl_init_fresh in Hi. apply IH in H; auto.
  - injection H1 as <-. apply IH in H; auto.
Qed.
Lemma new_quantile_fresh e w os q : new_quantile e w os = Ok q -> fresh_stat (q_stat q) /\ q_window q = w /\ q_queue q = ring_new w.
Proof. unfold new_quantile. destruct (w <? 0)%Z; [discriminate |]. cbn. intros H. apply qopts_fresh in H; auto. reflexivity. Qed.
Lemma q_clear_fresh e w os q0 ops ops' q : new_quantile e w os = Ok q0 -> run q_push q_clear ops q0 = Ok q ->
  exists off, frel (qrel off) (run q_push q_clear (ops ++ OClear :: ops') q0) (run q_push q_clear ops' (reseed (sdraws (q_stat q)) q0)).
Proof.
  intros H0 H. apply new_quantile_fresh in H0 as (Hf & Hw & Hq). rewrite run_app, H. cbn [bind run].
  apply (q_run_keep q0 ops q0) in H as (E1 & E2 & E3); [| auto using skeep_refl].
  destruct q0 as [w0 i0 r0 st0]. cbn in *. subst w0 r0. destruct q as [w1 i1 r1 st1]. cbn in *. subst w1 i1.
  unfold q_clear at 1. cbn [q_stat q_window q_interp]. unfold reseed. cbn [q_stat q_window q_interp q_queue].
  destruct st0 as [t0 | t0 | s0], st1 as [t1 | t1 | s1]; cbn in Hf, E3; try contradiction.
  - subst t0. exists 0. cbn. eapply frun_rel; [intros; now apply q_push_rel | intros; now apply q_clear_rel |]. repeat split.
  - subst t0. exists 0. cbn. eapply frun_rel; [intros; now apply q_push_rel | intros; now apply q_clear_rel |]. repeat split.
  - destruct Hf as (mx & probs & rnd & ->). destruct (cleared_rel mx probs rnd s1 E3) as (t & Ht & K). cbn [stat_clear sdraws]. rewrite Ht. cbn [rmap bind].
    exists (sk_fresh s1 - 1). eapply frun_rel; [intros; now apply q_push_rel | intros; now apply q_clear_rel |].
    split; [reflexivity | split; [reflexivity | split; [reflexivity | exact K]]].
Qed.
