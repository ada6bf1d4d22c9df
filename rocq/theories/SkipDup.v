(** What survives of the skip list's widths when equal values are stored. *)
From Coq Require Import Permutation.
From Verif Require Import Base F64 OrderSpec MultisetSpec SortLib AvlProof SkipModel SkipProof.
Local Open Scope nat_scope.

(** Sum of the level-i widths of the nodes of a list *)
Fixpoint ws (st : nat -> snode) (i : nat) (l : list nat) : Z :=
  match l with [] => 0%Z | c :: t => ((if (i <? lvs st c)%nat then n_width (st c) i else 0) + ws st i t)%Z end.
Lemma ws_cons st i c t : ws st i (c :: t) = ((if (i <? lvs st c)%nat then n_width (st c) i else 0) + ws st i t)%Z.
Proof. reflexivity. Qed.
Lemma ws_app st i a b : ws st i (a ++ b) = (ws st i a + ws st i b)%Z.
Proof. induction a; cbn [ws app]; lia. Qed.
Lemma ws_ext st st' i l : (forall c, In c l -> lvs st' c = lvs st c /\ (i < lvs st c -> n_width (st' c) i = n_width (st c) i)) -> ws st' i l = ws st i l.
Proof.
  induction l as [| c l IH]; cbn [ws]; intros H; [reflexivity |]. rewrite IH by (intros; apply H; now right).
  destruct (H c) as [-> E]; [now left |]. destruct (Nat.ltb_spec i (lvs st c)); [rewrite E by auto |]; reflexivity.
Qed.
Lemma ws_one st st' i l p d : NoDup l -> In p l -> i < lvs st p -> (forall c, In c l -> lvs st' c = lvs st c) ->
  (forall c, In c l -> i < lvs st c -> n_width (st' c) i = if c =? p then (n_width (st c) i + d)%Z else n_width (st c) i) -> ws st' i l = (ws st i l + d)%Z.
Proof.
  induction l as [| c l IH]; cbn [ws]; intros Hd Hp Hi Hl Hw; [destruct Hp |]. apply NoDup_cons_iff in Hd as [Hc Hd].
  rewrite (Hl c) by now left. destruct Hp as [-> | Hp].
  - rewrite (ws_ext st st' i l).
    + destruct (Nat.ltb_spec i (lvs st p)); [| lia]. rewrite Hw by (auto; now left). rewrite Nat.eqb_refl. lia.
    + intros c Hin. split; [apply Hl; now right |]. intros Hic. rewrite Hw by (auto; now right). destruct (Nat.eqb_spec c p); [congruence | reflexivity].
  - rewrite IH; auto; [| intros; apply Hl; now right | intros; apply Hw; auto; now right].
    destruct (Nat.ltb_spec i (lvs st c)); [rewrite Hw by (auto; now left) |]; try lia.
    destruct (Nat.eqb_spec c p); [congruence | lia].
Qed.
Lemma ws_none st i l : nexti (lvs st) i l = None -> ws st i l = 0%Z.
Proof. intros H. pose proof (nexti_none _ _ _ H) as G. clear H. induction l as [| c l IH]; cbn [ws]; auto. rewrite IH by (intros; apply G; now right). specialize (G c (or_introl eq_refl)). destruct (Nat.ltb_spec i (lvs st c)); lia. Qed.
Definition nk (st : nat -> snode) (a : nat) : Z := fk (n_val (st a)).

(** The walk that measures a new node's width *)
Lemma width_walk_sum st M j : links st M -> (forall a, In a M -> nonnan (n_val (st a))) ->
  forall fuel P a Q acc w, M = P ++ a :: Q -> j < lvs st a -> width_walk fuel st j (nexti (lvs st) (S j) Q) (Some a) acc = Ok w ->
  exists C D, a :: Q = C ++ D /\ w = (acc + ws st j C)%Z /\
    match nexti (lvs st) (S j) Q with
    | None => D = []
    | Some t => (exists d D', D = d :: D' /\ nk st d = nk st t /\ j < lvs st d) /\ (exists X T, D = X ++ t :: T /\ nexti (lvs st) (S j) Q = Some t /\ ws st (S j) Q = ws st (S j) (t :: T)) /\
                (nk st a = nk st t -> C = [])
    end.
Proof.
  intros HL Hnn. induction fuel as [| fuel IH]; intros P a Q acc w E Ha H; [discriminate |].
  assert (Hna : nonnan (n_val (st a))) by (apply Hnn; rewrite E; apply in_mid).
  cbn [width_walk] in H. destruct (nexti (lvs st) (S j) Q) as [t |] eqn:Et.
  - destruct (nexti_some _ _ _ _ Et) as (Q1 & Q2 & EQ & Ht & Hn1).
    assert (Hnt : nonnan (n_val (st t))) by (apply Hnn; rewrite E, EQ; apply in_or_app; right; right; apply in_mid).
    assert (Hws : ws st (S j) Q = ws st (S j) (t :: Q2)) by (rewrite EQ, ws_app, (ws_none _ _ _ Hn1); lia).
    cbn [node_equals] in H. rewrite feq_key in H by assumption. destruct (Z.eqb_spec (fk (n_val (st a))) (fk (n_val (st t)))) as [Ek | Ek].
    + injection H as <-. exists [], (a :: Q). split; [reflexivity |]. split; [cbn; lia |]. split; [| split].
      * exists a, Q. auto.
      * exists (a :: Q1), Q2. rewrite EQ in *. auto.
      * auto.
    + rewrite get_width_ok, get_next_ok in H by exact Ha. cbn [bind] in H. rewrite (HL _ _ _ E j Ha) in H.
      destruct (nexti (lvs st) j Q) as [b |] eqn:Eb; [| pose proof (nexti_none _ _ _ Eb t) as G; rewrite EQ in G; specialize (G (in_mid _ _ _)); lia].
      destruct (nexti_some _ _ _ _ Eb) as (R1 & R2 & ER & Hb & Hm1).
      assert (Hsplit : (b = t /\ R1 = Q1 /\ R2 = Q2) \/ (lvs st b <= S j /\ nexti (lvs st) (S j) R2 = Some t)).
      { pose proof (nexti_le_none _ j (S j) _ ltac:(lia) Hm1) as Hm1'. rewrite ER, nexti_app_none in Et by exact Hm1'. cbn [nexti] in Et.
        destruct (Nat.ltb_spec (S j) (lvs st b)) as [Hlt |]; [left | right; auto]. injection Et as ->.
        rewrite EQ in ER. destruct (split_cmp _ _ _ _ _ _ ER) as [(-> & _ & ->) | [(X & -> & ->) | (X & -> & ->)]]; auto; exfalso.
        - pose proof (nexti_none _ _ _ Hm1 t (in_mid _ _ _)). lia.
        - pose proof (nexti_none _ _ _ Hn1 t (in_mid _ _ _)). lia. }
      assert (Hskip : ws st j R1 = 0%Z) by now apply ws_none.
      destruct Hsplit as [(-> & -> & ->) | [Hle Et2]].
      * destruct fuel as [| fuel]; [discriminate |]. cbn [width_walk node_equals] in H. rewrite feq_key, Z.eqb_refl in H by assumption. injection H as <-.
        exists (a :: Q1), (t :: Q2). split; [rewrite EQ; reflexivity |]. split; [cbn [ws]; destruct (Nat.ltb_spec j (lvs st a)); [lia | lia] |]. split; [| split].
        -- exists t, Q2. split; [reflexivity |]. split; [reflexivity | lia].
        -- exists [], Q2. auto.
        -- intros G. contradiction.
      * rewrite <- Et2 in H. destruct (IH (P ++ a :: R1) b R2 (acc + n_width (st a) j)%Z w) as (C & D & E1 & E2 & E3); auto.
        { rewrite E, ER, <- app_assoc. reflexivity. }
        rewrite Et2 in E3. destruct E3 as (F1 & (X & T & F2 & F3 & F5) & F4).
        exists (a :: R1 ++ C), D. split; [rewrite ER, E1; cbn [app]; rewrite <- app_assoc; reflexivity |].
        split; [cbn [ws]; rewrite ws_app, Hskip; destruct (Nat.ltb_spec j (lvs st a)); lia |]. split; [exact F1 |]. split.
        -- exists X, T. split; auto. split; auto. rewrite <- F5, ER, ws_app, (ws_none _ _ R1) by (eapply nexti_le_none; [| exact Hm1]; lia).
           cbn [ws]. destruct (Nat.ltb_spec (S j) (lvs st b)); lia.
        -- intros G. contradiction.
  - cbn [node_equals] in H. rewrite get_width_ok, get_next_ok in H by exact Ha. cbn [bind] in H. rewrite (HL _ _ _ E j Ha) in H.
    destruct (nexti (lvs st) j Q) as [b |] eqn:Eb.
    + destruct (nexti_some _ _ _ _ Eb) as (R1 & R2 & ER & Hb & Hm1).
      assert (Et2 : nexti (lvs st) (S j) R2 = None) by (apply nexti_none_intro; intros c Hc; apply (nexti_none _ _ _ Et); rewrite ER; apply in_or_app; right; now right).
      rewrite <- Et2 in H. destruct (IH (P ++ a :: R1) b R2 (acc + n_width (st a) j)%Z w) as (C & D & E1 & E2 & E3); auto.
      { rewrite E, ER, <- app_assoc. reflexivity. }
      rewrite Et2 in E3. subst D. rewrite app_nil_r in E1. exists (a :: R1 ++ C), []. split; [rewrite app_nil_r, ER, E1; reflexivity |].
      split; [cbn [ws]; rewrite ws_app, (ws_none _ _ R1 Hm1); destruct (Nat.ltb_spec j (lvs st a)); lia | reflexivity].
    + destruct fuel as [| fuel]; [discriminate |]. cbn in H. injection H as <-. exists (a :: Q), []. split; [now rewrite app_nil_r |].
      split; [cbn [ws]; rewrite (ws_none _ _ Q Eb); destruct (Nat.ltb_spec j (lvs st a)); lia | reflexivity].
Qed.

(** The widths of the new node: w j at level j, measured at level j-1 *)
Definition measured (st : nat -> snode) (x : nat) (B : list nat) (j : nat) (w : Z) : Prop :=
  exists C D, x :: B = C ++ D /\ w = ws st (j - 1) C /\
    match nexti (lvs st) j B with
    | None => D = []
    | Some t => (exists d D', D = d :: D' /\ nk st d = nk st t /\ j - 1 < lvs st d) /\ (exists X T, D = X ++ t :: T /\ j < lvs st t /\ ws st j B = ws st j (t :: T)) /\ (nk st x = nk st t -> C = [])
    end.
Lemma ws_shape st st' i l : same_shape st st' -> (forall c, In c l -> n_width (st' c) i = n_width (st c) i) -> ws st' i l = ws st i l.
Proof. intros Hs H. apply ws_ext. intros c Hc. split; [apply (lvs_same _ _ _ Hs) | auto]. Qed.
Lemma nk_same st st' a : same_shape st st' -> nk st' a = nk st a.
Proof. intros H. unfold nk. now rewrite (proj2 (H a)). Qed.
Lemma measured_ext st st' x B j w : same_shape st st' -> (forall c, In c (x :: B) -> n_width (st' c) (j - 1) = n_width (st c) (j - 1)) ->
  (forall c, In c B -> n_width (st' c) j = n_width (st c) j) -> measured st x B j w -> measured st' x B j w.
Proof.
  intros Hs Hw Hw2 (C & D & E & Ew & H). exists C, D. split; [exact E |]. split.
  { rewrite Ew. symmetry. apply ws_shape; auto. intros c Hc. apply Hw. rewrite E. apply in_or_app. auto. }
  rewrite (nexti_ext (lvs st') (lvs st)) by (intros; apply (lvs_same _ _ _ Hs)).
  destruct (nexti (lvs st) j B) as [t |] eqn:Et; [| exact H]. destruct H as ((d & D' & H1 & H2 & H3) & (X & T & H4 & H4' & H4'') & H5). split; [| split].
  - exists d, D'. rewrite !(nk_same _ _ _ Hs), (lvs_same _ _ _ Hs). auto.
  - exists X, T. rewrite (lvs_same _ _ _ Hs). split; auto. split; auto.
    rewrite !(ws_shape st st'); auto. intros c Hc. apply Hw2.
    destruct (nexti_some _ _ _ _ Et) as (Q1 & Q2 & EQ & _). 
    assert (In c (x :: B)) as [<- | G]; auto; [rewrite E, H4; apply in_or_app; right; apply in_or_app; auto |].
    destruct C as [| c0 C]; cbn in E.
    + rewrite H4 in E. destruct X as [| x0 X]; cbn in E; injection E as E0 E.
      * subst t. rewrite EQ. apply in_mid.
      * rewrite E. apply in_or_app. auto.
    + injection E as _ E. rewrite E, H4. apply in_or_app. right. apply in_or_app. auto.
  - now rewrite !(nk_same _ _ _ Hs).
Qed.
Lemma new_widths_sum prevs x P B fuel : forall n i st st', 1 <= i ->
  links st (P ++ x :: B) -> (forall a, In a (P ++ x :: B) -> nonnan (n_val (st a))) -> ~ In x B ->
  (forall j, i <= j < i + n -> j < n_lvl (st x) /\ j < n_lvl (st (prevs j)) /\ prevs j <> x /\ ~ In (prevs j) B /\ n_width (st x) j = 0%Z) ->
  new_widths fuel n i prevs x st = Ok st' ->
  same_shape st st' /\
    (forall c j, inr i n j = false \/ (c <> x /\ c <> prevs j) -> n_width (st' c) j = n_width (st c) j) /\
    forall j, i <= j < i + n -> measured st' x B j (n_width (st' x) j) /\ n_width (st' (prevs j)) j = (n_width (st (prevs j)) j - n_width (st' x) j)%Z.
Proof.
  induction n as [| n IH]; intros i st st' Hi HL Hnn Hx H E.
  { injection E as <-. split; [apply same_shape_refl |]. split; auto. intros j Hj. lia. }
  cbn [new_widths] in E. destruct (H i ltac:(lia)) as (H1 & H2 & H3 & H4 & H5).
  rewrite get_next_ok, get_width_ok in E by exact H1. cbn [bind] in E. rewrite (HL P x B eq_refl i H1) in E.
  apply bind_ok in E as (w & Ew & E). rewrite H5 in Ew.
  assert (Hm : measured st x B i w).
  { replace i with (S (i - 1)) in Ew at 2 by lia. apply (width_walk_sum st (P ++ x :: B) (i - 1) HL Hnn fuel P x B 0 w eq_refl) in Ew; [| unfold lvs; lia].
    replace (S (i - 1)) with i in Ew by lia. destruct Ew as (C & D & E1 & E2 & E3). exists C, D. split; [exact E1 |]. split; [lia |].
    destruct (nexti (lvs st) i B) as [t |] eqn:Et; [| exact E3]. destruct E3 as (F1 & (X & T & F2 & F3 & F3') & F4). split; [exact F1 |]. split; [| exact F4].
    exists X, T. split; auto. apply nexti_some in Et. destruct Et as (? & ? & ? & ? & ?). auto. }
  destruct (set_width_ok st x i w H1) as (st1 & E1 & S1 & W1 & N1). rewrite E1 in E. cbn [bind] in E.
  rewrite get_width_ok in E by (rewrite (proj1 (S1 _)); exact H2). cbn [bind] in E.
  destruct (set_width_ok st1 (prevs i) i (n_width (st1 (prevs i)) i - w)%Z) as (st2 & E2 & S2 & W2 & N2); [rewrite (proj1 (S1 _)); exact H2 |].
  rewrite E2 in E. cbn [bind] in E. pose proof (same_shape_trans _ _ _ S1 S2) as S12.
  assert (N12 : forall c j, n_next (st2 c) j = n_next (st c) j) by (intros; rewrite N2, N1; reflexivity).
  assert (W12 : forall c j, j <> i \/ (c <> x /\ c <> prevs i) -> n_width (st2 c) j = n_width (st c) j).
  { intros c j Hc. rewrite W2, !W1. destruct (Nat.eqb_spec j i) as [-> |]; rewrite ?andb_false_r; [| reflexivity].
    destruct Hc as [Hc | [Hc1 Hc2]]; [congruence |].
    destruct (Nat.eqb_spec c x); [congruence |]. destruct (Nat.eqb_spec c (prevs i)); [congruence |]. reflexivity. }
  assert (Wx : n_width (st2 x) i = w).
  { rewrite W2. destruct (Nat.eqb_spec x (prevs i)); [congruence |]. cbn [andb]. rewrite W1, !Nat.eqb_refl. reflexivity. }
  assert (Wp : n_width (st2 (prevs i)) i = (n_width (st (prevs i)) i - w)%Z).
  { rewrite W2, !Nat.eqb_refl. cbn [andb]. rewrite W1, Nat.eqb_refl, andb_true_r. destruct (Nat.eqb_spec (prevs i) x); [congruence | reflexivity]. }
  destruct (IH (S i) st2 st') as (S' & W' & D'); auto.
  { eapply links_ext; [exact S12 | | exact HL]. intros; apply N12. }
  { intros a Ha. rewrite (proj2 (S12 a)). auto. }
  { intros j Hj. rewrite !(proj1 (S12 _)). destruct (H j ltac:(lia)) as (G1 & G2 & G3 & G4 & G5). repeat split; auto. rewrite W12 by (left; lia). exact G5. }
  pose proof (same_shape_trans _ _ _ S12 S') as S0. split; [exact S0 |]. split.
  - intros c j Hc. rewrite inr_S in Hc. rewrite W'.
    + apply W12. destruct Hc as [Hc | Hc]; [| destruct (Nat.eq_dec j i); subst; tauto].
      apply orb_false_elim in Hc. destruct Hc as [Hc _]. apply Nat.eqb_neq in Hc. auto.
    + destruct Hc as [Hc | Hc]; [| auto]. apply orb_false_elim in Hc. tauto.
  - intros j Hj. destruct (Nat.eq_dec j i) as [-> | Hne].
    + rewrite !W' by (left; apply inr_self). rewrite Wx, Wp. split; [| reflexivity].
      eapply measured_ext; [exact S0 | | | exact Hm].
      * intros c Hc. rewrite W' by (left; unfold inr; destruct (Nat.leb_spec (S i) (i - 1)); [lia | reflexivity]). apply W12. left. lia.
      * intros c Hc. rewrite W' by (left; apply inr_self). apply W12. right. split; intros ->; contradiction.
    + destruct (D' j ltac:(lia)) as [D1 D2]. split; [exact D1 |]. rewrite D2, W12 by (left; lia). reflexivity.
Qed.

(** ** The invariant. The widths of each level add up to the length, going up a level never adds to the
    distance to the end, and equal neighbours above the bottom level are at distance 0. *)
Record DInv (mx : nat) (st : nat -> snode) (L : list nat) : Prop := {
  d_bot : forall c, In c (0 :: L) -> n_width (st c) 0 = 1%Z;
  d_tot : forall i, i < mx -> ws st i (0 :: L) = (zlen L + 1)%Z;
  d_up : forall P a Q i, 0 :: L = P ++ a :: Q -> S i < lvs st a -> (ws st (S i) (a :: Q) <= ws st i (a :: Q))%Z;
  d_eq : forall P a Q b i, L = P ++ a :: Q -> S i < lvs st a -> nexti (lvs st) (S i) Q = Some b -> nk st a = nk st b -> n_width (st a) (S i) = 0%Z }.

Definition ksorted (st : nat -> snode) (l : list nat) : Prop := forall P a Q b R, l = P ++ a :: Q ++ b :: R -> (nk st a <= nk st b)%Z.
Lemma sorted_ks st l : sortedz (keys (vals st l)) -> ksorted st l.
Proof.
  intros H P a Q b R ->. unfold vals, keys in H. rewrite map_map, map_app in H. apply sortedz_app in H as (_ & H & _). cbn [map] in H.
  apply sortedz_cons in H as [_ H]. apply H. rewrite map_app. apply in_or_app. right. left. reflexivity.
Qed.
(** Between two nodes of equal value no width is negative. *)
Lemma ws_mono st l P d X t T j : ksorted st l -> l = P ++ d :: X ++ t :: T -> nk st d = nk st t -> j < lvs st t ->
  (forall c, In c l -> n_width (st c) 0 = 1%Z) ->
  (forall P a Q b i, l = P ++ a :: Q -> S i < lvs st a -> nexti (lvs st) (S i) Q = Some b -> nk st a = nk st b -> n_width (st a) (S i) = 0%Z) ->
  (ws st j (t :: T) <= ws st j (d :: X ++ t :: T))%Z.
Proof.
  intros Hs E Ek Hj Hb Hq.
  assert (G : forall Y P', l = P' ++ Y ++ t :: T -> (forall c, In c Y -> nk st c = nk st t) -> (0 <= ws st j Y)%Z).
  { induction Y as [| c Y IH]; intros P' El Hy; cbn [ws]; [lia |].
    assert (0 <= ws st j Y)%Z. { apply (IH (P' ++ [c])); [rewrite El, <- app_assoc; reflexivity | intros; apply Hy; now right]. }
    destruct (Nat.ltb_spec j (lvs st c)) as [Hc |]; [| lia]. destruct j as [| j].
    - rewrite Hb; [lia |]. rewrite El. apply in_or_app. right. left. reflexivity.
    - destruct (nexti (lvs st) (S j) (Y ++ t :: T)) as [b |] eqn:Eb.
      + rewrite (Hq P' c (Y ++ t :: T) b j El Hc Eb); [lia |]. rewrite Hy by now left. symmetry.
        destruct (nexti (lvs st) (S j) Y) as [b' |] eqn:Ey.
        * rewrite (nexti_app_some _ _ _ _ _ Ey) in Eb. injection Eb as <-. apply Hy. right.
          destruct (nexti_some _ _ _ _ Ey) as (? & ? & -> & _). apply in_mid.
        * rewrite nexti_app_none in Eb by exact Ey. cbn [nexti] in Eb. destruct (Nat.ltb_spec (S j) (lvs st t)); [| lia]. now injection Eb as <-.
      + pose proof (nexti_none _ _ _ Eb t (in_mid _ _ _)). lia. }
  change (d :: X ++ t :: T) with ((d :: X) ++ t :: T). rewrite ws_app. enough (0 <= ws st j (d :: X))%Z by lia. apply (G _ P); [exact E |].
  intros c [<- | Hc]; [exact Ek |]. apply in_split in Hc as (X1 & X2 & ->).
  assert (H1 : (nk st d <= nk st c)%Z) by (apply (Hs P d X1 c (X2 ++ t :: T)); rewrite E; repeat (rewrite <- app_assoc; cbn [app]); reflexivity).
  assert (H2 : (nk st c <= nk st t)%Z) by (apply (Hs (P ++ d :: X1) c X2 t T); rewrite E; repeat (rewrite <- app_assoc; cbn [app]); reflexivity). lia.
Qed.

Lemma split3 {A} (M B : list A) x P a Q : M ++ x :: B = P ++ a :: Q ->
  (exists X, M = P ++ a :: X /\ Q = X ++ x :: B) \/ (P = M /\ a = x /\ Q = B) \/ (exists X, B = X ++ a :: Q /\ P = M ++ x :: X).
Proof.
  intros E. destruct (split_cmp _ _ _ _ _ _ E) as [(-> & -> & ->) | [(X & -> & ->) | (X & -> & ->)]]; eauto 10.
Qed.
Lemma split2 {A} (M B : list A) P a Q : M ++ B = P ++ a :: Q ->
  (exists X, M = P ++ a :: X /\ Q = X ++ B) \/ (exists X, B = X ++ a :: Q /\ P = M ++ X).
Proof.
  revert P. induction M as [| m M IH]; intros P E; [right; eauto |].
  destruct P as [| p P]; cbn [app] in E; injection E as E0 E; subst; [left; eexists; split; reflexivity |].
  destruct (IH P E) as [(X & -> & ->) | (X & -> & ->)]; [left | right]; exists X; auto.
Qed.

Lemma prev_unique lv i M p P a X : NoDup M -> is_prev lv i M p -> M = P ++ a :: X -> i < lv a -> In p (a :: X).
Proof.
  intros Hd (P' & Q' & E & Hp & Hn) E' Ha. rewrite E' in E.
  destruct (split_cmp _ _ _ _ _ _ E) as [(_ & -> & _) | [(Y & -> & _) | (Y & -> & ->)]].
  - now left.
  - right. apply in_mid.
  - pose proof (nexti_none _ _ _ Hn a (in_mid _ _ _)). lia.
Qed.
Lemma nk_in st l a : In a l -> In (nk st a) (keys (vals st l)).
Proof. intros H. unfold keys, vals. rewrite map_map. now apply (in_map (fun a => fk (n_val (st a)))). Qed.

Lemma skip_add_dinv s s' L L' v : LInv s L -> LInv s' L' -> added s s' L L' v -> DInv (sk_max s) (sk_store s) L -> DInv (sk_max s) (sk_store s') L'.
Proof.
  intros I I' (A & B & prevs & k & st3 & H) D. cbv zeta in H. set (x := sk_fresh s) in *.
  destruct H as (-> & -> & HkA & HkB & Hk & Hx & Hnd & Hpv & Hsh & Hlx & Hvx & HL3 & Hnn & Hw3 & Hx3 & E).
  set (st := sk_store s) in *. set (st4 := sk_store s') in *. set (mx := sk_max s) in *.
  assert (Hin : forall j, j < mx -> In (prevs j) (0 :: A)) by (intros j Hj; eapply prev_in, Hpv, Hj).
  assert (Hpx : forall j, j < mx -> prevs j <> x).
  { intros j Hj G. apply Hx. apply in_or_app. left. rewrite <- G. auto. }
  assert (HpB : forall j, j < mx -> ~ In (prevs j) B) by (intros j Hj G; apply (nodup_app_disj (0 :: A) B (prevs j) Hnd); auto).
  assert (HxB : ~ In x B) by (intros G; apply Hx, in_or_app; auto).
  assert (HxM : ~ In x (0 :: A)) by (intros G; apply Hx, in_or_app; auto).
  destruct (new_widths_sum prevs x (0 :: A) B (S (sfuel s)) (k - 1) 1 st3 st4) as (S4 & W4 & D4); auto.
  { intros j Hj. change (n_lvl (st3 x)) with (lvs st3 x). change (n_lvl (st3 (prevs j))) with (lvs st3 (prevs j)). rewrite Hlx.
    split; [lia |]. split. { rewrite (proj1 (Hsh _ (Hpx j ltac:(lia)))). destruct (Hpv j) as (? & ? & ? & ? & ?); [lia | auto]. }
    split; [apply Hpx; lia |]. split; [apply HpB; lia |]. rewrite Hx3 by lia. destruct (Nat.eqb_spec j 0); [lia | reflexivity]. }
  assert (Lv : forall c, c <> x -> lvs st4 c = lvs st c) by (intros c Hc; rewrite (lvs_same _ _ _ S4); now apply Hsh).
  assert (Lx : lvs st4 x = k) by (rewrite (lvs_same _ _ _ S4); exact Hlx).
  assert (Nk : forall c, c <> x -> nk st4 c = nk st c) by (intros c Hc; rewrite (nk_same _ _ _ S4); unfold nk; now rewrite (proj2 (Hsh c Hc))).
  assert (Nx : nk st4 x = fk v) by (rewrite (nk_same _ _ _ S4); unfold nk; now rewrite Hvx).
  assert (Wx0 : n_width (st4 x) 0 = 1%Z) by (rewrite W4 by (left; reflexivity); rewrite Hx3 by lia; reflexivity).
  assert (W : forall c j, c <> x -> j < mx -> n_width (st4 c) j =
     if (1 <=? j) && (c =? prevs j) then (n_width (st c) j + (1 - (if (j <? k)%nat then n_width (st4 x) j else 0)))%Z else n_width (st c) j).
  { intros c j Hc Hj. destruct (inr 1 (k - 1) j) eqn:Ein.
    - unfold inr in Ein. apply andb_prop in Ein as [E1 E2]. apply Nat.leb_le in E1. apply Nat.ltb_lt in E2.
      destruct (Nat.leb_spec 1 j); [| lia]. cbn [andb]. destruct (Nat.eqb_spec c (prevs j)) as [-> | Hne].
      + rewrite (proj2 (D4 j ltac:(lia))), Hw3 by auto. rewrite Nat.eqb_refl. destruct (Nat.leb_spec 1 j); [| lia]. cbn [andb]. destruct (Nat.ltb_spec j k); lia.
      + rewrite W4 by auto. rewrite Hw3 by auto. destruct (Nat.eqb_spec c (prevs j)); [contradiction |]. now rewrite andb_false_r.
    - rewrite W4 by auto. rewrite Hw3 by auto. destruct (_ && _) eqn:Ec; [| reflexivity]. apply andb_prop in Ec as [Ec _]. apply Nat.leb_le in Ec.
      unfold inr in Ein. destruct (Nat.leb_spec 1 j), (Nat.ltb_spec j (1 + (k - 1))); cbn in Ein; try discriminate; try lia.
      destruct (Nat.ltb_spec j k); lia. }
  assert (WB : forall c j, In c B -> j < mx -> n_width (st4 c) j = n_width (st c) j).
  { intros c j Hc Hj. rewrite W; auto; [| intros ->; contradiction]. destruct (Nat.eqb_spec c (prevs j)) as [-> |]; [| now rewrite andb_false_r].
    exfalso. now apply (HpB j). }
  assert (wsB : forall C j, incl C B -> j < mx -> ws st4 j C = ws st j C).
  { intros C j HC Hj. apply ws_ext. intros c Hc. split; [apply Lv; intros ->; now apply HC in Hc |]. intros _. apply WB; auto. }
  assert (Hmx : 1 <= mx) by apply (li_max _ _ I).
  assert (Hhead : lvs st 0 = mx) by apply (li_head _ _ I).
  (* the nodes that start before the new one see one more *)
  assert (wsM : forall P a X j, 0 :: A = P ++ a :: X -> j < lvs st a -> j < mx -> ws st4 j (a :: X ++ x :: B) = (ws st j (a :: X ++ B) + 1)%Z).
  { intros P a X j EM Ha Hj. change (a :: X ++ x :: B) with ((a :: X) ++ x :: B). change (a :: X ++ B) with ((a :: X) ++ B). rewrite !ws_app. rewrite (ws_cons st4 j x B).
    rewrite Lx. rewrite (wsB B j (incl_refl _) Hj).
    assert (Hsub : forall c, In c (a :: X) -> c <> x) by (intros c Hc ->; apply HxM; rewrite EM; apply in_or_app; auto).
    assert (HdM : NoDup (a :: X)). { pose proof (nodup_head _ _ Hnd) as G. rewrite EM in G. now apply NoDup_tail in G. }
    destruct j as [| j].
    - rewrite (ws_ext st st4 0 (a :: X)); [destruct (Nat.ltb_spec 0 k); lia |].
      intros c Hc. split; [apply Lv; auto |]. intros _. rewrite W by auto. reflexivity.
    - rewrite (ws_one st st4 (S j) (a :: X) (prevs (S j)) (1 - (if (S j <? k)%nat then n_width (st4 x) (S j) else 0))%Z).
      + destruct (Nat.ltb_spec (S j) k); lia.
      + exact HdM.
      + eapply prev_unique; [| apply Hpv; exact Hj | exact EM | exact Ha]. eapply nodup_head; eauto.
      + destruct (Hpv (S j) Hj) as (? & ? & ? & ? & ?); auto.
      + intros c Hc. apply Lv; auto.
      + intros c Hc _. rewrite W by auto. reflexivity. }
  assert (Hlvm : forall c, In c ((0 :: A) ++ B) -> lvs st c <= mx).
  { intros c [<- | Hc]; [lia |]. apply (li_lv _ _ I). exact Hc. }
  (* equal neighbours *)
  assert (EQ : forall P a Q b i, A ++ x :: B = P ++ a :: Q -> S i < lvs st4 a -> nexti (lvs st4) (S i) Q = Some b -> nk st4 a = nk st4 b -> n_width (st4 a) (S i) = 0%Z).
  { intros P a Q b i El Hi Hn Ek. destruct (split3 _ _ _ _ _ _ El) as [(X & EA & EQ) | [(EP & Ea & EQ) | (X & EB & EP)]].
    - assert (HaA : In a A) by (rewrite EA; apply in_mid).
      assert (Hax : a <> x) by (intros ->; apply HxM; now right). rewrite Lv in Hi by exact Hax. rewrite (Nk a Hax) in Ek.
      assert (Ham : S i < mx) by (specialize (Hlvm a); cbn in Hlvm; specialize (Hlvm (or_intror (in_or_app _ _ _ (or_introl HaA)))); lia).
      assert (EX : nexti (lvs st4) (S i) X = nexti (lvs st) (S i) X).
      { apply nexti_ext. intros c Hc. apply Lv. intros ->. apply HxM. right. rewrite EA. apply in_or_app. right. now right. }
      destruct (nexti (lvs st) (S i) X) as [b' |] eqn:Eb.
      + subst Q. rewrite (nexti_app_some _ _ _ _ _ EX) in Hn. injection Hn as <-.
        assert (Hbx : b' <> x). { destruct (nexti_some _ _ _ _ Eb) as (X1 & X2 & -> & _). intros ->. apply HxM. right. rewrite EA. apply in_or_app. right. right. apply in_mid. }
        rewrite (Nk b' Hbx) in Ek. rewrite W by auto.
        destruct (Nat.eqb_spec a (prevs (S i))) as [Ep |].
        { exfalso. apply (prev_iff (lvs st) (S i) (0 :: A) _ (0 :: P) a X (nodup_head _ _ Hnd) (Hpv _ Ham)) in Ep; auto; [congruence | now rewrite EA]. }
        rewrite andb_false_r. apply (d_eq _ _ _ D P a (X ++ B) b' i); auto; [rewrite EA, <- app_assoc; reflexivity | now apply nexti_app_some].
      + exfalso. subst Q. rewrite nexti_app_none in Hn by exact EX.
        assert (Hka : (nk st a < fk v)%Z) by (apply HkA; unfold skeys; apply nk_in; exact HaA).
        cbn [nexti] in Hn. destruct (S i <? lvs st4 x); [injection Hn as <-; rewrite Nx in Ek; lia |].
        destruct (nexti_some _ _ _ _ Hn) as (X1 & X2 & EB & _).
        assert (HbB : In b B) by (rewrite EB; apply in_mid). rewrite Nk in Ek by (intros ->; contradiction).
        assert (fk v <= nk st b)%Z by (apply HkB; unfold skeys; apply nk_in; exact HbB). lia.
    - subst P a Q. rewrite Lx in Hi. destruct (D4 (S i) ltac:(lia)) as [(C & D0 & E1 & E2 & E3) _].
      rewrite Hn in E3. destruct E3 as (_ & _ & E3). rewrite E2, (E3 Ek). reflexivity.
    - assert (HaB : In a B) by (rewrite EB; apply in_mid). assert (Hax : a <> x) by (intros ->; contradiction).
      rewrite Lv in Hi by exact Hax. rewrite (Nk a Hax) in Ek.
      assert (Ham : S i < mx) by (specialize (Hlvm a (in_or_app _ _ _ (or_intror HaB))); lia).
      assert (EX : nexti (lvs st4) (S i) Q = nexti (lvs st) (S i) Q).
      { apply nexti_ext. intros c Hc. apply Lv. intros ->. apply HxB. rewrite EB. apply in_or_app. right. now right. }
      rewrite EX in Hn. assert (Hbx : b <> x). { destruct (nexti_some _ _ _ _ Hn) as (X1 & X2 & -> & _). intros ->. apply HxB. rewrite EB. apply in_or_app. right. right. apply in_mid. }
      rewrite (Nk b Hbx) in Ek. rewrite WB by auto. apply (d_eq _ _ _ D (A ++ X) a Q b i); auto. rewrite EB, <- app_assoc. reflexivity. }
  assert (BOT : forall c, In c (0 :: A ++ x :: B) -> n_width (st4 c) 0 = 1%Z).
  { intros c Hc. destruct (Nat.eq_dec c x) as [-> | Hcx]; [exact Wx0 |]. rewrite W by (auto; lia). cbn [Nat.leb andb]. apply (d_bot _ _ _ D).
    destruct Hc as [<- | Hc]; [now left | right]. apply in_app_or in Hc. apply in_or_app. destruct Hc as [| [|]]; [auto | congruence | auto]. }
  constructor; [exact BOT | | | exact EQ].
  - intros i Hi. rewrite (wsM [] 0 A i eq_refl); auto; [| lia].
    rewrite (d_tot _ _ _ D i Hi). unfold zlen. rewrite !app_length. cbn [length]. lia.
  - intros P a Q i El Hi. destruct (split3 (0 :: A) B x P a Q El) as [(X & EA & EQ') | [(EP & Ea & EQ') | (X & EB & EP)]].
    + subst Q. assert (Hax : a <> x) by (intros ->; apply HxM; rewrite EA; apply in_mid). rewrite Lv in Hi by exact Hax.
      assert (Ham : S i < mx). { specialize (Hlvm a). rewrite EA in Hlvm. specialize (Hlvm (in_or_app _ _ _ (or_introl (in_mid _ _ _)))). lia. }
      rewrite !(wsM P a X) by (auto; lia). pose proof (d_up _ _ _ D P a (X ++ B) i) as G.
      assert (ws st (S i) (a :: X ++ B) <= ws st i (a :: X ++ B))%Z; [| lia]. apply G; auto. change (0 :: A ++ B) with ((0 :: A) ++ B). rewrite EA, <- app_assoc. reflexivity.
    + subst P a Q. rewrite Lx in Hi. destruct (D4 (S i) ltac:(lia)) as [(C & D0 & E1 & E2 & E3) _]. cbn [Nat.sub] in E2, E3. rewrite Nat.sub_0_r in E2, E3.
      rewrite (ws_cons st4 (S i) x B), Lx. destruct (Nat.ltb_spec (S i) k); [| lia]. rewrite E2, E1, ws_app.
      destruct (nexti (lvs st4) (S i) B) as [t |] eqn:Et.
      * destruct E3 as ((d & D' & Ed & Hdk & Hdl) & (X & T & Ex & Ht & Hws) & _). rewrite Hws.
        (* t is an old node *)
        assert (HtB : In t B) by (destruct (nexti_some _ _ _ _ Et) as (? & ? & -> & _); apply in_mid).
        assert (HtT : exists Y, B = Y ++ t :: T).
        { rewrite Ex in E1. destruct C as [| c C]; cbn in E1; [destruct X as [| x0 X]; cbn in E1; injection E1 as E0 E1; [subst t; contradiction | eauto] |].
          injection E1 as _ E1. exists (C ++ X). rewrite E1, <- app_assoc. reflexivity. }
        destruct HtT as (Y & EB).
        assert (Htx : t <> x) by (intros ->; contradiction).
        assert (Htm : S i < mx) by lia.
        assert (U1 : (ws st4 (S i) (t :: T) <= ws st4 i (t :: T))%Z).
        { rewrite !(wsB (t :: T)) by (try lia; intros c Hc; rewrite EB; apply in_or_app; now right).
          rewrite Lv in Ht by exact Htx. apply (d_up _ _ _ D (0 :: A ++ Y)); auto. rewrite EB. cbn [app]. rewrite <- app_assoc. reflexivity. }
        assert (U2 : (ws st4 i (t :: T) <= ws st4 i (d :: D'))%Z).
        { rewrite Ed in Ex. destruct X as [| x0 X]; cbn in Ex; injection Ex as -> ->; [lia |].
          apply (ws_mono st4 (A ++ x :: B) (A ++ C)); auto.
          - apply sorted_ks. apply (li_sorted _ _ I').
          - rewrite E1, Ed, <- app_assoc. reflexivity.
          - lia.
          - intros c Hc. apply BOT. now right. }
        rewrite Ed. lia.
      * subst D0. cbn [ws]. rewrite (ws_none _ _ _ Et). lia.
    + assert (HaB : In a B) by (rewrite EB; apply in_mid). rewrite Lv in Hi by (intros ->; contradiction).
      assert (Ham : S i < mx) by (specialize (Hlvm a (in_or_app _ _ _ (or_intror HaB))); lia).
      rewrite !wsB by (try lia; intros c Hc; rewrite EB; apply in_or_app; now right).
      apply (d_up _ _ _ D (0 :: A ++ X)); auto. rewrite EB. cbn [app]. rewrite <- app_assoc. reflexivity.
Qed.

Lemma skip_remove_dinv s s' L L' v : LInv s L -> removed s s' L L' v -> DInv (sk_max s) (sk_store s) L -> DInv (sk_max s) (sk_store s') L'.
Proof.
  intros I [(-> & ->) | (A & x & B & prevs & -> & -> & HkA & Hkx & HkB & Hpv & Hs & W)] D; [exact D |].
  set (st := sk_store s) in *. set (st' := sk_store s') in *. set (mx := sk_max s) in *.
  assert (Hnd : NoDup ((0 :: A) ++ x :: B)) by apply (li_nd _ _ I).
  assert (Hmx : 1 <= mx) by apply (li_max _ _ I).
  assert (Hhead : lvs st 0 = mx) by apply (li_head _ _ I).
  assert (Hlx : 1 <= lvs st x <= mx) by (apply (li_lv _ _ I), in_mid).
  assert (HndM : NoDup (0 :: A)) by (eapply nodup_head; exact Hnd).
  assert (Hin : forall j, j < mx -> In (prevs j) (0 :: A)) by (intros j Hj; eapply prev_in, Hpv, Hj).
  assert (HpB : forall j, j < mx -> ~ In (prevs j) (x :: B)) by (intros j Hj G; apply (nodup_app_disj (0 :: A) (x :: B) (prevs j) Hnd); auto).
  assert (Lv : forall c, lvs st' c = lvs st c) by (intros c; apply (lvs_same _ _ _ Hs)).
  assert (Nk : forall c, nk st' c = nk st c) by (intros c; apply (nk_same _ _ _ Hs)).
  assert (WB : forall c j, In c (x :: B) -> j < mx -> n_width (st' c) j = n_width (st c) j).
  { intros c j Hc Hj. rewrite W by auto. destruct (Nat.eqb_spec c (prevs j)) as [-> |]; [| reflexivity]. exfalso. now apply (HpB j). }
  assert (wsB : forall C j, incl C B -> j < mx -> ws st' j C = ws st j C).
  { intros C j HC Hj. apply ws_ext. intros c Hc. split; [apply Lv |]. intros _. apply WB; auto. right. auto. }
  assert (wsM : forall P a X j, 0 :: A = P ++ a :: X -> j < lvs st a -> j < mx -> ws st' j (a :: X ++ B) = (ws st j (a :: X ++ x :: B) - 1)%Z).
  { intros P a X j EM Ha Hj. change (a :: X ++ x :: B) with ((a :: X) ++ x :: B). change (a :: X ++ B) with ((a :: X) ++ B). rewrite !ws_app, (ws_cons st j x B).
    rewrite (wsB B j (incl_refl _) Hj).
    assert (HdM : NoDup (a :: X)). { pose proof HndM as G. rewrite EM in G. now apply NoDup_tail in G. }
    rewrite (ws_one st st' j (a :: X) (prevs j) (if (j <? lvs st x)%nat then (n_width (st x) j - 1)%Z else (- 1)%Z)).
    - destruct (Nat.ltb_spec j (lvs st x)); lia.
    - exact HdM.
    - eapply prev_unique; [exact HndM | apply Hpv; exact Hj | exact EM | exact Ha].
    - destruct (Hpv j Hj) as (? & ? & ? & ? & ?); auto.
    - intros c _. apply Lv.
    - intros c Hc _. rewrite W by auto. destruct (c =? prevs j); [| reflexivity]. destruct (j <? lvs st x); lia. }
  assert (Hlvm : forall c, In c ((0 :: A) ++ B) -> lvs st c <= mx).
  { intros c [<- | Hc]; [lia |]. apply (li_lv _ _ I). apply in_app_or in Hc. apply in_or_app. destruct Hc; [auto | right; now right]. }
  constructor.
  - intros c Hc. rewrite W by lia. assert (G : n_width (st c) 0 = 1%Z).
    { apply (d_bot _ _ _ D). destruct Hc as [<- | Hc]; [now left | right]. apply in_app_or in Hc. apply in_or_app. destruct Hc; [auto | right; now right]. }
    rewrite G. destruct (c =? prevs 0); [| reflexivity]. destruct (Nat.ltb_spec 0 (lvs st x)); [| lia].
    rewrite (d_bot _ _ _ D x); [reflexivity |]. right. apply in_mid.
  - intros i Hi. rewrite (wsM [] 0 A i eq_refl) by (auto; lia). rewrite (d_tot _ _ _ D i Hi). unfold zlen. rewrite !app_length. cbn [length]. lia.
  - intros P a Q i El Hi. rewrite Lv in Hi. destruct (split2 (0 :: A) B P a Q El) as [(X & EA & ->) | (X & EB & EP)].
    + assert (Ham : S i < mx). { specialize (Hlvm a). rewrite EA in Hlvm. specialize (Hlvm (in_or_app _ _ _ (or_introl (in_mid _ _ _)))). lia. }
      rewrite !(wsM P a X) by (auto; lia). assert (ws st (S i) (a :: X ++ x :: B) <= ws st i (a :: X ++ x :: B))%Z; [| lia].
      apply (d_up _ _ _ D P); auto. change (0 :: A ++ x :: B) with ((0 :: A) ++ x :: B). rewrite EA, <- app_assoc. reflexivity.
    + assert (HaB : In a B) by (rewrite EB; apply in_mid).
      assert (Ham : S i < mx) by (specialize (Hlvm a (in_or_app _ _ _ (or_intror HaB))); lia).
      rewrite !wsB by (try lia; intros c Hc; rewrite EB; apply in_or_app; now right).
      apply (d_up _ _ _ D (0 :: A ++ x :: X)); auto. rewrite EB. cbn [app]. rewrite <- app_assoc. reflexivity.
  - intros P a Q b i El Hi Hn Ek. rewrite Lv in Hi. rewrite !Nk in Ek. rewrite (nexti_ext (lvs st') (lvs st)) in Hn by (intros; apply Lv).
    destruct (split2 _ _ _ _ _ El) as [(X & EA & ->) | (X & EB & EP)].
    + assert (HaA : In a A) by (rewrite EA; apply in_mid).
      assert (Ham : S i < mx) by (specialize (Hlvm a (in_or_app (0 :: A) B a (or_introl (or_intror HaA)))); lia).
      destruct (nexti (lvs st) (S i) X) as [b' |] eqn:Eb.
      * rewrite (nexti_app_some _ _ _ _ _ Eb) in Hn. injection Hn as <-. rewrite W by auto.
        destruct (Nat.eqb_spec a (prevs (S i))) as [Ep |].
        { exfalso. apply (prev_iff (lvs st) (S i) (0 :: A) _ (0 :: P) a X HndM (Hpv _ Ham)) in Ep; auto; [congruence | now rewrite EA]. }
        apply (d_eq _ _ _ D P a (X ++ x :: B) b' i); auto; [rewrite EA, <- app_assoc; reflexivity | now apply nexti_app_some].
      * exfalso. rewrite nexti_app_none in Hn by exact Eb.
        assert (Hka : (nk st a < fk v)%Z) by (apply HkA; unfold skeys; apply nk_in; exact HaA).
        destruct (nexti_some _ _ _ _ Hn) as (X1 & X2 & EB & _).
        assert (HbB : In b B) by (rewrite EB; apply in_mid).
        assert (fk v <= nk st b)%Z by (apply HkB; unfold skeys; apply nk_in; exact HbB). lia.
    + assert (HaB : In a B) by (rewrite EB; apply in_mid).
      assert (Ham : S i < mx) by (specialize (Hlvm a (in_or_app _ _ _ (or_intror HaB))); lia).
      rewrite WB by (auto; now right). apply (d_eq _ _ _ D (A ++ x :: X) a Q b i); auto. rewrite EB, <- app_assoc. reflexivity.
Qed.

Lemma dinv_empty mx st : 1 <= mx -> st 0 = empty_head mx -> DInv mx st [].
Proof.
  intros Hm H0. assert (L0 : lvs st 0 = mx) by (unfold lvs; now rewrite H0).
  assert (Hsp : forall A a B, [0] = A ++ a :: B -> a = 0 /\ B = []).
  { intros A a B E. destruct A as [|y A]; cbn in E; injection E as <- E; [auto|]. destruct A; discriminate. }
  constructor.
  - intros c [<- | []]. now rewrite H0.
  - intros i Hi. cbn [ws]. rewrite L0, H0. destruct (Nat.ltb_spec i mx); [reflexivity | lia].
  - intros P a Q i E Hi. apply Hsp in E as [-> ->]. cbn [ws]. rewrite L0 in *. rewrite H0. destruct (Nat.ltb_spec i mx), (Nat.ltb_spec (S i) mx); cbn; lia.
  - intros P a Q b i E. destruct P; discriminate.
Qed.

(** ** Every history *)
Definition SkDInv (mx : nat) (ks : list Z) (s : skip) : Prop :=
  sk_max s = mx /\ exists L, LInv s L /\ skeys s L = ks /\ DInv mx (sk_store s) L.
Lemma skip_reach_d mx probs rnd ops : 1 <= mx -> Forall sop_nonnan ops ->
  exists s, skip_run mx probs rnd ops = Ok s /\ SkDInv mx (sortz (keys (bag ops))) s.
Proof.
  intros Hm Hn. unfold skip_run. apply (srun_inv skip_add skip_remove skip_clear (SkDInv mx)); [| | | | exact Hn].
  - split; [reflexivity |]. exists []. split; [apply skip_empty_inv; cbn; auto |]. split; [reflexivity |]. now apply dinv_empty.
  - intros ks s v _ [<- [L [I [<- D]]]] Hv. destruct (skip_add_full s L v I Hv) as (s' & L' & (E & I' & Em' & Hk & _) & Ha).
    exists s'. split; [exact E |]. split; [congruence |]. exists L'. split; [exact I' |]. split; [exact Hk |]. eapply skip_add_dinv; eauto.
  - intros ks s v _ [<- [L [I [<- D]]]] Hv. destruct (skip_remove_full s L v I Hv) as (s' & L' & (E & I' & Em' & Hk & _) & Ha).
    exists s'. split; [exact E |]. split; [congruence |]. exists L'. split; [exact I' |]. split; [exact Hk |]. eapply skip_remove_dinv; eauto.
  - intros ks s _ [<- [L [I [<- D]]]]. eexists. split; [reflexivity |]. split; [reflexivity |]. exists [].
    split; [| split; [reflexivity |]].
    + apply skip_empty_inv; cbn [sk_max sk_store sk_fresh sk_len upd]; auto. apply (li_fresh _ _ I). now left.
    + apply dinv_empty; [apply I | reflexivity].
Qed.

(** ** Select *)
Lemma select_walk_d mx st L i k : links st (0 :: L) -> DInv mx st L -> (k <= zlen L)%Z ->
  forall fuel P a Q pos, 0 :: L = P ++ a :: Q -> i < lvs st a -> (zlen L + 1 - ws st i (a :: Q) <= pos <= k)%Z -> (P = [] -> pos = 0%Z) -> length Q < fuel ->
  exists P' a' Q' pos', select_walk fuel st i k (Some a) pos = Ok (Some a', pos') /\ 0 :: L = P' ++ a' :: Q' /\
    i < lvs st a' /\ (zlen L + 1 - ws st i (a' :: Q') <= pos' <= k)%Z /\ (P' = [] -> pos' = 0%Z) /\ (k < pos' + n_width (st a') i)%Z.
Proof.
  intros HL D Hk. induction fuel as [| fuel IH]; [lia |]. intros P a Q pos E Ha Hp H0 Hf.
  cbn [select_walk]. rewrite get_width_ok by exact Ha. cbn [bind].
  destruct (Z.leb_spec (pos + n_width (st a) i) k) as [H | H]; [| exists P, a, Q, pos; auto 10].
  rewrite get_next_ok by exact Ha. cbn [bind]. rewrite (HL _ _ _ E i Ha).
  rewrite ws_cons in Hp. destruct (Nat.ltb_spec i (lvs st a)); [| lia].
  destruct (nexti (lvs st) i Q) as [b |] eqn:Eb.
  - destruct (nexti_some _ _ _ _ Eb) as [Q1 [Q2 [EQ [Hb Hn]]]]. subst Q. rewrite ws_app, (ws_none _ _ _ Hn) in Hp.
    apply (IH (P ++ a :: Q1) b Q2); auto.
    + rewrite E, <- app_assoc. reflexivity.
    + lia.
    + intros G. destruct P; discriminate.
    + rewrite app_length in Hf. cbn [length] in Hf. lia.
  - rewrite (ws_none _ _ _ Eb) in Hp. lia.
Qed.

Lemma ws_bot st l : (forall c, In c l -> n_width (st c) 0 = 1%Z /\ 1 <= lvs st c) -> ws st 0 l = zlen l.
Proof.
  induction l as [| c l IH]; intros H; [reflexivity |]. rewrite ws_cons, IH by (intros; apply H; now right).
  destruct (H c (or_introl eq_refl)) as [-> ?]. destruct (Nat.ltb_spec 0 (lvs st c)); [| lia]. unfold zlen. cbn [length]. lia.
Qed.

Lemma select_levels_d mx st L k fuel : links st (0 :: L) -> DInv mx st L -> (1 <= k <= zlen L)%Z ->
  (forall a, In a (0 :: L) -> 1 <= lvs st a) -> length (0 :: L) <= fuel ->
  forall i P a Q pos, 0 :: L = P ++ a :: Q -> i <= lvs st a -> (P = [] -> pos = 0%Z) ->
  (zlen L + 1 - ws st (i - 1) (a :: Q) <= pos <= k)%Z -> (i = 0 -> pos = k) ->
  exists b n, select_levels fuel st i k (Some a) pos = Ok (Some b) /\ nth_error L n = Some b /\ (Z.of_nat n < k)%Z.
Proof.
  intros HL D Hk Hlv Hf. induction i as [| i IH]; intros P a Q pos E Ha HP Hp H0.
  - cbn [select_levels]. rewrite (H0 eq_refl) in *. destruct P as [| p P]; [specialize (HP eq_refl); lia |].
    injection E as <- E. exists a, (length P). split; [reflexivity |]. split.
    + rewrite E, nth_error_app2, Nat.sub_diag by lia. reflexivity.
    + cbn [Nat.sub] in Hp. rewrite ws_bot in Hp.
      * rewrite E in Hp. unfold zlen in Hp. rewrite app_length in Hp. cbn [length] in Hp. lia.
      * intros c Hc. assert (In c (0 :: L)) by (right; rewrite E; apply in_or_app; auto). split; [now apply (d_bot _ _ _ D) | auto].
  - cbn [select_levels]. cbn [Nat.sub] in Hp. rewrite Nat.sub_0_r in Hp.
    destruct (select_walk_d mx st L i k HL D (proj2 Hk) fuel P a Q pos E ltac:(lia) Hp HP) as (P' & a' & Q' & pos' & Ew & E' & Ha' & Hp' & HP' & Hw').
    { rewrite E, app_length in Hf. cbn [length] in Hf. lia. }
    rewrite Ew. cbn [bind fst snd]. apply (IH P' a' Q' pos' E'); auto; [lia | |].
    + destruct i as [| i]; cbn [Nat.sub]; [lia |]. rewrite Nat.sub_0_r. pose proof (d_up _ _ _ D _ _ _ i E' Ha'). lia.
    + intros ->. rewrite (d_bot _ _ _ D a') in Hw'; [lia |]. rewrite E'. apply in_mid.
Qed.

Lemma dinv_select s L k : LInv s L -> DInv (sk_max s) (sk_store s) L -> (0 <= k < zlen L)%Z ->
  exists n v, skip_select s k = Ok (Some v) /\ nth_error (vals (sk_store s) L) n = Some v /\ (Z.of_nat n <= k)%Z.
Proof.
  intros I D Hk. unfold skip_select. rewrite (li_len _ _ I).
  destruct (Z.ltb_spec k 0); [lia |]. destruct (Z.geb_spec k (zlen L)); [lia |]. cbn [orb].
  destruct (select_levels_d (sk_max s) (sk_store s) L (k + 1) (sfuel s) (li_links _ _ I) D) with (i := sk_max s) (P := @nil nat) (a := 0) (Q := L) (pos := 0%Z) as (b & n & Eb & Hb & Hn).
  - lia.
  - intros a [<- | Ha]; [rewrite (li_head _ _ I); apply I | apply (li_lv _ _ I a Ha)].
  - pose proof (linv_fuel _ _ I). unfold sfuel. lia.
  - reflexivity.
  - rewrite (li_head _ _ I). lia.
  - reflexivity.
  - pose proof (li_max _ _ I). rewrite (d_tot _ _ _ D) by lia. lia.
  - pose proof (li_max _ _ I). lia.
  - rewrite Eb. cbn [bind]. exists n, (n_val (sk_store s b)). split; [reflexivity |]. split; [| lia].
    unfold vals. now apply (map_nth_error (fun a => n_val (sk_store s a))).
Qed.

(** ** Rank *)
Lemma rank_walk_d st M B v i t : links st (M ++ B) ->
  (forall b, In b (tl M) -> flt (n_val (st b)) v = true) -> (forall b, In b B -> flt (n_val (st b)) v = false) ->
  forall fuel P a Q r, M = P ++ a :: Q -> i < lvs st a -> (t - ws st i (a :: Q ++ B) <= r)%Z -> length Q < fuel ->
  exists P' a' Q' r', rank_walk fuel st i v a r = Ok (a', r') /\ M = P' ++ a' :: Q' /\
    i < lvs st a' /\ nexti (lvs st) i Q' = None /\ (t - ws st i (a' :: Q' ++ B) <= r')%Z.
Proof.
  intros HL HA HB. induction fuel as [| fuel IH]; [lia |]. intros P a Q r E Ha Hr Hf.
  cbn [rank_walk]. rewrite get_next_ok by exact Ha. cbn [bind].
  assert (EM : M ++ B = P ++ a :: (Q ++ B)) by (rewrite E, <- app_assoc; reflexivity).
  rewrite (HL _ _ _ EM i Ha).
  destruct (nexti (lvs st) i Q) as [b |] eqn:EQ.
  - rewrite (nexti_app_some _ _ _ _ _ EQ).
    destruct (nexti_some _ _ _ _ EQ) as [Q1 [Q2 [EQ2 [Hb Hn]]]].
    assert (HbM : In b (tl M)).
    { rewrite E, EQ2. destruct P; cbn [app tl]; apply in_or_app; right; [| right; apply in_or_app; right]; left; reflexivity. }
    rewrite HA by exact HbM. rewrite get_width_ok by exact Ha. cbn [bind].
    apply (IH (P ++ a :: Q1) b Q2); auto.
    + rewrite E, EQ2, <- app_assoc. reflexivity.
    + rewrite ws_cons, EQ2, <- app_assoc, ws_app, (ws_none _ _ _ Hn) in Hr. cbn [app] in Hr. destruct (Nat.ltb_spec i (lvs st a)); lia.
    + rewrite EQ2, app_length in Hf. cbn [length] in Hf. lia.
  - rewrite nexti_app_none by exact EQ.
    destruct (nexti (lvs st) i B) as [b |] eqn:EB.
    + rewrite HB; [exists P, a, Q, r; auto 10 |]. destruct (nexti_some _ _ _ _ EB) as [B1 [B2 [-> _]]]. apply in_mid.
    + exists P, a, Q, r. auto 10.
Qed.

Lemma rank_levels_d mx st A B v fuel : links st ((0 :: A) ++ B) -> DInv mx st (A ++ B) ->
  (forall b, In b A -> flt (n_val (st b)) v = true) -> (forall b, In b B -> flt (n_val (st b)) v = false) ->
  (forall a, In a ((0 :: A) ++ B) -> 1 <= lvs st a) -> length (0 :: A) <= fuel ->
  forall i P a Q r, 0 :: A = P ++ a :: Q -> i <= lvs st a -> (i = 0 -> Q = []) ->
  (zlen (A ++ B) + 1 - ws st (i - 1) (a :: Q ++ B) <= r)%Z ->
  exists r', rank_levels fuel st i v a r = Ok r' /\ (zlen A <= r')%Z.
Proof.
  intros HL D HA HB Hlv Hf. induction i as [| i IH]; intros P a Q r E Ha H0 Hr.
  - cbn [rank_levels]. exists r. split; [reflexivity |]. rewrite (H0 eq_refl) in *. cbn [Nat.sub app] in Hr.
    rewrite ws_bot in Hr.
    + unfold zlen in *. rewrite app_length in Hr. cbn [length] in Hr. lia.
    + intros c Hc. assert (In c ((0 :: A) ++ B)).
      { rewrite E, <- app_assoc. apply in_or_app. right. exact Hc. }
      split; [now apply (d_bot _ _ _ D) | auto].
  - cbn [rank_levels]. cbn [Nat.sub] in Hr. rewrite Nat.sub_0_r in Hr.
    destruct (rank_walk_d st (0 :: A) B v i (zlen (A ++ B) + 1)%Z HL HA HB fuel P a Q r E ltac:(lia) Hr) as (P' & a' & Q' & r' & Ew & E' & Ha' & Hn & Hr').
    { rewrite E, app_length in Hf. cbn [length] in Hf. lia. }
    rewrite Ew. cbn [bind fst snd]. apply (IH P' a' Q' r' E'); [lia | |].
    + intros ->. destruct Q' as [| q Q']; [reflexivity |]. pose proof (nexti_none _ _ _ Hn q ltac:(left; reflexivity)).
      assert (1 <= lvs st q); [| lia]. apply Hlv. rewrite E', <- app_assoc. apply in_or_app. right. right. left. reflexivity.
    + destruct i as [| i]; cbn [Nat.sub]; [lia |]. rewrite Nat.sub_0_r.
      assert (EM : 0 :: A ++ B = P' ++ a' :: (Q' ++ B)) by (change (0 :: A ++ B) with ((0 :: A) ++ B); rewrite E', <- app_assoc; reflexivity).
      pose proof (d_up _ _ _ D _ _ _ i EM Ha'). lia.
Qed.

Lemma dinv_rank s L b v : LInv s L -> DInv (sk_max s) (sk_store s) L -> nonnan v -> Forall nonnan b ->
  skeys s L = sortz (keys b) -> exists r, skip_rank s v = Ok r /\ (Z.of_nat (count_lt v b) <= r)%Z.
Proof.
  intros I D Hv Hb Hk. destruct (split_at s L v I Hv) as [A [B [-> [HA [HB [HkA HkB]]]]]].
  unfold skip_rank.
  destruct (rank_levels_d (sk_max s) (sk_store s) A B v (sfuel s) (li_links _ _ I) D HA HB) with (i := sk_max s) (P := @nil nat) (a := 0) (Q := A) (r := 0%Z) as (r & Er & Hr); auto.
  - intros a [<- | Ha]; [rewrite (li_head _ _ I); apply I | apply (li_lv _ _ I a Ha)].
  - pose proof (linv_fuel _ _ I) as H. unfold sfuel. cbn [length] in *. rewrite app_length in H. lia.
  - rewrite (li_head _ _ I). lia.
  - pose proof (li_max _ _ I). lia.
  - pose proof (li_max _ _ I). rewrite (d_tot _ _ _ D) by lia. lia.
  - exists r. split; [exact Er |]. rewrite count_lt_keys by assumption.
    rewrite <- (Permutation_length (filter_perm _ _ _ (sortz_perm (keys b)))), <- Hk, skeys_app, filter_app.
    rewrite filter_all by (intros z Hz; apply Z.ltb_lt; auto).
    rewrite filter_none by (intros z Hz; apply Z.ltb_ge; auto).
    rewrite app_nil_r. unfold skeys, keys, vals. rewrite !map_length. exact Hr.
Qed.
