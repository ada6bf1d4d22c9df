(** Steps of the skip list's methods: forgetting them, and their number in terms of the heights of the nodes. *)
From Verif Require Import Base F64 OrderSpec MultisetSpec SortLib SkipModel SkipProof CostModel CostErase CostTree.
Local Open Scope nat_scope.

(** ** Records: the elements of a list that no earlier one, nor [c], exceeds *)
Fixpoint recs (c : nat) (l : list nat) : nat :=
  match l with [] => 0 | h :: t => if c <=? h then S (recs h t) else recs c t end.
Definition cnt (h : nat) (l : list nat) : nat := count_occ Nat.eq_dec l h.
Lemma recs_app c l1 h l2 : c <= h -> (forall x, In x l1 -> x <= h) -> recs c (l1 ++ h :: l2) = recs c l1 + S (recs h l2).
Proof.
  revert c. induction l1 as [|x l1 IH]; intros c Hc H.
  - cbn [app recs]. destruct (Nat.leb_spec c h); [reflexivity|lia].
  - cbn [app recs]. specialize (H x (or_introl eq_refl)) as Hx. destruct (c <=? x); rewrite IH; auto; intros y Hy; apply H; right; exact Hy.
Qed.
Lemma recs_top h l : (forall x, In x l -> x <= h) -> recs h l = cnt h l.
Proof.
  induction l as [|x l IH]; intros H; [reflexivity|]. cbn [recs]. unfold cnt in *. cbn [count_occ]. specialize (H x (or_introl eq_refl)) as Hx.
  assert (H' : forall y, In y l -> y <= h) by (intros y Hy; apply H; right; exact Hy).
  destruct (Nat.leb_spec h x), (Nat.eq_dec x h); try lia; [subst; rewrite IH by exact H'; reflexivity|apply IH; exact H'].
Qed.
Lemma recs_ge h c l : c <= h -> (forall x, In x l -> x <= h) -> cnt h l <= recs c l.
Proof.
  revert c. induction l as [|x l IH]; intros c Hc H; [cbn; lia|]. cbn [recs]. unfold cnt in *. cbn [count_occ]. specialize (H x (or_introl eq_refl)) as Hx.
  assert (H' : forall y, In y l -> y <= h) by (intros y Hy; apply H; right; exact Hy).
  destruct (Nat.leb_spec c x); [specialize (IH x Hx H')|specialize (IH c Hc H')]; destruct (Nat.eq_dec x h); lia.
Qed.
Definition heights (st : nat -> snode) (L : list nat) : list nat := map (lvs st) L.

(** ** getPrevs *)
Lemma walk_prev_cost st M v B i : links st (M ++ B) ->
  (forall b, In b (tl M) -> flt (n_val (st b)) v = true) ->
  (forall b, In b B -> flt (n_val (st b)) v = false) ->
  forall fuel P a Q, M = P ++ a :: Q -> i < lvs st a -> length Q < fuel -> (forall b, In b Q -> lvs st b <= S i) ->
  exists p Q', walk_prev fuel st i v a = Ok p /\ (exists P', M = P' ++ p :: Q') /\ i < lvs st p /\ (forall b, In b Q' -> lvs st b <= i) /\
    recs 0 (rev (heights st Q)) = fst (walk_prev_c fuel st i v a) + recs 0 (rev (heights st Q')).
Proof.
  intros HL HA HB. induction fuel as [|fuel IH]; [lia|]. intros P a Q E Ha Hf Hq.
  cbn [walk_prev walk_prev_c]. unfold get_next. change (n_lvl (st a)) with (lvs st a).
  destruct (Nat.ltb_spec i (lvs st a)) as [_|]; [|lia]. cbn [bind]. rewrite (cbind_lift (Ok _) _ _ eq_refl).
  assert (EM : M ++ B = P ++ a :: (Q ++ B)) by (rewrite E, <- app_assoc; reflexivity).
  rewrite (HL _ _ _ EM i Ha).
  destruct (nexti (lvs st) i Q) as [b|] eqn:EQ.
  - rewrite (nexti_app_some _ _ _ _ _ EQ).
    destruct (nexti_some _ _ _ _ EQ) as [Q1 [Q2 [-> [Hb Hn]]]].
    rewrite HA.
    2:{ rewrite E. destruct P; cbn [app tl]; apply in_or_app; right; [|right; apply in_or_app; right]; left; reflexivity. }
    destruct (IH (P ++ a :: Q1) b Q2) as (p & Q' & E1 & E2 & E3 & E4 & E5).
    + rewrite E, <- app_assoc. reflexivity.
    + exact Hb.
    + rewrite app_length in Hf. cbn [length] in Hf. lia.
    + intros c Hc. apply Hq, in_or_app. right. right. exact Hc.
    + exists p, Q'. split; [exact E1|]. split; [exact E2|]. split; [exact E3|]. split; [exact E4|].
      cbn [tick fst]. enough (HH : recs 0 (rev (heights st (Q1 ++ b :: Q2))) = S (recs 0 (rev (heights st Q2)))) by lia. clear E5.
      assert (Hbi : lvs st b = S i) by (specialize (Hq b ltac:(apply in_or_app; right; left; reflexivity)); lia).
      unfold heights. rewrite map_app, rev_app_distr. cbn [map rev]. rewrite <- app_assoc. cbn [app].
      rewrite recs_app; [|lia|].
      2:{ intros z Hz. rewrite Hbi. apply in_rev, in_map_iff in Hz. destruct Hz as (c & <- & Hc). apply Hq, in_or_app. right. right. exact Hc. }
      rewrite Hbi, (recs_top (S i)).
      * unfold cnt. rewrite (proj1 (count_occ_not_In Nat.eq_dec _ (S i))); [lia|].
        intros Hz. apply in_rev, in_map_iff in Hz. destruct Hz as (c & Ec & Hc). pose proof (nexti_none _ _ _ Hn c Hc). lia.
      * intros z Hz. apply in_rev, in_map_iff in Hz. destruct Hz as (c & <- & Hc). apply Hq, in_or_app. left. exact Hc.
  - rewrite nexti_app_none by exact EQ. exists a, Q.
    pose proof (nexti_none _ _ _ EQ) as HQ.
    destruct (nexti (lvs st) i B) as [b|] eqn:EB; [|cbn [lift fst]; repeat split; eauto].
    rewrite HB; [cbn [lift fst]; repeat split; eauto|]. destruct (nexti_some _ _ _ _ EB) as [B1 [B2 [-> _]]]. apply in_or_app. right. left. reflexivity.
Qed.
Lemma get_prevs_cost st M v B : links st (M ++ B) ->
  (forall b, In b (tl M) -> flt (n_val (st b)) v = true) ->
  (forall b, In b B -> flt (n_val (st b)) v = false) -> (forall b, In b (tl M) -> 1 <= lvs st b) ->
  forall i fuel P a Q, M = P ++ a :: Q -> i <= lvs st a -> length M <= fuel -> (forall b, In b Q -> lvs st b <= i) ->
  fst (get_prevs_c fuel st i v a) = i + recs 0 (rev (heights st Q)).
Proof.
  intros HL HA HB H1.
  assert (Htl : forall P a Q b, M = P ++ a :: Q -> In b Q -> In b (tl M)).
  { intros P a Q b -> Hb. destruct P; cbn [app tl]; [exact Hb|]. apply in_or_app. right. right. exact Hb. }
  induction i as [|i IH]; intros fuel P a Q E Ha Hf Hq.
  - destruct Q as [|b Q]; [reflexivity|]. specialize (Hq b (or_introl eq_refl)). specialize (H1 b (Htl _ _ _ _ E (or_introl eq_refl))). lia.
  - cbn [get_prevs_c].
    destruct (walk_prev_cost st M v B i HL HA HB fuel P a Q E ltac:(lia)) as (p & Q' & Ep & (P' & E') & Hp & Hn & Hr).
    { rewrite E, app_length in Hf. cbn [length] in Hf. lia. }
    { intros b Hb. apply Hq, Hb. }
    rewrite (cbind_eq _ _ p) by (rewrite tick_snd, walk_prev_erase; exact Ep). cbn [tick fst].
    destruct (get_prevs_spec st M v B HL HA HB i fuel P' p Q' E' ltac:(lia) Hf) as (r & Er & _).
    rewrite (cbind_eq _ _ r) by (rewrite get_prevs_erase; exact Er). rewrite (IH fuel P' p Q' E' ltac:(lia) Hf Hn), Hr. cbn [lift fst]. lia.
Qed.
Lemma linv_prevs_cost s A B v : LInv s (A ++ B) ->
  (forall a, In a A -> flt (n_val (sk_store s a)) v = true) ->
  (forall b, In b B -> flt (n_val (sk_store s b)) v = false) ->
  fst (get_prevs_c (sfuel s) (sk_store s) (sk_max s) v 0) = sk_max s + recs 0 (rev (heights (sk_store s) A)).
Proof.
  intros I HA HB. apply (get_prevs_cost (sk_store s) (0 :: A) v B (li_links _ _ I) HA HB) with (P := []) (Q := A); [|reflexivity| | |].
  - intros b Hb. apply (li_lv _ _ I). apply in_or_app. left. exact Hb.
  - rewrite (li_head _ _ I). lia.
  - pose proof (linv_fuel _ _ I) as H. unfold sfuel. cbn [length] in *. rewrite app_length in H. lia.
  - intros b Hb. apply (li_lv _ _ I). apply in_or_app. left. exact Hb.
Qed.

(** ** The widths of a new node *)
(** the number of h's before the first element above h *)
Fixpoint run_of (h : nat) (l : list nat) : nat :=
  match l with [] => 0 | x :: t => if h <? x then 0 else (if x =? h then 1 else 0) + run_of h t end.
Fixpoint runs (n i : nat) (l : list nat) : nat := match n with O => 0 | S n' => run_of i l + runs n' (S i) l end.
Lemma runs_below n : forall i x t, x < i -> runs n i (x :: t) = runs n i t.
Proof.
  induction n as [|n IH]; intros i x t H; [reflexivity|]. cbn [runs run_of]. destruct (Nat.ltb_spec i x); [lia|]. destruct (Nat.eqb_spec x i); [lia|]. rewrite IH by lia. reflexivity.
Qed.
Lemma runs_above n : forall i x t, i <= x -> runs n i (x :: t) <= 1 + runs n x t.
Proof.
  induction n as [|n IH]; intros i x t H; [cbn; lia|]. destruct (Nat.eq_dec i x) as [->|Hne].
  - cbn [runs run_of]. rewrite Nat.ltb_irrefl, Nat.eqb_refl. rewrite runs_below by lia. lia.
  - cbn [runs run_of]. destruct (Nat.ltb_spec i x); [|lia]. specialize (IH (S i) x t ltac:(lia)).
    assert (M : forall n i, runs n i t <= runs (S n) i t).
    { clear. induction n as [|n IH]; intros i; [cbn; lia|]. change (runs (S n) i t) with (run_of i t + runs n (S i) t). change (runs (S (S n)) i t) with (run_of i t + runs (S n) (S i) t). specialize (IH (S i)). lia. }
    specialize (M n x). cbn [runs] in M. lia.
Qed.
Lemma runs_recs l : forall n i, runs n i l <= recs i l.
Proof.
  induction l as [|x t IH]; intros n i.
  - cbn [recs]. revert i. induction n as [|n IH]; intros i; [cbn; lia|]. cbn [runs run_of]. apply IH.
  - cbn [recs]. destruct (Nat.leb_spec i x); [|rewrite runs_below by lia; apply IH]. pose proof (runs_above n i x t ltac:(lia)). specialize (IH n x). lia.
Qed.
Lemma run_of_app st j Q1 Q2 : nexti (lvs st) j Q1 = None -> run_of (S j) (heights st (Q1 ++ Q2)) = run_of (S j) (heights st Q2).
Proof.
  intros H. induction Q1 as [|a Q1 IH]; [reflexivity|]. pose proof (nexti_none _ _ _ H) as Hn. cbn [app heights map run_of].
  specialize (Hn a (or_introl eq_refl)) as Ha. destruct (Nat.ltb_spec (S j) (lvs st a)); [lia|]. destruct (Nat.eqb_spec (lvs st a) (S j)); [lia|].
  apply IH. apply nexti_none_intro. intros b Hb. apply Hn. right. exact Hb.
Qed.
Lemma width_walk_cost st M j : links st M -> (forall a, In a M -> nonnan (n_val (st a))) ->
  forall fuel P a Q acc, M = P ++ a :: Q -> j < lvs st a ->
  fst (width_walk_c fuel st j (nexti (lvs st) (S j) Q) (Some a) acc) <= 1 + run_of (S j) (heights st Q).
Proof.
  intros HL Hnn. induction fuel as [|f IH]; intros P a Q acc E Ha; [cbn; lia|]. cbn [width_walk_c]. destruct (node_equals _ _ _); [cbn; lia|]. cbn [tick fst].
  apply le_n_S. apply cbind_lift_le. intros w _. apply cbind_lift_le. intros nx Hnx. rewrite get_next_ok in Hnx by exact Ha. injection Hnx as <-. rewrite (HL _ _ _ E j Ha).
  destruct (nexti (lvs st) j Q) as [b|] eqn:EQ.
  - destruct (nexti_some _ _ _ _ EQ) as (Q1 & Q2 & -> & Hb & Hn). rewrite run_of_app by exact Hn. cbn [heights map run_of].
    rewrite nexti_app_none by (apply nexti_le_none with (i := j); [lia|exact Hn]). cbn [nexti].
    destruct (Nat.ltb_spec (S j) (lvs st b)) as [H|H].
    + destruct f as [|f]; [cbn; lia|]. cbn [width_walk_c node_equals].
      assert (Nb : nonnan (n_val (st b))) by (apply Hnn; rewrite E; apply in_or_app; right; right; apply in_or_app; right; left; reflexivity).
      rewrite feq_key, Z.eqb_refl by exact Nb. cbn. lia.
    + destruct (Nat.eqb_spec (lvs st b) (S j)); [|lia]. apply (IH (P ++ a :: Q1)); [rewrite E, <- app_assoc; reflexivity|exact Hb].
  - rewrite (nexti_none_intro (lvs st) (S j) Q) by (intros b Hb; pose proof (nexti_none _ _ _ EQ b Hb); lia). destruct f as [|f]; cbn; lia.
Qed.
Lemma new_widths_cost prevs x P B fuel : forall n i st, 1 <= i -> links st (P ++ x :: B) -> (forall a, In a (P ++ x :: B) -> nonnan (n_val (st a))) -> i + n <= lvs st x ->
  fst (new_widths_c fuel n i prevs x st) <= 2 * n + runs n i (heights st B).
Proof.
  induction n as [|n IH]; intros i st Hi HL Hnn Hx; [cbn; lia|]. cbn [new_widths_c runs].
  rewrite (cbind_eq _ _ (nexti (lvs st) i B)).
  2:{ rewrite tick_snd, lift_snd, get_next_ok by (change (n_lvl (st x)) with (lvs st x); lia). f_equal. apply (HL P x B eq_refl). lia. }
  cbn [tick lift fst]. 
  assert (G : fst (w0 <~ lift (get_width st x i);; w <~ width_walk_c fuel st (i - 1) (nexti (lvs st) i B) (Some x) w0;;
    st1 <~ lift (set_width st x i w);; pw <~ lift (get_width st1 (prevs i) i);; st2 <~ lift (set_width st1 (prevs i) i (pw - w)%Z);;
    new_widths_c fuel n (S i) prevs x st2) <= 1 + run_of i (heights st B) + (2 * n + runs n (S i) (heights st B))); [|lia].
  apply cbind_lift_le. intros w0 _. eapply Nat.le_trans; [apply (cbind_le _ _ (2 * n + runs n (S i) (heights st B)))|].
  - intros w _. apply cbind_lift_le. intros st1 H1. apply cbind_lift_le. intros pw _. apply cbind_lift_le. intros st2 H2.
    assert (Hxi : i < n_lvl (st x)) by (change (n_lvl (st x)) with (lvs st x); lia).
    destruct (set_width_ok st x i w Hxi) as (st1' & E1 & S1 & _ & N1). assert (st1' = st1) by congruence. subst st1'.
    assert (Hpi : i < n_lvl (st1 (prevs i))) by (unfold set_width in H2; destruct (Nat.ltb_spec i (n_lvl (st1 (prevs i)))); [assumption|discriminate]).
    destruct (set_width_ok st1 (prevs i) i (pw - w)%Z Hpi) as (st2' & E2 & S2 & _ & N2). assert (st2' = st2) by congruence. subst st2'.
    pose proof (same_shape_trans _ _ _ S1 S2) as S3.
    assert (EH : heights st B = heights st2 B) by (unfold heights; apply map_ext; intros a; symmetry; apply lvs_same; exact S3). rewrite EH.
    apply IH; [lia| | |rewrite (lvs_same st st2 x S3); lia].
    + apply (links_ext st st2 _ S3); [|exact HL]. intros c j _. rewrite N2, N1. reflexivity.
    + intros a Ha. destruct (S3 a) as [_ Ev]. rewrite Ev. apply Hnn. exact Ha.
  - pose proof (width_walk_cost st (P ++ x :: B) (i - 1) HL Hnn fuel P x B w0 eq_refl ltac:(lia)) as H. replace (S (i - 1)) with i in H by lia. lia.
Qed.

(** ** Add and Remove *)
Lemma skip_add_cost s A B v : LInv s (A ++ B) -> nonnan v ->
  (forall a, In a A -> flt (n_val (sk_store s a)) v = true) -> (forall b, In b B -> flt (n_val (sk_store s b)) v = false) ->
  fst (skip_add_c s v) <= 6 * sk_max s + recs 0 (rev (heights (sk_store s) A)) + recs 1 (heights (sk_store s) B).
Proof.
  intros I Hv HA HB. destruct (linv_prevs s A B v I HA HB) as [prevs [Eprev Hpv]]. pose proof (linv_prevs_cost s A B v I HA HB) as Hc0.
  unfold skip_add_c. rewrite (cbind_eq _ _ prevs) by (rewrite get_prevs_erase; exact Eprev). rewrite Hc0. cbv zeta. set (k := skip_rand_level s). set (x := sk_fresh s).
  assert (Hk : 1 <= k <= sk_max s).
  { unfold k, skip_rand_level. pose proof (rand_level_bounds (sk_probs s) (sk_rnd s (sk_draws s)) (sk_max s - 1) 1).
    pose proof (li_max _ _ I). lia. }
  pose proof (li_head _ _ I) as Hhead. set (st := sk_store s) in *.
  set (st0 := upd st x (SNode k (fun _ => None) (fun _ => 0%Z) v)).
  assert (Hxn : ~ In x ((0 :: A) ++ B)).
  { intros H. apply (li_fresh _ _ I) in H. unfold x in H. lia. }
  assert (Hx0 : forall c, c <> x -> st0 c = st c).
  { intros c Hc. unfold st0, upd. destruct (Nat.eqb_spec c x); [contradiction|reflexivity]. }
  assert (Hxx : st0 x = SNode k (fun _ => None) (fun _ => 0%Z) v) by (unfold st0, upd; rewrite Nat.eqb_refl; reflexivity).
  assert (Hin : forall j, j < sk_max s -> In (prevs j) (0 :: A)) by (intros j Hj; eapply prev_in, Hpv, Hj).
  assert (Hpx : forall j, j < sk_max s -> prevs j <> x).
  { intros j Hj E. apply Hxn. apply in_or_app. left. rewrite <- E. auto. }
  assert (Hplv : forall j, j < sk_max s -> j < n_lvl (st (prevs j))).
  { intros j Hj. destruct (Hpv j Hj) as [P [Q [_ [H _]]]]. exact H. }
  destruct (link_levels_ok prevs x k 0 st0) as [st1 [E1 [S1 [N1 W1]]]].
  { intros j Hj. rewrite Hxx. cbn [n_lvl]. split; [lia|]. split; [|apply Hpx; lia].
    rewrite Hx0 by (apply Hpx; lia). apply Hplv. lia. }
  destruct (set_width_ok st1 x 0 1%Z) as [st2 [E2 [S2 [W2 N2]]]].
  { rewrite (proj1 (S1 x)), Hxx. cbn [n_lvl]. lia. }
  pose proof (same_shape_trans _ _ _ S1 S2) as S02.
  destruct (incr_widths_ok prevs (sk_max s - 1) 1 st2) as [st3 [E3 [S3 [W3 N3]]]].
  { intros j Hj. rewrite (proj1 (S02 _)), Hx0 by (apply Hpx; lia). apply Hplv. lia. }
  pose proof (same_shape_trans _ _ _ S02 S3) as S03.
  assert (Nxt3 : forall c j, n_next (st3 c) j = n_next (st1 c) j) by (intros; rewrite N3, N2; reflexivity).
  assert (Lv3 : forall c, c <> x -> lvs st3 c = lvs st c).
  { intros c Hc. unfold lvs. rewrite (proj1 (S03 c)), Hx0 by exact Hc. reflexivity. }
  assert (Lx3 : lvs st3 x = k) by (unfold lvs; rewrite (proj1 (S03 x)), Hxx; reflexivity).
  assert (Ndm : NoDup ((0 :: A) ++ B)) by apply (li_nd _ _ I).
  assert (HL3 : links st3 ((0 :: A) ++ x :: B)).
  { apply (insert_links st st3 (0 :: A) B x k prevs); auto.
    - intros j Hj. apply Hpv. lia.
    - apply (li_links _ _ I).
    - intros c j Hc. rewrite Nxt3, N1. unfold inr. cbn [Nat.leb Nat.add andb].
      rewrite (Hx0 c Hc). destruct (Nat.ltb_spec j k); cbn [andb]; [|reflexivity].
      destruct (Nat.eqb_spec c x); [contradiction|]. reflexivity.
    - intros j Hj. rewrite Nxt3, N1. unfold inr. cbn [Nat.leb Nat.add andb].
      destruct (Nat.ltb_spec j k); [|lia]. rewrite Nat.eqb_refl.
      rewrite Hx0 by (apply Hpx; lia). reflexivity. }
  assert (Hv0 : forall c, In c ((0 :: A) ++ x :: B) -> nonnan (n_val (st3 c))).
  { intros c Hc. rewrite (proj2 (S03 c)). destruct (Nat.eq_dec c x) as [->|Hne].
    - rewrite Hxx. exact Hv.
    - rewrite Hx0 by exact Hne. apply (li_nn _ _ I). apply in_app_or in Hc.
      change (In c ((0 :: A) ++ B)). apply in_or_app. destruct Hc as [Hc|[Hc|Hc]]; [auto|congruence|auto]. }
  rewrite (cbind_eq _ _ st1) by exact E1. rewrite (cbind_lift _ _ st2 E2). rewrite (cbind_eq _ _ st3) by exact E3. cbn [fst].
  pose proof (cbind_le (new_widths_c (S (sfuel s)) (k - 1) 1 prevs x st3)
    (fun st4 => lift (Ok (Skip (sk_max s) st4 (S x) (sk_len s + 1)%Z (sk_probs s) (sk_rnd s) (S (sk_draws s))))) 0 ltac:(intros; cbn; lia)) as H4.
  pose proof (new_widths_cost prevs x (0 :: A) B (S (sfuel s)) (k - 1) 1 st3 ltac:(lia) HL3 Hv0 ltac:(lia)) as H5.
  assert (EB : heights st3 B = heights st B).
  { unfold heights. apply map_ext_in. intros c Hc. apply Lv3. intros ->. apply Hxn, in_or_app. right. exact Hc. }
  rewrite EB in H5. pose proof (runs_recs (heights st B) (k - 1) 1) as H6. lia.
Qed.
Lemma skip_remove_cost s A B v : LInv s (A ++ B) -> (forall a, In a A -> flt (n_val (sk_store s a)) v = true) -> (forall b, In b B -> flt (n_val (sk_store s b)) v = false) ->
  fst (skip_remove_c s v) <= 2 * sk_max s + recs 0 (rev (heights (sk_store s) A)).
Proof.
  intros I HA HB. destruct (linv_prevs s A B v I HA HB) as [prevs [Eprev Hpv]]. pose proof (linv_prevs_cost s A B v I HA HB) as Hc0.
  unfold skip_remove_c. rewrite (cbind_eq _ _ prevs) by (rewrite get_prevs_erase; exact Eprev). rewrite Hc0.
  match goal with |- _ + fst ?m <= _ => assert (H : fst m <= sk_max s) end; [|lia].
  apply cbind_lift_le. intros [a|] _; [|cbn; lia]. destruct (feq _ _); [|cbn; lia].
  eapply Nat.le_trans; [apply (cbind_le _ _ 0); intros; cbn; lia|]. cbn [fst]. lia.
Qed.
(** The heights of the nodes do not change; a new node's is drawn. *)
Lemma set_next_shape st a i p st' : set_next st a i p = Ok st' -> same_shape st st'.
Proof.
  intros H. destruct (Nat.ltb_spec i (n_lvl (st a))) as [L|L]; [|unfold set_next in H; destruct (Nat.ltb_spec i (n_lvl (st a))); [lia|discriminate]].
  destruct (set_next_ok st a i p L) as (s' & E & Sh & _). rewrite E in H. injection H as <-. exact Sh.
Qed.
Lemma set_width_shape st a i w st' : set_width st a i w = Ok st' -> same_shape st st'.
Proof.
  intros H. destruct (Nat.ltb_spec i (n_lvl (st a))) as [L|L]; [|unfold set_width in H; destruct (Nat.ltb_spec i (n_lvl (st a))); [lia|discriminate]].
  destruct (set_width_ok st a i w L) as (s' & E & Sh & _). rewrite E in H. injection H as <-. exact Sh.
Qed.
Lemma link_levels_shape prevs x n : forall i st st', link_levels n i prevs x st = Ok st' -> same_shape st st'.
Proof.
  induction n as [|n IH]; intros i st st' H; [injection H as <-; apply same_shape_refl|]. cbn [link_levels] in H.
  apply bind_ok in H as (nx & _ & H). apply bind_ok in H as (s1 & H1 & H). apply bind_ok in H as (s2 & H2 & H).
  apply set_next_shape in H1, H2. apply IH in H. eapply same_shape_trans; [exact H1|]. eapply same_shape_trans; eassumption.
Qed.
Lemma incr_widths_shape prevs n : forall i st st', incr_widths n i prevs st = Ok st' -> same_shape st st'.
Proof.
  induction n as [|n IH]; intros i st st' H; [injection H as <-; apply same_shape_refl|]. cbn [incr_widths] in H.
  apply bind_ok in H as (nx & _ & H). apply bind_ok in H as (s1 & H1 & H).
  apply set_width_shape in H1. apply IH in H. eapply same_shape_trans; eassumption.
Qed.
Lemma new_widths_shape fuel prevs x n : forall i st st', new_widths fuel n i prevs x st = Ok st' -> same_shape st st'.
Proof.
  induction n as [|n IH]; intros i st st' H; [injection H as <-; apply same_shape_refl|]. cbn [new_widths] in H.
  apply bind_ok in H as (t & _ & H). apply bind_ok in H as (w0 & _ & H). apply bind_ok in H as (w & _ & H). apply bind_ok in H as (s1 & H1 & H).
  apply bind_ok in H as (pw & _ & H). apply bind_ok in H as (s2 & H2 & H).
  apply set_width_shape in H1, H2. apply IH in H. eapply same_shape_trans; [exact H1|]. eapply same_shape_trans; eassumption.
Qed.
Lemma skip_add_shape s v s' : skip_add s v = Ok s' ->
  same_shape (upd (sk_store s) (sk_fresh s) (SNode (skip_rand_level s) (fun _ => None) (fun _ => 0%Z) v)) (sk_store s') /\ same_params s s' /\ sk_draws s' = S (sk_draws s).
Proof.
  unfold skip_add. cbv zeta. intros H. apply bind_ok in H as (prevs & _ & H). apply bind_ok in H as (s1 & H1 & H). apply bind_ok in H as (s2 & H2 & H).
  apply bind_ok in H as (s3 & H3 & H). apply bind_ok in H as (s4 & H4 & H). injection H as <-. cbn [sk_store sk_draws].
  split; [|split; [repeat split|reflexivity]]. apply link_levels_shape in H1. apply set_width_shape in H2. apply incr_widths_shape in H3. apply new_widths_shape in H4.
  eapply same_shape_trans; [exact H1|]. eapply same_shape_trans; [exact H2|]. eapply same_shape_trans; eassumption.
Qed.
Lemma unlink_levels_shape prevs a n : forall i st st', unlink_levels n i prevs a st = Ok st' -> same_shape st st'.
Proof.
  induction n as [|n IH]; intros i st st' H; [injection H as <-; apply same_shape_refl|]. cbn [unlink_levels] in H. destruct (i <? n_lvl (st a)).
  - apply bind_ok in H as (nx & _ & H). apply bind_ok in H as (s1 & H1 & H). apply bind_ok in H as (pw & _ & H). apply bind_ok in H as (w & _ & H). apply bind_ok in H as (s2 & H2 & H).
    apply set_next_shape in H1. apply set_width_shape in H2. apply IH in H. eapply same_shape_trans; [exact H1|]. eapply same_shape_trans; eassumption.
  - apply bind_ok in H as (pw & _ & H). apply bind_ok in H as (s1 & H1 & H). apply set_width_shape in H1. apply IH in H. eapply same_shape_trans; eassumption.
Qed.
Lemma skip_remove_shape s v s' : skip_remove s v = Ok s' -> same_shape (sk_store s) (sk_store s') /\ same_params s s' /\ sk_draws s' = sk_draws s.
Proof.
  unfold skip_remove. intros H. apply bind_ok in H as (prevs & _ & H). apply bind_ok in H as (nx & _ & H).
  destruct nx as [a|]; [destruct (feq _ _)|]; [apply bind_ok in H as (st & H1 & H)| |]; injection H as <-; (split; [|split; [repeat split|reflexivity]]); try apply same_shape_refl.
  apply unlink_levels_shape in H1. exact H1.
Qed.
