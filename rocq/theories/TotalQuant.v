(** Quantile, Median and IQR over the AVL tree never panic, whatever the values (C52). *)
From Coq Require Import List Lia Reals Lra.
From Flocq Require Import Core BinarySingleNaN.
From Verif Require Import Base F64 HistSpec RingModel MultisetSpec OrderSpec AvlModel AvlProof RbModel RbProof QuantileModel QuantileSpec QuantileProof TotalProof.
Local Open Scope Z_scope.

Lemma avl_add_any t x : wfa t -> exists t', avl_add t x = Ok t' /\ wfa t' /\ zlen (aelems t') = zlen (aelems t) + 1 /\ aheight t <= aheight t' <= aheight t + 1.
Proof.
  unfold zlen. induction t as [|l IHl r IHr v h s]; intros Hw.
  - eexists. split; [reflexivity|]. cbn. repeat split; auto; lia.
  - cbn [wfa] in Hw. destruct Hw as [Hl [Hr [Hh [Hsz Hb]]]]. cbn [avl_add]. destruct (fle x v).
    + destruct (IHl Hl) as (l' & El & Hwl & Hel & Hhl). rewrite El. cbn [bind].
      destruct (refresh_spec l' r v Hwl Hr ltac:(lia)) as (t' & Et & Hwt & Het & Hht & Hht2). exists t'. split; [exact Et|]. split; [exact Hwt|].
      rewrite Het. cbn [aelems aheight] in *. rewrite !app_length. cbn [length]. lia.
    + destruct (IHr Hr) as (r' & Er & Hwr & Her & Hhr). rewrite Er. cbn [bind].
      destruct (refresh_spec l r' v Hl Hwr ltac:(lia)) as (t' & Et & Hwt & Het & Hht & Hht2). exists t'. split; [exact Et|]. split; [exact Hwt|].
      rewrite Het. cbn [aelems aheight] in *. rewrite !app_length. cbn [length]. lia.
Qed.
Lemma avl_remove_any t x : wfa t -> exists t', avl_remove t x = Ok t' /\ wfa t' /\ zlen (aelems t) - 1 <= zlen (aelems t') <= zlen (aelems t) /\ aheight t - 1 <= aheight t' <= aheight t.
Proof.
  unfold zlen. induction t as [|l IHl r IHr v h s]; intros Hw.
  - eexists. split; [reflexivity|]. cbn. repeat split; auto; lia.
  - cbn [wfa] in Hw. destruct Hw as [Hl [Hr [Hh [Hsz Hb]]]]. cbn [avl_remove]. destruct (flt x v); [|destruct (fgt x v)].
    + destruct (IHl Hl) as (l' & El & Hwl & Hel & Hhl). rewrite El. cbn [bind].
      destruct (refresh_spec l' r v Hwl Hr ltac:(lia)) as (t' & Et & Hwt & Het & Hht & Hht2). exists t'. split; [exact Et|]. split; [exact Hwt|].
      rewrite Het. cbn [aelems aheight] in *. rewrite !app_length. cbn [length]. lia.
    + destruct (IHr Hr) as (r' & Er & Hwr & Her & Hhr). rewrite Er. cbn [bind].
      destruct (refresh_spec l r' v Hl Hwr ltac:(lia)) as (t' & Et & Hwt & Het & Hht & Hht2). exists t'. split; [exact Et|]. split; [exact Hwt|].
      rewrite Het. cbn [aelems aheight] in *. rewrite !app_length. cbn [length]. lia.
    + pose proof (wfa_height_ge l Hl). pose proof (wfa_height_ge r Hr). destruct l as [|ll lr lv lh ls].
      { exists r. split; [reflexivity|]. split; [exact Hr|]. cbn [aelems aheight app length] in *. lia. }
      destruct r as [|rl rr rv rh rs].
      { eexists. split; [reflexivity|]. split; [exact Hl|]. split; [|cbn [aheight] in *; lia]. change (aelems (ANode (ANode ll lr lv lh ls) ALeaf v h s)) with (aelems (ANode ll lr lv lh ls) ++ [v]). rewrite app_length. cbn [length]. lia. }
      set (l := ANode ll lr lv lh ls) in *. set (r := ANode rl rr rv rh rs) in *.
      destruct (remove_min_spec r Hr ltac:(unfold r; discriminate)) as [m [r' [Hm [Hrm [Hwr [Her Hhr]]]]]]. rewrite Hm. cbn [bind]. rewrite Hrm. cbn [bind].
      destruct (refresh_spec l r' m Hl Hwr ltac:(lia)) as (t' & Et & Hwt & Het & Hht & Hht2). exists t'. split; [exact Et|]. split; [exact Hwt|].
      rewrite Het. change (aelems (ANode l r v h s)) with (aelems l ++ v :: aelems r). rewrite Her, !app_length. cbn [length aheight] in *. lia.
Qed.

Lemma avl_sel_any t k : wfa t -> 0 <= k < zlen (aelems t) -> exists v, sel (StAvl t) k = Ok v.
Proof.
  intros W Hk. unfold sel. cbn [stat_select bind]. rewrite (avl_select_nth t W k ltac:(lia)). destruct (nth_error (aelems t) (Z.to_nat k)) eqn:E; [eauto|].
  apply nth_error_None in E. unfold zlen in Hk. lia.
Qed.
(** The red-black tree as long as nothing is removed *)
Lemma rb_add_any t x : rsz t -> exists t', rb_add t x = Ok t' /\ rsz t' /\ length (relems t') = S (length (relems t)).
Proof.
  induction t as [|l IHl r IHr v c s]; intros Hs.
  - eexists. split; [reflexivity|]. cbn. repeat split; auto.
  - assert (B : forall l r, rsz l -> rsz r -> exists t', rb_add_balance (RNode l r v c s) = Ok t' /\ rsz t' /\ length (relems t') = (length (relems l) + length (relems r) + 1)%nat).
    { clear. intros l r Hl Hr. unfold rb_add_balance, rb_balance_tail.
      destruct l as [|[|l1 l2 vl1 cl1 sl1] lr vl [] sl], r as [|[|r1 r2 vr1 cr1 sr1] rr vr [] sr];
        cbn [rleft rright rcolor is_red negb andb bind rb_rotate_left rb_rotate_right rb_flip_colors rb_flip_node flip];
        try destruct cl1; try destruct cr1; try destruct lr as [|? ? ? [] ?]; try destruct rr as [|? ? ? [] ?];
        cbn [rleft rright rcolor is_red negb andb bind rb_rotate_left rb_rotate_right rb_flip_colors rb_flip_node flip];
        (eexists; split; [reflexivity|]); cbn [rsz rsize relems app length] in *; repeat (progress (rewrite ?app_length; cbn [length app])); intuition (subst; lia). }
    cbn [rsz] in Hs. cbn [rb_add relems]. rewrite app_length. cbn [length]. destruct (fle x v).
    + destruct (IHl ltac:(tauto)) as (l' & E & W & L). rewrite E. cbn [bind]. destruct (B l' r W ltac:(tauto)) as (t' & E' & W' & L'). exists t'. split; [exact E'|]. split; [exact W'|]. lia.
    + destruct (IHr ltac:(tauto)) as (r' & E & W & L). rewrite E. cbn [bind]. destruct (B l r' ltac:(tauto) W) as (t' & E' & W' & L'). exists t'. split; [exact E'|]. split; [exact W'|]. lia.
Qed.
Lemma rb_sel_any t k : rsz t -> 0 <= k < zlen (relems t) -> exists v, sel (StRb t) k = Ok v.
Proof.
  intros W Hk. unfold sel. cbn [stat_select bind]. rewrite (rb_select_nth t W k ltac:(lia)). destruct (nth_error (relems t) (Z.to_nat k)) eqn:E; [eauto|].
  apply nth_error_None in E. unfold zlen in Hk. lia.
Qed.
(** What a query needs *)
Definition qshape (w : Z) (n : Z) (st : stat) : Prop :=
  (exists t, st = StAvl t /\ wfa t /\ zlen (aelems t) = n) \/ (w = 0 /\ exists t, st = StRb t /\ rsz t /\ zlen (relems t) = n).
Lemma shape_size w n st : qshape w n st -> stat_size st = n.
Proof. intros [(t & -> & W & H)|(_ & t & -> & W & H)]; cbn [stat_size]; [rewrite (wfa_size t W)|rewrite (rsz_size t W)]; exact H. Qed.
Lemma shape_sel w n st k : qshape w n st -> 0 <= k < n -> exists v, sel st k = Ok v.
Proof. intros [(t & -> & W & <-)|(_ & t & -> & W & <-)] Hk; [apply avl_sel_any|apply rb_sel_any]; assumption. Qed.
Lemma shape_add w n st x : qshape w n st -> exists st', stat_add st x = Ok st' /\ qshape w (n + 1) st'.
Proof.
  intros [(t & -> & W & <-)|(Ew & t & -> & W & <-)]; cbn [stat_add].
  - destruct (avl_add_any t x W) as (t' & E & W' & Z' & _). rewrite E. eexists. split; [reflexivity|]. left. eauto.
  - destruct (rb_add_any t x W) as (t' & E & W' & Z'). rewrite E. eexists. split; [reflexivity|]. right. split; [exact Ew|]. exists t'. split; [reflexivity|]. split; [exact W'|]. unfold zlen. lia.
Qed.
Lemma shape_remove w n st x : w <> 0 -> qshape w n st -> exists st' n', stat_remove st x = Ok st' /\ qshape w n' st' /\ n - 1 <= n' <= n.
Proof.
  intros Hw [(t & -> & W & <-)|(Ew & _)]; [|congruence]. cbn [stat_remove].
  destruct (avl_remove_any t x W) as (t' & E & W' & Z' & _). rewrite E. eexists _, _. split; [reflexivity|]. split; [left; eauto|exact Z'].
Qed.
Lemma shape_clear w n st : qshape w n st -> exists st', stat_clear st = Ok st' /\ qshape w 0 st'.
Proof. intros [(t & -> & W & <-)|(Ew & t & -> & W & <-)]; (eexists; split; [reflexivity|]); [left|right; split; [exact Ew|]]; eexists; (split; [reflexivity|]); split; reflexivity || exact I. Qed.

Definition qtot (w i : Z) (h : list f64) (q : quant) : Prop :=
  q_window q = w /\ q_interp q = i /\ rcap (q_queue q) = round_up w /\ (w <> 0 -> ritems (q_queue q) = live w h) /\
  exists n, qshape w n (q_stat q) /\ zlen (live w h) <= n <= zlen h.
Lemma qtot_push w i h q x : 0 <= w -> qtot w i h q -> exists q', q_push q x = Ok q' /\ qtot w i (h ++ [x]) q'.
Proof.
  intros Hw (Ew & Ei & Rc & Rq & n & S & Hz). unfold q_push. rewrite Ew. destruct (Z.eqb_spec w 0) as [->|Hw0]; cbn [negb].
  - cbn [bind]. destruct (shape_add 0 n (q_stat q) x S) as (st' & E & S'). rewrite E. cbn [bind]. eexists. split; [reflexivity|].
    unfold qtot. cbn [q_window q_interp q_queue q_stat]. split; [exact Ew|]. split; [exact Ei|]. split; [exact Rc|]. split; [congruence|]. exists (n + 1). split; [exact S'|].
    rewrite !live_0 in *. rewrite zlen_snoc. lia.
  - destruct (win_step w h x (q_queue q) ltac:(lia) Rc (Rq Hw0)) as [(E & y & l & q' & G & Elv & P & L)|(E & P & L)]; rewrite E.
    + rewrite G. cbn [bind]. destruct (shape_remove w n (q_stat q) y Hw0 S) as (st1 & n1 & E1 & S1 & Z1). rewrite E1. cbn [bind q_queue q_window q_interp q_stat].
      rewrite P. cbn [bind q_queue q_window q_interp q_stat]. destruct (shape_add w n1 st1 x S1) as (st' & E2 & S'). rewrite E2. cbn [bind]. eexists. split; [reflexivity|].
      unfold qtot. cbn [q_window q_interp q_queue q_stat rcap ritems]. split; [reflexivity|]. split; [exact Ei|]. split; [exact Rc|]. split; [reflexivity|]. exists (n1 + 1). split; [exact S'|].
      rewrite L, zlen_snoc. lia.
    + cbn [bind]. rewrite P. cbn [bind q_queue q_window q_interp q_stat]. destruct (shape_add w n (q_stat q) x S) as (st' & E2 & S'). rewrite E2. cbn [bind]. eexists. split; [reflexivity|].
      unfold qtot. cbn [q_window q_interp q_queue q_stat rcap ritems]. split; [exact Ew|]. split; [exact Ei|]. split; [exact Rc|]. split; [reflexivity|]. exists (n + 1). split; [exact S'|].
      rewrite L, zlen_snoc. lia.
Qed.
Lemma q_value_any e q w n phi : qshape w n (q_stat q) -> nonnan phi -> fle phi (fz 0) || fge phi (fz 1) = false -> 1 <= n <= 2 ^ 53 -> exists v, q_value e q phi = Ok v.
Proof.
  intros S Hn Hr Hsz. destruct (index_facts e phi n Hn Hr Hsz) as (Fr & Hi & Hlu & Hle & Eidx & Efeq & Fd & Rd).
  unfold q_value. rewrite Hr, (shape_size w n _ S). destruct (Z.eqb_spec n 0); [lia|]. cbv zeta. rewrite Eidx.
  set (raw := fmul phi (fz (n - 1))) in *. set (i := Zfloor (B2R raw)) in *. destruct (shape_sel w n _ i S ltac:(lia)) as [lo Elo].
  destruct (feq raw (ftrunc raw)) eqn:Ef; [eauto|].
  assert (Hne : B2R raw <> IZR i) by (intros H; apply Efeq in H; discriminate).
  assert (Hlt : i < n - 1) by (apply lt_IZR; destruct Hlu; lra).
  destruct (shape_sel w n _ (i + 1) S ltac:(lia)) as [hi Ehi]. rewrite Elo, Ehi. cbn [bind].
  repeat match goal with |- exists v, (if ?b then _ else _) = Ok v => destruct b end; eauto.
Qed.
Lemma quantile_total e w os q0 ops : new_quantile e w os = Ok q0 -> q_stat q0 = StAvl ALeaf \/ q_stat q0 = StRb RLeaf /\ w = 0 ->
  exists q, run q_push q_clear ops q0 = Ok q /\
    (hist ops = [] -> forall phi, in_range phi = true -> q_value e q phi = Err ENoValues) /\
    (hist ops <> [] -> zlen (hist ops) <= 2 ^ 53 -> forall phi, in_range phi = true -> exists v, q_value e q phi = Ok v).
Proof.
  intros E0 Es.
  assert (K0 : 0 <= w /\ q_window q0 = w /\ q_queue q0 = ring_new w).
  { unfold new_quantile in E0. destruct (Z.ltb_spec w 0); [discriminate|]. split; [lia|]. cbn [impl_init Z.eqb bind] in E0. clear Es.
    assert (G : forall os q q1, qopts_apply e q os = Ok q1 -> q_window q1 = q_window q /\ q_queue q1 = q_queue q).
    { clear. induction os as [|o os IH]; intros q q1 E; cbn [qopts_apply] in E; [injection E as <-; auto|]. apply bind_ok in E. destruct E as (q2 & E2 & E).
      destruct (IH _ _ E) as [H1 H2]. assert (q_window q2 = q_window q /\ q_queue q2 = q_queue q) as [H3 H4]; [|split; congruence].
      destruct o as [i l|i]; cbn [qopt_apply] in E2.
      - destruct (negb (impl_valid i)); [discriminate|]. apply bind_ok in E2. destruct E2 as (st & _ & E2). injection E2 as <-. auto.
      - destruct (negb (interp_valid i)); [discriminate|]. injection E2 as <-. auto. }
    exact (G _ _ _ E0). }
  destruct K0 as (Hw & Ew & Eq).
  assert (I0 : forall q, q_window q = w -> q_interp q = q_interp q0 -> q_queue q = ring_new w -> qshape w 0 (q_stat q) -> qtot w (q_interp q0) [] q).
  { intros q H1 H2 H3 H4. unfold qtot. rewrite live_nil, H3. split; [exact H1|]. split; [exact H2|]. split; [reflexivity|]. split; [reflexivity|]. exists 0. split; [exact H4|]. unfold zlen. cbn. lia. }
  destruct (run_inv q_push q_clear (qtot w (q_interp q0)) q0) with (ops := ops) as (q & E & (H1 & H2 & H3 & H4 & n & H5 & H7)).
  - apply I0; auto. destruct Es as [Es|[Es Ew0]]; rewrite Es; [left|right; split; [exact Ew0|]]; eexists; (split; [reflexivity|]); split; reflexivity || exact I.
  - intros h s x. apply qtot_push. exact Hw.
  - intros h s (H1 & H2 & H3 & H4 & n & H5 & H7). unfold q_clear. destruct (shape_clear w n _ H5) as (st' & E & S'). rewrite E. cbn [bind]. eexists. split; [reflexivity|].
    apply I0; cbn [q_window q_interp q_queue q_stat]; auto. rewrite H1. reflexivity.
  - exists q. split; [exact E|].
    assert (R : forall phi, in_range phi = true -> nonnan phi /\ fle phi (fz 0) || fge phi (fz 1) = false).
    { intros phi H. assert (Hn : nonnan phi) by (unfold in_range in H; apply andb_prop in H; destruct H as [H _]; exact (proj2 (flt_nonnan _ _ H))). split; [exact Hn|]. rewrite (range_neg phi Hn). unfold in_range in H. rewrite H. reflexivity. }
    split.
    + intros Eh phi Hp. destruct (R phi Hp) as [_ Hr]. unfold q_value. rewrite Hr, (shape_size _ _ _ H5). assert (n = 0) as -> by (rewrite Eh in H7; unfold zlen in *; cbn [length] in H7; lia). reflexivity.
    + intros Eh Hz phi Hp. destruct (R phi Hp) as [Hn Hr]. apply (q_value_any e q w n phi H5 Hn Hr). split; [|lia].
      destruct (live w (hist ops)) eqn:El; [apply live_empty in El; [contradiction|exact Hw]|]. unfold zlen in *. cbn [length] in H7. lia.
Qed.
