(** The moment core in any arithmetic: pushes do not fail, what happens to the mean, and an induction principle for
    statements about the values in the window. Nothing here models repository code. *)
From Verif Require Import Base HistSpec RingModel MathModel MathProof NumModel MomentModel.
Local Open Scope Z_scope.

Section CoreInv.
Context {T : Type} (N : Num T).
Local Notation core := (@core T).
Definition same_par (c c' : core) : Prop := c_len c' = c_len c /\ c_window c' = c_window c /\ c_decay c' = c_decay c /\ c_queue c' = c_queue c.

Lemma coef_any k i : (i <= k <= 65)%nat -> exists v, coef N k i = Ok v.
Proof. intros H. destruct (binom_65 k i H) as [b E]. unfold coef. rewrite E. eexists. reflexivity. Qed.
Lemma inner_any op t k is_ s : (forall i, In i is_ -> (i <= k)%nat) -> (k <= 65)%nat -> exists v, inner N op t k is_ s = Ok v.
Proof.
  intros H Hk. revert s. induction is_ as [|i is_ IH]; intros s; cbn [inner]; [eexists; reflexivity|].
  destruct (coef_any k i) as [c E]; [split; [apply H; left; reflexivity|exact Hk]|]. rewrite E. cbn [bind]. apply IH. intros j Hj. apply H. right. exact Hj.
Qed.
Lemma outer_any (step : (nat -> T) -> nat -> res T) ks f : (forall f k, In k ks -> exists v, step f k = Ok v) -> exists g, outer step ks f = Ok g.
Proof.
  revert f. induction ks as [|k ks IH]; intros f H; cbn [outer]; [eexists; reflexivity|].
  destruct (H f k (or_introl eq_refl)) as [v E]. rewrite E. cbn [bind]. apply IH. intros g j Hj. apply H. right. exact Hj.
Qed.
Lemma ks_le len k : (len <= 66)%nat -> In k (ks_up len) -> (2 <= k <= 65)%nat.
Proof. intros H Hk. apply in_seq in Hk. lia. Qed.
Lemma is_le k i : In i (seq 1 (k - 2)) -> (i <= k)%nat.
Proof. intros H. apply in_seq in H. lia. Qed.

Definition add_mean (m x : T) (n : Z) : T := nadd N m (ndiv N (nsub N x m) (nz N n)).
Definition rem_mean (m x : T) (n : Z) : T := nsub N m (ndiv N (nsub N x m) (nz N n)).
Lemma c_add_any c x : (c_len c <= 66)%nat ->
  exists c', c_add N c x = Ok c' /\ same_par c c' /\ c_count c' = c_count c + 1 /\ c_mean c' = add_mean (c_mean c) x (c_count c + 1).
Proof.
  intros Hl. unfold c_add. cbv zeta.
  match goal with |- context [outer ?s ?k ?f] => destruct (outer_any s k f) as [g E] end.
  { intros f k Hk. apply in_rev in Hk. apply (ks_le _ _ Hl) in Hk. apply inner_any; [apply is_le|lia]. }
  rewrite E. cbn [bind]. eexists. split; [reflexivity|]. repeat split.
Qed.
Lemma c_add_decay_any c d x : (c_len c <= 66)%nat ->
  exists c', c_add_decay N c d x = Ok c' /\ same_par c c' /\ c_count c' = c_count c + 1 /\
    c_mean c' = nadd N (c_mean c) (nmul N (if c_count c + 1 =? 1 then nz N 1 else d) (nsub N x (c_mean c))).
Proof.
  intros Hl. unfold c_add_decay. cbv zeta.
  match goal with |- context [outer ?s ?k ?f] => destruct (outer_any s k f) as [g E] end.
  { intros f k Hk. apply in_rev in Hk. apply (ks_le _ _ Hl) in Hk. apply inner_any; [apply is_le|lia]. }
  rewrite E. cbn [bind]. eexists. split; [reflexivity|]. repeat split.
Qed.
Lemma c_remove_any c x : (c_len c <= 66)%nat ->
  exists c', c_remove N c x = Ok c' /\ same_par c c' /\ c_count c' = c_count c - 1 /\
    c_mean c' = if c_count c - 1 >? 0 then rem_mean (c_mean c) x (c_count c - 1) else nz N 0.
Proof.
  intros Hl. unfold c_remove. cbv zeta. destruct (c_count c - 1 >? 0).
  - match goal with |- context [outer ?s ?k ?f] => destruct (outer_any s k f) as [g E] end.
    { intros f k Hk. apply (ks_le _ _ Hl) in Hk. apply inner_any; [apply is_le|lia]. }
    rewrite E. cbn [bind]. eexists. split; [reflexivity|]. repeat split.
  - eexists. split; [reflexivity|]. repeat split.
Qed.

(** ** Induction over histories with a window, without decay.
    [Q n l c]: the core [c] after [n] values since the last Clear, of which those in [l] are in the window. [R]: the
    same between the removal of the oldest value and the addition of the new one. [ok]: the values that are pushed;
    [bound]: how many are; [okl]: the number of sums kept. *)
Variable ok : T -> Prop.
Variable bound : nat.
Variable okl : nat -> Prop.
Variable Q R : nat -> list T -> core -> Prop.
Definition reparam (c : core) w d q : core := mkCore (c_mean c) (c_len c) (c_sums c) (c_count c) w d q.
Hypothesis Q_len : forall n l c, Q n l c -> okl (c_len c).
Hypothesis Q_par : forall n l c w d q, Q n l c -> Q n l (reparam c w d q).
Hypothesis R_par : forall n l c w d q, R n l c -> R n l (reparam c w d q).
Hypothesis Q_R : forall n l c, (n < bound)%nat -> Q n l c -> R n l c.
Hypothesis Q_rem : forall n y l c, (n < bound)%nat -> Forall ok (y :: l) -> Q n (y :: l) c -> exists c', c_remove N c y = Ok c' /\ R n l c' /\ same_par c c'.
Hypothesis R_add : forall n l x c, (n < bound)%nat -> Forall ok l -> ok x -> R n l c -> exists c', c_add N c x = Ok c' /\ Q (S n) (l ++ [x]) c' /\ same_par c c'.
Hypothesis Q_nil : forall c, okl (c_len c) -> c_mean c = nz N 0 -> (forall k, c_sums c k = nz N 0) -> c_count c = 0 -> Q 0 [] c.

Definition winv (w : Z) (h : list T) (c : core) : Prop :=
  Q (length h) (live w h) c /\ c_window c = w /\ c_decay c = None /\ rcap (c_queue c) = round_up w /\ (w <> 0 -> ritems (c_queue c) = live w h).

Lemma Forall_live w h : Forall ok h -> Forall ok (live w h).
Proof. intros H. apply Forall_forall. intros x Hx. apply live_incl in Hx. rewrite Forall_forall in H. auto. Qed.

Lemma winv_push w h c x : 0 <= w -> (length h < bound)%nat -> Forall ok h -> ok x -> winv w h c -> exists c', c_push N c x = Ok c' /\ winv w (h ++ [x]) c'.
Proof.
  intros Hw Hb Hok Hx (HQ & Ew & Ed & Rc & Rq). unfold c_push. rewrite Ew. pose proof (Forall_live w h Hok) as Hl.
  assert (Hlen : length (h ++ [x]) = S (length h)) by (rewrite app_length; cbn [length]; lia).
  destruct (Z.eqb_spec w 0) as [->|Hw0]; cbn [negb].
  - cbn [bind]. rewrite Ed. destruct (R_add _ _ x c Hb Hl Hx (Q_R _ _ _ Hb HQ)) as (c' & E & HQ' & _ & Hwin & Hdec & Hq).
    exists c'. split; [exact E|]. split; [rewrite Hlen; exact HQ'|]. rewrite Hwin, Hdec, Hq. split; [exact Ew|]. split; [exact Ed|]. split; [exact Rc|]. congruence.
  - specialize (Rq Hw0). assert (Hw1 : 0 < w) by lia.
    assert (Erl : ring_len (c_queue c) = zlen (live w h)) by (unfold ring_len; rewrite Rq; reflexivity).
    rewrite Erl. pose proof (live_push w h x Hw1) as Hp. pose proof (live_zlen_le w h ltac:(lia)) as Hle.
    destruct (Z.eqb_spec (zlen (live w h)) w) as [Hfull|Hnot].
    + destruct (live w h) as [|y l] eqn:El; [unfold zlen in Hfull; cbn in Hfull; lia|]. cbn [tl] in Hp.
      unfold ring_get. rewrite Rq. cbn [bind]. fold (reparam c w (c_decay c) (mkRing (rcap (c_queue c)) l)).
      destruct (Q_rem (length h) y l (reparam c w (c_decay c) (mkRing (rcap (c_queue c)) l)) Hb Hl) as (c1 & E1 & S1 & L1 & W1 & D1 & Q1); [apply Q_par; exact HQ|].
      rewrite E1. cbn [bind]. rewrite Q1. cbn [reparam c_queue].
      rewrite (ring_put_ok _ x w); [|exact Rc|unfold ring_len; cbn [ritems]; unfold zlen in *; cbn [length] in Hfull; lia].
      cbn [bind c_decay ritems rcap]. rewrite D1. cbn [reparam c_decay]. rewrite Ed.
      fold (reparam c1 (c_window c1) None (mkRing (rcap (c_queue c)) (l ++ [x]))).
      inversion Hl as [|? ? _ Hl']; subst.
      destruct (R_add (length h) l x (reparam c1 (c_window c1) None (mkRing (rcap (c_queue c)) (l ++ [x]))) Hb Hl' Hx) as (c2 & E2 & S2 & L2 & W2 & D2 & Q2); [apply R_par; exact S1|].
      cbn [reparam c_len c_window c_decay c_queue] in *. exists c2. split; [exact E2|].
      split; [rewrite Hlen, Hp; exact S2|]. rewrite W2, D2, Q2, W1. cbn [rcap ritems]. split; [reflexivity|]. split; [reflexivity|]. split; [exact Rc|].
      intros _. rewrite Hp. reflexivity.
    + cbn [bind]. rewrite (ring_put_ok _ x w); [|exact Rc|rewrite Erl; lia]. cbn [bind c_decay ritems rcap]. rewrite Ed.
      fold (reparam c (c_window c) None (mkRing (rcap (c_queue c)) (ritems (c_queue c) ++ [x]))).
      destruct (R_add (length h) (live w h) x (reparam c (c_window c) None (mkRing (rcap (c_queue c)) (ritems (c_queue c) ++ [x]))) Hb Hl Hx) as (c2 & E2 & S2 & L2 & W2 & D2 & Q2).
      { apply R_par, Q_R; [exact Hb|exact HQ]. }
      cbn [reparam c_len c_window c_decay c_queue] in *. exists c2. split; [exact E2|].
      split; [rewrite Hlen, Hp; exact S2|]. rewrite W2, D2, Q2. cbn [rcap ritems]. split; [exact Ew|]. split; [reflexivity|]. split; [exact Rc|].
      intros _. rewrite Hp, Rq. reflexivity.
Qed.
Lemma winv_clear w h c : winv w h c -> exists c', c_clear N c = Ok c' /\ winv w [] c'.
Proof.
  intros (HQ & Ew & Ed & Rc & Rq). eexists. split; [reflexivity|].
  split; [rewrite live_nil; apply Q_nil; try reflexivity; cbn [c_len]; eapply Q_len; exact HQ|].
  cbn [c_window c_decay c_queue rcap ring_new ritems]. rewrite Ew, live_nil. auto.
Qed.
(** Every history all of whose values since a Clear are [ok] and fewer than [bound] *)
Lemma core_run_winv w c0 ops : 0 <= w -> winv w [] c0 -> (forall x, In (OPush x) ops -> ok x) -> (length ops <= bound)%nat ->
  exists c, core_run N c0 ops = Ok c /\ winv w (hist ops) c.
Proof.
  intros Hw H0 Hok Hb. unfold core_run.
  assert (H : exists c, run (c_push N) (c_clear N) ops c0 = Ok c /\ winv w (hist ops) c /\ Forall ok (hist ops) /\ (length (hist ops) <= length ops)%nat).
  { induction ops as [|o ops IH] using rev_ind.
    - exists c0. split; [reflexivity|]. split; [exact H0|]. split; [constructor|apply le_n].
    - destruct IH as (c & E & I & F & L).
      { intros x Hx. apply Hok, in_or_app. left. exact Hx. }
      { rewrite app_length in Hb. cbn [length] in Hb. lia. }
      rewrite app_length in Hb |- *. cbn [length] in Hb |- *. rewrite run_app, E. cbn [bind]. destruct o as [x|]; cbn [run].
      + assert (Hx : ok x) by (apply Hok, in_or_app; right; left; reflexivity).
        destruct (winv_push w (hist ops) c x Hw ltac:(lia) F Hx I) as (c' & E' & I'). rewrite E'. cbn [bind]. exists c'. rewrite hist_push.
        split; [reflexivity|]. split; [exact I'|]. split; [apply Forall_app; auto|]. rewrite app_length. cbn [length]. lia.
      + destruct (winv_clear w _ c I) as (c' & E' & I'). rewrite E'. cbn [bind]. exists c'. rewrite hist_clear.
        split; [reflexivity|]. split; [exact I'|]. split; [constructor|cbn [length]; lia]. }
  destruct H as (c & E & I & _). exists c. auto.
Qed.
End CoreInv.
