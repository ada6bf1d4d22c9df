(** Induction over histories for two moment cores, one of which gets the values mapped by a function. Nothing here models repository code. *)
From Verif Require Import Base HistSpec RingModel MathModel MathProof NumModel MomentModel CoreInv.
Local Open Scope Z_scope.

Section Two.
Context {T : Type} (N : Num T).
Local Notation core := (@core T).
Definition par (w : Z) (l : list T) (c : core) : Prop := c_window c = w /\ c_decay c = None /\ rcap (c_queue c) = round_up w /\ (w <> 0 -> ritems (c_queue c) = l).
Lemma push_free c x : par 0 [] c \/ (exists l, par 0 l c) -> c_push N c x = c_add N c x.
Proof. intros H. assert (E : c_window c = 0 /\ c_decay c = None) by (destruct H as [H|(l & H)]; split; apply H). destruct E as [E1 E2]. unfold c_push. rewrite E1. cbn [Z.eqb negb bind]. rewrite E2. reflexivity. Qed.
Lemma push_room w l c x : 0 < w -> zlen l < w -> par w l c -> c_push N c x = c_add N (reparam c w None (mkRing (round_up w) (l ++ [x]))) x.
Proof.
  intros Hw Hl (Ew & Ed & Rc & Rq). unfold c_push. rewrite Ew. destruct (Z.eqb_spec w 0); [lia|]. cbn [negb]. specialize (Rq ltac:(lia)).
  assert (Erl : ring_len (c_queue c) = zlen l) by (unfold ring_len; rewrite Rq; reflexivity). rewrite Erl. destruct (Z.eqb_spec (zlen l) w); [lia|]. cbn [bind].
  rewrite (ring_put_ok _ x w); [|exact Rc|rewrite Erl; lia]. cbn [bind c_decay]. rewrite Ed, Rq, Rc, Ew. reflexivity.
Qed.
Lemma push_full w y l c c1 x : 0 < w -> zlen (y :: l) = w -> par w (y :: l) c -> c_remove N (reparam c w None (mkRing (round_up w) l)) y = Ok c1 ->
  same_par (reparam c w None (mkRing (round_up w) l)) c1 -> c_push N c x = c_add N (reparam c1 w None (mkRing (round_up w) (l ++ [x]))) x.
Proof.
  intros Hw Hl (Ew & Ed & Rc & Rq) E1 (L1 & W1 & D1 & Q1). unfold c_push. rewrite Ew. destruct (Z.eqb_spec w 0); [lia|]. cbn [negb]. specialize (Rq ltac:(lia)).
  assert (Erl : ring_len (c_queue c) = zlen (y :: l)) by (unfold ring_len; rewrite Rq; reflexivity). rewrite Erl. destruct (Z.eqb_spec (zlen (y :: l)) w); [|lia]. unfold ring_get. rewrite Rq. cbn [bind].
  rewrite Ed, Rc. fold (reparam c w None (mkRing (round_up w) l)). rewrite E1. cbn [bind]. rewrite Q1. cbn [reparam c_queue].
  rewrite (ring_put_ok _ x w); [|reflexivity|unfold ring_len; cbn [ritems]; unfold zlen in *; cbn [length] in Hl; lia]. cbn [bind c_decay rcap ritems]. rewrite D1, W1. reflexivity.
Qed.
Lemma par_reparam w l (c c' : core) : same_par (reparam c w None (mkRing (round_up w) l)) c' -> par w l c'.
Proof. intros (_ & W & D & Q). cbn [reparam c_window c_decay c_queue] in *. unfold par. rewrite W, D, Q. repeat split. Qed.

Variable g : T -> T.
Variable ok : T -> Prop.
Variable bound : nat.
Variable okl : nat -> Prop.
Variable Q R : nat -> list T -> core -> core -> Prop.
Hypothesis Q_len : forall n l c d, Q n l c d -> okl (c_len c) /\ okl (c_len d).
Hypothesis Q_par : forall n l c d w e q w' e' q', Q n l c d -> Q n l (reparam c w e q) (reparam d w' e' q').
Hypothesis R_par : forall n l c d w e q w' e' q', R n l c d -> R n l (reparam c w e q) (reparam d w' e' q').
Hypothesis Q_R : forall n l c d, (n < bound)%nat -> Q n l c d -> R n l c d.
Hypothesis Q_rem : forall n y l c d, (n < bound)%nat -> Forall ok (y :: l) -> Q n (y :: l) c d ->
  exists c' d', c_remove N c y = Ok c' /\ c_remove N d (g y) = Ok d' /\ R n l c' d' /\ same_par c c' /\ same_par d d'.
Hypothesis R_add : forall n l x c d, (n < bound)%nat -> Forall ok l -> ok x -> R n l c d ->
  exists c' d', c_add N c x = Ok c' /\ c_add N d (g x) = Ok d' /\ Q (S n) (l ++ [x]) c' d' /\ same_par c c' /\ same_par d d'.
Hypothesis Q_nil : forall c d, okl (c_len c) -> okl (c_len d) -> c_mean c = nz N 0 -> (forall k, c_sums c k = nz N 0) -> c_count c = 0 ->
  c_mean d = nz N 0 -> (forall k, c_sums d k = nz N 0) -> c_count d = 0 -> Q 0 [] c d.

Definition winv2 (w : Z) (h : list T) (c d : core) : Prop := Q (length h) (live w h) c d /\ par w (live w h) c /\ par w (map g (live w h)) d.
Lemma zlen_map (l : list T) : zlen (map g l) = zlen l. Proof. unfold zlen. rewrite map_length. reflexivity. Qed.
Lemma winv2_push w h c d x : 0 <= w -> (length h < bound)%nat -> Forall ok h -> ok x -> winv2 w h c d ->
  exists c' d', c_push N c x = Ok c' /\ c_push N d (g x) = Ok d' /\ winv2 w (h ++ [x]) c' d'.
Proof.
  intros Hw Hb Hok Hx (HQ & Pc & Pd). assert (Hl : Forall ok (live w h)) by (apply Forall_forall; intros z Hz; apply live_incl in Hz; rewrite Forall_forall in Hok; auto).
  assert (Hlen : length (h ++ [x]) = S (length h)) by (rewrite app_length; cbn [length]; lia).
  destruct (Z.eq_dec w 0) as [->|Hw0].
  - rewrite !push_free by (right; eauto). destruct (R_add _ _ x c d Hb Hl Hx (Q_R _ _ _ _ Hb HQ)) as (c' & d' & E & E' & HQ' & (_ & W & D & Qc) & (_ & W' & D' & Qd)).
    exists c', d'. split; [exact E|]. split; [exact E'|]. split; [rewrite Hlen; exact HQ'|]. unfold par in *. rewrite W, D, Qc, W', D', Qd. destruct Pc as (? & ? & ? & _), Pd as (? & ? & ? & _). repeat split; try assumption; congruence.
  - assert (Hw1 : 0 < w) by lia. pose proof (live_push w h x Hw1) as Hp. pose proof (live_zlen_le w h ltac:(lia)) as Hle. unfold winv2. rewrite Hlen, Hp. clear Hp.
    destruct (Z.eqb_spec (zlen (live w h)) w) as [Hfull|Hnot].
    + destruct (live w h) as [|y l] eqn:El; [unfold zlen in Hfull; cbn in Hfull; lia|]. cbn [tl map] in *. assert (Hl' : Forall ok l) by (inversion Hl; assumption).
      destruct (Q_rem (length h) y l _ _ Hb Hl (Q_par _ _ _ _ w None (mkRing (round_up w) l) w None (mkRing (round_up w) (map g l)) HQ)) as (c1 & d1 & E1 & F1 & S1 & P1 & P1').
      rewrite (push_full w y l c c1 x Hw1 Hfull Pc E1 P1). rewrite (push_full w (g y) (map g l) d d1 (g x) Hw1 ltac:(rewrite <- Hfull; change (g y :: map g l) with (map g (y :: l)); apply zlen_map) Pd F1 P1').
      destruct (R_add (length h) l x _ _ Hb Hl' Hx (R_par _ _ _ _ w None (mkRing (round_up w) (l ++ [x])) w None (mkRing (round_up w) (map g l ++ [g x])) S1)) as (c2 & d2 & E2 & F2 & S2 & P2 & P2').
      exists c2, d2. split; [exact E2|]. split; [exact F2|]. split; [exact S2|]. split; [exact (par_reparam _ _ _ _ P2)|]. rewrite map_app. exact (par_reparam _ _ _ _ P2').
    + rewrite (push_room w (live w h) c x Hw1 ltac:(lia) Pc). rewrite (push_room w (map g (live w h)) d (g x) Hw1 ltac:(rewrite zlen_map; lia) Pd).
      destruct (R_add (length h) _ x _ _ Hb Hl Hx (R_par _ _ _ _ w None (mkRing (round_up w) (live w h ++ [x])) w None (mkRing (round_up w) (map g (live w h) ++ [g x])) (Q_R _ _ _ _ Hb HQ))) as (c2 & d2 & E2 & F2 & S2 & P2 & P2').
      exists c2, d2. split; [exact E2|]. split; [exact F2|]. split; [exact S2|]. split; [exact (par_reparam _ _ _ _ P2)|]. rewrite map_app. exact (par_reparam _ _ _ _ P2').
Qed.
Lemma winv2_clear w h c d : winv2 w h c d -> exists c' d', c_clear N c = Ok c' /\ c_clear N d = Ok d' /\ winv2 w [] c' d'.
Proof.
  intros (HQ & (Ew & Ed & Rc & _) & (Ew' & Ed' & Rd & _)). do 2 eexists. split; [reflexivity|]. split; [reflexivity|]. destruct (Q_len _ _ _ _ HQ).
  split; [rewrite live_nil; apply Q_nil; try reflexivity; assumption|]. rewrite live_nil. unfold par. cbn [c_window c_decay c_queue rcap ring_new ritems map]. rewrite Ew, Ew'. repeat split; assumption.
Qed.
Definition mapped (ops : list (op T)) : list (op T) := map (fun o => match o with OPush x => OPush (g x) | OClear => OClear end) ops.
Lemma core_run_winv2 w c0 d0 ops : 0 <= w -> winv2 w [] c0 d0 -> (forall x, In (OPush x) ops -> ok x) -> (length ops <= bound)%nat ->
  exists c d, core_run N c0 ops = Ok c /\ core_run N d0 (mapped ops) = Ok d /\ winv2 w (hist ops) c d.
Proof.
  intros Hw H0 Hok Hb. unfold core_run.
  assert (H : exists c d, run (c_push N) (c_clear N) ops c0 = Ok c /\ run (c_push N) (c_clear N) (mapped ops) d0 = Ok d /\ winv2 w (hist ops) c d /\ Forall ok (hist ops) /\ (length (hist ops) <= length ops)%nat).
  { induction ops as [|o ops IH] using rev_ind.
    - exists c0, d0. repeat (split; [reflexivity || exact H0|]). split; [constructor|apply le_n].
    - destruct IH as (c & d & E & E' & I & F & L).
      { intros x Hx. apply Hok, in_or_app. left. exact Hx. }
      { rewrite app_length in Hb. cbn [length] in Hb. lia. }
      rewrite app_length in Hb |- *. cbn [length] in Hb |- *. unfold mapped. rewrite map_app. fold (mapped ops). rewrite !run_app, E, E'. cbn [bind]. destruct o as [x|]; cbn [run map].
      + assert (Hx : ok x) by (apply Hok, in_or_app; right; left; reflexivity).
        destruct (winv2_push w (hist ops) c d x Hw ltac:(lia) F Hx I) as (c' & d' & E1 & E2 & I'). rewrite E1, E2. cbn [bind]. exists c', d'. rewrite hist_push.
        do 2 (split; [reflexivity|]). split; [exact I'|]. split; [apply Forall_app; auto|]. rewrite app_length. cbn [length]. lia.
      + destruct (winv2_clear w _ c d I) as (c' & d' & E1 & E2 & I'). rewrite E1, E2. cbn [bind]. exists c', d'. rewrite hist_clear.
        do 2 (split; [reflexivity|]). split; [exact I'|]. split; [constructor|cbn [length]; lia]. }
  destruct H as (c & d & E & E' & I & _). exists c, d. auto.
Qed.
End Two.
