(** Histories of pushes to a Corr or a Cov in float64: the errors of the sums, and of the values computed from them. *)
From Coq Require Import ZArith Lia Bool Reals Lra Psatz List.
From Flocq Require Import Core Relative BinarySingleNaN.
From Verif Require Import Base F64 FloatR HistSpec RingModel MathModel NumModel MomentModel MomentSpec RealLib MomentProof PowFloat StdFloat CoreInv FloatErr JointModel JointMetric JointSpec JointValue JointShare JointErr.
Import ListNotations.
Local Open Scope R_scope.
Local Notation vc := (@jcore f64 (list f64)).

Section Win.
Variable B : R.
Hypothesis HB : bpow radix2 (-400) <= B <= bpow radix2 400.
Variable nmax : nat.
Hypothesis Hnmax : (Z.of_nat nmax <= 2 ^ 40)%Z.
Definition jwinv (w : Z) (h : list (list f64)) (c : vc) : Prop :=
  JQ B (length h) (live w h) c /\ j_window c = w /\ j_decay c = None /\ rcap (j_queue c) = round_up w /\ (w <> 0%Z -> ritems (j_queue c) = live w h).
Definition jreparam (c : vc) w d q : vc := mkJ (j_means c) (j_tuples c) (j_sums c) (j_new c) (j_count c) w d q.
Lemma JQ_par n l c w d q : JQ B n l c -> JQ B n l (jreparam c w d q).
Proof. intros H. exact H. Qed.
Lemma JR_par n l c w d q : JR B n l c -> JR B n l (jreparam c w d q).
Proof. intros H. exact H. Qed.
Lemma JQ_two n l c : JQ B n l c -> length (j_means c) = 2%nat.
Proof. intros (_ & _ & _ & _ & _ & _ & _ & mx & my & _ & _ & _ & -> & _). reflexivity. Qed.
Lemma jwinv_push w h c p : (0 <= w)%Z -> (length h < nmax)%nat -> okp B p -> jwinv w h c -> exists c', jpush FN c p = Ok c' /\ jwinv w (h ++ [p]) c'.
Proof.
  intros Hw Hb Hp (HQ & Ew & Ed & Rc & Rq). unfold jpush, j_push. cbv beta. rewrite (JQ_two _ _ _ HQ). pose proof Hp as (Lp & _). rewrite Lp. cbn [Nat.eqb negb]. rewrite Ew.
  assert (Hlen : length (h ++ [p]) = S (length h)) by (rewrite app_length; cbn [length]; lia).
  destruct (Z.eqb_spec w 0) as [->|Hw0]; cbn [negb].
  - cbn [bind]. rewrite Ed. destruct (J_add B HB nmax Hnmax _ _ p c Hb Hp (JQ_JR B HB nmax Hnmax _ _ _ (Nat.lt_le_incl _ _ Hb) HQ)) as (c' & E & HQ' & Hwin & Hdec & Hq).
    exists c'. split; [exact E|]. split; [rewrite Hlen; exact HQ'|]. rewrite Hwin, Hdec, Hq. split; [exact Ew|]. split; [exact Ed|]. split; [exact Rc|]. congruence.
  - specialize (Rq Hw0). assert (Hw1 : (0 < w)%Z) by lia.
    assert (Erl : ring_len (j_queue c) = zlen (live w h)) by (unfold ring_len; rewrite Rq; reflexivity).
    rewrite Erl. pose proof (live_push w h p Hw1) as Hpu. pose proof (live_zlen_le w h ltac:(lia)) as Hle.
    destruct (Z.eqb_spec (zlen (live w h)) w) as [Hfull|Hnot].
    + destruct (live w h) as [|y l] eqn:El; [unfold zlen in Hfull; cbn in Hfull; lia|]. cbn [tl] in Hpu.
      unfold ring_get. rewrite Rq. cbn [bind]. fold (jreparam c w (j_decay c) (mkRing (rcap (j_queue c)) l)).
      destruct (J_rem B HB nmax Hnmax (length h) y l (jreparam c w (j_decay c) (mkRing (rcap (j_queue c)) l)) Hb) as (c1 & E1 & S1 & W1 & D1 & Q1); [apply JQ_par; exact HQ|].
      rewrite E1. cbn [bind]. rewrite Q1. cbn [jreparam j_queue].
      rewrite (ring_put_ok _ p w); [|exact Rc|unfold ring_len; cbn [ritems]; unfold zlen in *; cbn [length] in Hfull; lia].
      cbn [bind j_decay ritems rcap]. rewrite D1. cbn [jreparam j_decay]. rewrite Ed.
      fold (jreparam c1 (j_window c1) None (mkRing (rcap (j_queue c)) (l ++ [p]))).
      destruct (J_add B HB nmax Hnmax (length h) l p (jreparam c1 (j_window c1) None (mkRing (rcap (j_queue c)) (l ++ [p]))) Hb Hp) as (c2 & E2 & S2 & W2 & D2 & Q2); [apply JR_par; exact S1|].
      cbn [jreparam j_window j_decay j_queue] in *. exists c2. split; [exact E2|].
      split; [rewrite Hlen, Hpu; exact S2|]. rewrite W2, D2, Q2, W1. cbn [rcap ritems]. split; [reflexivity|]. split; [reflexivity|]. split; [exact Rc|].
      intros _. rewrite Hpu. reflexivity.
    + cbn [bind]. rewrite (ring_put_ok _ p w); [|exact Rc|rewrite Erl; lia]. cbn [bind j_decay ritems rcap]. rewrite Ed.
      fold (jreparam c (j_window c) None (mkRing (rcap (j_queue c)) (ritems (j_queue c) ++ [p]))).
      destruct (J_add B HB nmax Hnmax (length h) (live w h) p (jreparam c (j_window c) None (mkRing (rcap (j_queue c)) (ritems (j_queue c) ++ [p]))) Hb Hp) as (c2 & E2 & S2 & W2 & D2 & Q2).
      { apply JR_par, (JQ_JR B HB nmax Hnmax); [lia|exact HQ]. }
      cbn [jreparam j_window j_decay j_queue] in *. exists c2. split; [exact E2|].
      split; [rewrite Hlen, Hpu; exact S2|]. rewrite W2, D2, Q2. cbn [rcap ritems]. split; [exact Ew|]. split; [reflexivity|]. split; [exact Rc|].
      intros _. rewrite Hpu, Rq. reflexivity.
Qed.
Lemma jwinv_clear w h c : jwinv w h c -> exists c', j_clear FN c = Ok c' /\ jwinv w [] c'.
Proof.
  intros (HQ & Ew & Ed & Rc & Rq). eexists. split; [reflexivity|].
  split; [rewrite live_nil; eapply JQ_0; [eassumption|exact HQ|reflexivity|reflexivity|reflexivity|reflexivity|reflexivity]|].
  cbn [j_window j_decay j_queue rcap ring_new ritems]. rewrite Ew, live_nil. auto.
Qed.
Lemma jcore_run_winv w c0 ops : (0 <= w)%Z -> jwinv w [] c0 -> (forall x, In (OPush x) ops -> okp B x) -> (length ops <= nmax)%nat ->
  exists c, jcore_run FN c0 ops = Ok c /\ jwinv w (hist ops) c.
Proof.
  intros Hw H0 Hok Hb. unfold jcore_run.
  assert (H : exists c, run (jpush FN) (j_clear FN) ops c0 = Ok c /\ jwinv w (hist ops) c /\ (length (hist ops) <= length ops)%nat).
  { induction ops as [|o ops IH] using rev_ind.
    - exists c0. split; [reflexivity|]. split; [exact H0|]. apply le_n.
    - destruct IH as (c & E & I & L).
      { intros x Hx. apply Hok, in_or_app. left. exact Hx. }
      { rewrite app_length in Hb. cbn [length] in Hb. lia. }
      rewrite app_length in Hb |- *. cbn [length] in Hb |- *. rewrite run_app, E. cbn [bind]. destruct o as [x|]; cbn [run].
      + assert (Hx : okp B x) by (apply Hok, in_or_app; right; left; reflexivity).
        destruct (jwinv_push w (hist ops) c x Hw ltac:(lia) Hx I) as (c' & E' & I'). rewrite E'. cbn [bind]. exists c'. rewrite hist_push.
        split; [reflexivity|]. split; [exact I'|]. rewrite app_length. cbn [length]. lia.
      + destruct (jwinv_clear w _ c I) as (c' & E' & I'). rewrite E'. cbn [bind]. exists c'. rewrite hist_clear.
        split; [reflexivity|]. split; [exact I'|]. cbn [length]. lia. }
  destruct H as (c & E & I & _). exists c. auto.
Qed.
End Win.

Lemma jm_lift {T} (N : Num T) k (ops : list (op (list T))) : (forall x, In (OPush x) ops -> length x = 2%nat) -> forall c,
  run (jm_push N) (jm_clear N) ops (mkJM k (Some c)) = rmap (fun c' => mkJM k (Some c')) (jcore_run N c ops).
Proof.
  unfold jcore_run. induction ops as [|[x|] ops IH]; intros H c; [reflexivity| |]; cbn [run].
  - unfold jm_push at 1. cbn [jm_core jm_kind]. rewrite (H x (or_introl eq_refl)). cbn [Nat.eqb negb]. destruct (jpush N c x); cbn [bind rmap]; try reflexivity. apply IH. intros y Hy. apply H. right. exact Hy.
  - unfold jm_clear at 1. cbn [jm_core jm_kind]. destruct (j_clear N c); cbn [bind rmap]; try reflexivity. apply IH. intros y Hy. apply H. right. exact Hy.
Qed.
(** The cores at the start *)
Definition core0 {T} (N : Num T) (ts : list tuple) w d : @jcore T (list T) := mkJ [nz N 0; nz N 0] ts (init_keys N ts) (init_keys N ts) 0 w d (ring_new w).
Lemma new_cov {T} (N : Num T) w : (0 <= w)%Z -> jnew_core N (jkconfig (JCov w)) = Ok (core0 N cov_sums w None).
Proof. intros Hw. unfold jnew_core, jvalidate. cbn [jkconfig jf_window jf_decay jf_sums jf_vars jsums_of]. destruct (Z.ltb_spec w 0) as [?|_]; [lia|]. reflexivity. Qed.
Lemma new_corr {T} (N : Num T) w : (0 <= w)%Z -> jnew_core N (jkconfig (JCorr w)) = Ok (core0 N corr_sums w None).
Proof. intros Hw. unfold jnew_core, jvalidate. cbn [jkconfig jf_window jf_decay jf_sums jf_vars jsums_of]. destruct (Z.ltb_spec w 0) as [?|_]; [lia|]. reflexivity. Qed.
Lemma init_keys_cov {T} (N : Num T) k : In k [0; 1; 31; 32]%Z -> init_keys N cov_sums k = Some (nz N 0) /\ init_keys N corr_sums k = Some (nz N 0).
Proof. intros H. repeat (destruct H as [<-|H]; [split; reflexivity|]). destruct H. Qed.
Lemma core0_rel w d : w = 0%Z \/ d = None -> JointShare.jrel (core0 FN cov_sums w d) (core0 FN corr_sums w d).
Proof.
  intros H. unfold JointShare.jrel, core0. cbn [j_means j_tuples j_sums j_new j_count j_window j_decay j_queue].
  do 4 (split; [reflexivity|]). split; [unfold v4; repeat match goal with |- context [init_keys FN cov_sums ?k] => let A := fresh in let C := fresh in destruct (init_keys_cov FN k) as [A C]; [cbn [In]; auto 10|]; rewrite A, C; clear A C end; reflexivity|]. do 4 (split; [reflexivity|]). split; [destruct H as [H|H]; [left; exact H|right; split; [exact H|]]|].
  - unfold low, pz, pzn, hget. rewrite !(fun k H => proj1 (init_keys_cov FN k H)) by (cbn [In]; auto 10). rewrite fz0. auto.
  - intros x [].
Qed.
Lemma init_keys_corr {T} (N : Num T) k : In k [1; 31; 32; 62; 2]%Z -> init_keys N corr_sums k = Some (nz N 0).
Proof. intros H. repeat (destruct H as [<-|H]; [reflexivity|]). destruct H. Qed.
Lemma core0_win B (HB : bpow radix2 (-400) <= B <= bpow radix2 400) w : jwinv B w [] (core0 FN corr_sums w None).
Proof.
  destruct (fz_real 0 ltac:(lia)) as [F0 E0']. 
  split; [|unfold core0; cbn [j_means j_tuples j_sums j_new j_count j_window j_decay j_queue rcap ring_new ritems]; rewrite live_nil; auto].
  rewrite live_nil. unfold JQ, J, core0, hget, hcopy. cbv zeta. cbn [j_means j_tuples j_sums j_new j_count j_window j_decay j_queue length map].
  rewrite !init_keys_corr by (cbn [In]; auto 10). change (nz FN 0) with (fz 0).
  assert (C0 : Rabs (B2R (fz 0) - cs (rl []) (rl [])) <= 800 * (INR 0 * INR 0) * EB B).
  { rewrite E0'. change (rl []) with (@nil R). rewrite cs_nil. cbn [INR]. rewrite Rminus_0_r, Rabs_R0. lra. }
  split; [reflexivity|]. split; [reflexivity|]. split; [constructor|]. do 2 (split; [exact z0|]). do 2 (split; [reflexivity|]).
  exists (fz 0), (fz 0), (fz 0), (fz 0), (fz 0). split; [reflexivity|].
  assert (M0 : Qm B 0 [] (mk (fz 0) (zlen (@nil (list f64))))) by (apply (Qm_nil B 0%nat); try reflexivity; cbn; lia).
  do 2 (split; [exact M0|]). do 3 (split; [reflexivity|]). auto.
Qed.
