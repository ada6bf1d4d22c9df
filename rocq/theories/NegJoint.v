(** The joint metrics when one variable is negated, in float64. Nothing here models repository code. *)
From Coq Require Import ZArith Lia Bool List Reals.
From Coq Require Import Floats.SpecFloat.
From Flocq Require Import Core BinarySingleNaN.
From Verif Require Import Base F64 FloatR HistSpec RingModel MathModel NumModel NanCore StdFloat PowFloat JointModel JointMetric JointConf TotalProof JointShare JointErr JointRun JointEwm JointSym JointSpec LagProof NegArith NegCore.
Import ListNotations.
Local Open Scope Z_scope.
Local Notation vc := (@jcore f64 (list f64)).

(** ** Arithmetic *)
Lemma sq_same s (x x' : f64) : ev s x x' -> fmul x x = fmul x' x'.
Proof.
  unfold ev. destruct x as [a|a| |a m e P], x' as [a'|a'| |a' m' e' P']; try contradiction; cbn [B2SF sev]; intros H.
  - destruct a, a'; reflexivity.
  - destruct a, a'; reflexivity.
  - reflexivity.
  - destruct H as (-> & -> & ->). apply B2SF_inj. unfold fmul. cbn [Bmult]. rewrite !B2SF_SF2B, !xorb_nilpotent. reflexivity.
Qed.
Lemma pow2_same s (x x' : f64) : ev s x x' -> fpow x 2 = fpow x' 2.
Proof.
  intros H. destruct x as [a|a| |a m e P] eqn:Ex; destruct x' as [a'|a'| |a' m' e' P'] eqn:Ex'; try contradiction H; try (destruct a, a'; reflexivity); [reflexivity|].
  rewrite <- Ex, <- Ex' in *. rewrite !pow_is_raw; try lia; try (subst; reflexivity || discriminate). unfold pow_raw.
  destruct (frexp_ev s x x' H ltac:(subst; reflexivity)) as [H1 H2]. destruct (Bfrexp x) as [x1 xe], (Bfrexp x') as [x1' xe']. cbn [fst snd] in *. subst xe'.
  cbn [pow_loop]. rewrite (sq_same s x1 x1' H1). destruct (_ || _); reflexivity.
Qed.
Lemma zn_ev s a b : zn a -> ev s a b -> isnan a = isnan b.
Proof. intros [(t & ->)| ->]; destruct b; cbn; try contradiction; reflexivity. Qed.
Lemma add_zn_ev s x t t' : zn t -> ev s t t' -> add_zn x t = add_zn x t'.
Proof. intros H E. unfold add_zn. rewrite (zn_ev s t t' H E). reflexivity. Qed.
Lemma ev_zn s a b : zn a -> ev s a b -> zn b.
Proof. intros [(t & ->)| ->]; destruct b; cbn; try contradiction; unfold zn; eauto. Qed.
Lemma pw_ev (dx dx' dy : f64) i j : (i <= 200)%nat -> ev true dx dx' -> ev (Nat.odd i) (pw FN dx dy i j) (pw FN dx' dy i j).
Proof.
  intros Hi H. unfold pw. cbn [nmul npow nz FN]. rewrite <- (xorb_false_r (Nat.odd i)). apply ev_mul; [|apply ev_refl]. apply ev_scale. exact (ev_pow true dx dx' i Hi H).
Qed.
Lemma pw20 (dx dx' dy : f64) : ev true dx dx' -> pw FN dx dy 2 0 = pw FN dx' dy 2 0.
Proof. intros H. unfold pw. cbn [nmul npow nz FN]. rewrite (pow2_same true dx dx' H). reflexivity. Qed.
Lemma pw0 (dx dx' dy : f64) j : pw FN dx dy 0 j = pw FN dx' dy 0 j.
Proof. reflexivity. Qed.
Lemma pzn_eq a b s : pzn a -> pzn b -> ev s a b -> a = b.
Proof. intros [->| ->] [->| ->] H; try reflexivity; destruct H. Qed.

(** ** The state *)
Definition oev (a b : option f64) : Prop := match a, b with Some x, Some y => ev true x y | None, None => True | _, _ => False end.
Definition jn_sums (s t : @hmap f64) : Prop := s 1 = t 1 /\ s 31 = t 31 /\ oev (s 32) (t 32) /\ s 62 = t 62 /\ s 2 = t 2.
Definition jn (c d : vc) : Prop :=
  j_tuples c = corr_sums /\ j_tuples d = corr_sums /\ (exists a a' b, j_means c = [a; b] /\ j_means d = [a'; b] /\ ev true a a') /\ jn_sums (j_sums c) (j_sums d) /\
  lowp (j_sums c) /\ lowp (j_sums d) /\ steady (j_sums c) (j_new c) /\ steady (j_sums d) (j_new d) /\
  j_count c = j_count d /\ j_window c = j_window d /\ j_decay c = j_decay d /\ rcap (j_queue c) = rcap (j_queue d) /\
  Forall2 (fun p q => exists x x' y, p = [x; y] /\ q = [x'; y] /\ ev true x x') (ritems (j_queue c)) (ritems (j_queue d)).
Lemma jn_get s t : jn_sums s t -> hget FN s 1 = hget FN t 1 /\ hget FN s 31 = hget FN t 31 /\ ev true (hget FN s 32) (hget FN t 32) /\ hget FN s 62 = hget FN t 62 /\ hget FN s 2 = hget FN t 2.
Proof.
  unfold hget. intros (-> & -> & H & -> & ->). do 2 (split; [reflexivity|]). split; [|split; reflexivity].
  unfold oev in H. destruct (s 32), (t 32); try contradiction; [exact H|apply ev_z0].
Qed.
Lemma one_ev (a b p p' : f64) s : ev s p p' -> ev s (one FN a b p) (one FN a b p').
Proof. intros H. unfold one. apply ev_scale, H. Qed.
Lemma sqt_ev (a b p p' : f64) s : ev s p p' -> ev s (sq FN a b p) (sq FN a b p').
Proof. intros H. unfold sq. apply ev_scale, H. Qed.
Lemma mixed_ev k (b p p' x x' : f64) s t : ev s p p' -> ev t x x' -> ev (xorb s t) (mixed FN k b p x) (mixed FN k b p' x').
Proof. intros H H'. unfold mixed. apply ev_mul; [apply ev_scale, H|exact H']. Qed.
Lemma pzn_ev s x : pzn x -> ev s x x.
Proof. intros [->| ->]; exact I. Qed.
Lemma done_ev (d p p' : f64) s : ev s p p' -> ev s (done FN d p) (done FN d p').
Proof. intros H. unfold done. apply ev_scale, H. Qed.
Lemma dsq_ev (d p p' : f64) s : ev s p p' -> ev s (dsq FN d p) (dsq FN d p').
Proof. intros H. unfold dsq. apply ev_scale, H. Qed.
Lemma dmixed_ev k (d p p' x x' : f64) s t : ev s p p' -> ev t x x' -> ev (xorb s t) (dmixed FN k d p x) (dmixed FN k d p' x').
Proof. intros H H'. unfold dmixed. apply ev_mul; [|exact H']. rewrite <- (xorb_false_r s). apply ev_mul; [apply ev_scale, H|apply ev_refl]. Qed.

Lemma jn_add (c d : vc) x x' y : jn c d -> ev true x x' -> exists c' d', j_add FN c [x; y] = Ok c' /\ j_add FN d [x'; y] = Ok d' /\ jn c' d' /\ j_decay c' = j_decay c.
Proof.
  intros (Tc & Td & (a & a' & b & Mc & Md & Ha) & HS & (L1 & L2) & (L3 & L4) & _ & _ & En & Ew & Ed & Er & HQ) Hx. destruct (jn_get _ _ HS) as (G1 & G31 & G32 & G62 & G2).
  unfold j_add. rewrite Tc, Td, Mc, Md, <- En.
  change (deltas FN [x; y] [a; b]) with [fsub x a; fsub y b]. change (deltas FN [x'; y] [a'; b]) with [fsub x' a'; fsub y b].
  set (n := nz FN (j_count c + 1)). pose proof (ev_sub true _ _ _ _ Hx Ha) as Hd. set (dx := fsub x a) in *. set (dx' := fsub x' a') in *. set (dy := fsub y b).
  destruct (add6 FN n dx dy (j_sums c) (j_new c)) as (m & E & _ & K1 & K31 & K32 & K62 & K2 & S1 & S2). destruct (add6 FN n dx' dy (j_sums d) (j_new d)) as (m' & E' & _ & K1' & K31' & K32' & K62' & K2' & S1' & S2').
  rewrite E, E'. cbn [bind]. eexists _, _. split; [reflexivity|]. split; [reflexivity|]. split; [|reflexivity]. unfold jn. cbn [j_means j_tuples j_sums j_new j_count j_window j_decay j_queue].
  do 2 (split; [reflexivity|]). split.
  { unfold add_means; cbn [combine map fst snd]. eexists _, _, _. split; [reflexivity|]. split; [reflexivity|]. apply (ev_add true); [exact Ha|]. apply ev_div, Hd. }
  rewrite <- (pw20 dx dx' dy Hd), <- !(pw0 dx dx' dy) in *. cbn [nadd nz FN] in *. rewrite <- G1, <- G31 in *. rewrite <- G62, <- G2 in *.
  pose proof (pzn_zn _ L1) as Z1. pose proof (pzn_zn _ L2) as Z31.
  pose proof (pw_ev dx dx' dy 1 0 ltac:(lia) Hd) as P10. pose proof (pw_ev dx dx' dy 1 1 ltac:(lia) Hd) as P11. change (Nat.odd 1) with true in *.
  assert (LL : lowp (hcopy m (j_sums c))).
  { unfold lowp, hget. rewrite K1, K31. split; apply (pzn_add_zn (fadd (fz 0) _)); try apply one_zn; [rewrite (PA _ L1); exact L1|rewrite (PA _ L2); exact L2]. }
  assert (LR : lowp (hcopy m' (j_sums d))).
  { unfold lowp, hget. rewrite K1', K31'. split; apply (pzn_add_zn (fadd (fz 0) _)); try apply one_zn; [rewrite (PA _ L1); exact L1|rewrite (PA _ L2); exact L2]. }
  split; [|split; [exact LL|split; [exact LR|split; [split; assumption|split; [split; assumption|auto 10]]]]].
  unfold jn_sums. rewrite K1, K1', K32, K32', K62, K62', K2, K2'. split; [reflexivity|]. split.
  { destruct LL as [_ LL], LR as [_ LR]. unfold hget in LL, LR. rewrite K31 in LL |- *. rewrite K31' in LR |- *. f_equal. apply (pzn_eq _ _ true LL LR).
    apply ev_add; [apply ev_add; [apply ev_z0|apply pzn_ev, L2]|]. apply one_ev, P10. }
  split.
  { cbn [oev]. apply ev_add; [|apply sqt_ev, P11]. apply ev_add; [apply ev_add; [apply ev_add; [apply ev_z0|exact G32]|]|].
    - apply (mixed_ev (-1) n _ _ _ _ true false P10), ev_refl.
    - apply (mixed_ev (-1) n _ _ _ _ false true (ev_refl _)). apply pzn_ev, L2. }
  split; [|reflexivity]. do 2 f_equal. rewrite !(fadd_zn (fadd (fz 0) _)) by auto using mixed_zn, zero_nmz. apply (add_zn_ev true); [apply mixed_zn, Z31|].
  apply (mixed_ev (-2) n _ _ _ _ true false P10), ev_refl.
Qed.
Lemma jn_decay (c d : vc) e x x' y : jn c d -> okdecay e -> ev true x x' -> exists c' d', j_add_decay FN c e [x; y] = Ok c' /\ j_add_decay FN d e [x'; y] = Ok d' /\ jn c' d' /\ j_decay c' = j_decay c.
Proof.
  intros (Tc & Td & (a & a' & b & Mc & Md & Ha) & HS & (L1 & L2) & (L3 & L4) & _ & _ & En & Ew & Ed & Er & HQ) He Hx. destruct (jn_get _ _ HS) as (G1 & G31 & G32 & G62 & G2).
  unfold j_add_decay. rewrite Tc, Td, Mc, Md, <- En.
  change (deltas FN [x; y] [a; b]) with [fsub x a; fsub y b]. change (deltas FN [x'; y] [a'; b]) with [fsub x' a'; fsub y b].
  assert (Hr : okdecay (if j_count c + 1 =? 1 then nz FN 1 else e)).
  { destruct (_ =? 1); [|exact He]. right. destruct (fin_1 0%nat) as [F1 E1]. cbn [nz FN]. split; [exact F1|]. rewrite E1. split; [apply Rlt_0_1|apply Rle_refl]. }
  set (r := if j_count c + 1 =? 1 then nz FN 1 else e) in *. clearbody r.
  pose proof (ev_sub true _ _ _ _ Hx Ha) as Hd. set (dx := fsub x a) in *. set (dx' := fsub x' a') in *. set (dy := fsub y b).
  destruct (decay6 FN r dx dy (j_sums c) (j_new c)) as (m & E & _ & K1 & K31 & K32 & K62 & K2 & S1 & S2). destruct (decay6 FN r dx' dy (j_sums d) (j_new d)) as (m' & E' & _ & K1' & K31' & K32' & K62' & K2' & S1' & S2').
  rewrite E, E'. cbn [bind]. eexists _, _. split; [reflexivity|]. split; [reflexivity|]. split; [|reflexivity]. unfold jn. cbn [j_means j_tuples j_sums j_new j_count j_window j_decay j_queue].
  do 2 (split; [reflexivity|]). split.
  { unfold add_means; cbn [combine map fst snd]. eexists _, _, _. split; [reflexivity|]. split; [reflexivity|]. apply (ev_add true); [exact Ha|]. apply ev_scale, Hd. }
  rewrite <- (pw20 dx dx' dy Hd), <- !(pw0 dx dx' dy) in *. cbn [nadd nmul nsub nz FN] in *. rewrite <- G1, <- G31 in *. rewrite <- G62, <- G2 in *.
  pose proof (pzn_zn _ L1) as Z1. pose proof (pzn_zn _ L2) as Z31.
  pose proof (pw_ev dx dx' dy 1 0 ltac:(lia) Hd) as P10. pose proof (pw_ev dx dx' dy 1 1 ltac:(lia) Hd) as P11. change (Nat.odd 1) with true in *.
  assert (P : forall t, zn t -> pzn (fadd (fz 0) t)) by (intros t Ht; apply (pzn_add_zn (fz 0)); [left; reflexivity|exact Ht]).
  assert (LL : lowp (hcopy m (j_sums c))).
  { unfold lowp, hget. rewrite K1, K31. split; apply (pzn_add_zn (fadd (fz 0) _)); try (apply done_zn, Hr); apply P, fmul_zn_r; assumption. }
  assert (LR : lowp (hcopy m' (j_sums d))).
  { unfold lowp, hget. rewrite K1', K31'. split; apply (pzn_add_zn (fadd (fz 0) _)); try (apply done_zn, Hr); apply P, fmul_zn_r; assumption. }
  split; [|split; [exact LL|split; [exact LR|split; [split; assumption|split; [split; assumption|auto 10]]]]].
  unfold jn_sums. rewrite K1, K1', K32, K32', K62, K62', K2, K2'. split; [reflexivity|]. split.
  { destruct LL as [_ LL], LR as [_ LR]. unfold hget in LL, LR. rewrite K31 in LL |- *. rewrite K31' in LR |- *. f_equal. apply (pzn_eq _ _ true LL LR).
    apply ev_add; [apply ev_add; [apply ev_z0|apply ev_scale, pzn_ev, L2]|]. apply done_ev, P10. }
  split.
  { cbn [oev]. apply ev_add; [|apply dsq_ev, P11]. apply ev_add; [apply ev_add; [apply ev_add; [apply ev_z0|apply ev_scale, G32]|]|].
    - apply (dmixed_ev (-1) r _ _ _ _ true false P10), ev_refl.
    - apply (dmixed_ev (-1) r _ _ _ _ false true (ev_refl _)). apply pzn_ev, L2. }
  split; [|reflexivity]. do 2 f_equal. rewrite !(fadd_zn (fadd (fz 0) _)) by auto using dmixed_zn, zero_nmz. apply (add_zn_ev true); [apply dmixed_zn, Z31|].
  apply (dmixed_ev (-2) r _ _ _ _ true false P10), ev_refl.
Qed.
Lemma hzero_jn s t : jn_sums s t -> jn_sums (hzero FN s) (hzero FN t).
Proof. unfold jn_sums, hzero. intros (-> & -> & H & -> & ->). repeat (split; [reflexivity|]). split; [|split; reflexivity]. destruct (s 32), (t 32); try contradiction; exact I. Qed.
Lemma jn_rem (c d : vc) x x' y : jn c d -> ev true x x' -> exists c' d', j_remove FN c [x; y] = Ok c' /\ j_remove FN d [x'; y] = Ok d' /\ jn c' d' /\ j_decay c' = j_decay c.
Proof.
  intros (Tc & Td & (a & a' & b & Mc & Md & Ha) & HS & (L1 & L2) & (L3 & L4) & (T1 & T2) & (T3 & T4) & En & Ew & Ed & Er & HQ) Hx. destruct (jn_get _ _ HS) as (G1 & G31 & G32 & G62 & G2).
  unfold j_remove. rewrite Tc, Td, Mc, Md, <- En. destruct (_ >? 0).
  - cbn [combine map fst snd].
    assert (Hax : ev true (nsub FN a (ndiv FN (nsub FN x a) (nz FN (j_count c - 1)))) (nsub FN a' (ndiv FN (nsub FN x' a') (nz FN (j_count c - 1))))).
    { apply (ev_sub true); [exact Ha|]. apply ev_div. apply ev_sub; assumption. }
    set (ax := nsub FN a _) in *. set (ax' := nsub FN a' _) in *. set (ay := nsub FN b _).
    change (deltas FN [x; y] [ax; ay]) with [fsub x ax; fsub y ay]. change (deltas FN [x'; y] [ax'; ay]) with [fsub x' ax'; fsub y ay].
    set (n := nz FN (j_count c - 1)). pose proof (ev_sub true _ _ _ _ Hx Hax) as Hd. set (dx := fsub x ax) in *. set (dx' := fsub x' ax') in *. set (dy := fsub y ay).
    destruct (rem6 FN n dx dy (j_sums c) (j_new c) T1 T2) as ((s, m) & E & _ & K1 & K31 & K32 & K62 & K2 & S1 & S2). destruct (rem6 FN n dx' dy (j_sums d) (j_new d) T3 T4) as ((s', m') & E' & _ & K1' & K31' & K32' & K62' & K2' & S1' & S2').
    rewrite E, E'. cbn [bind fst snd] in *. eexists _, _. split; [reflexivity|]. split; [reflexivity|]. split; [|reflexivity]. unfold jn. cbn [j_means j_tuples j_sums j_new j_count j_window j_decay j_queue].
    do 2 (split; [reflexivity|]). split; [eexists _, _, _; split; [reflexivity|]; split; [reflexivity|exact Hax]|].
    rewrite <- (pw20 dx dx' dy Hd), <- !(pw0 dx dx' dy) in *. cbn [nadd nsub nz FN] in *. rewrite <- G1, <- G31 in *. rewrite <- G62, <- G2 in *.
    pose proof (pw_ev dx dx' dy 1 0 ltac:(lia) Hd) as P10. pose proof (pw_ev dx dx' dy 1 1 ltac:(lia) Hd) as P11. change (Nat.odd 1) with true in *.
    pose proof (one_zn n (fadd n (fz 1))) as Z.
    set (o1 := one FN n (fadd n (fz 1)) (pw FN dx dy 0 1)) in *. set (o31 := one FN n (fadd n (fz 1)) (pw FN dx dy 1 0)) in *. set (o31' := one FN n (fadd n (fz 1)) (pw FN dx' dy 1 0)) in *.
    assert (O : ev true o31 o31') by (apply one_ev, P10).
    assert (Zo : zn o1 /\ zn o31 /\ zn o31') by (split; [apply Z|split; apply Z]). destruct Zo as (Zo1 & Zo31 & Zo31').
    pose proof (pzn_sub_zn _ _ L1 Zo1) as P1. pose proof (pzn_sub_zn _ _ L2 Zo31) as P31. pose proof (pzn_sub_zn _ _ L2 Zo31') as P31'. change (nsub FN) with fsub in P1, P31, P31'.
    assert (Q : fsub (hget FN (j_sums c) 31) o31 = fsub (hget FN (j_sums c) 31) o31') by (apply (pzn_eq _ _ true P31 P31'); apply ev_sub; [apply pzn_ev, L2|exact O]).
    rewrite !(PA _ L1), !(PA _ L2) in *. rewrite !(PA _ P1) in *. rewrite !(PA _ P31) in *. rewrite !(PA _ P31') in *. rewrite <- Q in *.
    set (s1 := fsub (hget FN (j_sums c) 1) o1) in *. set (s31 := fsub (hget FN (j_sums c) 31) o31) in *.
    assert (LL : lowp s). { unfold lowp, hget. rewrite K1, K31. split; apply (pzn_sub_zn _ _); assumption. }
    assert (LR : lowp s'). { unfold lowp, hget. rewrite K1', K31'. split; apply (pzn_sub_zn _ _); assumption. }
    assert (Q2 : fsub s31 o31 = fsub s31 o31').
    { apply (pzn_eq _ _ true); [exact (pzn_sub_zn _ _ P31 Zo31)|exact (pzn_sub_zn _ _ P31 Zo31')|]. apply ev_sub; [apply pzn_ev, P31|exact O]. }
    split; [|split; [exact LL|split; [exact LR|split; [split; assumption|split; [split; assumption|auto 10]]]]].
    unfold jn_sums. rewrite K1, K1', K31, K31', K32, K32', K62, K62', K2, K2', <- Q2. split; [reflexivity|]. split; [reflexivity|]. split.
    { cbn [oev]. apply ev_sub; [|apply sqt_ev, P11]. apply ev_sub; [apply ev_sub; [apply ev_add; [apply ev_z0|exact G32]|]|].
      - apply (mixed_ev (-1) _ _ _ _ _ true false P10), ev_refl.
      - apply (mixed_ev (-1) _ _ _ _ _ false true (ev_refl _)). apply pzn_ev, P31. }
    split; [|reflexivity]. do 2 f_equal. assert (Zs : zn (fsub s31 o31)) by (apply pzn_zn; exact (pzn_sub_zn _ _ P31 Zo31)).
    rewrite !(fsub_zn (fadd (fz 0) _)) by auto using mixed_zn, zero_nmz. apply (add_zn_ev true); [apply mixed_zn, Zs|]. apply (mixed_ev (-2) _ _ _ _ _ true false P10), ev_refl.
  - eexists _, _. split; [reflexivity|]. split; [reflexivity|]. split; [|reflexivity]. unfold jn. cbn [j_means j_tuples j_sums j_new j_count j_window j_decay j_queue].
    do 2 (split; [reflexivity|]). split; [eexists _, _, _; split; [reflexivity|]; split; [reflexivity|apply ev_z0]|]. split; [apply hzero_jn, HS|]. do 2 (split; [apply hzero_lowp|]). do 2 (split; [apply hzero_steady; split; assumption|]). auto 10.
Qed.

(** ** Histories *)
Definition jnd (c d : vc) : Prop := jn c d /\ match j_decay c with Some e => okdecay e | None => True end.
Lemma jn_setq c d q q' : jnd c d -> rcap q = rcap q' -> Forall2 (fun p q => exists x x' y, p = [x; y] /\ q = [x'; y] /\ ev true x x') (ritems q) (ritems q') -> jnd (setq c q) (setq d q').
Proof.
  intros [(H1 & H2 & H3 & H4 & H5 & H6 & H7 & H8 & H9 & H10 & H11 & _) D] R F. unfold jnd, jn, setq. cbn [j_means j_tuples j_sums j_new j_count j_window j_decay j_queue]. tauto.
Qed.
Lemma jn_push c d x x' y : jnd c d -> ev true x x' -> both jnd (jpush FN c [x; y]) (jpush FN d [x'; y]).
Proof.
  intros H Hx. unfold jpush, j_push. cbv beta. pose proof H as [(Tc & Td & (a & a' & b & Mc & Md & Ha) & HS & _ & _ & _ & _ & En & Ew & Ed & Er & HQ) Hd].
  rewrite Mc, Md. cbn [length Nat.eqb negb]. rewrite <- Mc, <- Md. apply (both_bind jnd).
  - rewrite <- Ew. destruct (negb (j_window c =? 0)); [|exact H]. apply (both_bind jnd).
    + assert (El : ring_len (j_queue d) = ring_len (j_queue c)) by (unfold ring_len, zlen; rewrite (f2_len HQ); reflexivity). rewrite El.
      destruct (_ =? _); [|exact H]. unfold ring_get. destruct HQ as [|t t' l l' (u & u' & v & -> & -> & Hu) HQ]; [exact I|]. cbn [bind].
      set (q := mkRing (rcap (j_queue c)) l). set (q' := mkRing (rcap (j_queue d)) l').
      assert (Hs : jnd (setq c q) (setq d q')) by (apply jn_setq; [exact H|exact Er|exact HQ]).
      destruct (jn_rem (setq c q) (setq d q') u u' v (proj1 Hs) Hu) as (c1 & d1 & E1 & E2 & S1 & D1).
      change (mkJ (j_means c) (j_tuples c) (j_sums c) (j_new c) (j_count c) (j_window c) (j_decay c) q) with (setq c q).
      replace (mkJ (j_means d) (j_tuples d) (j_sums d) (j_new d) (j_count d) (j_window c) (j_decay d) q') with (setq d q') by (unfold setq; rewrite Ew; reflexivity).
      rewrite E1, E2. split; [exact S1|]. rewrite D1. exact Hd.
    + intros c1 d1 H1. pose proof H1 as [(_ & _ & _ & _ & _ & _ & _ & _ & _ & Ew1 & Ed1 & Er1 & HQ1) _].
      apply (both_bind (fun q q' => rcap q = rcap q' /\ Forall2 (fun p q => exists x x' y, p = [x; y] /\ q = [x'; y] /\ ev true x x') (ritems q) (ritems q'))).
      * unfold ring_put, ring_len, zlen. rewrite (f2_len HQ1), <- Er1. destruct (_ <? _); [|exact I]. cbn [both rcap ritems]. split; [reflexivity|]. apply Forall2_app; [exact HQ1|]. constructor; [eauto 10|constructor].
      * intros q q' (R & F). apply (jn_setq c1 d1 q q' H1 R F).
  - intros c1 d1 [H1 D1]. pose proof H1 as (_ & _ & _ & _ & _ & _ & _ & _ & _ & _ & Ed1 & _). rewrite <- Ed1. destruct (j_decay c1) as [e|] eqn:De.
    + destruct (jn_decay c1 d1 e x x' y H1 D1 Hx) as (c2 & d2 & E1 & E2 & S2 & D2). rewrite E1, E2. split; [exact S2|]. rewrite D2, De. exact D1.
    + destruct (jn_add c1 d1 x x' y H1 Hx) as (c2 & d2 & E1 & E2 & S2 & D2). rewrite E1, E2. split; [exact S2|]. rewrite D2, De. exact I.
Qed.
Lemma jn_clear c d : jnd c d -> both jnd (j_clear FN c) (j_clear FN d).
Proof.
  intros [(Tc & Td & (a & a' & b & Mc & Md & Ha) & HS & HL & HL' & HT & HT' & En & Ew & Ed & Er & HQ) Hd]. unfold j_clear. cbn [both]. split; [|exact Hd].
  unfold jn. cbn [j_means j_tuples j_sums j_new j_count j_window j_decay j_queue]. rewrite Mc, Md, Ew. do 2 (split; [assumption|]). split; [eexists _, _, _; split; [reflexivity|]; split; [reflexivity|apply ev_z0]|].
  split; [apply hzero_jn, HS|]. do 2 (split; [apply hzero_lowp|]). do 2 (split; [apply hzero_steady; assumption|]). do 3 (split; [first [reflexivity|exact Ed]|]). split; [reflexivity|]. constructor.
Qed.
(** The same calls with the first coordinate negated *)
Definition neg1 (p : list f64) : list f64 := match p with x :: t => Bopp x :: t | [] => [] end.
Definition neg1_op (o : op (list f64)) : op (list f64) := match o with OPush p => OPush (neg1 p) | OClear => OClear end.
Lemma neg1_len p : length (neg1 p) = length p. Proof. destruct p; reflexivity. Qed.
Lemma jn_run ops : (forall x, In (OPush x) ops -> length x = 2%nat) -> forall c d, jnd c d -> both jnd (jcore_run FN c ops) (jcore_run FN d (map neg1_op ops)).
Proof.
  unfold jcore_run. induction ops as [|o ops IH]; intros Hx c d H; cbn [map run]; [exact H|]. assert (Hx' : forall x, In (OPush x) ops -> length x = 2%nat) by (intros x Hi; apply Hx; right; exact Hi).
  destruct o as [x|]; cbn [neg1_op run].
  - destruct (two x (Hx x (or_introl eq_refl))) as (a & b & ->). cbn [neg1]. apply (both_bind jnd); [apply jn_push; [exact H|apply ev_opp_self]|]. intros. apply IH; assumption.
  - apply (both_bind jnd); [apply jn_clear, H|]. intros. apply IH; assumption.
Qed.
Lemma core0_jn w d : match d with Some e => okdecay e | None => True end -> jnd (core0 FN corr_sums w d) (core0 FN corr_sums w d).
Proof.
  intros H. split; [|exact H]. unfold jn, core0. cbn [j_means j_tuples j_sums j_new j_count j_window j_decay j_queue]. do 2 (split; [reflexivity|]). split; [eexists _, _, _; split; [reflexivity|]; split; [reflexivity|apply ev_z0]|].
  assert (L : lowp (init_keys FN corr_sums)) by (split; left; reflexivity). assert (T : steady (init_keys FN corr_sums) (init_keys FN corr_sums)) by (split; reflexivity).
  split; [repeat split|]. repeat (split; [assumption||reflexivity|]). constructor.
Qed.
Lemma jn_value k c d : is_corr k = true -> jnd c d -> both (ev true) (jvalue FN k c) (jvalue FN k d).
Proof.
  intros Hk [(_ & _ & _ & (_ & _ & S32 & S62 & S2) & _ & _ & _ & _ & En & _) _].
  assert (X : both (ev true) (corr_value FN c) (corr_value FN d)).
  { unfold corr_value, j_get_sum. rewrite <- En. destruct (j_count c =? 0); [reflexivity|]. change (t_hash [1; 1]) with 32. change (t_hash [2; 0]) with 62. change (t_hash [0; 2]) with 2.
    rewrite S62, S2. unfold oev in S32. destruct (j_sums c 32), (j_sums d 32); try contradiction; [|reflexivity]. destruct (j_sums d 62), (j_sums d 2); try reflexivity. cbn [bind both]. apply ev_div, S32. }
  destruct k; try discriminate Hk; exact X.
Qed.
Theorem jn_pairs k ops : (forall x, In (OPush x) ops -> length x = 2%nat) ->
  both (ev true) (m <- jm_run FN k ops ;; jm_value FN m) (m <- jm_run FN k (map neg1_op ops) ;; jm_value FN m).
Proof.
  intros Hx. destruct (jnew_core FN (A := list f64) (jkconfig k)) as [c0| | | |] eqn:E0.
  2-5: unfold jm_run, jm_init, new_jmetric; cbn [jm_kind]; rewrite E0; cbn [bind both]; auto.
  assert (Hc : exists c, @jnew_core f64 FN (list f64) (jkconfig k) = Ok c) by eauto. clear c0 E0.
  assert (Hx' : forall x, In (OPush x) (map neg1_op ops) -> length x = 2%nat).
  { intros x Hi. apply in_map_iff in Hi as ([y|] & E & Hy); [|discriminate E]. injection E as <-. rewrite neg1_len. apply Hx, Hy. }
  destruct (new_k k Hc) as [En Vd]. unfold jm_run, jm_init, new_jmetric. cbn [jm_kind]. rewrite En. cbn [bind]. rewrite (jm_lift FN k ops Hx), (jm_lift FN k (map neg1_op ops) Hx').
  assert (Hd : match jf_decay (jkconfig k) with Some e => okdecay e | None => True end) by (destruct (jf_decay (jkconfig k)); [apply decay_ok, Vd|exact I]).
  pose proof (jn_run ops Hx _ _ (core0_jn (jwindow k) _ Hd)) as R.
  set (u := core0 FN corr_sums (jwindow k) (jf_decay (jkconfig k))) in *.
  assert (T : forall o : list (op (list f64)), (forall x, In (OPush x) o -> length x = 2%nat) -> exists c, jcore_run FN u o = Ok c).
  { intros o Ho. assert (Vc : jnew_core FN (jkconfig k) = Ok (core0 FN (ksums k) (jwindow k) (jf_decay (jkconfig k)))) by exact En.
    pose proof (jnew_valid FN _ _ Vc) as V. rewrite kcfg_eq in V. pose proof (valid_sums FN _ corr_sums _ _ (ksums_case k) (or_intror eq_refl) V) as V'.
    destruct (proj1 (jnew_core_spec FN (A := list f64) _) V') as (w & Ew & E').
    destruct (jcore_total FN _ _ o E') as (c & Ec & _); [repeat constructor; lia|exact Ho|]. exists c. rewrite <- Ec. f_equal. cbn [jf_window] in Ew. injection Ew as <-. reflexivity. }
  destruct (T ops Hx) as (c & Ec). destruct (T _ Hx') as (d & Ed). rewrite Ec, Ed in R. cbn [both] in R.
  destruct (is_corr k) eqn:Ek.
  - unfold ksums. rewrite Ek. fold u. rewrite Ec, Ed. cbn [rmap bind]. unfold jm_value. cbn [jm_core jm_kind]. apply jn_value; assumption.
  - unfold ksums. rewrite Ek. 
    assert (J : JointShare.jrel (core0 FN cov_sums (jwindow k) (jf_decay (jkconfig k))) u) by (apply core0_rel; destruct k; auto).
    destruct (jrel_run ops _ _ c J Ec) as (c' & Ec' & Rc). destruct (jrel_run _ _ _ d J Ed) as (d' & Ed' & Rd). rewrite Ec', Ed'. cbn [rmap bind]. unfold jm_value. cbn [jm_core jm_kind].
    rewrite (jrel_value k _ _ Rc Ek), (jrel_value k _ _ Rd Ek). destruct R as [(_ & _ & _ & (_ & _ & S32 & _) & _ & _ & _ & _ & Ecount & _) _].
    assert (G : both (ev true) (j_get_sum c [1; 1]) (j_get_sum d [1; 1])).
    { unfold j_get_sum. rewrite Ecount. change (t_hash [1; 1]) with 32. destruct (_ =? 0); [reflexivity|]. unfold oev in S32. destruct (j_sums c 32), (j_sums d 32); try contradiction; [exact S32|reflexivity]. }
    destruct k; try discriminate Ek; cbn [jvalue]; [|exact G]. apply (both_bind (ev true)); [exact G|]. intros x y Hxy. unfold j_get_count. rewrite Ecount. cbn [both]. apply ev_div, Hxy.
Qed.
(** Both coordinates *)
Lemma ev_trans s t a b c : ev s a b -> ev t b c -> ev (xorb s t) a c.
Proof.
  unfold ev. destruct (B2SF a) as [?|?| |? ? ?], (B2SF b) as [?|?| |? ? ?], (B2SF c) as [?|?| |? ? ?]; cbn; try contradiction; auto.
  - intros -> ->. destruct s, t, s0; reflexivity.
  - intros (-> & -> & ->) (-> & -> & ->). repeat split. destruct s, t, s0; reflexivity.
Qed.
Lemma both_trans {A} (P Q R : A -> A -> Prop) r1 r2 r3 : (forall a b c, P a b -> Q b c -> R a c) -> both P r1 r2 -> both Q r2 r3 -> both R r1 r3.
Proof. intros H. destruct r1, r2; cbn; try contradiction; destruct r3; cbn; try contradiction; eauto; congruence. Qed.
