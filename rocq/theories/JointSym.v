(** Exchanging the two variables of a joint metric, in float64. Nothing here models repository code. *)
From Coq Require Import ZArith Lia Bool Reals Lra List.
From Flocq Require Import Core BinarySingleNaN.
From Verif Require Import Base F64 FloatR HistSpec RingModel MathModel NumModel MetricProof NanCore StdFloat PowFloat JointModel JointMetric JointConf TotalProof JointShare JointErr JointRun JointEwm.
Import ListNotations.
Local Open Scope Z_scope.

(** ** Arithmetic *)
Lemma fmul_comm (x y : f64) : fmul x y = fmul y x.
Proof.
  unfold fmul. destruct x as [sx|sx| |sx mx ex Hx], y as [sy|sy| |sy my ey Hy]; try reflexivity; cbn [Bmult]; try (rewrite xorb_comm; reflexivity).
  apply B2SF_inj. rewrite !B2SF_SF2B. rewrite (xorb_comm sx sy), (Pos.mul_comm mx my), (Z.add_comm ex ey). reflexivity.
Qed.
Lemma fz1_sign : Bsign (fz 1) = false. Proof. apply fz_sign. lia. Qed.
Lemma fmul_1_l (x : f64) : fmul (fz 1) x = x.
Proof.
  destruct x as [s|s| |s m e H]; try (destruct s; reflexivity); try reflexivity.
  set (x := B754_finite s m e H). destruct (mul1_l 0%nat x eq_refl) as [F E]. apply B2R_Bsign_inj; [exact F|reflexivity|exact E|].
  pose proof (Bmult_correct 53 1024 _ _ mode_NE (fz 1) x) as C. destruct (fin_1 0%nat) as [F1 E1].
  rewrite E1, Rmult_1_l in C. fold (rnd (B2R x)) in C. rewrite rnd_B2R in C. rewrite Rlt_bool_true in C by apply abs_B2R_lt_emax. destruct C as (_ & _ & C).
  unfold fmul in *. rewrite C; [rewrite fz1_sign; destruct (Bsign x); reflexivity|]. clear - F. destruct (Bmult _ _ _); try reflexivity; discriminate F.
Qed.
Lemma fmul_1_r (x : f64) : fmul x (fz 1) = x.
Proof. rewrite fmul_comm. apply fmul_1_l. Qed.
(** A number that is not -0 is not changed by adding or subtracting a zero. *)
Definition nmz (x : f64) : Prop := x <> B754_zero true.
Definition add_zn (x t : f64) : f64 := if isnan t then fnan else x.
Lemma fadd_zn x t : nmz x -> zn t -> fadd x t = add_zn x t.
Proof.
  intros Hx [(s & ->)| ->]; unfold add_zn; cbn [isnan]; [|apply fadd_nan_r]. destruct x as [[|]|?| |? ? ? ?]; try reflexivity; [destruct Hx; reflexivity|destruct s; reflexivity].
Qed.
Lemma fsub_zn x t : nmz x -> zn t -> fsub x t = add_zn x t.
Proof.
  intros Hx [(s & ->)| ->]; unfold add_zn; cbn [isnan]; [|apply fsub_nan_r]. destruct x as [[|]|?| |? ? ? ?]; try reflexivity; [destruct Hx; reflexivity|destruct s; reflexivity].
Qed.
Lemma add_zn_nmz x t : nmz x -> nmz (add_zn x t).
Proof. intros H. unfold add_zn. destruct (isnan t); [discriminate|exact H]. Qed.
Lemma zero_nmz x : nmz (fadd (fz 0) x).
Proof. change (fz 0) with (B754_zero false : f64). destruct x as [[|]|?| |? ? ? ?]; discriminate. Qed.
Lemma add_zn_comm x t u : add_zn (add_zn x t) u = add_zn (add_zn x u) t.
Proof. unfold add_zn. destruct (isnan t), (isnan u); reflexivity. Qed.
Lemma pzn_zn x : pzn x -> zn x.
Proof. intros [->| ->]; [left; eauto|right; reflexivity]. Qed.
Lemma PA x : pzn x -> fadd (fz 0) x = x.
Proof. exact (pzn_add x). Qed.
Lemma pw_sw (dx dy : f64) i j : pw FN dx dy i j = pw FN dy dx j i.
Proof. unfold pw. cbn [nmul npow nz FN]. rewrite !fmul_1_l. apply fmul_comm. Qed.
Lemma one_zn a b p : zn (one FN a b p).
Proof. apply thin_zn. exists (ndiv FN a (npow FN b 1)), a, p. reflexivity. Qed.
Lemma mixed_zn k b p s : zn s -> zn (mixed FN k b p s).
Proof. intros H. unfold mixed. cbn [nmul FN]. apply fmul_zn_r, H. Qed.
Lemma dmixed_zn k d p s : zn s -> zn (dmixed FN k d p s).
Proof. intros H. unfold dmixed. cbn [nmul FN]. apply fmul_zn_r, H. Qed.
(** The decays that pass the validation, and the 1 used for the first value *)
Definition okdecay (d : f64) : Prop := isnan d = true \/ is_finite d = true /\ (0 < B2R d <= 1)%R.
Lemma done_zn d p : okdecay d -> zn (done FN d p).
Proof.
  intros H. change (done FN d p) with (fmul (fadd (fmul (fsub (fz 1) d) (fsub (fz 0) d)) (fmul d (fsub (fz 1) d))) p). apply fmul_zn_l. destruct H as [H|[F H]].
  - apply nan_of in H. subst d. right. reflexivity.
  - destruct (done_zero d F H (fz 1) (proj1 (fin_1 0%nat))) as [Fz Ez].
    change (done FN d (fz 1)) with (fmul (fadd (fmul (fsub (fz 1) d) (fsub (fz 0) d)) (fmul d (fsub (fz 1) d))) (fz 1)) in *. rewrite fmul_1_r in *.
    set (c := fadd _ _) in *. clearbody c. left. destruct c as [s|?| |s m e Hb]; try discriminate Fz; [eauto|]. exfalso. cbn [B2R] in Ez. revert Ez. destruct s; [apply Rlt_not_eq, F2R_lt_0|apply Rgt_not_eq, F2R_gt_0]; reflexivity.
Qed.

(** ** The state *)
Local Notation vc := (@jcore f64 (list f64)).
Definition sw_sums (s t : @hmap f64) : Prop := s 1 = t 31 /\ s 31 = t 1 /\ s 32 = t 32 /\ s 62 = t 2 /\ s 2 = t 62.
Definition lowp (s : @hmap f64) : Prop := pzn (hget FN s 1) /\ pzn (hget FN s 31).
Definition steady (s new : @hmap f64) : Prop := hcopy new s 62 = s 62 /\ hcopy new s 2 = s 2.
Definition sw (c d : vc) : Prop :=
  j_tuples c = corr_sums /\ j_tuples d = corr_sums /\ (exists a b, j_means c = [a; b] /\ j_means d = [b; a]) /\ sw_sums (j_sums c) (j_sums d) /\
  lowp (j_sums c) /\ lowp (j_sums d) /\ steady (j_sums c) (j_new c) /\ steady (j_sums d) (j_new d) /\
  j_count c = j_count d /\ j_window c = j_window d /\ j_decay c = j_decay d /\ rcap (j_queue c) = rcap (j_queue d) /\ ritems (j_queue d) = map (@rev f64) (ritems (j_queue c)) /\
  Forall (fun x => length x = 2%nat) (ritems (j_queue c)).
Lemma sw_get s t : sw_sums s t -> hget FN s 1 = hget FN t 31 /\ hget FN s 31 = hget FN t 1 /\ hget FN s 32 = hget FN t 32 /\ hget FN s 62 = hget FN t 2 /\ hget FN s 2 = hget FN t 62.
Proof. unfold hget. intros (-> & -> & -> & -> & ->). auto. Qed.

Lemma sw_add (c d : vc) x y : sw c d -> exists c' d', j_add FN c [x; y] = Ok c' /\ j_add FN d [y; x] = Ok d' /\ sw c' d'.
Proof.
  intros (Tc & Td & (a & b & Mc & Md) & HS & (L1 & L2) & (L3 & L4) & _ & _ & En & Ew & Ed & Er & Ei & HQ). destruct (sw_get _ _ HS) as (G1 & G31 & G32 & G62 & G2).
  unfold j_add. rewrite Tc, Td, Mc, Md, <- En.
  change (deltas FN [x; y] [a; b]) with [nsub FN x a; nsub FN y b]. change (deltas FN [y; x] [b; a]) with [nsub FN y b; nsub FN x a].
  set (n := nz FN (j_count c + 1)). set (dx := nsub FN x a). set (dy := nsub FN y b).
  destruct (add6 FN n dx dy (j_sums c) (j_new c)) as (m & E & _ & K1 & K31 & K32 & K62 & K2 & S1 & S2). destruct (add6 FN n dy dx (j_sums d) (j_new d)) as (m' & E' & _ & K1' & K31' & K32' & K62' & K2' & S1' & S2').
  rewrite E, E'. cbn [bind]. eexists _, _. split; [reflexivity|]. split; [reflexivity|]. unfold sw. cbn [j_means j_tuples j_sums j_new j_count j_window j_decay j_queue].
  do 2 (split; [reflexivity|]). split; [unfold add_means; cbn [combine map fst snd]; eexists _, _; split; reflexivity|].
  cbn [nadd nsub nz FN] in *. rewrite !(pw_sw dy dx) in *.
  pose proof (pzn_zn _ L1) as Z1. pose proof (pzn_zn _ L2) as Z31. pose proof (pzn_zn _ L3) as Z1'. pose proof (pzn_zn _ L4) as Z31'.
  split; [|split; [|split; [|split; [split; assumption|split; [split; assumption|auto 10]]]]].
  - unfold sw_sums. rewrite K1, K31, K32, K62, K2, K1', K31', K32', K62', K2', <- G1, <- G31, <- G32, <- G62, <- G2. do 2 (split; [reflexivity|]). split; [|split; reflexivity].
    do 2 f_equal. rewrite !(fadd_zn (fadd (fz 0) _)), !(fadd_zn (add_zn _ _)) by auto using mixed_zn, zero_nmz, add_zn_nmz. apply add_zn_comm.
  - unfold lowp, hget. rewrite K1, K31. split; apply (pzn_add_zn (fadd (fz 0) _)); try apply one_zn; [rewrite (PA _ L1); exact L1|rewrite (PA _ L2); exact L2].
  - unfold lowp, hget. rewrite K1', K31'. split; apply (pzn_add_zn (fadd (fz 0) _)); try apply one_zn; [rewrite (PA _ L3); exact L3|rewrite (PA _ L4); exact L4].
Qed.
Lemma sw_decay (c d : vc) e x y : sw c d -> okdecay e -> exists c' d', j_add_decay FN c e [x; y] = Ok c' /\ j_add_decay FN d e [y; x] = Ok d' /\ sw c' d'.
Proof.
  intros (Tc & Td & (a & b & Mc & Md) & HS & (L1 & L2) & (L3 & L4) & _ & _ & En & Ew & Ed & Er & Ei & HQ) He. destruct (sw_get _ _ HS) as (G1 & G31 & G32 & G62 & G2).
  unfold j_add_decay. rewrite Tc, Td, Mc, Md, <- En.
  change (deltas FN [x; y] [a; b]) with [nsub FN x a; nsub FN y b]. change (deltas FN [y; x] [b; a]) with [nsub FN y b; nsub FN x a].
  assert (Hr : okdecay (if j_count c + 1 =? 1 then nz FN 1 else e)).
  { destruct (_ =? 1); [|exact He]. right. destruct (fin_1 0%nat) as [F1 E1]. cbn [nz FN]. split; [exact F1|]. rewrite E1. lra. }
  set (r := if j_count c + 1 =? 1 then nz FN 1 else e) in *. clearbody r. set (dx := nsub FN x a). set (dy := nsub FN y b).
  destruct (decay6 FN r dx dy (j_sums c) (j_new c)) as (m & E & _ & K1 & K31 & K32 & K62 & K2 & S1 & S2). destruct (decay6 FN r dy dx (j_sums d) (j_new d)) as (m' & E' & _ & K1' & K31' & K32' & K62' & K2' & S1' & S2').
  rewrite E, E'. cbn [bind]. eexists _, _. split; [reflexivity|]. split; [reflexivity|]. unfold sw. cbn [j_means j_tuples j_sums j_new j_count j_window j_decay j_queue].
  do 2 (split; [reflexivity|]). split; [unfold add_means; cbn [combine map fst snd]; eexists _, _; split; reflexivity|].
  cbn [nadd nsub nmul nz FN] in *. rewrite !(pw_sw dy dx) in *. set (u := fsub (fz 1) r) in *.
  pose proof (pzn_zn _ L1) as Z1. pose proof (pzn_zn _ L2) as Z31. pose proof (pzn_zn _ L3) as Z1'. pose proof (pzn_zn _ L4) as Z31'.
  assert (P : forall t, zn t -> pzn (fadd (fz 0) t)) by (intros t Ht; apply (pzn_add_zn (fz 0)); [left; reflexivity|exact Ht]).
  split; [|split; [|split; [|split; [split; assumption|split; [split; assumption|auto 10]]]]].
  - unfold sw_sums. rewrite K1, K31, K32, K62, K2, K1', K31', K32', K62', K2', <- G1, <- G31, <- G32, <- G62, <- G2. do 2 (split; [reflexivity|]). split; [|split; reflexivity].
    do 2 f_equal. rewrite !(fadd_zn (fadd (fz 0) _)), !(fadd_zn (add_zn _ _)) by auto using dmixed_zn, zero_nmz, add_zn_nmz. apply add_zn_comm.
  - unfold lowp, hget. rewrite K1, K31. split; apply (pzn_add_zn (fadd (fz 0) _)); try (apply done_zn, Hr); apply P, fmul_zn_r; assumption.
  - unfold lowp, hget. rewrite K1', K31'. split; apply (pzn_add_zn (fadd (fz 0) _)); try (apply done_zn, Hr); apply P, fmul_zn_r; assumption.
Qed.
Lemma hzero_sw s t : sw_sums s t -> sw_sums (hzero FN s) (hzero FN t).
Proof. unfold sw_sums, hzero. intros (-> & -> & -> & -> & ->). auto. Qed.
Lemma hzero_lowp (s : @hmap f64) : lowp (hzero FN s).
Proof. destruct (hzero_low s) as (_ & H). exact H. Qed.
Lemma hzero_steady (s new : @hmap f64) : steady s new -> steady (hzero FN s) (hzero FN new).
Proof. unfold steady, hcopy, hzero. intros [H1 H2]. split; [destruct (new 62), (s 62); try discriminate H1; reflexivity|destruct (new 2), (s 2); try discriminate H2; reflexivity]. Qed.
Lemma sw_rem (c d : vc) x y : sw c d -> exists c' d', j_remove FN c [x; y] = Ok c' /\ j_remove FN d [y; x] = Ok d' /\ sw c' d' /\ j_window c' = j_window c /\ j_decay c' = j_decay c /\ j_queue c' = j_queue c /\ j_queue d' = j_queue d.
Proof.
  intros (Tc & Td & (a & b & Mc & Md) & HS & (L1 & L2) & (L3 & L4) & (T1 & T2) & (T3 & T4) & En & Ew & Ed & Er & Ei & HQ). destruct (sw_get _ _ HS) as (G1 & G31 & G32 & G62 & G2).
  unfold j_remove. rewrite Tc, Td, Mc, Md, <- En. destruct (_ >? 0).
  - cbn [combine map fst snd]. set (ax := nsub FN a _). set (ay := nsub FN b _).
    change (deltas FN [x; y] [ax; ay]) with [nsub FN x ax; nsub FN y ay]. change (deltas FN [y; x] [ay; ax]) with [nsub FN y ay; nsub FN x ax].
    set (n := nz FN (j_count c - 1)). set (dx := nsub FN x ax). set (dy := nsub FN y ay).
    destruct (rem6 FN n dx dy (j_sums c) (j_new c) T1 T2) as ((s, m) & E & _ & K1 & K31 & K32 & K62 & K2 & S1 & S2). destruct (rem6 FN n dy dx (j_sums d) (j_new d) T3 T4) as ((s', m') & E' & _ & K1' & K31' & K32' & K62' & K2' & S1' & S2').
    rewrite E, E'. cbn [bind fst snd] in *. eexists _, _. split; [reflexivity|]. split; [reflexivity|]. split; [|auto]. unfold sw. cbn [j_means j_tuples j_sums j_new j_count j_window j_decay j_queue].
    do 2 (split; [reflexivity|]). split; [eexists _, _; split; reflexivity|].
    cbn [nadd nsub nz FN] in *. rewrite !(pw_sw dy dx) in *.
    pose proof (one_zn n (fadd n (fz 1))) as Z.
    pose proof (pzn_sub_zn _ _ L1 (Z (pw FN dx dy 0 1))) as P1. pose proof (pzn_sub_zn _ _ L2 (Z (pw FN dx dy 1 0))) as P31.
    pose proof (pzn_sub_zn _ _ L3 (Z (pw FN dx dy 1 0))) as P1'. pose proof (pzn_sub_zn _ _ L4 (Z (pw FN dx dy 0 1))) as P31'.
    change (nsub FN) with fsub in *. change (nz FN 0) with (fz 0) in *.
    rewrite !(PA _ L1), !(PA _ L2) in *. rewrite !(PA _ L3), !(PA _ L4) in *. rewrite !(PA _ P1) in *. rewrite !(PA _ P31) in *. rewrite !(PA _ P1') in *. rewrite !(PA _ P31') in *.
    split; [|split; [|split; [|split; [split; assumption|split; [split; assumption|auto 10]]]]].
    + unfold sw_sums. rewrite K1, K31, K32, K62, K2, K1', K31', K32', K62', K2', <- G1, <- G31, <- G32, <- G62, <- G2. do 2 (split; [reflexivity|]). split; [|split; reflexivity].
      do 2 f_equal. rewrite !(fsub_zn (fadd (fz 0) _)), !(fsub_zn (add_zn _ _)) by auto using mixed_zn, zero_nmz, add_zn_nmz, pzn_zn. apply add_zn_comm.
    + unfold lowp, hget. rewrite K1, K31. split; apply (pzn_sub_zn _ _); auto.
    + unfold lowp, hget. rewrite K1', K31'. split; apply (pzn_sub_zn _ _); auto.
  - eexists _, _. split; [reflexivity|]. split; [reflexivity|]. split; [|auto]. unfold sw. cbn [j_means j_tuples j_sums j_new j_count j_window j_decay j_queue].
    do 2 (split; [reflexivity|]). split; [eexists _, _; split; reflexivity|]. split; [apply hzero_sw, HS|]. do 2 (split; [apply hzero_lowp|]). do 2 (split; [apply hzero_steady; split; assumption|]). auto 10.
Qed.

(** ** Histories *)
Definition both {A B} (P : A -> B -> Prop) (r : res A) (r' : res B) : Prop :=
  match r, r' with Ok a, Ok b => P a b | Err e, Err e' => e = e' | Panic, Panic | Hang, Hang | NoFuel, NoFuel => True | _, _ => False end.
Lemma both_bind {A B C D} (P : A -> B -> Prop) (Q : C -> D -> Prop) r r' f g : both P r r' -> (forall a b, P a b -> both Q (f a) (g b)) -> both Q (bind r f) (bind r' g).
Proof. intros H K. destruct r, r'; cbn in *; try contradiction; auto. Qed.
Definition swd (c d : vc) : Prop := sw c d /\ match j_decay c with Some e => okdecay e | None => True end.
Definition setq (c : vc) q : vc := mkJ (j_means c) (j_tuples c) (j_sums c) (j_new c) (j_count c) (j_window c) (j_decay c) q.
Lemma sw_setq c d q q' : swd c d -> rcap q = rcap q' -> ritems q' = map (@rev f64) (ritems q) -> Forall (fun x => length x = 2%nat) (ritems q) -> swd (setq c q) (setq d q').
Proof.
  intros [(H1 & H2 & H3 & H4 & H5 & H6 & H7 & H8 & H9 & H10 & H11 & _) D] R I F. unfold swd, sw, setq. cbn [j_means j_tuples j_sums j_new j_count j_window j_decay j_queue]. tauto.
Qed.
Lemma sw_push c d x y : swd c d -> both swd (jpush FN c [x; y]) (jpush FN d [y; x]).
Proof.
  intros H. unfold jpush, j_push. cbv beta. pose proof H as [(Tc & Td & (a & b & Mc & Md) & HS & _ & _ & _ & _ & En & Ew & Ed & Er & Ei & HQ) Hd].
  rewrite Mc, Md. cbn [length Nat.eqb negb]. rewrite <- Mc, <- Md. apply (both_bind swd).
  - rewrite <- Ew. destruct (negb (j_window c =? 0)); [|exact H]. apply (both_bind swd).
    + assert (El : ring_len (j_queue d) = ring_len (j_queue c)) by (unfold ring_len, zlen; rewrite Ei, map_length; reflexivity). rewrite El.
      destruct (_ =? _); [|exact H]. unfold ring_get. rewrite Ei. destruct (ritems (j_queue c)) as [|t l] eqn:Eq; cbn [map]; [exact I|]. cbn [bind].
      inversion HQ as [|? ? Ht HQ']; subst. destruct (two t Ht) as (u & v & ->). change (rev [u; v]) with [v; u].
      set (q := mkRing (rcap (j_queue c)) l). set (q' := mkRing (rcap (j_queue d)) (map (@rev f64) l)). rewrite Ew. fold (setq c q). rewrite <- Ew. 
      assert (Hs : swd (setq c q) (setq d q')) by (apply sw_setq; [exact H|exact Er|reflexivity|exact HQ']).
      destruct (sw_rem (setq c q) (setq d q') u v (proj1 Hs)) as (c1 & d1 & E1 & E2 & S1 & W1 & D1 & Q1 & Q2).
      change (mkJ (j_means c) (j_tuples c) (j_sums c) (j_new c) (j_count c) (j_window c) (j_decay c) q) with (setq c q).
      replace (mkJ (j_means d) (j_tuples d) (j_sums d) (j_new d) (j_count d) (j_window c) (j_decay d) q') with (setq d q') by (unfold setq; rewrite Ew; reflexivity).
      rewrite E1, E2. split; [exact S1|]. rewrite D1. exact Hd.
    + intros c1 d1 H1. pose proof H1 as [(_ & _ & _ & _ & _ & _ & _ & _ & _ & Ew1 & Ed1 & Er1 & Ei1 & HQ1) _]. apply (both_bind (fun q q' => rcap q = rcap q' /\ ritems q' = map (@rev f64) (ritems q) /\ Forall (fun x => length x = 2%nat) (ritems q))).
      * unfold ring_put, ring_len, zlen. rewrite Ei1, map_length, <- Er1. destruct (_ <? _); [|exact I]. cbn [both rcap ritems]. split; [reflexivity|]. rewrite map_app. split; [reflexivity|]. apply Forall_app. auto.
      * intros q q' (R & I & F). apply (sw_setq c1 d1 q q' H1 R I F).
  - intros c1 d1 [H1 D1]. pose proof H1 as (_ & _ & _ & _ & _ & _ & _ & _ & _ & _ & Ed1 & _). rewrite <- Ed1. destruct (j_decay c1) as [e|] eqn:De.
    + destruct (sw_decay c1 d1 e x y H1 D1) as (c2 & d2 & E1 & E2 & S2). rewrite E1, E2. split; [exact S2|].
      replace (j_decay c2) with (j_decay c1); [rewrite De; exact D1|]. clear - E1. unfold j_add_decay in E1. apply bind_ok in E1 as (? & _ & E1). injection E1 as <-. reflexivity.
    + destruct (sw_add c1 d1 x y H1) as (c2 & d2 & E1 & E2 & S2). rewrite E1, E2. split; [exact S2|].
      replace (j_decay c2) with (j_decay c1); [rewrite De; exact I|]. clear - E1. unfold j_add in E1. apply bind_ok in E1 as (? & _ & E1). injection E1 as <-. reflexivity.
Qed.
Lemma sw_clear c d : swd c d -> both swd (j_clear FN c) (j_clear FN d).
Proof.
  intros [(Tc & Td & (a & b & Mc & Md) & HS & HL & HL' & HT & HT' & En & Ew & Ed & Er & Ei & HQ) Hd]. unfold j_clear. cbn [both]. split; [|exact Hd].
  unfold sw. cbn [j_means j_tuples j_sums j_new j_count j_window j_decay j_queue]. rewrite Mc, Md, Ew. do 2 (split; [assumption|]). split; [eexists _, _; split; reflexivity|].
  split; [apply hzero_sw, HS|]. do 2 (split; [apply hzero_lowp|]). do 2 (split; [apply hzero_steady; assumption|]). do 3 (split; [first [reflexivity|exact Ed]|]). do 2 (split; [reflexivity|]). constructor.
Qed.
(** The same calls with the coordinates exchanged *)
Definition swap_op {T} (o : op (list T)) : op (list T) := match o with OPush x => OPush (rev x) | OClear => OClear end.
Lemma sw_run ops : (forall x, In (OPush x) ops -> length x = 2%nat) -> forall c d, swd c d -> both swd (jcore_run FN c ops) (jcore_run FN d (map swap_op ops)).
Proof.
  unfold jcore_run. induction ops as [|o ops IH]; intros Hx c d H; cbn [map run]; [exact H|]. assert (Hx' : forall x, In (OPush x) ops -> length x = 2%nat) by (intros x Hi; apply Hx; right; exact Hi).
  destruct o as [x|]; cbn [swap_op run].
  - destruct (two x (Hx x (or_introl eq_refl))) as (a & b & ->). apply (both_bind swd); [apply sw_push, H|]. intros. apply IH; assumption.
  - apply (both_bind swd); [apply sw_clear, H|]. intros. apply IH; assumption.
Qed.
Lemma decay_ok d : fle d (fz 0) || fle (fz 1) d = false -> okdecay d.
Proof.
  intros H. apply orb_false_iff in H as [H1 H2]. destruct (isnan d) eqn:Ed; [left; exact Ed|]. right. destruct (fz_real 0 ltac:(lia)) as [F0 E0]. destruct (fin_1 0%nat) as [F1 E1].
  assert (Fd : is_finite d = true) by (destruct d as [s|s| |s m e Hb]; [discriminate H1|destruct s; [discriminate H1|discriminate H2]|discriminate Ed|reflexivity]). split; [exact Fd|].
  apply not_true_iff_false in H1. apply not_true_iff_false in H2. rewrite fle_R in H1, H2 by assumption. rewrite E0 in H1. rewrite E1 in H2. lra.
Qed.
Lemma new_k k : (exists c, @jnew_core f64 FN (list f64) (jkconfig k) = Ok c) ->
  jnew_core FN (jkconfig k) = Ok (core0 FN (ksums k) (jwindow k) (jf_decay (jkconfig k))) /\ match jf_decay (jkconfig k) with Some d => fle d (fz 0) || fle (fz 1) d = false | None => True end.
Proof.
  intros (c & E). rewrite E. destruct k as [w|w|d|d]; unfold jnew_core, jvalidate in E; cbn [jkconfig jf_window jf_decay jf_sums jf_vars jsums_of nle nz FN] in *.
  1,2: destruct (w <? 0); [discriminate E|]; injection E as <-; split; [reflexivity|exact I].
  all: destruct (fle d (fz 0) || fle (fz 1) d) eqn:V; [discriminate E|]; injection E as <-; split; [reflexivity|reflexivity].
Qed.
Lemma core0_sw w d : match d with Some e => okdecay e | None => True end -> swd (core0 FN corr_sums w d) (core0 FN corr_sums w d).
Proof.
  intros H. split; [|exact H]. unfold sw, core0. cbn [j_means j_tuples j_sums j_new j_count j_window j_decay j_queue]. do 2 (split; [reflexivity|]). split; [eexists _, _; split; reflexivity|].
  assert (L : lowp (init_keys FN corr_sums)) by (split; left; reflexivity). assert (S : steady (init_keys FN corr_sums) (init_keys FN corr_sums)) by (split; reflexivity).
  split; [repeat split|]. repeat (split; [assumption||reflexivity|]). constructor.
Qed.
Lemma sw_value k c d : is_corr k = true -> swd c d -> jvalue FN k c = jvalue FN k d.
Proof.
  intros Hk [(_ & _ & _ & (_ & _ & S32 & S62 & S2) & _ & _ & _ & _ & En & _) _].
  assert (X : corr_value FN c = corr_value FN d).
  { unfold corr_value, j_get_sum. rewrite <- En. destruct (j_count c =? 0); [reflexivity|]. change (t_hash [1; 1]) with 32. change (t_hash [2; 0]) with 62. change (t_hash [0; 2]) with 2.
    rewrite S32, S62, S2. destruct (j_sums d 32), (j_sums d 2), (j_sums d 62); try reflexivity. cbn [bind ndiv nsqrt nmul FN]. rewrite fmul_comm. reflexivity. }
  destruct k; try discriminate Hk; exact X.
Qed.
Lemma swap_len ops (x : list f64) : In (OPush x) (map swap_op ops) -> (forall x, In (OPush x) ops -> length x = 2%nat) -> length x = 2%nat.
Proof. intros Hi H. apply in_map_iff in Hi as ([y|] & E & Hy); [|discriminate E]. injection E as <-. rewrite rev_length. apply H, Hy. Qed.
Theorem sw_pairs k ops : (exists c, @jnew_core f64 FN (list f64) (jkconfig k) = Ok c) -> (forall x, In (OPush x) ops -> length x = 2%nat) ->
  (m <- jm_run FN k ops ;; jm_value FN m) = (m <- jm_run FN k (map swap_op ops) ;; jm_value FN m).
Proof.
  intros Hc Hx. assert (Hx' : forall x, In (OPush x) (map swap_op ops) -> length x = 2%nat) by (intros x Hi; apply (swap_len ops x Hi Hx)).
  destruct (new_k k Hc) as [En Vd]. unfold jm_run, jm_init, new_jmetric. cbn [jm_kind]. rewrite En. cbn [bind]. rewrite (jm_lift FN k ops Hx), (jm_lift FN k (map swap_op ops) Hx').
  assert (Hd : match jf_decay (jkconfig k) with Some e => okdecay e | None => True end) by (destruct (jf_decay (jkconfig k)); [apply decay_ok, Vd|exact I]).
  pose proof (sw_run ops Hx _ _ (core0_sw (jwindow k) _ Hd)) as R.
  set (u := core0 FN corr_sums (jwindow k) (jf_decay (jkconfig k))) in *.
  assert (T : forall o : list (op (list f64)), (forall x, In (OPush x) o -> length x = 2%nat) -> exists c, jcore_run FN u o = Ok c).
  { intros o Ho. assert (Vc : jnew_core FN (jkconfig k) = Ok (core0 FN (ksums k) (jwindow k) (jf_decay (jkconfig k)))) by exact En.
    pose proof (jnew_valid FN _ _ Vc) as V. rewrite kcfg_eq in V. pose proof (valid_sums FN _ corr_sums _ _ (ksums_case k) (or_intror eq_refl) V) as V'.
    destruct (proj1 (jnew_core_spec FN (A := list f64) _) V') as (w & Ew & E').
    destruct (jcore_total FN _ _ o E') as (c & Ec & _); [repeat constructor; lia|exact Ho|]. exists c. rewrite <- Ec. f_equal. cbn [jf_window] in Ew. injection Ew as <-. reflexivity. }
  destruct (T ops Hx) as (c & Ec). destruct (T _ Hx') as (d & Ed). rewrite Ec, Ed in R. cbn [both] in R.
  destruct (is_corr k) eqn:Ek.
  - unfold ksums. rewrite Ek. fold u. rewrite Ec, Ed. cbn [rmap bind]. unfold jm_value. cbn [jm_core jm_kind]. apply sw_value; assumption.
  - unfold ksums. rewrite Ek. 
    assert (J : JointShare.jrel (core0 FN cov_sums (jwindow k) (jf_decay (jkconfig k))) u) by (apply core0_rel; destruct k; auto).
    destruct (jrel_run ops _ _ c J Ec) as (c' & Ec' & Rc). destruct (jrel_run _ _ _ d J Ed) as (d' & Ed' & Rd). rewrite Ec', Ed'. cbn [rmap bind]. unfold jm_value. cbn [jm_core jm_kind].
    rewrite (jrel_value k _ _ Rc Ek), (jrel_value k _ _ Rd Ek). destruct R as [(_ & _ & _ & (_ & _ & S32 & _) & _ & _ & _ & _ & Ecount & _) _].
    assert (G : j_get_sum c [1; 1] = j_get_sum d [1; 1]) by (unfold j_get_sum; rewrite Ecount; change (t_hash [1; 1]) with 32; rewrite S32; reflexivity).
    destruct k; try discriminate Ek; cbn [jvalue]; rewrite G; [unfold j_get_count; rewrite Ecount|]; reflexivity.
Qed.
(** A point with a wrong number of coordinates ends the history with an error. *)
Lemma arity_run k c ops : (exists c, @jnew_core f64 FN (list f64) (jkconfig k) = Ok c) -> jnew_core FN (jkconfig k) = Ok c -> ~ (forall x, In (OPush x) ops -> length x = 2%nat) ->
  run (jm_push FN) (jm_clear FN) ops (mkJM k (Some c)) = Err EArity.
Proof.
  intros Hc En H. assert (X : exists o1 x o2, ops = o1 ++ OPush x :: o2 /\ length x <> 2%nat /\ forall x, In (OPush x) o1 -> length x = 2%nat).
  { clear - H. induction ops as [|o ops IH]; [destruct H; intros x []|]. assert (D : (exists x, o = OPush x /\ length x <> 2%nat) \/ (forall x, o = OPush x -> length x = 2%nat)).
    { destruct o as [x|]; [|right; discriminate]. destruct (Nat.eq_dec (length x) 2) as [E|E]; [right; intros y Hy; congruence|left; eauto]. }
    destruct D as [(x & -> & Hx)|D]; [exists [], x, ops; split; [reflexivity|split; [exact Hx|intros y []]]|].
    destruct IH as (o1 & x & o2 & -> & Hx & Ho).
    - intros G. apply H. intros x [Hx|Hx]; [apply D; exact Hx|apply G, Hx].
    - exists (o :: o1), x, o2. split; [reflexivity|]. split; [exact Hx|]. intros y [Hy|Hy]; [apply D; exact Hy|apply Ho, Hy]. }
  destruct X as (o1 & x & o2 & -> & Hx & Ho). rewrite run_app. destruct (jm_run_total FN k o1 Hc Ho) as (m & Em & _).
  unfold jm_run, jm_init, new_jmetric in Em. cbn [jm_kind] in Em. rewrite En in Em. cbn [bind] in Em. rewrite Em. cbn [bind run].
  rewrite (jm_lift FN k o1 Ho) in Em. destruct (jcore_run FN c o1); try discriminate Em. injection Em as <-. unfold jm_push. cbn [jm_core]. destruct (Nat.eqb_spec (length x) 2); [contradiction|]. reflexivity.
Qed.
Theorem sw_all k ops : (m <- jm_run FN k ops ;; jm_value FN m) = (m <- jm_run FN k (map swap_op ops) ;; jm_value FN m).
Proof.
  assert (D : (forall x, In (OPush x) ops -> length x = 2%nat) \/ ~ (forall x, In (OPush x) ops -> length x = 2%nat)).
  { destruct (forallb (fun o => match o with OPush x => Nat.eqb (length x) 2 | OClear => true end) ops) eqn:E.
    - left. intros x Hx. rewrite forallb_forall in E. apply Nat.eqb_eq. exact (E _ Hx).
    - right. intros G. apply not_true_iff_false in E. apply E. apply forallb_forall. intros [x|] Hx; [apply Nat.eqb_eq, G, Hx|reflexivity]. }
  destruct (jnew_core FN (A := list f64) (jkconfig k)) as [c| | | |] eqn:En.
  2-5: unfold jm_run, jm_init, new_jmetric; cbn [jm_kind]; rewrite En; reflexivity.
  destruct D as [D|D]; [apply sw_pairs; eauto|]. unfold jm_run, jm_init, new_jmetric. cbn [jm_kind]. rewrite En. cbn [bind]. rewrite !(arity_run k c); eauto.
  intros G. apply D. intros x Hx. rewrite <- rev_length. apply G. apply in_map_iff. exists (OPush x). auto.
Qed.
