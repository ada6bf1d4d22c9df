(** Rounding errors of EWMCov and EWMCorr in float64. *)
From Coq Require Import ZArith Lia Bool Reals Lra Psatz List.
From Flocq Require Import Core Relative BinarySingleNaN.
From Verif Require Import Base F64 FloatR HistSpec RingModel MathModel NumModel MomentModel MomentSpec RealLib MomentProof EwmProof JointHist PowFloat StdFloat FloatErr EwmErr JointModel JointMetric JointSpec JointValue JointShare JointErr JointRun JointVal JointAcc.
Import ListNotations.
Local Open Scope R_scope.
Local Notation vc := (@jcore f64 (list f64)).

(** ** The recurrence of the exponentially weighted covariance *)
Lemma wsum_expand ws (l : list (R * R)) u v : wsum ws (map (fun p => (fst p - u) * (snd p - v)) l) =
  wsum ws (map (fun p => fst p * snd p) l) - u * wsum ws (map snd l) - v * wsum ws (map fst l) + u * v * wsum ws (map (fun _ => 1) l).
Proof.
  unfold wsum. revert l. induction ws as [|w ws IH]; intros [|p l]; try (unfold rsum; cbn; ring). cbn [map combine fst snd]. rewrite !rsum_cons, IH. ring.
Qed.
Lemma pweights_push {A} d (l : list A) x : l <> [] -> pweights d (l ++ [x]) = map (fun w => (1 - d) * w) (pweights d l) ++ [d].
Proof.
  intros H. rewrite <- !(eweights_map d (fun _ => 0)). rewrite map_app. cbn [map]. apply eweights_push. destruct l; [congruence|discriminate].
Qed.
Lemma pweights_len {A} d (l : list A) : length (pweights d l) = length l.
Proof. unfold pweights. rewrite map_length, seq_length. reflexivity. Qed.
Lemma wsum_push {A} d (f : A -> R) l x : l <> [] -> wsum (pweights d (l ++ [x])) (map f (l ++ [x])) = (1 - d) * wsum (pweights d l) (map f l) + d * f x.
Proof.
  intros H. rewrite pweights_push by exact H. rewrite map_app. cbn [map]. pose proof (pweights_len d l) as HL. revert HL. generalize (pweights d l). intros ws. revert l H.
  intros l _. unfold wsum. revert l. induction ws as [|w ws IH]; intros [|y l] HL; try discriminate HL.
  - unfold rsum. cbn. ring.
  - cbn [map app combine fst snd]. rewrite !rsum_cons, IH by (injection HL as HL; exact HL). ring.
Qed.
Lemma wsum_one {A} d (f : A -> R) x : wsum (pweights d [x]) (map f [x]) = f x.
Proof. unfold wsum, pweights, rsum, eweight. cbn. ring. Qed.
Lemma weights_one {A} d (l : list A) : l <> [] -> wsum (pweights d l) (map (fun _ => 1) l) = 1.
Proof.
  induction l as [|x l IH] using rev_ind; intros H; [congruence|]. destruct l as [|y l]; [apply (wsum_one d (fun _ => 1))|]. rewrite wsum_push, IH by discriminate. ring.
Qed.
Lemma ewma_w {A} d (f : A -> R) l : wsum (pweights d l) (map f l) = ewma d (map f l).
Proof. unfold ewma. rewrite eweights_map. reflexivity. Qed.
Lemma ewcov_shift d l u v : l <> [] -> wsum (pweights d l) (map (fun p => (fst p - u) * (snd p - v)) l) = ewcov d l + (ewma d (map fst l) - u) * (ewma d (map snd l) - v).
Proof. intros H. unfold ewcov. rewrite !wsum_expand, weights_one, (ewma_w d fst), (ewma_w d snd) by exact H. ring. Qed.
Lemma ewcov_push d l p : l <> [] -> ewcov d (l ++ [p]) = (1 - d) * ewcov d l + d * (1 - d) * ((fst p - ewma d (map fst l)) * (snd p - ewma d (map snd l))).
Proof.
  intros H. unfold ewcov at 1. rewrite wsum_push by exact H. rewrite ewcov_shift by exact H. rewrite !map_app. cbn [map].
  rewrite !ewma_push by (destruct l; [congruence|discriminate]). ring.
Qed.
Lemma ewcov_one d p : ewcov d [p] = 0.
Proof. unfold ewcov. rewrite wsum_one. cbn [map]. rewrite !ewma_one. ring. Qed.
Lemma ewcov_nil d : ewcov d [] = 0.
Proof. reflexivity. Qed.

Section Ewm.
Variable B : R.
Hypothesis HB : bpow radix2 (-400) <= B <= bpow radix2 400.
Local Notation inB := (inB B).
Local Notation EB := (EB B).
Local Ltac abs := repeat match goal with H : Rabs _ <= _ |- _ => apply Rabs_le_inv in H end; try apply Rabs_le.

(** ** One step on one sum *)
Section Step.
Variables (x y m m' e : f64).
Hypothesis Hx : inB x.
Hypothesis Hy : inB y.
Hypothesis Hm : inB m.
Hypothesis Hm' : inB m'.
Hypothesis Fe : is_finite e = true.
Hypothesis He : 0 < B2R e <= 1.
Variables (P s A : f64) (mu nu S0 : R).
Hypothesis FP : is_finite P = true.
Hypothesis HP : Rabs (B2R P - B2R (fsub x m) * B2R (fsub y m')) <= 17 * EB.
Hypothesis Fs : is_finite s = true.
Hypothesis HS : Rabs S0 <= 4 * (B * B).
Hypothesis Hs : Rabs (B2R s - S0) <= 2 * (B * B).
Hypothesis Hmu : Rabs mu <= B.
Hypothesis Hnu : Rabs nu <= B.
Hypothesis Hmm : B2R e * Rabs (B2R m - mu) <= 16 * (eps * B).
Hypothesis Hmm' : B2R e * Rabs (B2R m' - nu) <= 16 * (eps * B).
(** the decayed sum, possibly with zeros added *)
Hypothesis FA : is_finite A = true.
Hypothesis EA : B2R A = B2R (fmul (fsub (fz 1) e) s).
Lemma exy_step : let r := fadd A (fmul (ecoeff e) P) in is_finite r = true /\
  Rabs (B2R r - ((1 - B2R e) * S0 + B2R e * (1 - B2R e) * ((B2R x - mu) * (B2R y - nu)))) <= (1 - B2R e) * Rabs (B2R s - S0) + 1000 * (eps * (B * B)).
Proof.
  cbv zeta. pose proof (B_pos B HB) as H0. pose proof eps_pos as Hp. unfold FloatErr.EB in HP. set (b2 := B * B) in *. assert (Hb2 : 0 < b2) by (unfold b2; nra).
  assert (HE : 0 < eps * b2 <= b2 / 1000) by (split; nra).
  destruct Hm as [Fm Bm]. destruct Hx as [Fx Bx]. destruct Hm' as [Fm' Bm']. destruct Hy as [Fy By].
  destruct (delta_err B HB x m Hx Fm ltac:(lra)) as (Fd & Ed & Bd). set (D := B2R (fsub x m)) in *.
  destruct (delta_err B HB y m' Hy Fm' ltac:(lra)) as (Fd' & Ed' & Bd'). set (D' := B2R (fsub y m')) in *.
  assert (HD2 : Rabs (D * D') <= 16 * b2).
  { rewrite Rabs_mult. replace (16 * b2) with (4 * B * (4 * B)) by (unfold b2; ring). apply Rmult_le_compat; try apply Rabs_pos; assumption. }
  set (p := B2R P) in *. set (D0 := B2R x - mu). set (D1 := B2R y - nu).
  assert (Bp : Rabs p <= 17 * b2) by (abs; lra).
  destruct (ecoeff_err e Fe He) as (Fc & Bc & Ec). set (k := B2R (ecoeff e)) in *. set (r := B2R e) in *.
  assert (HD0 : Rabs D0 <= 2 * B) by (unfold D0; abs; lra).
  assert (HD : forall X M0 mu0 Dl, Rabs (Dl - (X - M0)) <= 4 * (eps * B) -> r * Rabs (M0 - mu0) <= 16 * (eps * B) -> r * Rabs (Dl - (X - mu0)) <= 20 * (eps * B)).
  { intros X M0 mu0 Dl G1 G2. replace (Dl - (X - mu0)) with ((Dl - (X - M0)) + - (M0 - mu0)) by ring.
    apply Rle_trans with (r * (Rabs (Dl - (X - M0)) + Rabs (M0 - mu0))).
    - apply Rmult_le_compat_l; [lra|]. rewrite <- (Rabs_Ropp (M0 - mu0)). apply Rabs_triang.
    - pose proof (Rabs_pos (Dl - (X - M0))). nra. }
  pose proof (HD _ _ _ _ Ed Hmm) as Hq. fold D0 in Hq. pose proof (HD _ _ _ _ Ed' Hmm') as Hq'. fold D1 in Hq'.
  assert (Hsq : r * Rabs (D * D' - D0 * D1) <= 120 * (eps * b2)).
  { replace (D * D' - D0 * D1) with ((D - D0) * D' + D0 * (D' - D1)) by ring.
    apply Rle_trans with (r * (Rabs (D - D0) * Rabs D' + Rabs D0 * Rabs (D' - D1))); [apply Rmult_le_compat_l; [lra|]; rewrite <- !Rabs_mult; apply Rabs_triang|].
    replace (r * (Rabs (D - D0) * Rabs D' + Rabs D0 * Rabs (D' - D1))) with (r * Rabs (D - D0) * Rabs D' + Rabs D0 * (r * Rabs (D' - D1))) by ring.
    assert (G1 : r * Rabs (D - D0) * Rabs D' <= 20 * (eps * B) * (4 * B)) by (apply Rmult_le_compat; try apply Rabs_pos; try assumption; apply Rmult_le_pos; [lra|apply Rabs_pos]).
    assert (G2 : Rabs D0 * (r * Rabs (D' - D1)) <= 2 * B * (20 * (eps * B))) by (apply Rmult_le_compat; try apply Rabs_pos; try assumption; apply Rmult_le_pos; [lra|apply Rabs_pos]).
    replace (120 * (eps * b2)) with (20 * (eps * B) * (4 * B) + 2 * B * (20 * (eps * B))) by (unfold b2; ring). lra. }
  assert (Ht : Rabs (k * p - r * (1 - r) * (D0 * D1)) <= 630 * (eps * b2)).
  { replace (k * p - r * (1 - r) * (D0 * D1)) with ((k - r * (1 - r)) * p + (1 - r) * (r * (p - D * D')) + (1 - r) * (r * (D * D' - D0 * D1))) by ring.
    assert (G1 : Rabs ((k - r * (1 - r)) * p) <= 29 * eps * (17 * b2)) by (rewrite Rabs_mult; apply Rmult_le_compat; try apply Rabs_pos; assumption).
    assert (G2 : Rabs ((1 - r) * (r * (p - D * D'))) <= 17 * (eps * b2)).
    { rewrite Rabs_mult, (Rabs_pos_eq (1 - r)), Rabs_mult, (Rabs_pos_eq r) by lra. pose proof (Rabs_pos (p - D * D')).
      assert (r * Rabs (p - D * D') <= Rabs (p - D * D')) by nra. nra. }
    assert (G3 : Rabs ((1 - r) * (r * (D * D' - D0 * D1))) <= 120 * (eps * b2)).
    { rewrite Rabs_mult, (Rabs_pos_eq (1 - r)), Rabs_mult, (Rabs_pos_eq r) by lra. pose proof (Rabs_pos (D * D' - D0 * D1)).
      assert (0 <= r * Rabs (D * D' - D0 * D1)) by nra. nra. }
    abs. lra. }
  assert (Hkp : Rabs (k * p) <= 136 * b2).
  { rewrite Rabs_mult, (Rabs_pos_eq k) by lra. replace (136 * b2) with (8 * (17 * b2)) by ring. apply Rmult_le_compat; try apply Rabs_pos; lra. }
  destruct (fmul_b (ecoeff e) P 900 Fc FP ltac:(lia)) as [Ft Et]; [fold k p; apply (big_BB B HB); fold b2; lra|]. fold k p in Et.
  pose proof (rnd_BB B HB _ _ Hkp) as Hrt. rewrite <- Et in Hrt. fold b2 in Hrt.
  destruct (one_sub e Fe He) as (Fu & Eu & Bu). set (u := B2R (fsub (fz 1) e)) in *. fold r in Eu.
  assert (Bs : Rabs (B2R s) <= 6 * b2) by (abs; lra).
  assert (Hus : Rabs (u * B2R s) <= 6 * b2) by (rewrite Rabs_mult, (Rabs_pos_eq u) by lra; pose proof (Rabs_pos (B2R s)); nra).
  destruct (fmul_b (fsub (fz 1) e) s 900 Fu Fs ltac:(lia)) as [Fo Eo]; [fold u; apply (big_BB B HB); fold b2; lra|]. fold u in Eo.
  pose proof (rnd_BB B HB _ _ Hus) as Hro. rewrite <- Eo in Hro. fold b2 in Hro. rewrite <- EA in Hro.
  assert (Hu : Rabs (u * B2R s - (1 - r) * S0) <= (1 - r) * Rabs (B2R s - S0) + 12 * (eps * b2)).
  { replace (u * B2R s - (1 - r) * S0) with ((1 - r) * (B2R s - S0) + (u - (1 - r)) * B2R s) by ring. eapply Rle_trans; [apply Rabs_triang|].
    rewrite !Rabs_mult, (Rabs_pos_eq (1 - r)) by lra. apply Rplus_le_compat_l.
    apply Rle_trans with (2 * eps * (6 * b2)); [|lra]. apply Rmult_le_compat; try apply Rabs_pos; assumption. }
  set (o := B2R A) in *. set (t := B2R (fmul (ecoeff e) P)) in *.
  assert (Hot : Rabs (o + t) <= 145 * b2) by (clear - Hro Hrt Hus Hkp HE Hb2; abs; lra).
  destruct (fadd_b A (fmul (ecoeff e) P) 900 FA Ft ltac:(lia)) as [Fr Er]; [fold o t; apply (big_BB B HB); fold b2; lra|]. fold o t in Er.
  split; [exact Fr|].
  pose proof (rnd_BB B HB _ _ Hot) as Hrr. rewrite <- Er in Hrr. fold b2 in Hrr.
  generalize dependent (Rabs (B2R s - S0)). intros es _ Hu. clear - Hu Hrr Hro Hrt Ht HE. abs. lra.
Qed.
End Step.

(** ** The terms that stay zero *)
Section Zeros.
Variables e : f64.
Hypothesis Fe : is_finite e = true.
Hypothesis He : 0 < B2R e <= 1.
Lemma e_upto : PowFloat.upto 0 e.
Proof. split; [exact Fe|]. change (bpow radix2 0) with 1. abs. lra. Qed.
Lemma u_upto : PowFloat.upto 0 (fsub (fz 1) e).
Proof. destruct (one_sub e Fe He) as (Fu & _ & Bu). split; [exact Fu|]. change (bpow radix2 0) with 1. abs. lra. Qed.
Lemma done_zero p : is_finite p = true -> zero (done FN e p).
Proof.
  intros Fp. change (done FN e p) with (fmul (fadd (fmul (fsub (fz 1) e) (fsub (fz 0) e)) (fmul e (fsub (fz 1) e))) p). apply zmul_l; [|exact Fp].
  destruct (zero_sub e Fe He) as [Fz Ez]. destruct (one_sub e Fe He) as (Fu & _ & Bu). set (u := fsub (fz 1) e) in *. set (z := fsub (fz 0) e) in *.
  assert (H1 : Rabs (B2R u * B2R z) <= bpow radix2 10) by (apply big_1; rewrite Ez; abs; nra).
  assert (H2 : Rabs (B2R e * B2R u) <= bpow radix2 10) by (apply big_1; abs; nra).
  destruct (fmul_b u z 10 Fu Fz ltac:(lia) H1) as [F1 E1]. destruct (fmul_b e u 10 Fe Fu ltac:(lia) H2) as [F2 E2].
  assert (E : B2R (fmul u z) + B2R (fmul e u) = 0).
  { rewrite E1, E2, Ez. replace (B2R u * - B2R e) with (- (B2R e * B2R u)) by ring. rewrite rnd_opp. ring. }
  destruct (fadd_b (fmul u z) (fmul e u) 10 F1 F2 ltac:(lia)) as [F3 E3]; [rewrite E, Rabs_R0; apply bpow_ge_0|].
  split; [exact F3|]. rewrite E3, E. apply rnd_fmt. apply generic_format_0.
Qed.
Lemma dmixed_zero k p z : (Z.abs k <= 2)%Z -> is_finite p = true -> Rabs (B2R p) <= 4 * B -> zero z -> zero (dmixed FN k e p z).
Proof.
  intros Hk Fp Bp Hz. change (dmixed FN k e p z) with (fmul (fmul (fmul (fmul (fz k) e) p) (fsub (fz 1) e)) z). apply zmul_r; [|exact Hz].
  assert (U1 : PowFloat.upto (63 + 0) (fmul (fz k) e)) by (apply mul_upto; [lia..|apply fz_upto; lia|apply e_upto]).
  assert (U2 : PowFloat.upto (63 + 0 + 402) (fmul (fmul (fz k) e) p)) by (apply mul_upto; [lia..|exact U1|split; [exact Fp|apply (B402 B HB 0%nat), Bp]]).
  apply (mul_upto (63 + 0 + 402) 0); [lia..|exact U2|apply u_upto].
Qed.
End Zeros.

(** ** Histories *)
Variable d : f64.
Hypothesis Fd : is_finite d = true.
Hypothesis Hd : 0 < B2R d < 1.
Hypothesis Hd40 : bpow radix2 (-40) <= B2R d.
Definition ec (a b : list R) : R := ewcov (B2R d) (combine a b).
Definition EM (h : list f64) (m : f64) : Prop := Em B d h (mkCore m 3 (fun _ => fz 0) (zlen h) 0 (Some d) (ring_new 0)).
Definition eerr (v : f64) (t : R) : Prop := is_finite v = true /\ B2R d * Rabs (B2R v - t) <= 1000 * EB.
Definition JE (h : list (list f64)) (c : vc) : Prop :=
  let lx := map px h in let ly := map py h in
  j_tuples c = corr_sums /\ j_window c = 0%Z /\ j_decay c = Some d /\ j_count c = zlen h /\ Forall (okp B) h /\ zero (hget FN (j_sums c) 1) /\ zero (hget FN (j_sums c) 31) /\
  exists mx my sxy sxx syy, j_means c = [mx; my] /\ EM lx mx /\ EM ly my /\
    j_sums c 32%Z = Some sxy /\ j_sums c 62%Z = Some sxx /\ j_sums c 2%Z = Some syy /\
    eerr sxy (ec (rl lx) (rl ly)) /\ eerr sxx (ec (rl lx) (rl lx)) /\ eerr syy (ec (rl ly) (rl ly)).

Lemma ec_same a : ec a a = ewmoment (B2R d) 2 a.
Proof.
  unfold ec, ewcov, ewmoment. rewrite comb_fst, comb_snd by reflexivity. set (u := ewma _ a). clearbody u.
  rewrite (pweights_eq (B2R d) (combine a a) a) by (rewrite combine_length; lia). f_equal. induction a as [|x a IH]; [reflexivity|]. cbn [combine map fst snd]. rewrite IH. f_equal. ring.
Qed.
Lemma ec_bound lx ly : length lx = length ly -> Forall inB lx -> Forall inB ly -> Rabs (ec (rl lx) (rl ly)) <= 4 * (B * B).
Proof.
  intros Hl Hx Hy. pose proof (B_pos B HB) as H0. destruct (ewm2_bound B HB d Hd lx Hx) as [X1 X2]. destruct (ewm2_bound B HB d Hd ly Hy) as [Y1 Y2].
  assert (E : length (rl lx) = length (rl ly)) by (unfold rl; rewrite !map_length; exact Hl).
  pose proof (ewcov_cauchy (B2R d) (combine (rl lx) (rl ly)) ltac:(lra)) as H. rewrite comb_fst, comb_snd in H by exact E. fold (ec (rl lx) (rl ly)) in H.
  set (M := 4 * (B * B)) in *. assert (HM : 0 <= M) by (unfold M; nra). set (C := ec (rl lx) (rl ly)) in *.
  assert (H2 : C ^ 2 <= M ^ 2) by (eapply Rle_trans; [exact H|]; replace (M ^ 2) with (M * M) by ring; apply Rmult_le_compat; assumption).
  apply Rsqr_incr_0_var; [|exact HM]. rewrite <- Rsqr_abs. unfold Rsqr. replace (C * C) with (C ^ 2) by ring. replace (M * M) with (M ^ 2) by ring. exact H2.
Qed.
Lemma comb_app (a b : list R) x y : length a = length b -> combine (a ++ [x]) (b ++ [y]) = combine a b ++ [(x, y)].
Proof. revert b. induction a as [|u a IH]; intros [|v b] H; try discriminate; [reflexivity|]. cbn [combine app]. f_equal. apply IH. injection H as H. exact H. Qed.

(** One sum after one push *)
Lemma sum_next lx ly x y m m' P s A : length lx = length ly -> Forall inB lx -> Forall inB ly -> inB x -> inB y -> EM lx m -> EM ly m' ->
  let e := if (zlen lx + 1 =? 1)%Z then fz 1 else d in
  is_finite P = true -> Rabs (B2R P - B2R (fsub x m) * B2R (fsub y m')) <= 17 * EB -> eerr s (ec (rl lx) (rl ly)) ->
  is_finite A = true -> B2R A = B2R (fmul (fsub (fz 1) e) s) ->
  eerr (fadd A (fmul (ecoeff e) P)) (ec (rl (lx ++ [x])) (rl (ly ++ [y]))).
Proof.
  intros Hl Hlx Hly Hx Hy (_ & _ & _ & _ & _ & Hm & Hz & Hmm) (_ & _ & _ & _ & _ & Hm' & Hz' & Hmm') e FP HP [Fs Hs] FA EA. cbn [c_mean] in *.
  pose proof (B_pos B HB) as H0. pose proof eps_pos as Hp. assert (Hb2 : 0 < B * B) by nra.
  assert (Hd41 : / 1099511627776 <= B2R d) by exact Hd40.
  assert (HBB : 1000 * (eps * (B * B)) <= / 1099511627776 * (2 * (B * B))) by (rewrite eps_val; lra).
  unfold eerr. unfold FloatErr.EB in *. unfold rl in *. rewrite !map_app. cbn [map]. unfold ec in *. rewrite comb_app by (rewrite !map_length; exact Hl).
  assert (Hs0 : Rabs (B2R s - ewcov (B2R d) (combine (map (fun x : f64 => B2R x) lx) (map (fun x : f64 => B2R x) ly))) <= 2 * (B * B)).
  { set (w := Rabs (B2R s - _)) in *. assert (0 <= w) by apply Rabs_pos. nra. }
  pose proof (ec_bound lx ly Hl Hlx Hly) as HS. unfold ec, rl in HS.
  unfold e in *. destruct (first_dec lx) as [[-> E1]|[Hh E1]]; rewrite E1 in *; clear E1.
  - destruct ly; [|discriminate Hl]. destruct (fz_real 1 ltac:(lia)) as [F1 E1]. cbn [map combine app] in *. rewrite ewcov_nil in *. rewrite ewcov_one.
    destruct (exy_step x y m m' (fz 1) Hx Hy Hm Hm' F1 ltac:(lra) P s A 0 0 0 FP HP Fs HS Hs0) as (Fn & En); try (rewrite Rabs_R0; lra); try assumption.
    { rewrite E1, (Hz eq_refl), Rminus_eq_0, Rabs_R0. nra. }
    { rewrite E1, (Hz' eq_refl), Rminus_eq_0, Rabs_R0. nra. }
    split; [exact Fn|]. rewrite E1 in En. set (v := B2R (fadd _ _)) in En |- *. replace (v - 0) with (v - ((1 - 1) * 0 + 1 * (1 - 1) * ((B2R x - 0) * (B2R y - 0)))) by ring.
    set (tt := (1 - 1) * 0 + 1 * (1 - 1) * ((B2R x - 0) * (B2R y - 0))) in *. clearbody tt. set (w := Rabs (v - tt)) in *. assert (0 <= w) by apply Rabs_pos. clear - En H Hd Hp Hb2. nra.
  - assert (Hh' : ly <> []) by (destruct ly; [destruct lx; [congruence|discriminate Hl]|discriminate]).
    pose proof (ewma_bound B HB d Hd lx Hlx) as Ha. pose proof (ewma_bound B HB d Hd ly Hly) as Ha'. unfold rl in Ha, Ha'.
    destruct (exy_step x y m m' d Hx Hy Hm Hm' Fd ltac:(lra) P s A _ _ _ FP HP Fs HS Hs0 Ha Ha' Hmm Hmm' FA EA) as (Fn & En).
    split; [exact Fn|]. rewrite ewcov_push by (destruct lx; [congruence|destruct ly; [congruence|discriminate]]).
    rewrite comb_fst, comb_snd by (rewrite !map_length; exact Hl). cbn [fst snd].
    eapply Rle_trans; [apply Rmult_le_compat_l; [lra|exact En]|].
    set (w := Rabs (B2R s - _)) in *. set (g := 1000 * (eps * (B * B))) in *. set (r := B2R d) in *. clear - Hs Hd. nra.
Qed.
Lemma EM_next h m x : EM h m -> inB x -> let e := if (zlen h + 1 =? 1)%Z then fz 1 else d in EM (h ++ [x]) (fadd m (fmul e (fsub x m))).
Proof.
  intros HE Hx e. pose proof (mean_next B HB d Fd Hd h _ x HE Hx) as [H1 H2]. cbn [c_mean] in *. fold e in H1, H2. destruct HE as (_ & _ & _ & _ & Hf & _).
  unfold EM, Em. cbn [c_len c_window c_decay c_count c_mean]. split; [apply Nat.leb_le; reflexivity|]. do 3 (split; [reflexivity|]). split; [apply Forall_app; split; [exact Hf|constructor; [exact Hx|constructor]]|]. split; [exact H1|]. split; [intros X; destruct h; discriminate|exact H2].
Qed.

Lemma JE_push h c p : JE h c -> okp B p -> exists c', jpush FN c p = Ok c' /\ JE (h ++ [p]) c'.
Proof.
  intros (Ht & Hw & Hdc & Hc & Hf & Z1 & Z31 & mx & my & sxy & sxx & syy & Hmn & Mx & My & E32 & E62 & E2 & [F32 B32] & [F62 B62] & F2 & B2) (Lp & Hx & Hy).
  destruct (two p Lp) as (x & y & ->). unfold px in Hx. unfold py in Hy. cbn [nth] in Hx, Hy.
  unfold jpush, j_push. rewrite Hmn, Hw, Hdc. cbn [length Nat.eqb negb Z.eqb bind]. unfold j_add_decay. rewrite Hmn, Hc, Ht, Hw, Hdc.
  change (deltas FN [x; y] [mx; my]) with [fsub x mx; fsub y my]. set (dx := fsub x mx). set (dy := fsub y my).
  set (lx := map px h) in *. set (ly := map py h) in *. assert (Lxy : length lx = length ly) by (unfold lx, ly; rewrite !map_length; reflexivity).
  assert (Ez : zlen h = zlen lx) by (unfold zlen, lx; rewrite map_length; reflexivity). rewrite Ez. set (e := if (zlen lx + 1 =? 1)%Z then nz FN 1 else d).
  assert (He : is_finite e = true /\ 0 < B2R e <= 1).
  { unfold e. destruct (zlen lx + 1 =? 1)%Z; [destruct (fz_real 1 ltac:(lia)) as [F1 E1]; change (nz FN 1) with (fz 1); split; [exact F1|rewrite E1; lra]|split; [exact Fd|lra]]. }
  destruct He as [Fe He].
  assert (Hok : Forall inB lx /\ Forall inB ly).
  { clear - Hf. unfold lx, ly. induction Hf as [|q l (_ & H1 & H2) _ (I1 & I2)]; cbn [map]; split; constructor; assumption. }
  destruct Hok as [Hlx Hly].
  pose proof Mx as (_ & _ & _ & _ & _ & [Fmx Bmx] & _ & _). pose proof My as (_ & _ & _ & _ & _ & [Fmy Bmy] & _ & _). cbn [c_mean] in Fmx, Bmx, Fmy, Bmy.
  pose proof (B_pos B HB) as H0.
  destruct (delta_err B HB x mx Hx Fmx ltac:(lra)) as (Fdx & _ & Bdx). destruct (delta_err B HB y my Hy Fmy ltac:(lra)) as (Fdy & _ & Bdy). fold dx in Fdx, Bdx. fold dy in Fdy, Bdy.
  destruct (decay6 FN e dx dy (j_sums c) (j_new c)) as (mm & Eu & K0 & K1 & K31 & K32 & K62 & K2 & _). rewrite Eu. cbn [bind].
  change (nsub FN (nz FN 1) e) with (fsub (fz 1) e) in *. cbn [nadd nmul nz FN] in K1, K31, K32, K62, K2.
  destruct (one_sub e Fe He) as (Fu & _ & _). set (u := fsub (fz 1) e) in *.
  destruct (pw10 B HB 0%nat dx dy Fdx) as [Fp10 Ep10]. destruct (pw01 0%nat dx dy Fdy) as [Fp01 Ep01].
  eexists. split; [reflexivity|].
  assert (G : forall k s, j_sums c k = Some s -> hget FN (j_sums c) k = s) by (intros k s E; unfold hget; rewrite E; reflexivity).
  rewrite (G _ _ E32) in K32. rewrite (G _ _ E62) in K62. rewrite (G _ _ E2) in K2. clear G.
  unfold JE. cbv zeta. cbn [j_means j_tuples j_sums j_new j_count j_window j_decay j_queue]. rewrite !map_app. cbn [map]. change (px [x; y]) with x. change (py [x; y]) with y. fold lx ly.
  split; [reflexivity|]. split; [reflexivity|]. split; [reflexivity|]. split; [rewrite <- Ez; unfold zlen; rewrite app_length; cbn [length]; lia|].
  split; [apply Forall_app; split; [exact Hf|constructor; [split; [reflexivity|split; assumption]|constructor]]|].
  assert (Z1' : zero (hget FN (hcopy mm (j_sums c)) 1)).
  { unfold hget. rewrite K1. apply zadd; [apply zadd; [exact z0|apply zmul_r; [exact Fu|exact Z1]]|apply (done_zero e Fe He); exact Fp01]. }
  assert (Z31' : zero (hget FN (hcopy mm (j_sums c)) 31)).
  { unfold hget. rewrite K31. apply zadd; [apply zadd; [exact z0|apply zmul_r; [exact Fu|exact Z31]]|apply (done_zero e Fe He); exact Fp10]. }
  split; [exact Z1'|]. split; [exact Z31'|].
  rewrite K32, K62, K2.
  do 5 eexists. split; [reflexivity|].
  split; [apply (EM_next lx mx x Mx Hx)|].
  split; [assert (Hn := EM_next ly my y My Hy); cbv zeta in Hn; replace (zlen ly) with (zlen lx) in Hn by (unfold zlen; rewrite Lxy; reflexivity); exact Hn|].
  do 3 (split; [reflexivity|]).
  assert (M10 : forall k, (Z.abs k <= 2)%Z -> zero (dmixed FN k e (pw FN dx dy 1 0) (hget FN (j_sums c) 1)) /\ zero (dmixed FN k e (pw FN dx dy 1 0) (hget FN (j_sums c) 31))).
  { intros k Hk. split; apply (dmixed_zero e Fe He); try assumption; rewrite Ep10; exact Bdx. }
  assert (M01 : forall k, (Z.abs k <= 2)%Z -> zero (dmixed FN k e (pw FN dx dy 0 1) (hget FN (j_sums c) 1)) /\ zero (dmixed FN k e (pw FN dx dy 0 1) (hget FN (j_sums c) 31))).
  { intros k Hk. split; apply (dmixed_zero e Fe He); try assumption; rewrite Ep01; exact Bdy. }
  assert (HU : forall s : f64, is_finite s = true -> Rabs (B2R s) <= 6 * (B * B) -> is_finite (fmul u s) = true).
  { intros s Fs Bs. destruct (one_sub e Fe He) as (_ & _ & Bu). fold u in Bu. apply (fmul_b u s 900 Fu Fs ltac:(lia)). apply (big_BB B HB). rewrite Rabs_mult, (Rabs_pos_eq (B2R u)) by lra. pose proof (Rabs_pos (B2R s)). nra. }
  assert (HSb : forall (s : f64) t, B2R d * Rabs (B2R s - t) <= 1000 * EB -> Rabs t <= 4 * (B * B) -> Rabs (B2R s) <= 6 * (B * B)).
  { intros s t G1 G2. pose proof eps_pos as Hp. assert (Hb2 : 0 < B * B) by nra. assert (Hd41 : / 1099511627776 <= B2R d) by exact Hd40. unfold FloatErr.EB in G1.
    assert (HBB : 1000 * (eps * (B * B)) <= / 1099511627776 * (2 * (B * B))) by (rewrite eps_val; lra).
    assert (Rabs (B2R s - t) <= 2 * (B * B)) by (set (w := Rabs (B2R s - t)) in *; assert (0 <= w) by apply Rabs_pos; nra). clear - H G2. abs. lra. }
  split; [|split].
  - assert (FA : is_finite (fmul u sxy) = true) by (apply HU; [exact F32|eapply HSb; [exact B32|apply ec_bound; assumption]]).
    destruct (zadd0 _ FA) as [A1 A2]. destruct (add_zero _ _ A1 (proj1 (M10 (-1)%Z ltac:(lia)))) as [A3 A4]. destruct (add_zero _ _ A3 (proj2 (M01 (-1)%Z ltac:(lia)))) as [A5 A6].
    destruct (pw11 B HB 0%nat dx dy Fdx Fdy Bdx Bdy) as [F11 B11].
    apply (sum_next lx ly x y mx my (pw FN dx dy 1 1) sxy _ Lxy Hlx Hly Hx Hy Mx My F11 B11 (conj F32 B32) A5). rewrite A6, A4, A2. reflexivity.
  - assert (FA : is_finite (fmul u sxx) = true) by (apply HU; [exact F62|eapply HSb; [exact B62|apply ec_bound; [reflexivity|assumption|assumption]]]).
    destruct (zadd0 _ FA) as [A1 A2]. destruct (add_zero _ _ A1 (proj2 (M10 (-2)%Z ltac:(lia)))) as [A3 A4].
    destruct (pw20 B HB 0%nat dx dy) as [F11 B11]; try assumption.
    apply (sum_next lx lx x x mx mx (pw FN dx dy 2 0) sxx _ eq_refl Hlx Hlx Hx Hx Mx Mx F11 B11 (conj F62 B62) A3). rewrite A4, A2. reflexivity.
  - assert (FA : is_finite (fmul u syy) = true) by (apply HU; [exact F2|eapply HSb; [exact B2|apply ec_bound; [reflexivity|assumption|assumption]]]).
    destruct (zadd0 _ FA) as [A1 A2]. destruct (add_zero _ _ A1 (proj1 (M01 (-2)%Z ltac:(lia)))) as [A3 A4].
    destruct (pw02 B HB 0%nat dx dy) as [F11 B11]; try assumption.
    assert (Hs := sum_next ly ly y y my my (pw FN dx dy 0 2) syy (fadd (fadd (fz 0) (fmul u syy)) (dmixed FN (-2) e (pw FN dx dy 0 1) (hget FN (j_sums c) 1))) eq_refl Hly Hly Hy Hy My My).
    cbv zeta in Hs. replace (zlen ly) with (zlen lx) in Hs by (unfold zlen; rewrite Lxy; reflexivity). apply (Hs F11 B11 (conj F2 B2) A3). rewrite A4, A2. reflexivity.
Qed.
Lemma EM_nil : EM [] (fz 0).
Proof. apply (Em_nil B HB d 3 (ring_new 0)). apply Nat.leb_le. reflexivity. Qed.
Lemma eerr_0 : eerr (fz 0) (ec [] []).
Proof. destruct (fz_real 0 ltac:(lia)) as [F0 E0']. split; [exact F0|]. unfold ec. cbn [combine]. rewrite ewcov_nil, E0', Rminus_0_r, Rabs_R0, Rmult_0_r. pose proof (EB_pos B HB). lra. Qed.
Lemma JE_clear h c : JE h c -> exists c', j_clear FN c = Ok c' /\ JE [] c'.
Proof.
  intros (Ht & Hw & Hdc & _ & _ & _ & _ & mx & my & sxy & sxx & syy & Hmn & _ & _ & E32 & E62 & E2 & _). eexists. split; [reflexivity|].
  unfold JE. cbv zeta. cbn [j_means j_tuples j_sums j_new j_count j_window j_decay j_queue map].
  split; [exact Ht|]. split; [exact Hw|]. split; [exact Hdc|]. split; [reflexivity|]. split; [constructor|].
  assert (Zh : forall k, zero (hget FN (hzero FN (j_sums c)) k)) by (intros k; unfold hget, hzero; destruct (j_sums c k); exact z0).
  split; [apply Zh|]. split; [apply Zh|]. exists (fz 0), (fz 0), (fz 0), (fz 0), (fz 0). rewrite Hmn. split; [reflexivity|]. do 2 (split; [exact EM_nil|]).
  unfold hzero. rewrite E32, E62, E2. do 3 (split; [reflexivity|]). change (rl []) with (@nil R). pose proof eerr_0. auto.
Qed.
Lemma JE_init : JE [] (core0 FN corr_sums 0 (Some d)).
Proof.
  unfold JE, core0, hget. cbv zeta. cbn [j_means j_tuples j_sums j_new j_count j_window j_decay j_queue map]. rewrite !init_keys_corr by (cbn [In]; auto 10). change (nz FN 0) with (fz 0).
  do 4 (split; [reflexivity|]). split; [constructor|]. do 2 (split; [exact z0|]). exists (fz 0), (fz 0), (fz 0), (fz 0), (fz 0). split; [reflexivity|]. do 2 (split; [exact EM_nil|]).
  do 3 (split; [reflexivity|]). change (rl []) with (@nil R). pose proof eerr_0. auto.
Qed.
Lemma JE_run ops : (forall x, In (OPush x) ops -> okp B x) -> exists c, jcore_run FN (core0 FN corr_sums 0 (Some d)) ops = Ok c /\ JE (hist ops) c.
Proof.
  unfold jcore_run. induction ops as [|o ops IH] using rev_ind; intros Hr; [exists (core0 FN corr_sums 0 (Some d)); split; [reflexivity|exact JE_init]|].
  destruct IH as (c & E & I); [intros x Hx; apply Hr, in_or_app; left; exact Hx|]. rewrite run_app, E. cbn [bind]. destruct o as [x|]; cbn [run].
  - destruct (JE_push _ c x I) as (c' & E' & I'); [apply Hr, in_or_app; right; left; reflexivity|]. rewrite E'. cbn [bind]. exists c'. rewrite hist_push. auto.
  - destruct (JE_clear _ c I) as (c' & E' & I'). rewrite E'. cbn [bind]. exists c'. rewrite hist_clear. auto.
Qed.
End Ewm.

Lemma rpairs_ec d l : ec d (rl (map px l)) (rl (map py l)) = ewcov (B2R d) (rpairs l).
Proof. unfold ec. f_equal. induction l as [|p l IH]; [reflexivity|]. cbn [map rl combine]. unfold rl in *. cbn [map combine rpairs]. f_equal. exact IH. Qed.
Section Acc.
Variables (B : R) (d : f64) (ops : list (op (list f64))).
Hypothesis Hops : forall x, In (OPush x) ops -> okp B x.
Hypothesis Fd : is_finite d = true.
Hypothesis Hd : 0 < B2R d < 1.
Hypothesis Hd40 : bpow radix2 (-40) <= B2R d.
Let l := hist ops.
Lemma decay_valid : fle d (fz 0) = false /\ fle (fz 1) d = false.
Proof.
  split.
  - destruct (fz_real 0 ltac:(lia)) as [F0 E0']. destruct (fle d (fz 0)) eqn:H1; [apply fle_R in H1; [lra|exact Fd|exact F0]|reflexivity].
  - destruct (fz_real 1 ltac:(lia)) as [F1 E1]. destruct (fle (fz 1) d) eqn:H2; [apply fle_R in H2; [lra|exact F1|exact Fd]|reflexivity].
Qed.
Lemma new_ewcov : jnew_core FN (jkconfig (JEwmCov d)) = Ok (core0 FN cov_sums 0 (Some d)).
Proof. destruct decay_valid as [H1 H2]. unfold jnew_core, jvalidate. cbn [jkconfig jf_window jf_decay jf_sums jf_vars jsums_of nle nz FN Z.ltb Z.compare]. rewrite H1, H2. reflexivity. Qed.
Lemma new_ewcorr : jnew_core FN (jkconfig (JEwmCorr d)) = Ok (core0 FN corr_sums 0 (Some d)).
Proof. destruct decay_valid as [H1 H2]. unfold jnew_core, jvalidate. cbn [jkconfig jf_window jf_decay jf_sums jf_vars jsums_of nle nz FN Z.ltb Z.compare]. rewrite H1, H2. reflexivity. Qed.
Lemma ewcov_acc : bpow radix2 (-400) <= B <= bpow radix2 400 -> exists m, jm_run FN (JEwmCov d) ops = Ok m /\
  match l with
  | [] => jm_value FN m = Err ENoValues
  | _ => exists v, jm_value FN m = Ok v /\ is_finite v = true /\ B2R d * Rabs (B2R v - ewcov (B2R d) (rpairs l)) <= 1000 * (eps * (B * B))
  end.
Proof.
  intros HB. destruct (JE_run B HB d Fd Hd Hd40 ops Hops) as (c0 & E0 & HJ). destruct (jrel_run ops _ _ c0 (core0_rel 0 (Some d) (or_introl eq_refl)) E0) as (c & Ec & Hrel).
  exists (mkJM (JEwmCov d) (Some c)). split.
  - unfold jm_run, jm_init, new_jmetric. cbn [jm_kind]. rewrite new_ewcov. cbn [bind]. rewrite (jm_lift FN _ ops (okp_len B ops Hops)), Ec. reflexivity.
  - destruct Hrel as (_ & _ & _ & _ & HS & HC & _). destruct HJ as (_ & _ & _ & Hk & _ & _ & _ & mx & my & sxy & sxx & syy & _ & _ & _ & E1 & _ & _ & (F1 & B1) & _).
    assert (E2 : j_sums c 32%Z = Some sxy) by (unfold v4 in HS; injection HS; intros; congruence).
    unfold jm_value. cbn [jm_core jm_kind]. unfold jvalue, j_get_sum. rewrite HC, Hk. change (t_hash [1; 1]%Z) with 32%Z. rewrite E2. rewrite rpairs_ec in B1. fold l in B1 |- *.
    destruct l as [|p l']; [reflexivity|]. destruct (Z.eqb_spec (zlen (p :: l')) 0) as [Hz|_]; [unfold zlen in Hz; cbn [length] in Hz; lia|]. exists sxy. split; [reflexivity|]. split; [exact F1|exact B1].
Qed.
Lemma ewcorr_acc : bpow radix2 (-200) <= B <= bpow radix2 200 ->
  let g := 1000 * (eps * (B * B)) / B2R d in let X := ewmoment (B2R d) 2 (map fst (rpairs l)) in let Y := ewmoment (B2R d) 2 (map snd (rpairs l)) in
  exists m, jm_run FN (JEwmCorr d) ops = Ok m /\
  (l <> [] -> 10 * g <= X -> 10 * g <= Y -> exists v, jm_value FN m = Ok v /\ is_finite v = true /\ Rabs (B2R v - ewcorr (B2R d) (rpairs l)) <= 3 / 2 * (g * (/ X + / Y))).
Proof.
  intros HB g X Y. assert (HB4 : bpow radix2 (-400) <= B <= bpow radix2 400).
  { split; [eapply Rle_trans; [|apply HB]|eapply Rle_trans; [apply HB|]]; apply bpow_le; lia. }
  destruct (JE_run B HB4 d Fd Hd Hd40 ops Hops) as (c & E0 & HJ).
  exists (mkJM (JEwmCorr d) (Some c)). split.
  - unfold jm_run, jm_init, new_jmetric. cbn [jm_kind]. rewrite new_ewcorr. cbn [bind]. rewrite (jm_lift FN _ ops (okp_len B ops Hops)), E0. reflexivity.
  - intros Hl DX DY. destruct HJ as (_ & _ & _ & Hk & Hf & _ & _ & mx & my & a & x & y & _ & _ & _ & E1 & E2 & E3 & (F1 & B1) & (F2 & B2) & F3 & B3). fold l in Hk, Hf, B1, B2, B3.
    exists (fdiv a (fsqrt (fmul x y))). split.
    { unfold jm_value. cbn [jm_core jm_kind]. unfold jvalue, corr_value, j_get_sum. rewrite Hk. destruct (Z.eqb_spec (zlen l) 0) as [Hz|_]; [destruct l; [congruence|unfold zlen in Hz; cbn [length] in Hz; lia]|].
      change (t_hash [1; 1]%Z) with 32%Z. change (t_hash [2; 0]%Z) with 62%Z. change (t_hash [0; 2]%Z) with 2%Z. rewrite E1, E2, E3. reflexivity. }
    destruct (okp_all B _ Hf) as [Hx Hy]. pose proof (B_pos B HB4) as H0. assert (Hb2 : 0 < B * B) by nra.
    destruct (ewm2_bound B HB4 d Hd _ Hx) as [X1 X2]. destruct (ewm2_bound B HB4 d Hd _ Hy) as [Y1 Y2].
    rewrite !ec_same, rpairs_ec in *. rewrite <- rpairs_fst in B2, X1, X2. rewrite <- rpairs_snd in B3, Y1, Y2. fold X in B2, X1, X2. fold Y in B3, Y1, Y2.
    unfold FloatErr.EB in *. assert (HE : 0 < eps * (B * B)) by (apply Rmult_lt_0_compat; [apply bpow_gt_0|lra]). set (E := eps * (B * B)) in *.
    assert (Hg : forall t, B2R d * t <= 1000 * E -> t <= g).
    { intros t Ht. unfold g. apply Rmult_le_reg_r with (B2R d); [lra|]. replace (1000 * E / B2R d * B2R d) with (1000 * E) by (field; lra). lra. }
    assert (Hg1 : 1000 * E <= g) by (apply Hg; rewrite <- (Rmult_1_l (1000 * E)) at 2; apply Rmult_le_compat_r; lra).
    assert (He : 0 < eps) by apply bpow_gt_0.
    assert (HU : 4 * (B * B) <= bpow radix2 43 * (B * B)) by (apply Rmult_le_compat_r; [lra|]; change 4 with (bpow radix2 2); apply bpow_le; lia).
    assert (H2 : 200 * eps * (4 * (B * B)) <= g) by (replace (200 * eps * (4 * (B * B))) with (800 * E) by (unfold E; ring); lra).
    unfold ewcorr. fold X Y.
    apply (corr_quot_gen B HB a x y (ewcov (B2R d) (rpairs l)) X Y g); try assumption; try (fold E; lra); try (apply Hg; assumption).
    + apply ewcov_cauchy. lra.
    + eapply Rle_trans; [|exact H2]. apply Rmult_le_compat_l; lra.
    + eapply Rle_trans; [|exact H2]. apply Rmult_le_compat_l; lra.
Qed.
End Acc.
