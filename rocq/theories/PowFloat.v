(** Rounding of the basic operations, and math.Pow with an integer exponent, in float64. *)
From Coq Require Import ZArith Lia Bool Reals Lra List.
From Flocq Require Import Core Relative Mult_error BinarySingleNaN.
From Verif Require Import Base F64 FloatR NumModel.
Local Open Scope R_scope.

Lemma fmt_bpow e : (-1074 <= e)%Z -> fmt (bpow radix2 e).
Proof. intros H. change fmt with (generic_format radix2 (FLT_exp (-1074) 53)). apply generic_format_FLT_bpow; [reflexivity|exact H]. Qed.
Lemma rnd_abs_bpow x e : (-1074 <= e)%Z -> Rabs x <= bpow radix2 e -> Rabs (rnd x) <= bpow radix2 e.
Proof. intros He H. apply abs_round_le_generic; try typeclasses eauto; [apply fmt_bpow; exact He|exact H]. Qed.
Lemma rnd_nonneg x : 0 <= x -> 0 <= rnd x.
Proof. intros H. rewrite <- rnd_0. apply rnd_le. exact H. Qed.
Lemma rnd_opp x : rnd (- x) = - rnd x.
Proof. unfold rnd. apply round_NE_opp. Qed.

Section Ops.
Variables (x y : f64) (e : Z).
Hypothesis Hx : is_finite x = true.
Hypothesis Hy : is_finite y = true.
Hypothesis He : (-1074 <= e <= 1023)%Z.
Lemma lt1024 r : Rabs r <= bpow radix2 e -> Rabs (rnd r) < bpow radix2 1024.
Proof. intros H. eapply Rle_lt_trans; [apply rnd_abs_bpow; [|exact H]; lia|]. apply bpow_lt. lia. Qed.
Lemma fmul_b : Rabs (B2R x * B2R y) <= bpow radix2 e ->
  is_finite (fmul x y) = true /\ B2R (fmul x y) = rnd (B2R x * B2R y).
Proof.
  intros Hb. pose proof (Bmult_correct 53 1024 _ _ mode_NE x y) as H. fold (rnd (B2R x * B2R y)) in H.
  rewrite Rlt_bool_true in H by (apply lt1024; exact Hb). unfold fmul. destruct H as [H1 [H2 _]]. rewrite Hx, Hy in H2. auto.
Qed.
Lemma fadd_b : Rabs (B2R x + B2R y) <= bpow radix2 e ->
  is_finite (fadd x y) = true /\ B2R (fadd x y) = rnd (B2R x + B2R y).
Proof.
  intros Hb. pose proof (Bplus_correct 53 1024 _ _ mode_NE x y Hx Hy) as H. fold (rnd (B2R x + B2R y)) in H.
  rewrite Rlt_bool_true in H by (apply lt1024; exact Hb). unfold fadd. destruct H as [H1 [H2 _]]. auto.
Qed.
Lemma fsub_b : Rabs (B2R x - B2R y) <= bpow radix2 e ->
  is_finite (fsub x y) = true /\ B2R (fsub x y) = rnd (B2R x - B2R y).
Proof.
  intros Hb. pose proof (Bminus_correct 53 1024 _ _ mode_NE x y Hx Hy) as H. fold (rnd (B2R x - B2R y)) in H.
  rewrite Rlt_bool_true in H by (apply lt1024; exact Hb). unfold fsub. destruct H as [H1 [H2 _]]. auto.
Qed.
Lemma fdiv_b : B2R y <> 0 -> Rabs (B2R x / B2R y) <= bpow radix2 e ->
  is_finite (fdiv x y) = true /\ B2R (fdiv x y) = rnd (B2R x / B2R y).
Proof.
  intros H0 Hb. pose proof (Bdiv_correct 53 1024 _ _ mode_NE x y H0) as H. fold (rnd (B2R x / B2R y)) in H.
  rewrite Rlt_bool_true in H by (apply lt1024; exact Hb). unfold fdiv. destruct H as [H1 [H2 _]]. rewrite Hx in H2. auto.
Qed.
End Ops.

(** A zero of either sign. *)
Definition zero (v : f64) : Prop := is_finite v = true /\ B2R v = 0.
(** Finite and at most 2^e. *)
Definition upto (e : Z) (v : f64) : Prop := is_finite v = true /\ Rabs (B2R v) <= bpow radix2 e.
Lemma zero_upto e v : zero v -> upto e v.
Proof. intros [F E]. split; [exact F|]. rewrite E, Rabs_R0. apply bpow_ge_0. Qed.
Lemma upto_le e e' v : (e <= e')%Z -> upto e v -> upto e' v.
Proof. intros H [F E]. split; [exact F|]. eapply Rle_trans; [exact E|]. apply bpow_le. exact H. Qed.
Lemma b0 e : Rabs 0 <= bpow radix2 e. Proof. rewrite Rabs_R0. apply bpow_ge_0. Qed.
Lemma zmul_l a b : zero a -> is_finite b = true -> zero (fmul a b).
Proof. intros [Fa Ea] Fb. destruct (fmul_b a b 0 Fa Fb ltac:(lia)) as [F E]; [rewrite Ea, Rmult_0_l; apply b0|]. split; [exact F|]. rewrite E, Ea, Rmult_0_l. apply rnd_0. Qed.
Lemma zmul_r a b : is_finite a = true -> zero b -> zero (fmul a b).
Proof. intros Fa [Fb Eb]. destruct (fmul_b a b 0 Fa Fb ltac:(lia)) as [F E]; [rewrite Eb, Rmult_0_r; apply b0|]. split; [exact F|]. rewrite E, Eb, Rmult_0_r. apply rnd_0. Qed.
Lemma zadd a b : zero a -> zero b -> zero (fadd a b).
Proof. intros [Fa Ea] [Fb Eb]. destruct (fadd_b a b 0 Fa Fb ltac:(lia)) as [F E]; [rewrite Ea, Eb, Rplus_0_l; apply b0|]. split; [exact F|]. rewrite E, Ea, Eb, Rplus_0_l. apply rnd_0. Qed.
Lemma zsub a b : zero a -> zero b -> zero (fsub a b).
Proof. intros [Fa Ea] [Fb Eb]. destruct (fsub_b a b 0 Fa Fb ltac:(lia)) as [F E]; [rewrite Ea, Eb, Rminus_0_r; apply b0|]. split; [exact F|]. rewrite E, Ea, Eb, Rminus_0_r. apply rnd_0. Qed.
Lemma zdiv a b : zero a -> B2R b <> 0 -> zero (fdiv a b).
Proof.
  intros [Fa Ea] Nb. destruct (fdiv_b a b 0 Fa ltac:(lia) Nb) as [F E]; [rewrite Ea; unfold Rdiv; rewrite Rmult_0_l; apply b0|]. split; [exact F|]. rewrite E, Ea. unfold Rdiv. rewrite Rmult_0_l. apply rnd_0.
Qed.
Lemma sub_same a b : is_finite a = true -> is_finite b = true -> B2R a = B2R b -> zero (fsub a b).
Proof. intros Fa Fb E. destruct (fsub_b a b 0 Fa Fb ltac:(lia)) as [F H]; [rewrite E, Rminus_diag_eq by reflexivity; apply b0|]. split; [exact F|]. rewrite H, E, Rminus_diag_eq by reflexivity. apply rnd_0. Qed.
Lemma rnd_B2R (a : f64) : rnd (B2R a) = B2R a. Proof. apply rnd_fmt, fmt_B2R. Qed.
Lemma add_zero a b : is_finite a = true -> zero b -> is_finite (fadd a b) = true /\ B2R (fadd a b) = B2R a.
Proof.
  intros Fa [Fb Eb]. pose proof (Bplus_correct 53 1024 _ _ mode_NE a b Fa Fb) as H. fold (rnd (B2R a + B2R b)) in H. rewrite Eb, Rplus_0_r, rnd_B2R in H.
  rewrite Rlt_bool_true in H by (apply abs_B2R_lt_emax). unfold fadd. tauto.
Qed.
Lemma zero_add a b : zero a -> is_finite b = true -> is_finite (fadd a b) = true /\ B2R (fadd a b) = B2R b.
Proof.
  intros [Fa Ea] Fb. pose proof (Bplus_correct 53 1024 _ _ mode_NE a b Fa Fb) as H. fold (rnd (B2R a + B2R b)) in H. rewrite Ea, Rplus_0_l, rnd_B2R in H.
  rewrite Rlt_bool_true in H by (apply abs_B2R_lt_emax). unfold fadd. tauto.
Qed.
Lemma sub_zero a b : is_finite a = true -> zero b -> is_finite (fsub a b) = true /\ B2R (fsub a b) = B2R a.
Proof.
  intros Fa [Fb Eb]. pose proof (Bminus_correct 53 1024 _ _ mode_NE a b Fa Fb) as H. fold (rnd (B2R a - B2R b)) in H. rewrite Eb, Rminus_0_r, rnd_B2R in H.
  rewrite Rlt_bool_true in H by (apply abs_B2R_lt_emax). unfold fsub. tauto.
Qed.
Lemma div_one a b : is_finite a = true -> B2R b = 1 -> is_finite (fdiv a b) = true /\ B2R (fdiv a b) = B2R a.
Proof.
  intros Fa Eb. pose proof (Bdiv_correct 53 1024 _ _ mode_NE a b ltac:(rewrite Eb; lra)) as H. fold (rnd (B2R a / B2R b)) in H. rewrite Eb in H. unfold Rdiv in H. rewrite Rinv_1, Rmult_1_r, rnd_B2R in H.
  rewrite Rlt_bool_true in H by (apply abs_B2R_lt_emax). unfold fdiv. rewrite Fa in H. tauto.
Qed.
Lemma one_mul a b : is_finite a = true -> B2R a = 1 -> is_finite b = true -> is_finite (fmul a b) = true /\ B2R (fmul a b) = B2R b.
Proof.
  intros Fa Ea Fb. pose proof (Bmult_correct 53 1024 _ _ mode_NE a b) as H. fold (rnd (B2R a * B2R b)) in H. rewrite Ea, Rmult_1_l, rnd_B2R in H.
  rewrite Rlt_bool_true in H by (apply abs_B2R_lt_emax). unfold fmul. rewrite Fa, Fb in H. tauto.
Qed.

Lemma mul_upto e e' a b : (-500 <= e)%Z -> (-500 <= e')%Z -> (e + e' <= 1000)%Z -> upto e a -> upto e' b -> upto (e + e') (fmul a b).
Proof.
  intros H0 H1 H2 [Fa Ea] [Fb Eb]. assert (Hb : Rabs (B2R a * B2R b) <= bpow radix2 (e + e')) by (rewrite Rabs_mult, bpow_plus; apply Rmult_le_compat; try apply Rabs_pos; assumption).
  destruct (fmul_b a b (e + e') Fa Fb ltac:(lia) Hb) as [F E]. split; [exact F|]. rewrite E. apply rnd_abs_bpow; [lia|exact Hb].
Qed.
Lemma add_upto e a b : (-500 <= e <= 1000)%Z -> upto e a -> upto e b -> upto (e + 1) (fadd a b).
Proof.
  intros H0 [Fa Ea] [Fb Eb]. assert (Hb : Rabs (B2R a + B2R b) <= bpow radix2 (e + 1)).
  { rewrite bpow_plus. change (bpow radix2 1) with 2. eapply Rle_trans; [apply Rabs_triang|]. lra. }
  destruct (fadd_b a b (e + 1) Fa Fb ltac:(lia) Hb) as [F E]. split; [exact F|]. rewrite E. apply rnd_abs_bpow; [lia|exact Hb].
Qed.
Lemma div_upto e a b : (-500 <= e <= 1000)%Z -> upto e a -> 1 <= B2R b -> upto e (fdiv a b).
Proof.
  intros H0 [Fa Ea] Hb1. assert (Hb : Rabs (B2R a / B2R b) <= bpow radix2 e).
  { unfold Rdiv. rewrite Rabs_mult. rewrite (Rabs_pos_eq (/ B2R b)) by (left; apply Rinv_0_lt_compat; lra). assert (/ B2R b <= 1) by (rewrite <- Rinv_1; apply Rinv_le_contravar; lra).
    assert (0 < / B2R b) by (apply Rinv_0_lt_compat; lra). pose proof (Rabs_pos (B2R a)). nra. }
  destruct (fdiv_b a b e Fa ltac:(lia) ltac:(lra) Hb) as [F E]. split; [exact F|]. rewrite E. apply rnd_abs_bpow; [lia|exact Hb].
Qed.
Lemma fz_upto z : (Z.abs z <= 2 ^ 63)%Z -> upto 63 (fz z).
Proof.
  intros Hz. pose proof (binary_normalize_correct 53 1024 _ _ mode_NE z 0 false) as H. cbv zeta in H. fold (fdy z 0) in H. fold (fz z) in H. unfold upto.
  assert (E : F2R (Float radix2 z 0) = IZR z) by (unfold F2R; cbn; ring). rewrite E in H. fold (rnd (IZR z)) in H.
  assert (Hb : Rabs (IZR z) <= bpow radix2 63) by (rewrite <- abs_IZR; change (bpow radix2 63) with (IZR (2 ^ 63)); apply IZR_le; exact Hz).
  pose proof (rnd_abs_bpow (IZR z) 63 ltac:(lia) Hb) as Hr. rewrite Rlt_bool_true in H by (eapply Rle_lt_trans; [exact Hr|apply bpow_lt; lia]).
  destruct H as (H1 & H2 & _). split; [exact H2|]. rewrite H1. exact Hr.
Qed.
Lemma z0 : zero (fz 0). Proof. destruct (fz_exact 0 ltac:(lia)) as [F H]. split; [exact F|exact H]. Qed.
Lemma div2_fuel i fuel : (1 <= i)%nat -> (i <= S fuel)%nat -> (Nat.div2 i <= fuel)%nat.
Proof. intros H1 H2. pose proof (Nat.lt_div2 i ltac:(lia)). lia. Qed.
Lemma one_upto : upto 0 (fz 1).
Proof. destruct (fz_exact 1 ltac:(lia)) as [F E]. split; [exact F|]. rewrite E, Rabs_R1. apply Rle_refl. Qed.

(** ** math.Pow *)
(** A mantissa. *)
Definition mant (x : f64) : Prop := is_finite x = true /\ / 2 <= Rabs (B2R x) < 1.
Lemma half : is_finite (fdy 1 (-1)) = true /\ B2R (fdy 1 (-1)) = / 2.
Proof. destruct (fdy_exact 1 (-1) ltac:(lia) ltac:(lia)) as (F & E & _). split; [exact F|]. rewrite E. unfold F2R. cbn. lra. Qed.
Lemma rnd_lt1 t : 0 <= t -> t < 1 -> (exists x : f64, mant x /\ t = B2R x * B2R x) -> rnd t < 1.
Proof.
  intros H0 H1 (x & [F [L U]] & ->).
  (* |x| <= 1 - 2^-53 *)
  assert (Hx : Rabs (B2R x) <= 1 - bpow radix2 (-53)).
  { assert (G : fmt (Rabs (B2R x))) by (apply generic_format_abs, fmt_B2R). 
    replace (1 - bpow radix2 (-53)) with (pred radix2 fexp64 1).
    - apply pred_ge_gt; try typeclasses eauto; [exact G|apply (fmt_bpow 0); lia|exact U].
    - change 1 with (bpow radix2 0) at 1. rewrite pred_bpow. reflexivity. }
  assert (He : 0 < bpow radix2 (-53) < 1) by (split; [apply bpow_gt_0|apply (bpow_lt radix2 (-53) 0); lia]).
  apply Rle_lt_trans with (rnd (1 - bpow radix2 (-53))).
  - apply rnd_le. rewrite <- (Rabs_pos_eq (B2R x * B2R x)) by nra. rewrite Rabs_mult. pose proof (Rabs_pos (B2R x)). nra.
  - rewrite rnd_fmt; [lra|]. replace (1 - bpow radix2 (-53)) with (pred radix2 fexp64 1) by (change 1 with (bpow radix2 0) at 1; rewrite pred_bpow; reflexivity).
    apply generic_format_pred; try typeclasses eauto. apply (fmt_bpow 0). lia.
Qed.
(** Squaring a mantissa and bringing it back to [1/2, 1). *)
Lemma sq_step x : mant x -> let x2 := fmul x x in is_finite x2 = true /\ B2R x2 = rnd (B2R x * B2R x) /\ / 4 <= B2R x2 < 1 /\
  (flt x2 (fdy 1 (-1)) = false -> mant x2 /\ 0 < B2R x2) /\ (flt x2 (fdy 1 (-1)) = true -> mant (fadd x2 x2) /\ B2R (fadd x2 x2) = 2 * B2R x2).
Proof.
  intros Hm x2. pose proof Hm as [Fx [L U]]. destruct half as [Fh Eh].
  assert (Hq : / 4 <= B2R x * B2R x < 1) by (rewrite <- (Rabs_pos_eq (B2R x * B2R x)) by nra; rewrite Rabs_mult; nra).
  destruct (fmul_b x x 0 Fx Fx ltac:(lia)) as [F2 E2]; [change (bpow radix2 0) with 1; apply Rabs_le; lra|]. fold x2 in F2, E2.
  assert (H2 : / 4 <= B2R x2 < 1).
  { rewrite E2. split; [|apply rnd_lt1; [lra|lra|exists x; auto]]. replace (/ 4) with (bpow radix2 (-2)) by (cbn; lra). rewrite <- (rnd_fmt (bpow radix2 (-2))) by (apply fmt_bpow; lia). apply rnd_le. cbn. lra. }
  split; [exact F2|]. split; [exact E2|]. split; [exact H2|]. split; intros Hc.
  - assert (~ B2R x2 < / 2). { intros C. rewrite <- Eh in C. apply flt_R in C; [congruence|exact F2|exact Fh]. }
    split; [split; [exact F2|]; rewrite Rabs_pos_eq; lra|lra].
  - apply flt_R in Hc; [|exact F2|exact Fh]. rewrite Eh in Hc.
    destruct (fadd_b x2 x2 0 F2 F2 ltac:(lia)) as [F3 E3]; [change (bpow radix2 0) with 1; apply Rabs_le; lra|].
    assert (E4 : B2R (fadd x2 x2) = 2 * B2R x2).
    { rewrite E3. replace (B2R x2 + B2R x2) with (B2R x2 * bpow radix2 1) by (cbn; ring). rewrite rnd_fmt; [cbn; ring|].
      change fmt with (generic_format radix2 (FLT_exp (-1074) 53)). apply mult_bpow_pos_exact_FLT; [apply fmt_B2R|lia]. }
    split; [|exact E4]. split; [exact F3|]. rewrite E4, Rabs_pos_eq; lra.
Qed.
(** The accumulator after n multiplications. *)
Definition accu (n : Z) (a : f64) : Prop := is_finite a = true /\ bpow radix2 (- n) <= Rabs (B2R a) <= 1.
Lemma mul_step n a x : (0 <= n <= 1000)%Z -> accu n a -> mant x -> accu (n + 1) (fmul a x) /\ B2R (fmul a x) = rnd (B2R a * B2R x).
Proof.
  intros Hn [Fa [La Ua]] [Fx [Lx Ux]]. assert (Hp : bpow radix2 (- (n + 1)) <= Rabs (B2R a * B2R x) <= 1).
  { rewrite Rabs_mult. pose proof (bpow_gt_0 radix2 (- n)). replace (- (n + 1))%Z with (- n + -1)%Z by lia. rewrite bpow_plus. change (bpow radix2 (-1)) with (/ 2). pose proof (Rabs_pos (B2R a)). split; [apply Rmult_le_compat; lra|nra]. }
  destruct (fmul_b a x 0 Fa Fx ltac:(lia)) as [F E]; [apply Hp|]. split; [|exact E]. split; [exact F|]. rewrite E. split.
  - apply abs_round_ge_generic; try typeclasses eauto; [apply fmt_bpow; lia|apply Hp].
  - apply (rnd_abs_bpow _ 0); [lia|apply Hp].
Qed.

(** The value a * 2^e of a pair is at most 2^m. *)
Definition pupto (m : Z) (a : f64) (e : Z) : Prop := Rabs (B2R a) <= bpow radix2 (m - e).
Lemma pupto_ge m n a e : accu n a -> pupto m a e -> (- n <= m - e)%Z.
Proof. intros [_ [L _]] H. apply (le_bpow radix2). eapply Rle_trans; [exact L|exact H]. Qed.
Lemma mant_accu x : mant x -> accu 1 x.
Proof. intros [F [L U]]. split; [exact F|]. split; [change (bpow radix2 (- (1))) with (/ 2); exact L|lra]. Qed.
Lemma pupto_mul n m m' a e x xe : (0 <= n <= 1000)%Z -> accu n a -> mant x -> pupto m a e -> pupto m' x xe -> pupto (m + m') (fmul a x) (e + xe).
Proof.
  intros Hn Ha Hx Pa Px. destruct (mul_step n a x Hn Ha Hx) as [_ E]. unfold pupto. rewrite E. pose proof (pupto_ge m n a e Ha Pa). pose proof (pupto_ge m' 1 x xe (mant_accu x Hx) Px).
  apply rnd_abs_bpow; [lia|]. rewrite Rabs_mult. replace (m + m' - (e + xe))%Z with (m - e + (m' - xe))%Z by lia. rewrite bpow_plus. apply Rmult_le_compat; try apply Rabs_pos; assumption.
Qed.
(** One squaring, as the loop does it. *)
Definition sq (x : f64) (xe : Z) : f64 * Z := if flt (fmul x x) (fdy 1 (-1)) then (fadd (fmul x x) (fmul x x), 2 * xe - 1)%Z else (fmul x x, 2 * xe)%Z.
Lemma loop_S f a ae x xe i : (1 <= i)%nat -> pow_loop (S f) a ae x xe i =
  if ((xe <? -4096) || (4096 <? xe))%Z then (a, ae + xe)%Z
  else pow_loop f (if Nat.odd i then fmul a x else a) (if Nat.odd i then ae + xe else ae)%Z (fst (sq x xe)) (snd (sq x xe)) (Nat.div2 i).
Proof.
  intros Hi. cbn [pow_loop]. destruct i as [|i]; [lia|]. destruct ((xe <? -4096) || (4096 <? xe))%Z; [reflexivity|]. unfold sq. destruct (Nat.odd (S i)); destruct (flt (fmul x x) (fdy 1 (-1))); reflexivity.
Qed.
Lemma sq_spec x xe : mant x -> mant (fst (sq x xe)) /\ 0 < B2R (fst (sq x xe)) /\ B2R (fst (sq x xe)) * bpow radix2 (snd (sq x xe)) = rnd (B2R x * B2R x) * bpow radix2 (2 * xe) /\
  (snd (sq x xe) = 2 * xe \/ snd (sq x xe) = 2 * xe - 1)%Z.
Proof.
  intros Hx. destruct (sq_step x Hx) as (F & E & B & G1 & G2). unfold sq. destruct (flt (fmul x x) (fdy 1 (-1))) eqn:C; cbn [fst snd].
  - destruct (G2 eq_refl) as [M E']. split; [exact M|]. split; [rewrite E'; lra|]. split; [|right; reflexivity]. rewrite E', E. replace (2 * xe)%Z with (1 + (2 * xe - 1))%Z at 2 by lia. rewrite bpow_plus. change (bpow radix2 1) with 2. ring.
  - destruct (G1 eq_refl) as [M P]. split; [exact M|]. split; [exact P|]. split; [rewrite E; reflexivity|left; reflexivity].
Qed.
Lemma pupto_sq m x xe : mant x -> pupto m x xe -> pupto (m + m) (fst (sq x xe)) (snd (sq x xe)).
Proof.
  intros Hx Px. destruct (sq_spec x xe Hx) as (M & P & E & _). pose proof (pupto_ge m 1 x xe (mant_accu x Hx) Px) as Hg.
  assert (H : rnd (B2R x * B2R x) <= bpow radix2 (m - xe + (m - xe))).
  { eapply Rle_trans; [apply Rle_abs|]. apply rnd_abs_bpow; [lia|]. rewrite Rabs_mult, bpow_plus. apply Rmult_le_compat; try apply Rabs_pos; assumption. }
  unfold pupto. rewrite Rabs_pos_eq by lra. apply Rmult_le_reg_r with (bpow radix2 (snd (sq x xe))); [apply bpow_gt_0|]. rewrite E, <- bpow_plus.
  replace (m + m - snd (sq x xe) + snd (sq x xe))%Z with (m - xe + (m - xe) + 2 * xe)%Z by lia. rewrite bpow_plus. apply Rmult_le_compat_r; [apply bpow_ge_0|exact H].
Qed.
Lemma loop_pupto fuel : forall a ae x xe i n A E, (0 <= n)%Z -> (n + Z.of_nat i <= 1000)%Z -> accu n a -> mant x -> (0 <= A)%Z -> (0 <= E)%Z -> (A + E * Z.of_nat i <= 1010)%Z -> pupto A a ae -> pupto E x xe -> (i <= fuel)%nat ->
  exists n', (n' <= 1000)%Z /\ accu n' (fst (pow_loop fuel a ae x xe i)) /\ pupto (A + E * Z.of_nat i) (fst (pow_loop fuel a ae x xe i)) (snd (pow_loop fuel a ae x xe i)).
Proof.
  induction fuel as [|fuel IH]; intros a ae x xe i n A E Hn Hni Ha Hx HA HE HB Pa Px Hf.
  - replace i with 0%nat by lia. rewrite Z.mul_0_r, Z.add_0_r. exists n. split; [lia|]. auto.
  - destruct i as [|i']; [rewrite Z.mul_0_r, Z.add_0_r; exists n; split; [lia|]; auto|]. set (i := S i') in *. assert (Hi1 : (1 <= i)%nat) by (unfold i; lia). clearbody i.
    rewrite loop_S by exact Hi1. pose proof (pupto_ge E 1 x xe (mant_accu x Hx) Px) as Hxe. assert (HEi : (E <= E * Z.of_nat i)%Z) by nia.
    destruct (Z.ltb_spec xe (-4096)) as [C|C]; cbn [orb].
    { exists n. split; [lia|]. split; [exact Ha|]. unfold pupto. cbn [fst snd]. eapply Rle_trans; [exact Pa|]. apply bpow_le. lia. }
    destruct (Z.ltb_spec 4096 xe) as [D|D]; [lia|]. destruct (sq_spec x xe Hx) as (M & _). pose proof (pupto_sq E x xe Hx Px) as Pq.
    pose proof (Nat.div2_odd i) as Hi. assert (Hfu : (Nat.div2 i <= fuel)%nat) by (apply div2_fuel; [lia|exact Hf]).
    destruct (Nat.odd i); cbn [Nat.b2n] in Hi.
    + assert (EA : (A + E * Z.of_nat i = (A + E) + (E + E) * Z.of_nat (Nat.div2 i))%Z) by (rewrite Hi at 1; rewrite Nat2Z.inj_add, Nat2Z.inj_mul; cbn [Z.of_nat]; ring).
      assert (0 <= (E + E) * Z.of_nat (Nat.div2 i))%Z by (apply Z.mul_nonneg_nonneg; lia). rewrite EA in *.
      apply (IH _ _ _ _ _ (n + 1)%Z); try assumption; try lia; [apply mul_step; try assumption; lia|]. apply (pupto_mul n); try assumption; lia.
    + assert (EA : (A + E * Z.of_nat i = A + (E + E) * Z.of_nat (Nat.div2 i))%Z) by (rewrite Hi at 1; rewrite Nat2Z.inj_add, Nat2Z.inj_mul; cbn [Z.of_nat]; ring).
      rewrite EA in *. apply (IH _ _ _ _ _ n); try assumption; lia.
Qed.
Lemma ldexp_b a e m : (-1074 <= m <= 1023)%Z -> is_finite a = true -> Rabs (B2R a * bpow radix2 e) <= bpow radix2 m -> is_finite (Bldexp mode_NE a e) = true /\ B2R (Bldexp mode_NE a e) = rnd (B2R a * bpow radix2 e).
Proof.
  intros Hm Fa H. pose proof (Bldexp_correct 53 1024 _ _ mode_NE a e) as C. fold (rnd (B2R a * bpow radix2 e)) in C.
  rewrite Rlt_bool_true in C by (eapply Rle_lt_trans; [apply rnd_abs_bpow; [|exact H]; lia|apply bpow_lt; lia]). rewrite Fa in C. tauto.
Qed.
Lemma frexp_spec x : is_finite_strict x = true -> mant (fst (Bfrexp x)) /\ B2R x = B2R (fst (Bfrexp x)) * bpow radix2 (snd (Bfrexp x)) /\ snd (Bfrexp x) = mag radix2 (B2R x).
Proof.
  intros F. pose proof (Bfrexp_correct 53 1024 _ x F) as H. pose proof (is_nan_Bfrexp 53 1024 _ x) as Hn. destruct (Bfrexp x) as [z e] eqn:E. cbn [fst snd] in *. destruct H as [H1 H2]. destruct (H2 ltac:(lia)) as [H3 H4].
  split; [|auto]. split; [|exact H3]. destruct z; try reflexivity; cbn [B2R] in H3; rewrite Rabs_R0 in H3; lra.
Qed.
Lemma accu_one : accu 0 (fz 1).
Proof. destruct (fz_exact 1 ltac:(lia)) as [F E]. split; [exact F|]. rewrite E, Rabs_R1. change (bpow radix2 (- 0)) with 1. lra. Qed.
Lemma pow_big k x : (2 <= k)%nat -> is_finite_strict x = true -> feq x (fz 1) = false -> fpow x k = Bldexp mode_NE (fst (pow_loop k (fz 1) 0 (fst (Bfrexp x)) (snd (Bfrexp x)) k)) (snd (pow_loop k (fz 1) 0 (fst (Bfrexp x)) (snd (Bfrexp x)) k)).
Proof.
  intros Hk F H. unfold fpow. rewrite H. destruct k as [|[|k]]; [lia|lia|]. destruct x; try discriminate F. destruct (Bfrexp _) as [x1 xe]. cbn [fst snd]. destruct (pow_loop _ _ _ _ _ _). reflexivity.
Qed.
Lemma pow_upto x k E : (0 <= E)%Z -> (k <= 1000)%nat -> (E * Z.of_nat k <= 1010)%Z -> upto E x -> upto (E * Z.of_nat k) (fpow x k).
Proof.
  intros HE Hk HB Hx. destruct (le_lt_dec 2 k) as [H2|H2].
  2:{ unfold fpow. destruct k as [|[|k']]; [rewrite Z.mul_0_r; apply one_upto|rewrite Z.mul_1_r; exact Hx|lia]. }
  assert (HEk : (0 <= E * Z.of_nat k)%Z) by (apply Z.mul_nonneg_nonneg; lia).
  destruct (feq x (fz 1)) eqn:Q; [unfold fpow; rewrite Q; destruct k as [|[|k']]; [lia|lia|]; apply (upto_le 0); [exact HEk|apply one_upto]|].
  destruct (is_finite_strict x) eqn:S.
  - rewrite pow_big by assumption. destruct (frexp_spec x S) as (M & Ex & _). set (l := pow_loop _ _ _ _ _ _). destruct Hx as [Fx Bx].
    destruct (loop_pupto k (fz 1) 0 (fst (Bfrexp x)) (snd (Bfrexp x)) k 0 0 E) as (n & Hn & [Fl Al] & Pl); try lia; try assumption; [apply accu_one| | |].
    + unfold pupto. destruct (fz_exact 1 ltac:(lia)) as [_ E1]. rewrite E1, Rabs_R1. apply Rle_refl.
    + unfold pupto. apply Rmult_le_reg_r with (bpow radix2 (snd (Bfrexp x))); [apply bpow_gt_0|]. rewrite <- bpow_plus. replace (E - snd (Bfrexp x) + snd (Bfrexp x))%Z with E by lia.
      rewrite <- (Rabs_pos_eq (bpow radix2 (snd (Bfrexp x)))) at 1 by apply bpow_ge_0. rewrite <- Rabs_mult, <- Ex. exact Bx.
    + fold l in Fl, Al, Pl. unfold pupto in Pl. rewrite Z.add_0_l in Pl.
      assert (H : Rabs (B2R (fst l) * bpow radix2 (snd l)) <= bpow radix2 (E * Z.of_nat k)).
      { rewrite Rabs_mult, (Rabs_pos_eq (bpow radix2 (snd l))) by apply bpow_ge_0. replace (E * Z.of_nat k)%Z with (E * Z.of_nat k - snd l + snd l)%Z by lia. rewrite bpow_plus. apply Rmult_le_compat_r; [apply bpow_ge_0|exact Pl]. }
      destruct (ldexp_b (fst l) (snd l) (E * Z.of_nat k) ltac:(lia) Fl H) as [F' E']. split; [exact F'|]. rewrite E'. apply rnd_abs_bpow; [lia|exact H].
  - destruct Hx as [Fx Bx]. unfold fpow. rewrite Q. destruct k as [|[|k']]; [lia|lia|]. destruct x as [s|s| |s m e p]; try discriminate. destruct (Nat.odd _).
    + apply zero_upto. split; reflexivity.
    + apply zero_upto, z0.
Qed.

Lemma loop_ge1 fuel : forall a ae x xe i n, (0 <= n)%Z -> (n + Z.of_nat i <= 1000)%Z -> accu n a -> 0 < B2R a -> (n <= ae)%Z -> mant x -> 0 < B2R x -> (1 <= xe)%Z ->
  1 <= B2R (fst (pow_loop fuel a ae x xe i)) * bpow radix2 (snd (pow_loop fuel a ae x xe i)).
Proof.
  assert (G : forall n a ae, accu n a -> 0 < B2R a -> (n <= ae)%Z -> 1 <= B2R a * bpow radix2 ae).
  { intros n a ae [_ [L _]] P H. rewrite Rabs_pos_eq in L by lra. change 1 with (bpow radix2 0). replace 0%Z with (- ae + ae)%Z by lia. rewrite bpow_plus.
    apply Rmult_le_compat_r; [apply bpow_ge_0|]. eapply Rle_trans; [|exact L]. apply bpow_le. lia. }
  induction fuel as [|fuel IH]; intros a ae x xe i n Hn Hni Ha Pa Hae Hx Px Hxe; [apply (G n); assumption|].
  destruct i as [|i']; [apply (G n); assumption|]. set (i := S i') in *. assert (Hi1 : (1 <= i)%nat) by (unfold i; lia). clearbody i.
  rewrite loop_S by exact Hi1. destruct (Z.ltb_spec xe (-4096)) as [C|C]; [lia|]. cbn [orb]. destruct (Z.ltb_spec 4096 xe) as [D|D]; [cbn [fst snd]; apply (G n); try assumption; lia|].
  destruct (sq_spec x xe Hx) as (M & P & _ & Hs). pose proof (Nat.div2_odd i) as Hi. destruct (Nat.odd i); cbn [Nat.b2n] in Hi.
  - destruct (mul_step n a x ltac:(lia) Ha Hx) as [Ha' E]. apply (IH _ _ _ _ _ (n + 1)%Z); try assumption; try lia.
    destruct Ha' as [_ [L _]]. destruct (Rle_lt_or_eq_dec 0 (B2R (fmul a x))) as [Y|Y]; [rewrite E; apply rnd_nonneg; nra|exact Y|]. rewrite <- Y, Rabs_R0 in L. pose proof (bpow_gt_0 radix2 (- (n + 1))). lra.
  - apply (IH _ _ _ _ _ n); try assumption; lia.
Qed.
Lemma pow_ge1 x k E : (0 <= E)%Z -> (k <= 1000)%nat -> (E * Z.of_nat k <= 1010)%Z -> upto E x -> 1 <= B2R x -> 1 <= B2R (fpow x k).
Proof.
  intros HE Hk HB Hx G1. destruct (fz_exact 1 ltac:(lia)) as [F1 E1]. destruct (le_lt_dec 2 k) as [H2|H2].
  2:{ unfold fpow. destruct k as [|[|k']]; [rewrite E1; lra|exact G1|lia]. }
  destruct (feq x (fz 1)) eqn:Q; [unfold fpow; rewrite Q; destruct k as [|[|k']]; [lia|lia|]; rewrite E1; lra|].
  assert (S : is_finite_strict x = true). { destruct x; try reflexivity; cbn [B2R] in G1; lra. }
  pose proof (pow_upto x k E HE Hk HB Hx) as [Fr _]. rewrite pow_big in * by assumption. destruct (frexp_spec x S) as (M & Ex & _). set (l := pow_loop _ _ _ _ _ _) in *. destruct Hx as [Fx Bx].
  assert (Px : 0 < B2R (fst (Bfrexp x))). { pose proof (bpow_gt_0 radix2 (snd (Bfrexp x))). apply Rmult_lt_reg_r with (bpow radix2 (snd (Bfrexp x))); [assumption|]. rewrite <- Ex. lra. }
  assert (Hxe : (1 <= snd (Bfrexp x))%Z). { destruct (Z_le_gt_dec 1 (snd (Bfrexp x))) as [Y|Y]; [exact Y|]. exfalso. destruct M as [_ [_ U]]. rewrite Rabs_pos_eq in U by lra.
    assert (bpow radix2 (snd (Bfrexp x)) <= bpow radix2 0) by (apply bpow_le; lia). change (bpow radix2 0) with 1 in H. pose proof (bpow_gt_0 radix2 (snd (Bfrexp x))) as Hb0. rewrite Ex in G1. set (p := bpow radix2 _) in *. set (q := B2R (fst _)) in *. clear - G1 U H Hb0 Px. nra. }
  assert (H : 1 <= B2R (fst l) * bpow radix2 (snd l)).
  { apply (loop_ge1 k (fz 1) 0 (fst (Bfrexp x)) (snd (Bfrexp x)) k 0); try assumption; try lia; [apply accu_one|rewrite E1; lra]. }
  destruct (loop_pupto k (fz 1) 0 (fst (Bfrexp x)) (snd (Bfrexp x)) k 0 0 E) as (n & Hn & [Fl Al] & Pl); try lia; try assumption; [apply accu_one| | |].
  + unfold pupto. rewrite E1, Rabs_R1. apply Rle_refl.
  + unfold pupto. apply Rmult_le_reg_r with (bpow radix2 (snd (Bfrexp x))); [apply bpow_gt_0|]. rewrite <- bpow_plus. replace (E - snd (Bfrexp x) + snd (Bfrexp x))%Z with E by lia.
    rewrite <- (Rabs_pos_eq (bpow radix2 (snd (Bfrexp x)))) at 1 by apply bpow_ge_0. rewrite <- Rabs_mult, <- Ex. exact Bx.
  + fold l in Fl, Al, Pl. unfold pupto in Pl. rewrite Z.add_0_l in Pl.
    assert (H' : Rabs (B2R (fst l) * bpow radix2 (snd l)) <= bpow radix2 (E * Z.of_nat k)).
    { rewrite Rabs_mult, (Rabs_pos_eq (bpow radix2 (snd l))) by apply bpow_ge_0. replace (E * Z.of_nat k)%Z with (E * Z.of_nat k - snd l + snd l)%Z by lia. rewrite bpow_plus. apply Rmult_le_compat_r; [apply bpow_ge_0|exact Pl]. }
    destruct (ldexp_b (fst l) (snd l) (E * Z.of_nat k) ltac:(pose proof (Z.mul_nonneg_nonneg E (Z.of_nat k)); lia) Fl H') as [_ E']. rewrite E'. rewrite <- (rnd_fmt 1) by (apply (fmt_bpow 0); lia). apply rnd_le. exact H.
Qed.
Lemma pow_zero x k : (1 <= k)%nat -> zero x -> zero (fpow x k).
Proof.
  intros Hk Hx. unfold fpow. destruct k as [|[|k']]; [lia|exact Hx|]. destruct (feq x (fz 1)) eqn:Q.
  { destruct Hx as [F E]. destruct (fz_exact 1 ltac:(lia)) as [F1 E1]. apply feq_R in Q; [lra|exact F|exact F1]. }
  destruct x as [s|s| |s m e p]; try (destruct Hx; discriminate).
  - destruct (Nat.odd _); [exact Hx|apply z0].
  - exfalso. destruct Hx as [_ E]. cbn [B2R] in E. unfold F2R in E. cbn [Fnum Fexp] in E. apply Rmult_integral in E. destruct E as [E|E]; [|pose proof (bpow_gt_0 radix2 e); lra]. apply eq_IZR in E. destruct s; discriminate E.
Qed.
(** Squares. *)
Lemma pow2_form x : is_finite_strict x = true -> feq x (fz 1) = false -> exists y e, mant y /\ 0 < B2R y /\ fpow x 2 = Bldexp mode_NE y e /\ Rabs (B2R y * bpow radix2 e - B2R x * B2R x) <= bpow radix2 (-53) * (B2R x * B2R x).
Proof.
  intros S Q. rewrite pow_big by (auto; lia). destruct (frexp_spec x S) as (M & Ex & Ee). set (m := fst (Bfrexp x)) in *. set (xe := snd (Bfrexp x)) in *.
  assert (Hxe : (-1100 <= xe <= 1100)%Z).
  { assert (Fx : is_finite x = true) by (destruct x; try discriminate; reflexivity).
    rewrite Ee. pose proof (abs_B2R_lt_emax 53 1024 x) as U. pose proof (abs_B2R_ge_emin 53 1024 x S) as L. split.
    - assert (H : (-1074 < mag radix2 (B2R x))%Z); [|lia]. apply mag_gt_bpow. exact L.
    - assert (H : (mag radix2 (B2R x) <= 1024)%Z); [|lia]. apply mag_le_bpow; [|exact U]. intros Z. rewrite Z, Rabs_R0 in L. pose proof (bpow_gt_0 radix2 (3 - 1024 - 53)). unfold SpecFloat.emin in L. lra. }
  rewrite loop_S by lia. destruct (Z.ltb_spec xe (-4096)); [lia|]. destruct (Z.ltb_spec 4096 xe); [lia|]. cbn [orb]. change (Nat.odd 2) with false. cbv iota. change (Nat.div2 2) with 1%nat.
  destruct (sq_spec m xe M) as (My & Py & E & Hs). set (y := fst (sq m xe)) in *. set (ye := snd (sq m xe)) in *.
  rewrite loop_S by lia. destruct (Z.ltb_spec ye (-4096)); [lia|]. destruct (Z.ltb_spec 4096 ye); [lia|]. cbn [orb]. change (Nat.odd 1) with true. cbv iota. change (Nat.div2 1) with 0%nat. cbn [pow_loop fst snd].
  destruct (fz_exact 1 ltac:(lia)) as [F1 E1]. destruct My as [Fy Hy]. destruct (one_mul (fz 1) y F1 E1 Fy) as [Fz Ez].
  exists (fmul (fz 1) y), (0 + ye)%Z. split; [split; [exact Fz|rewrite Ez; exact Hy]|]. split; [rewrite Ez; exact Py|]. split; [reflexivity|].
  rewrite Ez, Z.add_0_l, E, Ex. replace (rnd (B2R m * B2R m) * bpow radix2 (2 * xe) - B2R m * bpow radix2 xe * (B2R m * bpow radix2 xe)) with ((rnd (B2R m * B2R m) - B2R m * B2R m) * bpow radix2 (2 * xe)) by (replace (2 * xe)%Z with (xe + xe)%Z by lia; rewrite bpow_plus; ring).
  assert (Hq : / 4 <= B2R m * B2R m) by (destruct M as [_ [L U]]; rewrite <- (Rabs_pos_eq (B2R m * B2R m)) by nra; rewrite Rabs_mult; nra).
  assert (Hr : Rabs (rnd (B2R m * B2R m) - B2R m * B2R m) <= bpow radix2 (-53) * (B2R m * B2R m)).
  { unfold rnd. cbn [round_mode]. change fexp64 with (FLT_exp (-1074) 53). destruct (relative_error_N_FLT_ex radix2 (-1074) 53 ltac:(lia) (fun x => negb (Z.even x)) (B2R m * B2R m)) as (d & Hd & Ed).
    - rewrite Rabs_pos_eq by lra. apply Rle_trans with (bpow radix2 (-2)); [apply bpow_le; lia|]. cbn. lra.
    - rewrite Ed. replace (B2R m * B2R m * (1 + d) - B2R m * B2R m) with (d * (B2R m * B2R m)) by ring. rewrite Rabs_mult, (Rabs_pos_eq (B2R m * B2R m)) by lra. apply Rmult_le_compat_r; [lra|].
      eapply Rle_trans; [exact Hd|]. replace (- (53) + 1)%Z with (1 + -53)%Z by lia. rewrite bpow_plus. change (bpow radix2 1) with 2. lra. }
  rewrite Rabs_mult, (Rabs_pos_eq (bpow radix2 (2 * xe))) by apply bpow_ge_0.
  replace (bpow radix2 (-53) * (B2R m * bpow radix2 xe * (B2R m * bpow radix2 xe))) with (bpow radix2 (-53) * (B2R m * B2R m) * bpow radix2 (2 * xe)) by (replace (2 * xe)%Z with (xe + xe)%Z by lia; rewrite bpow_plus; ring).
  apply Rmult_le_compat_r; [apply bpow_ge_0|exact Hr].
Qed.
Lemma fpow2_spec x e : is_finite x = true -> (0 <= e <= 501)%Z -> Rabs (B2R x) <= bpow radix2 e ->
  is_finite (fpow x 2) = true /\ 0 <= B2R (fpow x 2) /\ Rabs (B2R (fpow x 2) - B2R x * B2R x) <= bpow radix2 (-53) * (B2R x * B2R x) + bpow radix2 (-1074) /\
  (bpow radix2 (-1000) <= B2R x * B2R x -> Rabs (B2R (fpow x 2) - B2R x * B2R x) <= bpow radix2 (-53) * (B2R x * B2R x)).
Proof.
  intros Fx He Bx. destruct (pow_upto x 2 e ltac:(lia) ltac:(lia) ltac:(lia) (conj Fx Bx)) as [Fr Br]. split; [exact Fr|].
  assert (Sq : 0 <= B2R x * B2R x) by nra. pose proof (bpow_gt_0 radix2 (-53)) as P53. pose proof (bpow_gt_0 radix2 (-1074)) as P1074.
  assert (Triv : B2R (fpow x 2) = B2R x * B2R x -> 0 <= B2R (fpow x 2) /\ Rabs (B2R (fpow x 2) - B2R x * B2R x) <= bpow radix2 (-53) * (B2R x * B2R x) + bpow radix2 (-1074) /\
    (bpow radix2 (-1000) <= B2R x * B2R x -> Rabs (B2R (fpow x 2) - B2R x * B2R x) <= bpow radix2 (-53) * (B2R x * B2R x))).
  { intros ->. rewrite Rminus_diag_eq, Rabs_R0 by reflexivity. split; [exact Sq|]. split; [nra|]. intros _. nra. }
  destruct (feq x (fz 1)) eqn:Q.
  { destruct (fz_exact 1 ltac:(lia)) as [F1 E1]. apply Triv. unfold fpow. rewrite Q. apply feq_R in Q; auto. rewrite Q, E1. ring. }
  destruct (is_finite_strict x) eqn:S.
  2:{ assert (Zx : zero x) by (destruct x; try discriminate; split; reflexivity). apply Triv. rewrite (proj2 (pow_zero x 2 ltac:(lia) Zx)), (proj2 Zx). ring. }
  destruct (pow2_form x S Q) as (y & f & [Fy Hy] & Py & Er & Hr). rewrite Er in *. clear Er Triv. set (v := B2R y * bpow radix2 f) in *. apply Rabs_le_inv in Hr.
  assert (P53' : bpow radix2 (-53) <= / 2) by (apply (bpow_le radix2 (-53) (-1)); lia).
  assert (Bv : Rabs v <= bpow radix2 (e + e + 1)).
  { apply Rabs_le_inv in Bx. assert (B2R x * B2R x <= bpow radix2 (e + e)) by (rewrite bpow_plus; pose proof (bpow_gt_0 radix2 e); nra). rewrite bpow_plus. change (bpow radix2 1) with 2. apply Rabs_le. nra. }
  destruct (ldexp_b y f (e + e + 1) ltac:(lia) Fy Bv) as [_ E']. fold v in E'. rewrite E'.
  assert (Pv : 0 < v) by (unfold v; apply Rmult_lt_0_compat; [exact Py|apply bpow_gt_0]).
  assert (Hex : (-1021 <= f)%Z -> rnd v = v).
  { intros Hf. apply rnd_fmt. unfold v. change fmt with (generic_format radix2 (FLT_exp (-1074) 53)). apply mult_bpow_exact_FLT; [apply fmt_B2R|].
    assert (M0 : mag radix2 (B2R y) = 0%Z :> Z) by (apply mag_unique; change (bpow radix2 (0 - 1)) with (/ 2); exact Hy). rewrite M0. lia. }
  split; [apply rnd_nonneg; lra|]. split.
  - destruct (Z_le_gt_dec (-1021) f) as [Hf|Hf]; [rewrite Hex by exact Hf; apply Rabs_le; lra|].
    assert (Hv : v <= bpow radix2 (-1022)).
    { unfold v. rewrite Rabs_pos_eq in Hy by lra. apply Rle_trans with (1 * bpow radix2 f); [apply Rmult_le_compat_r; [apply bpow_ge_0|lra]|]. rewrite Rmult_1_l. apply bpow_le. lia. }
    assert (Hu : Rabs (rnd v - v) <= bpow radix2 (-1074)).
    { apply Rle_trans with (/ 2 * ulp radix2 fexp64 v); [apply error_le_half_ulp; typeclasses eauto|]. pose proof (ulp_FLT_small radix2 (-1074) 53 v) as U. change (FLT_exp (-1074) 53) with fexp64 in U.
      assert (Ul : ulp radix2 fexp64 v <= bpow radix2 (-1074)).
      { destruct (Req_dec v (bpow radix2 (-1022))) as [Eq|Ne].
        - rewrite Eq. rewrite ulp_bpow. apply bpow_le. cbn. lia.
        - rewrite U; [apply Rle_refl|]. rewrite Rabs_pos_eq by lra. change (-1074 + 53)%Z with (-1021)%Z. apply Rle_lt_trans with (bpow radix2 (-1022)); [lra|apply bpow_lt; lia]. }
      pose proof (ulp_ge_0 radix2 fexp64 v). lra. }
    apply Rabs_le_inv in Hu. apply Rabs_le. lra.
  - intros Hbig. rewrite Hex; [apply Rabs_le; lra|]. destruct (Z_le_gt_dec (-1021) f) as [Hf|Hf]; [exact Hf|]. exfalso.
    assert (Hv : v <= bpow radix2 (-1022)).
    { unfold v. rewrite Rabs_pos_eq in Hy by lra. apply Rle_trans with (1 * bpow radix2 f); [apply Rmult_le_compat_r; [apply bpow_ge_0|lra]|]. rewrite Rmult_1_l. apply bpow_le. lia. }
    assert (bpow radix2 (-1001) <= v). { replace (-1001)%Z with (-1000 + -1)%Z by lia. rewrite bpow_plus. change (bpow radix2 (-1)) with (/ 2). nra. }
    assert (bpow radix2 (-1022) < bpow radix2 (-1001)) by (apply bpow_lt; lia). lra.
Qed.
