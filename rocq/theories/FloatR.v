(** Real-number semantics of the float64 operations of F64.v. Nothing here models
    repository code. *)
From Coq Require Import ZArith Lia Bool Reals Lra.
From Flocq Require Import Core BinarySingleNaN.
From Verif Require Import F64.

(** Rounding to nearest, ties to even, in the format of float64. *)
Notation fexp64 := (SpecFloat.fexp 53 1024).
Definition rnd (x : R) : R := round radix2 fexp64 (round_mode mode_NE) x.
Definition fmt (x : R) : Prop := generic_format radix2 fexp64 x.

Lemma fexp64_FLT : forall e, fexp64 e = FLT_exp (-1074) 53 e.
Proof. intros e. reflexivity. Qed.
Global Instance valid_fexp64 : Valid_exp fexp64.
Proof. change fexp64 with (FLT_exp (-1074) 53). typeclasses eauto. Qed.
Global Instance mono_fexp64 : Monotone_exp fexp64.
Proof. change fexp64 with (FLT_exp (-1074) 53). typeclasses eauto. Qed.

Lemma rnd_le x y : (x <= y)%R -> (rnd x <= rnd y)%R.
Proof. intros H. apply round_le; typeclasses eauto || exact H. Qed.
Lemma rnd_fmt x : fmt x -> rnd x = x.
Proof. intros H. apply round_generic; typeclasses eauto || exact H. Qed.
Lemma rnd_0 : rnd 0 = 0%R.
Proof. apply round_0. typeclasses eauto. Qed.
Lemma fmt_0 : fmt 0.
Proof. apply generic_format_0. Qed.
Lemma fmt_B2R (x : f64) : fmt (B2R x).
Proof. apply generic_format_B2R. Qed.

Lemma fmt_F2R m e : (Z.abs m <= 2 ^ 53)%Z -> (-1074 <= e)%Z -> fmt (F2R (Float radix2 m e)).
Proof.
  intros Hm He. destruct (Z.eq_dec (Z.abs m) (2 ^ 53)) as [Heq|Hne].
  - assert (Hb : fmt (bpow radix2 (53 + e))).
    { change fmt with (generic_format radix2 (FLT_exp (-1074) 53)). apply generic_format_FLT_bpow; [reflexivity|lia]. }
    assert (E : F2R (Float radix2 (Z.abs m) e) = bpow radix2 (53 + e)).
    { rewrite Heq. unfold F2R. cbn [Fnum Fexp]. rewrite bpow_plus. f_equal. }
    rewrite F2R_Zabs in E.
    assert (H : fmt (Rabs (F2R (Float radix2 m e)))) by (rewrite E; exact Hb).
    apply generic_format_abs_inv in H. exact H.
  - change fmt with (generic_format radix2 (FLT_exp (-1074) 53)). apply generic_format_FLT.
    exists (Float radix2 m e); cbn [Fnum Fexp]; [reflexivity| |exact He]. change (Zpower radix2 53) with (2 ^ 53)%Z. lia.
Qed.

Lemma fmt_IZR n : (Z.abs n <= 2 ^ 53)%Z -> fmt (IZR n).
Proof.
  intros H. replace (IZR n) with (F2R (Float radix2 n 0)) by (unfold F2R; cbn; ring).
  apply fmt_F2R; lia.
Qed.

Lemma bpow1024_big z : (z <= 2 ^ 53)%Z -> (IZR z < bpow radix2 1024)%R.
Proof.
  intros H. apply Rle_lt_trans with (IZR (2 ^ 53)); [apply IZR_le; exact H|].
  change (2 ^ 53)%Z with (Zpower radix2 53). rewrite IZR_Zpower by lia. apply bpow_lt. lia.
Qed.

Lemma fdy_exact m e : (Z.abs m <= 2 ^ 53)%Z -> (-1074 <= e <= 900)%Z ->
  is_finite (fdy m e) = true /\ B2R (fdy m e) = F2R (Float radix2 m e) /\
  Bsign (fdy m e) = match Rcompare (F2R (Float radix2 m e)) 0 with Lt => true | _ => false end.
Proof.
  intros Hm He. pose proof (binary_normalize_correct 53 1024 _ _ mode_NE m e false) as H.
  cbv zeta in H. fold (fdy m e) in H. fold (rnd (F2R (Float radix2 m e))) in H.
  rewrite rnd_fmt in H by (apply fmt_F2R; lia).
  rewrite Rlt_bool_true in H.
  - destruct H as [H1 [H2 H3]]. split; [exact H2|]. split; [exact H1|].
    rewrite H3. destruct (Rcompare _ 0); reflexivity.
  - rewrite <- F2R_Zabs. unfold F2R. cbn [Fnum Fexp].
    apply Rle_lt_trans with (bpow radix2 53 * bpow radix2 e)%R.
    + apply Rmult_le_compat_r; [apply bpow_ge_0|]. rewrite <- IZR_Zpower by lia. apply IZR_le. exact Hm.
    + rewrite <- bpow_plus. apply bpow_lt. lia.
Qed.

Lemma fz_exact n : (Z.abs n <= 2 ^ 53)%Z -> is_finite (fz n) = true /\ B2R (fz n) = IZR n.
Proof.
  intros H. destruct (fdy_exact n 0 H ltac:(lia)) as [H1 [H2 _]]. split; [exact H1|].
  unfold fz. rewrite H2. unfold F2R. cbn. ring.
Qed.

(** Comparisons of finite numbers. *)
Lemma fin_nonnan (x : f64) : is_finite x = true -> isnan x = false.
Proof. destruct x; easy. Qed.

Lemma fcmp_R (x y : f64) : is_finite x = true -> is_finite y = true -> fcmp x y = Some (Rcompare (B2R x) (B2R y)).
Proof. intros Hx Hy. rewrite fcmp_Bcompare. apply Bcompare_correct; assumption. Qed.

Lemma flt_R (x y : f64) : is_finite x = true -> is_finite y = true -> flt x y = true <-> (B2R x < B2R y)%R.
Proof.
  intros Hx Hy. unfold flt. rewrite fcmp_R by assumption.
  destruct (Rcompare_spec (B2R x) (B2R y)); split; intros; try easy; lra.
Qed.
Lemma fle_R (x y : f64) : is_finite x = true -> is_finite y = true -> fle x y = true <-> (B2R x <= B2R y)%R.
Proof.
  intros Hx Hy. unfold fle. rewrite fcmp_R by assumption.
  destruct (Rcompare_spec (B2R x) (B2R y)); split; intros; try easy; lra.
Qed.
Lemma feq_R (x y : f64) : is_finite x = true -> is_finite y = true -> feq x y = true <-> B2R x = B2R y.
Proof.
  intros Hx Hy. unfold feq. rewrite fcmp_R by assumption.
  destruct (Rcompare_spec (B2R x) (B2R y)); split; intros; try easy; lra.
Qed.
Lemma feq_R_false (x y : f64) : is_finite x = true -> is_finite y = true -> feq x y = false <-> B2R x <> B2R y.
Proof.
  intros Hx Hy. rewrite <- not_true_iff_false, feq_R by assumption. reflexivity.
Qed.

(** Operations on finite numbers whose exact result is not too large. *)
Lemma rnd_bound x z : (Rabs x <= IZR z)%R -> (0 <= z <= 2 ^ 53)%Z -> (Rabs (rnd x) <= IZR z)%R.
Proof.
  intros H Hz. apply abs_round_le_generic; try typeclasses eauto; [|exact H]. apply fmt_IZR. lia.
Qed.

Lemma fmul_fin (x y : f64) z : is_finite x = true -> is_finite y = true ->
  (Rabs (B2R x * B2R y) <= IZR z)%R -> (0 <= z <= 2 ^ 53)%Z ->
  is_finite (fmul x y) = true /\ B2R (fmul x y) = rnd (B2R x * B2R y).
Proof.
  intros Hx Hy Hb Hz. pose proof (Bmult_correct 53 1024 _ _ mode_NE x y) as H.
  fold (rnd (B2R x * B2R y)) in H. rewrite Rlt_bool_true in H.
  - unfold fmul. destruct H as [H1 [H2 _]]. rewrite Hx, Hy in H2. auto.
  - eapply Rle_lt_trans; [apply rnd_bound; eassumption|]. apply bpow1024_big. lia.
Qed.

Lemma fsub_fin (x y : f64) z : is_finite x = true -> is_finite y = true ->
  (Rabs (B2R x - B2R y) <= IZR z)%R -> (0 <= z <= 2 ^ 53)%Z ->
  is_finite (fsub x y) = true /\ B2R (fsub x y) = rnd (B2R x - B2R y).
Proof.
  intros Hx Hy Hb Hz. pose proof (Bminus_correct 53 1024 _ _ mode_NE x y Hx Hy) as H.
  fold (rnd (B2R x - B2R y)) in H. rewrite Rlt_bool_true in H.
  - unfold fsub. destruct H as [H1 [H2 _]]. auto.
  - eapply Rle_lt_trans; [apply rnd_bound; eassumption|]. apply bpow1024_big. lia.
Qed.

(** The fractional part of a nonnegative float64 is a float64. *)
Lemma fmt_frac x : (0 <= x)%R -> fmt x -> fmt (x - IZR (Zfloor x)).
Proof.
  intros Hx Hf. pose proof (Zfloor_lb x) as Hlb. pose proof (Zfloor_ub x) as Hub.
  assert (Hfl : (0 <= Zfloor x)%Z) by (apply Zfloor_lub; exact Hx).
  assert (H0 : (0 <= IZR (Zfloor x))%R) by (apply IZR_le; exact Hfl).
  set (e := cexp radix2 fexp64 x).
  set (m := Ztrunc (scaled_mantissa radix2 fexp64 x)).
  assert (Ex : x = F2R (Float radix2 m e)) by exact Hf.
  destruct (Z_lt_le_dec e 0) as [He|He].
  - set (m' := (m - Zfloor x * 2 ^ (- e))%Z).
    assert (Ed : (x - IZR (Zfloor x))%R = F2R (Float radix2 m' e)).
    { unfold m', F2R. cbn [Fnum Fexp]. rewrite minus_IZR, mult_IZR, Rmult_minus_distr_r.
      f_equal; [exact Ex|]. change (2 ^ (- e))%Z with (Zpower radix2 (- e)).
      rewrite IZR_Zpower by lia. rewrite Rmult_assoc, <- bpow_plus.
      replace (- e + e)%Z with 0%Z by lia. cbn. ring. }
    rewrite Ed. apply generic_format_F2R. intros Hm0. rewrite <- Ed.
    unfold cexp. apply mono_fexp64.
    assert (Hd : (x - IZR (Zfloor x))%R <> 0%R).
    { rewrite Ed. intros H. apply eq_0_F2R in H. cbn in H. contradiction. }
    apply mag_le_abs; [exact Hd|]. rewrite !Rabs_pos_eq by lra. lra.
  - assert (Ei : x = IZR (m * 2 ^ e)).
    { rewrite mult_IZR. change (2 ^ e)%Z with (Zpower radix2 e). rewrite IZR_Zpower by lia. exact Ex. }
    assert (Ez : Zfloor x = (m * 2 ^ e)%Z) by (rewrite Ei; apply Zfloor_IZR).
    rewrite Ez, <- Ei, Rminus_diag_eq by reflexivity. apply fmt_0.
Qed.

(** math.Trunc and the conversion to int, on nonnegative numbers. *)
Lemma round_FIX0 rndz x : round radix2 (FIX_exp 0) rndz x = IZR (rndz x).
Proof.
  unfold round, scaled_mantissa, cexp, FIX_exp, F2R. cbn [Fnum Fexp Z.opp bpow]. rewrite !Rmult_1_r. reflexivity.
Qed.

Lemma Btrunc_floor (x : f64) : (0 <= B2R x)%R -> Btrunc x = Zfloor (B2R x).
Proof.
  intros H. apply eq_IZR. rewrite Btrunc_correct by reflexivity. rewrite round_FIX0, Ztrunc_floor by exact H. reflexivity.
Qed.

Lemma nearbyint_floor (x : f64) : is_finite x = true -> (0 <= B2R x)%R ->
  is_finite (Bnearbyint mode_ZR x) = true /\ B2R (Bnearbyint mode_ZR x) = IZR (Zfloor (B2R x)).
Proof.
  intros Hf H. destruct (Bnearbyint_correct 53 1024 prec_lt_emax_53 mode_ZR x) as [H1 [H2 _]].
  split; [rewrite H2; exact Hf|]. rewrite H1. cbn [round_mode]. rewrite round_FIX0, Ztrunc_floor by exact H. reflexivity.
Qed.
