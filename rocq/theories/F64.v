(** Go's float64: Flocq's binary_float 53 1024 (single NaN, signed zeros,
    infinities). Comparisons are defined from the exact value of the number,
    scaled by 2^1074 so that it is an integer; [fcmp_Bcompare] shows that this
    is the IEEE-754 comparison of Flocq. *)
From Coq Require Import ZArith Lia Bool Reals.
From Flocq Require Import Core BinarySingleNaN.

Definition f64 := binary_float 53 1024.

Global Instance prec_gt_0_53 : Prec_gt_0 53 := eq_refl.
Global Instance prec_lt_emax_53 : Prec_lt_emax 53 1024 := eq_refl.

Definition fnan : f64 := B754_nan.
Definition finf (neg : bool) : f64 := B754_infinity neg.
(** The float64 nearest to m * 2^e. *)
Definition fdy (m e : Z) : f64 := binary_normalize 53 1024 _ _ mode_NE m e false.
(** Go's conversion float64(n) of an int: the nearest float64. *)
Definition fz (n : Z) : f64 := fdy n 0.

Definition isnan (x : f64) : bool := match x with B754_nan => true | _ => false end.

(** Exact value of [x] times 2^1074; infinities are placed beyond every finite
    value; NaN has no value. *)
Definition fval (x : f64) : option Z :=
  match x with
  | B754_nan => None
  | B754_zero _ => Some 0%Z
  | B754_infinity s => Some (cond_Zopp s (2 ^ 2098))
  | B754_finite s m e _ => Some (cond_Zopp s (Zpos m * 2 ^ (e + 1074)))
  end.

Definition fcmp (x y : f64) : option comparison :=
  match fval x, fval y with
  | Some a, Some b => Some (Z.compare a b)
  | _, _ => None
  end.

(** Go's <, <=, >, >=, == on float64: false as soon as an operand is NaN. *)
Definition flt (x y : f64) : bool := match fcmp x y with Some Lt => true | _ => false end.
Definition feq (x y : f64) : bool := match fcmp x y with Some Eq => true | _ => false end.
Definition fle (x y : f64) : bool := match fcmp x y with Some Lt | Some Eq => true | _ => false end.
Definition fgt (x y : f64) : bool := flt y x.
Definition fge (x y : f64) : bool := fle y x.

(** Go's +, -, *, / on float64: rounding to nearest, ties to even (no fused multiply-add). *)
Definition fadd (x y : f64) : f64 := Bplus mode_NE x y.
Definition fsub (x y : f64) : f64 := Bminus mode_NE x y.
Definition fmul (x y : f64) : f64 := Bmult mode_NE x y.
Definition fdiv (x y : f64) : f64 := Bdiv mode_NE x y.
Definition fsqrt (x : f64) : f64 := Bsqrt mode_NE x.

(** Value used to reason about non-NaN numbers. *)
Definition fk (x : f64) : Z := match fval x with Some a => a | None => 0%Z end.

Lemma nonnan_fval x : isnan x = false -> fval x = Some (fk x).
Proof. unfold fk. destruct x; simpl; intros H; try discriminate; reflexivity. Qed.

Section Keys.
Variables x y : f64.
Hypothesis Hx : isnan x = false.
Hypothesis Hy : isnan y = false.

Lemma fcmp_key : fcmp x y = Some (Z.compare (fk x) (fk y)).
Proof. unfold fcmp. rewrite !nonnan_fval by assumption. reflexivity. Qed.

Lemma flt_key : flt x y = (fk x <? fk y)%Z.
Proof. unfold flt. rewrite fcmp_key. unfold Z.ltb. destruct (_ ?= _)%Z; reflexivity. Qed.
Lemma fgt_key : fgt x y = (fk y <? fk x)%Z.
Proof.
  unfold fgt, flt, fcmp. rewrite !nonnan_fval by assumption.
  unfold Z.ltb. destruct (_ ?= _)%Z; reflexivity.
Qed.
Lemma fle_key : fle x y = (fk x <=? fk y)%Z.
Proof. unfold fle. rewrite fcmp_key. unfold Z.leb. destruct (_ ?= _)%Z; reflexivity. Qed.
Lemma fge_key : fge x y = (fk y <=? fk x)%Z.
Proof.
  unfold fge, fle, fcmp. rewrite !nonnan_fval by assumption.
  unfold Z.leb. destruct (_ ?= _)%Z; reflexivity.
Qed.
Lemma feq_key : feq x y = (fk x =? fk y)%Z.
Proof.
  unfold feq. rewrite fcmp_key.
  destruct (Z.compare_spec (fk x) (fk y)); symmetry; apply Z.eqb_eq || apply Z.eqb_neq; lia.
Qed.
End Keys.

Lemma feq_nan_l x : feq fnan x = false.
Proof. reflexivity. Qed.
Lemma flt_nan_l x : flt fnan x = false.
Proof. reflexivity. Qed.
Lemma flt_nan_r x : flt x fnan = false.
Proof. unfold flt, fcmp. simpl. destruct (fval x); reflexivity. Qed.
Lemma fle_nan_r x : fle x fnan = false.
Proof. unfold fle, fcmp. simpl. destruct (fval x); reflexivity. Qed.
Lemma feq_nan_r x : feq x fnan = false.
Proof. unfold feq, fcmp. simpl. destruct (fval x); reflexivity. Qed.

(** ** The comparison is Flocq's *)

Lemma bounded_exp m e : SpecFloat.bounded 53 1024 m e = true -> (-1074 <= e <= 971)%Z.
Proof.
  intros H.
  unfold SpecFloat.bounded, SpecFloat.canonical_mantissa, SpecFloat.fexp, SpecFloat.emin in H.
  apply andb_prop in H. destruct H as [H1 H2].
  apply Zeq_bool_eq in H1. apply Zle_bool_imp_le in H2. lia.
Qed.

Lemma bounded_digits m e : SpecFloat.bounded 53 1024 m e = true -> (Zpos m < 2 ^ 53)%Z.
Proof.
  intros H.
  unfold SpecFloat.bounded, SpecFloat.canonical_mantissa, SpecFloat.fexp, SpecFloat.emin in H.
  apply andb_prop in H. destruct H as [H1 _].
  apply Zeq_bool_eq in H1. rewrite Digits.Zpos_digits2_pos in H1.
  assert (Hd : (Digits.Zdigits radix2 (Zpos m) <= 53)%Z) by lia.
  change (2 ^ 53)%Z with (Zpower radix2 53).
  apply (Digits.Zpower_gt_Zdigits radix2 53 (Zpos m)) in Hd. exact Hd.
Qed.

Lemma finite_bound s m e : SpecFloat.bounded 53 1024 m e = true ->
  (- 2 ^ 2098 < cond_Zopp s (Zpos m * 2 ^ (e + 1074)) < 2 ^ 2098)%Z.
Proof.
  intros H.
  pose proof (bounded_exp _ _ H) as He. pose proof (bounded_digits _ _ H) as Hm.
  assert (Hb : (0 < Zpos m * 2 ^ (e + 1074) < 2 ^ 2098)%Z).
  { split.
    - apply Z.mul_pos_pos; [lia | apply Z.pow_pos_nonneg; lia].
    - replace (2 ^ 2098)%Z with (2 ^ 53 * 2 ^ 2045)%Z by (rewrite <- Z.pow_add_r by lia; reflexivity).
      apply Z.lt_le_trans with (2 ^ 53 * 2 ^ (e + 1074))%Z.
      + apply Z.mul_lt_mono_pos_r; [apply Z.pow_pos_nonneg; lia | exact Hm].
      + apply Z.mul_le_mono_nonneg_l; [lia | apply Z.pow_le_mono_r; lia]. }
  revert Hb. generalize (Zpos m * 2 ^ (e + 1074))%Z, (2 ^ 2098)%Z.
  intros a b Hb. destruct s; simpl; lia.
Qed.

Lemma B2R_fk (x : f64) : is_finite x = true -> B2R x = (IZR (fk x) * bpow radix2 (-1074))%R.
Proof.
  destruct x as [s| | |s m e H]; try discriminate; intros _.
  - simpl. unfold fk, fval. ring.
  - pose proof (bounded_exp _ _ H) as He.
    unfold B2R, fk, fval, F2R. simpl Fnum. simpl Fexp.
    replace (cond_Zopp s (Zpos m * 2 ^ (e + 1074)))%Z
      with (cond_Zopp s (Zpos m) * 2 ^ (e + 1074))%Z.
    + rewrite mult_IZR. rewrite Rmult_assoc. f_equal.
      change (2 ^ (e + 1074))%Z with (Zpower radix2 (e + 1074)).
      rewrite IZR_Zpower by lia. rewrite <- bpow_plus. f_equal. lia.
    + destruct s; unfold cond_Zopp; [apply Z.mul_opp_l | reflexivity].
Qed.

Theorem fcmp_Bcompare (x y : f64) : fcmp x y = Bcompare x y.
Proof.
  destruct (is_finite x && is_finite y) eqn:Hf.
  - apply andb_prop in Hf. destruct Hf as [Hx Hy].
    rewrite Bcompare_correct by assumption.
    assert (Nx : isnan x = false) by (destruct x; try discriminate; reflexivity).
    assert (Ny : isnan y = false) by (destruct y; try discriminate; reflexivity).
    rewrite (fcmp_key _ _ Nx Ny).
    f_equal. rewrite !B2R_fk by assumption.
    rewrite Rcompare_mult_r by apply bpow_gt_0. rewrite Rcompare_IZR. reflexivity.
  - assert (Hp : (0 < 2 ^ 2098)%Z) by (apply Z.pow_pos_nonneg; lia).
    destruct x as [sx|sx| |sx mx ex Hx]; destruct y as [sy|sy| |sy my ey Hy];
      try discriminate Hf; try reflexivity;
      try pose proof (finite_bound sx _ _ Hx) as Bx;
      try pose proof (finite_bound sy _ _ Hy) as By;
      unfold fcmp, fval, Bcompare, B2SF, SpecFloat.SFcompare;
      revert Hp; try revert Bx; try revert By; generalize (2 ^ 2098)%Z;
      try (generalize (Zpos mx * 2 ^ (ex + 1074))%Z); try (generalize (Zpos my * 2 ^ (ey + 1074))%Z);
      intros; try destruct sx; try destruct sy; unfold cond_Zopp in *; apply f_equal;
      match goal with
      | |- (_ ?= _)%Z = Lt => apply Z.compare_lt_iff; lia
      | |- (_ ?= _)%Z = Gt => apply Z.compare_gt_iff; lia
      | |- (_ ?= _)%Z = Eq => apply Z.compare_eq_iff; lia
      end.
Qed.

(** Finite numbers. *)
Definition isfin (x : f64) : bool := is_finite x.
Lemma isfin_nonnan x : isfin x = true -> isnan x = false.
Proof. destruct x; simpl; intros H; try discriminate; reflexivity. Qed.

(** ** Observation of results in executable examples *)
(** The datum without Flocq's boundedness proof. *)
Definition fbits (x : f64) : SpecFloat.spec_float := B2SF x.
