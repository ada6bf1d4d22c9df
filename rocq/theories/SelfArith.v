(** Squares and square roots in float64: math.Pow(x, 2) is x * x, and the root of s * s is s, away from
    underflow and overflow. Nothing here models repository code. *)
From Coq Require Import ZArith Lia Bool Reals Lra List.
From Flocq Require Import Core Relative Mult_error BinarySingleNaN.
From Verif Require Import Base F64 FloatR NumModel PowFloat FloatErr.
Local Open Scope R_scope.

(** Scaling by a power of two commutes with rounding, away from the subnormal numbers. *)
Lemma rnd_scale t k : t <> 0 -> (-1021 <= mag radix2 t)%Z -> (-1021 <= mag radix2 t + k)%Z -> rnd (t * bpow radix2 k) = rnd t * bpow radix2 k.
Proof.
  intros Ht H1 H2. unfold rnd, round. assert (E : cexp radix2 fexp64 (t * bpow radix2 k) = (cexp radix2 fexp64 t + k)%Z).
  { unfold cexp. rewrite mag_mult_bpow by exact Ht. unfold fexp64, SpecFloat.fexp, SpecFloat.emin. lia. }
  assert (Es : scaled_mantissa radix2 fexp64 (t * bpow radix2 k) = scaled_mantissa radix2 fexp64 t).
  { unfold scaled_mantissa. rewrite E. rewrite Rmult_assoc, <- bpow_plus. f_equal. f_equal. lia. }
  rewrite Es, E. unfold F2R. cbn [Fnum Fexp]. rewrite bpow_plus. ring.
Qed.
Lemma strict_pos (x : f64) : is_finite x = true -> 0 < B2R x -> is_finite_strict x = true.
Proof. intros F P. destruct x; try discriminate F; [cbn in P; lra|reflexivity]. Qed.
Lemma pos_inj (x y : f64) : is_finite x = true -> is_finite y = true -> 0 < B2R x -> B2R x = B2R y -> x = y.
Proof. intros Fx Fy P E. apply B2R_inj; [apply strict_pos; assumption|apply strict_pos; [assumption|lra]|exact E]. Qed.
Lemma zero_form (x : f64) : zero x -> exists s, x = B754_zero s.
Proof.
  intros [F E]. destruct x as [s|?| |s m e Hb]; try discriminate F; [eauto|]. exfalso. cbn [B2R] in E. revert E. destruct s; [apply Rlt_not_eq, F2R_lt_0|apply Rgt_not_eq, F2R_gt_0]; reflexivity.
Qed.
(** math.Pow(x, 2) with the rounding of the mantissa visible *)
Lemma pow2_exact x : is_finite_strict x = true -> feq x (fz 1) = false -> exists y e, is_finite y = true /\ fpow x 2 = Bldexp mode_NE y e /\
  exists m xe, / 2 <= Rabs m < 1 /\ B2R x = m * bpow radix2 xe /\ B2R y * bpow radix2 e = rnd (m * m) * bpow radix2 (2 * xe).
Proof.
  intros S Q. rewrite pow_big by (auto; lia). destruct (frexp_spec x S) as (M & Ex & Ee). set (m := fst (Bfrexp x)) in *. set (xe := snd (Bfrexp x)) in *.
  assert (Hxe : (-1100 <= xe <= 1100)%Z).
  { assert (Fx : is_finite x = true) by (destruct x; try discriminate; reflexivity).
    rewrite Ee. pose proof (abs_B2R_lt_emax 53 1024 x) as U. pose proof (abs_B2R_ge_emin 53 1024 x S) as L. split.
    - assert (H : (-1074 < mag radix2 (B2R x))%Z); [|lia]. apply mag_gt_bpow. exact L.
    - assert (H : (mag radix2 (B2R x) <= 1024)%Z); [|lia]. apply mag_le_bpow; [|exact U]. intros Z. rewrite Z, Rabs_R0 in L. pose proof (bpow_gt_0 radix2 (3 - 1024 - 53)). unfold SpecFloat.emin in L. lra. }
  rewrite loop_S by lia. destruct (Z.ltb_spec xe (-4096)); [lia|]. destruct (Z.ltb_spec 4096 xe); [lia|]. cbn [orb]. change (Nat.odd 2) with false. cbv iota. change (Nat.div2 2) with 1%nat.
  destruct (sq_spec m xe M) as (My & Py & E & Hs). set (y := fst (sq m xe)) in *. set (ye := snd (sq m xe)) in *.
  rewrite loop_S by lia. destruct (Z.ltb_spec ye (-4096)); [lia|]. destruct (Z.ltb_spec 4096 ye); [lia|]. cbn [orb]. change (Nat.odd 1) with true. cbv iota. change (Nat.div2 1) with 0%nat. cbn [pow_loop fst snd].
  destruct (fz_exact 1 ltac:(lia)) as [F1 E1]. destruct My as [Fy Hy]. destruct (one_mul (fz 1) y F1 E1 Fy) as [Fz Ez].
  exists (fmul (fz 1) y), (0 + ye)%Z. split; [exact Fz|]. split; [reflexivity|]. exists (B2R m), xe. split; [apply M|]. split; [exact Ex|]. rewrite Ez, Z.add_0_l. exact E.
Qed.
Lemma pow2_mul x : is_finite x = true -> (zero x \/ bpow radix2 (-500) <= Rabs (B2R x) <= bpow radix2 500) -> fpow x 2 = fmul x x.
Proof.
  intros Fx H. destruct (feq x (fz 1)) eqn:Q.
  { destruct (fz_exact 1 ltac:(lia)) as [F1 E1]. assert (Q' := Q). apply feq_R in Q'; [|exact Fx|exact F1]. assert (x = fz 1) by (apply pos_inj; auto; lra). subst x. unfold fpow. rewrite Q. destruct (one_mul (fz 1) (fz 1) F1 E1 F1) as [Fm Em]. apply pos_inj; auto; lra. }
  destruct H as [Z|[L U]].
  { destruct (zero_form x Z) as (s & ->). destruct s; reflexivity. }
  assert (S : is_finite_strict x = true). { destruct x; try discriminate Fx; [|reflexivity]. cbn in L. rewrite Rabs_R0 in L. pose proof (bpow_gt_0 radix2 (-500)). lra. }
  destruct (pow2_exact x S Q) as (y & e & Fy & -> & m & xe & Hm & Ex & Ey).
  assert (M0 : mag radix2 m = 0%Z :> Z) by (apply mag_unique; change (bpow radix2 (0 - 1)) with (/ 2); change (bpow radix2 0) with 1; exact Hm).
  assert (m0 : m <> 0) by (intros ->; rewrite Rabs_R0 in Hm; lra).
  assert (Mx : mag radix2 (B2R x) = xe :> Z) by (rewrite Ex, mag_mult_bpow, M0 by exact m0; reflexivity).
  assert (Hxe : (-500 <= xe <= 501)%Z).
  { rewrite <- Mx. split; [apply mag_ge_bpow; eapply Rle_trans; [|exact L]; apply bpow_le; lia|].
    apply mag_le_bpow; [intros Z; rewrite Z, Rabs_R0 in L; pose proof (bpow_gt_0 radix2 (-500)); lra|]. eapply Rle_lt_trans; [exact U|]. apply bpow_lt. lia. }
  assert (Hq : / 4 <= m * m < 1). { rewrite <- (Rabs_pos_eq (m * m)) by nra. rewrite Rabs_mult. pose proof (Rabs_pos m). split; nra. }
  assert (Mq : (-1 <= mag radix2 (m * m))%Z) by (apply mag_ge_bpow; rewrite Rabs_pos_eq by lra; change (bpow radix2 (-1 - 1)) with (/ 4); lra).
  assert (Er : rnd (m * m) * bpow radix2 (2 * xe) = rnd (B2R x * B2R x)).
  { rewrite <- rnd_scale by (lra || lia). f_equal. rewrite Ex. replace (2 * xe)%Z with (xe + xe)%Z by lia. rewrite bpow_plus. ring. }
  rewrite Er in Ey. assert (Bxx : Rabs (B2R x * B2R x) <= bpow radix2 1000).
  { rewrite Rabs_mult. replace 1000%Z with (500 + 500)%Z by lia. rewrite bpow_plus. apply Rmult_le_compat; try apply Rabs_pos; assumption. }
  destruct (ldexp_b y e 1000 ltac:(lia) Fy) as [Fl El]. { rewrite Ey. apply rnd_abs_bpow; [lia|exact Bxx]. }
  destruct (fmul_b x x 1000 Fx Fx ltac:(lia) Bxx) as [Fm Em].
  assert (Eq : B2R (fmul x x) = B2R (Bldexp mode_NE y e)) by (rewrite El, Em, Ey; symmetry; apply rnd_fmt; rewrite <- Em; apply fmt_B2R).
  symmetry. apply pos_inj; try assumption. rewrite Em. apply Rlt_le_trans with (bpow radix2 (-1000)); [apply bpow_gt_0|].
  rewrite <- (rnd_fmt (bpow radix2 (-1000))) by (apply fmt_bpow; lia). apply rnd_le. rewrite <- (Rabs_pos_eq (B2R x * B2R x)) by nra. rewrite Rabs_mult. replace (-1000)%Z with (-500 + -500)%Z by lia. rewrite bpow_plus.
  pose proof (bpow_ge_0 radix2 (-500)). apply Rmult_le_compat; assumption.
Qed.

(** The root of the rounded square *)
Lemma sqrt_sq s : fmt s -> bpow radix2 (-500) <= s -> rnd (sqrt (rnd (s * s))) = s.
Proof.
  intros Fs L. pose proof (bpow_gt_0 radix2 (-500)) as P0. assert (Ps : 0 < s) by lra.
  set (e := (mag radix2 s : Z)). assert (He : bpow radix2 (e - 1) <= s < bpow radix2 e).
  { pose proof (bpow_mag_le radix2 s ltac:(lra)) as A1. pose proof (bpow_mag_gt radix2 s) as A2. rewrite Rabs_pos_eq in A1, A2 by lra. split; assumption. }
  assert (Le : (-500 < e)%Z) by (apply (lt_bpow radix2); lra).
  assert (Fe : fexp64 e = (e - 53)%Z) by (unfold fexp64, SpecFloat.fexp, SpecFloat.emin; lia).
  destruct (rnd_rel 0 (s * s)) as (d & Hd & Ed).
  { rewrite Rabs_pos_eq by nra. apply Rle_trans with (bpow radix2 (-500 + -500)); [apply bpow_le; lia|]. rewrite bpow_plus. nra. }
  destruct (Req_dec s (bpow radix2 (e - 1))) as [E|Ne].
  { assert (Ess : s * s = bpow radix2 (e - 1 + (e - 1))) by (rewrite bpow_plus; congruence).
    rewrite (rnd_fmt (s * s)) by (rewrite Ess; apply fmt_bpow; lia). rewrite sqrt_square by lra. apply rnd_fmt. exact Fs. }
  assert (Hu : ulp radix2 fexp64 s = bpow radix2 (e - 53)). { rewrite ulp_neq_0 by lra. unfold cexp. fold e. rewrite Fe. reflexivity. }
  assert (Hs : s + ulp radix2 fexp64 s <= bpow radix2 e) by (apply id_p_ulp_le_bpow; (exact Fs || lra)).
  assert (Eu : bpow radix2 (e - 53) = bpow radix2 e * eps) by (unfold eps, Z.sub; rewrite bpow_plus; reflexivity).
  rewrite Hu, Eu in Hs. assert (Pe : 0 < bpow radix2 e) by apply bpow_gt_0. assert (He' : 0 < eps <= / 1000) by (rewrite eps_val; lra).
  set (q := sqrt (rnd (s * s))). assert (Eq : q = s * sqrt (1 + d)).
  { apply Rabs_le_inv in Hd. unfold q. rewrite Ed, sqrt_mult by nra. rewrite sqrt_square by lra. reflexivity. }
  apply Rabs_le_inv in Hd. set (r := sqrt (1 + d)) in *. assert (Pr : 0 <= r) by apply sqrt_pos. assert (Er : r * r = 1 + d) by (apply sqrt_sqrt; lra).
  assert (Hi : r <= 1 + eps / 2) by nra. assert (Lo : 1 - eps <= r) by nra.
  assert (Up : q < (s + succ radix2 fexp64 s) / 2).
  { rewrite succ_eq_pos, Hu, Eu by lra. rewrite Eq. nra. }
  assert (Dn : (s + pred radix2 fexp64 s) / 2 < q).
  { rewrite pred_eq_pos by lra. unfold pred_pos. fold e. rewrite Req_bool_false by exact Ne. rewrite Hu, Eu, Eq. set (b := bpow radix2 e) in *.
    assert (X : (1 - r) * (2 - eps) <= eps) by nra. assert (Y : s * (1 - r) * (2 - eps) <= s * eps) by nra. assert (Z : s * eps < b * eps / 2 * (2 - eps)) by nra. nra. }
  apply Rle_antisym.
  - apply round_N_le_midp; try typeclasses eauto; assumption.
  - apply round_N_ge_midp; try typeclasses eauto; assumption.
Qed.
Lemma self_div s : is_finite s = true -> bpow radix2 (-500) <= B2R s <= bpow radix2 500 -> fdiv s (fsqrt (fmul s s)) = fz 1.
Proof.
  intros Fs [L U]. pose proof (bpow_gt_0 radix2 (-500)) as P0. assert (Bss : Rabs (B2R s * B2R s) <= bpow radix2 1000).
  { rewrite Rabs_pos_eq by nra. replace 1000%Z with (500 + 500)%Z by lia. rewrite bpow_plus. apply Rmult_le_compat; lra. }
  destruct (fmul_b s s 1000 Fs Fs ltac:(lia) Bss) as [Fm Em]. pose proof (Bsqrt_correct 53 1024 _ _ mode_NE (fmul s s)) as (E & F & _). fold (rnd (sqrt (B2R (fmul s s)))) in E. rewrite Em, sqrt_sq in E by (apply fmt_B2R || exact L).
  assert (Pm : 0 < B2R (fmul s s)). { rewrite Em. apply Rlt_le_trans with (bpow radix2 (-1000)); [apply bpow_gt_0|]. rewrite <- (rnd_fmt (bpow radix2 (-1000))) by (apply fmt_bpow; lia). apply rnd_le. replace (-1000)%Z with (-500 + -500)%Z by lia. rewrite bpow_plus. nra. }
  assert (Fq : is_finite (fsqrt (fmul s s)) = true).
  { unfold fsqrt. rewrite F. destruct (fmul s s) as [?|?| |sg m e Hv]; try discriminate Fm; [reflexivity|]. destruct sg; [|reflexivity]. exfalso. cbn [B2R] in Pm. apply gt_0_F2R in Pm. cbn in Pm. lia. }
  assert (Es : fsqrt (fmul s s) = s) by (apply pos_inj; auto; unfold fsqrt; rewrite E; lra). rewrite Es.
  destruct (fz_exact 1 ltac:(lia)) as [F1 E1]. assert (Dv : B2R s / B2R s = 1) by (field; lra).
  destruct (fdiv_b s s 0 Fs ltac:(lia) ltac:(lra)) as [Fd Edv]. { rewrite Dv, Rabs_R1. apply Rle_refl. }
  assert (R1 : rnd 1 = 1) by (apply rnd_fmt, (fmt_bpow 0); lia).
  rewrite Dv, R1 in Edv. apply pos_inj; auto; lra.
Qed.
