(** The values of Cov and Corr in float64: the error of the quotients computed from inexact sums. *)
From Coq Require Import ZArith Lia Bool Reals Lra Psatz List.
From Flocq Require Import Core Relative BinarySingleNaN.
From Verif Require Import Base F64 FloatR HistSpec RingModel MathModel NumModel MomentModel MomentSpec RealLib MomentProof PowFloat StdFloat CoreInv FloatErr JointModel JointMetric JointSpec JointValue JointShare JointErr JointRun.
Import ListNotations.
Local Open Scope R_scope.

Section Val.
Variable B : R.
Hypothesis HB : bpow radix2 (-400) <= B <= bpow radix2 400.
(** A sum of [k] products, known up to 800 n^2 eps B^2, divided by k - 1 *)
Lemma cov_div (s : f64) C n k : is_finite s = true -> (2 <= k <= Z.of_nat n)%Z -> (Z.of_nat n <= 2 ^ 40)%Z -> Rabs C <= 4 * IZR k * (B * B) ->
  Rabs (B2R s - C) <= 800 * (INR n * INR n) * EB B ->
  is_finite (fdiv s (fsub (fz k) (fz 1))) = true /\ Rabs (B2R (fdiv s (fsub (fz k) (fz 1))) - C / (IZR k - 1)) <= 1000 * (INR n * INR n) * (eps * (B * B)).
Proof.
  intros Fs Hk Hn HC Hs. pose proof (n_small n Hn n (le_n n)) as Hsm. pose proof (pos_INR n) as Hp. pose proof (EB_pos B HB) as HE. pose proof (B_pos B HB) as H0. fold (EB B).
  destruct (sub1_real 0 k ltac:(lia)) as [Fa Ea]. rewrite minus_IZR in Ea.
  assert (Hk1 : 1 <= IZR k - 1) by (rewrite <- minus_IZR; apply IZR_le; lia).
  set (q := IZR k - 1) in *. replace (IZR k) with (q + 1) in HC by (unfold q; ring).
  set (S := B2R s) in *. set (b2 := B * B) in *. assert (Hb2 : 0 < b2) by (unfold b2; nra).
  assert (Hi : 0 < / q <= 1) by (split; [apply Rinv_0_lt_compat; lra|rewrite <- Rinv_1; apply Rinv_le_contravar; lra]).
  assert (Hn2 : 2 <= INR n) by (apply (le_INR 2); lia).
  assert (He2 : 800 * (INR n * INR n) * EB B <= INR n / 8 * b2).
  { unfold EB. fold b2. replace (800 * (INR n * INR n) * (eps * b2)) with (800 * (INR n * (INR n * eps)) * b2) by ring.
    apply Rmult_le_compat_r; [lra|]. assert (INR n * (INR n * eps) <= INR n * / 8192) by (apply Rmult_le_compat_l; lra). lra. }
  assert (HCk : Rabs (C / q) <= 8 * b2).
  { unfold Rdiv. rewrite Rabs_mult, (Rabs_pos_eq (/ q)) by lra. apply Rmult_le_reg_r with q; [lra|]. rewrite Rmult_assoc, Rinv_l by lra. nra. }
  assert (HSC : Rabs (S / q - C / q) <= 800 * (INR n * INR n) * EB B).
  { unfold Rdiv. rewrite <- Rmult_minus_distr_r, Rabs_mult, (Rabs_pos_eq (/ q)) by lra. pose proof (Rabs_pos (S - C)). nra. }
  assert (HSk : Rabs (S / q) <= (INR n / 8 + 8) * b2).
  { apply Rabs_le_inv in HSC. apply Rabs_le_inv in HCk. apply Rabs_le. lra. }
  pose proof (rnd_BB B HB _ _ HSk) as Hr. fold (EB B) in Hr.
  assert (HBB : b2 <= bpow radix2 800).
  { unfold b2. replace 800%Z with (400 + 400)%Z by lia. rewrite bpow_plus. apply Rmult_le_compat; lra. }
  destruct (fdiv_b s (fsub (fz k) (fz 1)) 1000 Fs ltac:(lia)) as [Fv Ev].
  { rewrite Ea. lra. }
  { rewrite Ea. fold S. eapply Rle_trans; [exact HSk|]. apply Rle_trans with (bpow radix2 50 * bpow radix2 800); [|rewrite <- bpow_plus; apply bpow_le; lia].
    apply Rmult_le_compat; try lra. change (bpow radix2 50) with 1125899906842624.
    assert (INR n <= 1099511627776) by (rewrite INR_IZR_INZ; apply (IZR_le _ (2 ^ 40)); lia). lra. }
  split; [exact Fv|]. rewrite Ev, Ea. fold S.
  assert (HnE : 0 <= INR n * EB B) by (apply Rmult_le_pos; lra).
  assert (HnE2 : 2 * (INR n * EB B) <= INR n * INR n * EB B) by (rewrite Rmult_assoc; apply Rmult_le_compat_r; lra).
  assert (Hn2E : 2 * EB B <= INR n * EB B) by (apply Rmult_le_compat_r; lra).
  apply Rabs_le_inv in HSC. apply Rabs_le_inv in Hr. apply Rabs_le. lra.
Qed.
End Val.

(** A quotient C / sqrt (X Y) computed from relatively accurate operands: [r], [t] bound the relative errors of the operands under the root *)
Lemma quot_real rho al D s : 0 <= s <= / 5 -> Rabs rho <= 1 -> Rabs al <= s / 2 -> 0 < D -> Rabs (D * D - 1) <= 11 / 10 * s ->
  Rabs ((rho + al) / D - rho) <= 7 / 5 * s /\ Rabs ((rho + al) / D) <= 13 / 10.
Proof.
  intros Hs Hr Ha HD Hd. apply Rabs_le_inv in Hr, Ha, Hd.
  assert (D1 : 88 / 100 <= D) by (apply Rnot_lt_le; intros H; assert (D * D < 88 / 100 * (88 / 100)) by nra; lra).
  assert (E : Rabs ((rho + al) / D - rho) <= 7 / 5 * s).
  { replace ((rho + al) / D - rho) with ((al + rho * (1 - D)) / D) by (field; lra).
    unfold Rdiv. rewrite Rabs_mult, (Rabs_pos_eq (/ D)) by (left; apply Rinv_0_lt_compat; exact HD).
    apply Rmult_le_reg_r with D; [exact HD|]. rewrite Rmult_assoc, Rinv_l, Rmult_1_r by lra.
    assert (H1 : Rabs (1 - D) <= 3 / 5 * s) by (apply Rabs_le; split; nra).
    eapply Rle_trans; [apply Rabs_triang|]. rewrite Rabs_mult. pose proof (Rabs_pos (1 - D)).
    assert (Rabs al <= s / 2) by (apply Rabs_le; lra). assert (Rabs rho <= 1) by (apply Rabs_le; lra). nra. }
  split; [exact E|]. apply Rabs_le_inv in E. apply Rabs_le. lra.
Qed.
Lemma sqrt_rel (v : f64) : is_finite v = true -> bpow radix2 (-1022) <= B2R v -> is_finite (fsqrt v) = true /\ exists e, Rabs e <= eps /\ B2R (fsqrt v) = sqrt (B2R v) * (1 + e).
Proof.
  intros Fv Hv. unfold fsqrt. pose proof (Bsqrt_correct 53 1024 _ _ mode_NE v) as (E & F & _). fold (rnd (sqrt (B2R v))) in E.
  assert (Pv : 0 < B2R v) by (pose proof (bpow_gt_0 radix2 (-1022)); lra).
  split.
  - rewrite F. destruct v as [?|?| |sg m e Hb]; try discriminate Fv; [reflexivity|]. destruct sg; [|reflexivity].
    exfalso. cbn [B2R] in Pv. apply gt_0_F2R in Pv. cbn [Fnum] in Pv. cbn in Pv. lia.
  - rewrite E. apply (rnd_rel 0). pose proof (sqrt_lt_R0 _ Pv) as Hr. pose proof (sqrt_sqrt (B2R v) ltac:(lra)) as Hrr. rewrite Rabs_pos_eq by lra.
    apply Rnot_lt_le. intros Hlt. set (r := sqrt (B2R v)) in *. pose proof (bpow_gt_0 radix2 (-1022)). assert (bpow radix2 (-1022) < 1) by (change 1 with (bpow radix2 0); apply bpow_lt; lia). nra.
Qed.
Lemma sqrt_mean r t : 0 < r -> 0 < t -> sqrt (r * t) <= (r + t) / 2.
Proof.
  intros Hr Ht. apply Rsqr_incr_0_var; [|lra]. rewrite Rsqr_sqrt by nra. unfold Rsqr. pose proof (Rle_0_sqr (r - t)) as H. unfold Rsqr in H. nra.
Qed.
Section CorrVal.
Variable B : R.
Hypothesis HB : bpow radix2 (-200) <= B <= bpow radix2 200.
Lemma corr_quot_gen (a x y : f64) C X Y d : is_finite a = true -> is_finite x = true -> is_finite y = true ->
  C ^ 2 <= X * Y -> X <= bpow radix2 43 * (B * B) -> Y <= bpow radix2 43 * (B * B) -> eps * (B * B) <= d -> 200 * eps * X <= d -> 200 * eps * Y <= d ->
  Rabs (B2R a - C) <= d -> Rabs (B2R x - X) <= d -> Rabs (B2R y - Y) <= d -> 10 * d <= X -> 10 * d <= Y ->
  let v := fdiv a (fsqrt (fmul x y)) in
  is_finite v = true /\ Rabs (B2R v - C / sqrt (X * Y)) <= 3 / 2 * (d * (/ X + / Y)).
Proof.
  intros Fa Fx Fy HC HX HY Hd Hdx Hdy Ha Hx Hy DX DY v.
  assert (He : 0 < eps <= / 1000000) by (split; [apply bpow_gt_0|rewrite eps_val; lra]).
  assert (Hb : 0 < B) by (pose proof (bpow_gt_0 radix2 (-200)); lra). set (b2 := B * B) in *. 
  assert (Hb2 : bpow radix2 (-400) <= b2 <= bpow radix2 400).
  { unfold b2. pose proof (bpow_gt_0 radix2 (-200)). split; [replace (-400)%Z with (-200 + -200)%Z by lia|replace 400%Z with (200 + 200)%Z by lia]; rewrite bpow_plus; apply Rmult_le_compat; lra. }
  assert (Hb0 : 0 < b2) by (unfold b2; nra).
  assert (Hd0 : 0 < d) by (assert (0 < eps * b2) by (apply Rmult_lt_0_compat; lra); lra).
  assert (X0 : 0 < X) by lra. assert (Y0 : 0 < Y) by lra.
  set (r := d / X). set (t := d / Y).
  assert (Hr : 200 * eps <= r <= / 10).
  { unfold r. split; apply Rmult_le_reg_r with X; try exact X0; replace (d / X * X) with d by (field; lra); lra. }
  assert (Ht : 200 * eps <= t <= / 10).
  { unfold t. split; apply Rmult_le_reg_r with Y; try exact Y0; replace (d / Y * Y) with d by (field; lra); lra. }
  set (th := (B2R x - X) / X). set (ph := (B2R y - Y) / Y).
  assert (Hth : Rabs th <= r) by (unfold th, r, Rdiv; rewrite Rabs_mult, (Rabs_pos_eq (/ X)) by (left; apply Rinv_0_lt_compat; exact X0); apply Rmult_le_compat_r; [left; apply Rinv_0_lt_compat; exact X0|exact Hx]).
  assert (Hph : Rabs ph <= t) by (unfold ph, t, Rdiv; rewrite Rabs_mult, (Rabs_pos_eq (/ Y)) by (left; apply Rinv_0_lt_compat; exact Y0); apply Rmult_le_compat_r; [left; apply Rinv_0_lt_compat; exact Y0|exact Hy]).
  assert (Ex : B2R x = X * (1 + th)) by (unfold th; field; lra). assert (Ey : B2R y = Y * (1 + ph)) by (unfold ph; field; lra).
  apply Rabs_le_inv in Hx, Hy, Hth, Hph.
  assert (Pl : bpow radix2 (-1000) <= B2R x * B2R y).
  { apply Rle_trans with (bpow radix2 (-500) * bpow radix2 (-500)); [rewrite <- bpow_plus; apply bpow_le; lia|]. pose proof (bpow_gt_0 radix2 (-500)).
    assert (bpow radix2 (-500) <= d).
    { eapply Rle_trans; [|exact Hd].
      apply Rle_trans with (bpow radix2 (-53) * bpow radix2 (-400)); [rewrite <- bpow_plus; apply bpow_le; lia|]. apply Rmult_le_compat; try apply bpow_ge_0; [apply Rle_refl|lra]. }
    apply Rmult_le_compat; lra. }
  assert (Pu : Rabs (B2R x * B2R y) <= bpow radix2 1000).
  { rewrite Rabs_pos_eq by (pose proof (bpow_gt_0 radix2 (-1000)); lra). apply Rle_trans with (bpow radix2 450 * bpow radix2 450); [|rewrite <- bpow_plus; apply bpow_le; lia].
    assert (HU : bpow radix2 43 * b2 <= bpow radix2 443) by (replace 443%Z with (43 + 400)%Z by lia; rewrite bpow_plus; apply Rmult_le_compat_l; [apply bpow_ge_0|lra]).
    assert (HV : 2 * bpow radix2 443 <= bpow radix2 450) by (change 2 with (bpow radix2 1); rewrite <- bpow_plus; apply bpow_le; lia).
    apply Rmult_le_compat; lra. }
  destruct (fmul_b x y 1000 Fx Fy ltac:(lia) Pu) as [FP EP].
  destruct (rnd_rel 0 (B2R x * B2R y)) as (e1 & He1 & Ee1).
  { rewrite Rabs_pos_eq by (pose proof (bpow_gt_0 radix2 (-1000)); lra). eapply Rle_trans; [|exact Pl]. apply bpow_le. lia. }
  rewrite Ee1 in EP. apply Rabs_le_inv in He1.
  destruct (sqrt_rel (fmul x y) FP) as (FS & e2 & He2 & ES).
  { rewrite EP. assert (bpow radix2 (-1022) <= bpow radix2 (-1000) / 2).
    { replace (-1000)%Z with (1 + -1001)%Z by lia. rewrite bpow_plus. change (bpow radix2 1) with 2. replace (2 * bpow radix2 (-1001) / 2) with (bpow radix2 (-1001)) by field. apply bpow_le. lia. }
    pose proof (bpow_gt_0 radix2 (-1000)). nra. }
  apply Rabs_le_inv in He2. rewrite EP in ES.
  set (E := (1 + th) * (1 + ph) * (1 + e1)). set (D := sqrt E * (1 + e2)). set (R0 := sqrt (X * Y)).
  assert (XY : 0 < X * Y) by (apply Rmult_lt_0_compat; lra). assert (HR0 : 0 < R0) by (apply sqrt_lt_R0; exact XY).
  assert (H99 : 9 / 10 * (9 / 10) <= (1 + th) * (1 + ph)) by (apply Rmult_le_compat; lra).
  assert (HE0 : 0 < E) by (unfold E; apply Rmult_lt_0_compat; lra).
  assert (ES2 : B2R (fsqrt (fmul x y)) = R0 * D).
  { rewrite ES, Ex, Ey. unfold D, R0. rewrite <- (Rmult_assoc (sqrt (X * Y))), <- sqrt_mult by lra. f_equal. f_equal. unfold E. ring. }
  assert (HD0 : 0 < D) by (unfold D; apply Rmult_lt_0_compat; [apply sqrt_lt_R0; exact HE0|lra]).
  assert (HDD : D * D = (1 + th) * (1 + ph) * ((1 + e1) * ((1 + e2) * (1 + e2)))).
  { unfold D. replace (sqrt E * (1 + e2) * (sqrt E * (1 + e2))) with (sqrt E * sqrt E * ((1 + e2) * (1 + e2))) by ring. rewrite sqrt_sqrt by lra. unfold E. ring. }
  assert (HDs : Rabs (D * D - 1) <= 11 / 10 * (r + t)).
  { rewrite HDD. clear - Hth Hph He1 He2 He Hr Ht. set (z := (1 + e1) * ((1 + e2) * (1 + e2)) - 1).
    assert (Hz : - (4 * eps) <= z <= 4 * eps) by (unfold z; nra).
    set (w := th + ph + th * ph). assert (Hw : - (21 / 20 * (r + t)) <= w <= 21 / 20 * (r + t)).
    { assert (Hm : - (/ 20 * (r + t)) <= th * ph <= / 20 * (r + t)); [|unfold w; lra].
      assert (Ha : Rabs (th * ph) <= r * t) by (rewrite Rabs_mult; apply Rmult_le_compat; try apply Rabs_pos; apply Rabs_le; lra).
      apply Rabs_le_inv in Ha. assert (r * t <= r * / 10) by (apply Rmult_le_compat_l; lra). assert (r * t <= / 10 * t) by (apply Rmult_le_compat_r; lra). lra. }
    replace ((1 + th) * (1 + ph) * ((1 + e1) * ((1 + e2) * (1 + e2))) - 1) with (w + z + w * z) by (unfold w, z; ring).
    assert (Hwz : Rabs (w * z) <= 1 * (4 * eps)) by (rewrite Rabs_mult; apply Rmult_le_compat; try apply Rabs_pos; apply Rabs_le; lra).
    apply Rabs_le_inv in Hwz. apply Rabs_le. lra. }
  assert (Hrho : Rabs (C / R0) <= 1).
  { apply Rabs_le. apply Rabs_le_inv. assert (HCR : Rabs C <= R0).
    { apply Rsqr_incr_0_var; [|lra]. unfold R0. rewrite Rsqr_sqrt by lra. rewrite <- Rsqr_abs. unfold Rsqr. replace (C * C) with (C ^ 2) by ring. exact HC. }
    unfold Rdiv. rewrite Rabs_mult, (Rabs_pos_eq (/ R0)) by (left; apply Rinv_0_lt_compat; exact HR0). apply Rmult_le_reg_r with R0; [exact HR0|]. rewrite Rmult_assoc, Rinv_l by lra. lra. }
  assert (Hal : Rabs ((B2R a - C) / R0) <= (r + t) / 2).
  { eapply Rle_trans; [|apply sqrt_mean; lra]. unfold Rdiv. rewrite Rabs_mult, (Rabs_pos_eq (/ R0)) by (left; apply Rinv_0_lt_compat; exact HR0).
    replace (sqrt (r * t)) with (d * / R0); [apply Rmult_le_compat_r; [left; apply Rinv_0_lt_compat; exact HR0|exact Ha]|].
    replace (r * t) with (d * d / (X * Y)) by (unfold r, t; field; lra). unfold R0. rewrite sqrt_div by nra. rewrite sqrt_square by lra. reflexivity. }
  destruct (quot_real (C / R0) ((B2R a - C) / R0) D (r + t) ltac:(lra) Hrho Hal HD0 HDs) as [Q1 Q2].
  replace ((C / R0 + (B2R a - C) / R0) / D) with (B2R a / (R0 * D)) in Q1, Q2 by (field; lra).
  destruct (fdiv_b a (fsqrt (fmul x y)) 1 Fa ltac:(lia)) as [Fv Ev].
  { rewrite ES2. apply Rgt_not_eq, Rmult_lt_0_compat; assumption. }
  { rewrite ES2. change (bpow radix2 1) with 2. lra. }
  split; [exact Fv|]. fold v in Ev. rewrite Ev, ES2. fold R0.
  pose proof (rnd_err (B2R a / (R0 * D))) as Hre.
  assert (H1074 : bpow radix2 (-1074) <= eps) by (apply bpow_le; lia).
  assert (eps * Rabs (B2R a / (R0 * D)) <= eps * (13 / 10)) by (apply Rmult_le_compat_l; lra).
  replace (d * (/ X + / Y)) with (r + t) by (unfold r, t; field; lra).
  apply Rabs_le_inv in Q1, Hre. apply Rabs_le. lra.
Qed.
Lemma corr_quot (a x y : f64) C X Y n : is_finite a = true -> is_finite x = true -> is_finite y = true -> (1 <= Z.of_nat n <= 2 ^ 40)%Z ->
  C ^ 2 <= X * Y -> X <= 4 * INR n * (B * B) -> Y <= 4 * INR n * (B * B) ->
  let d := 800 * (INR n * INR n) * (eps * (B * B)) in
  Rabs (B2R a - C) <= d -> Rabs (B2R x - X) <= d -> Rabs (B2R y - Y) <= d -> 10 * d <= X -> 10 * d <= Y ->
  let v := fdiv a (fsqrt (fmul x y)) in
  is_finite v = true /\ Rabs (B2R v - C / sqrt (X * Y)) <= 3 / 2 * (d * (/ X + / Y)).
Proof.
  intros Fa Fx Fy Hn HC HX HY d Ha Hx Hy DX DY.
  assert (Hb : 0 < B) by (pose proof (bpow_gt_0 radix2 (-200)); lra). assert (Hb0 : 0 < B * B) by nra.
  assert (Hn1 : 1 <= INR n <= bpow radix2 40) by (rewrite INR_IZR_INZ; change (bpow radix2 40) with (IZR (2 ^ 40)); split; apply IZR_le; lia).
  assert (He : 0 < eps) by apply bpow_gt_0.
  assert (HU : 4 * INR n * (B * B) <= bpow radix2 43 * (B * B)).
  { apply Rmult_le_compat_r; [lra|]. apply Rle_trans with (bpow radix2 2 * bpow radix2 40); [change (bpow radix2 2) with 4; lra|]. rewrite <- bpow_plus. apply bpow_le. lia. }
  assert (HE : 0 < eps * (B * B)) by (apply Rmult_lt_0_compat; lra). set (E := eps * (B * B)) in *.
  assert (Hn2 : 1 <= INR n * INR n) by nra. assert (Hn3 : INR n <= INR n * INR n) by nra.
  assert (H2 : 200 * eps * (4 * INR n * (B * B)) <= d).
  { replace (200 * eps * (4 * INR n * (B * B))) with (800 * INR n * E) by (unfold E; ring). unfold d. fold E. apply Rmult_le_compat_r; lra. }
  apply corr_quot_gen; try assumption; try lra.
  - unfold d. fold E. assert (1 * E <= 800 * (INR n * INR n) * E) by (apply Rmult_le_compat_r; lra). lra.
  - eapply Rle_trans; [|exact H2]. apply Rmult_le_compat_l; lra.
  - eapply Rle_trans; [|exact H2]. apply Rmult_le_compat_l; lra.
Qed.
End CorrVal.
