(** Rounding errors of the exponentially weighted mean and of the exponentially weighted
    sum of squares: every step forgets a part of the earlier error. *)
From Coq Require Import ZArith Lia Bool Reals Lra Psatz List.
From Flocq Require Import Core Relative BinarySingleNaN.
From Verif Require Import Base F64 FloatR HistSpec RingModel MathModel NumModel MomentModel MomentSpec RealLib MomentProof EwmProof PowFloat StdFloat CoreInv FloatMean FloatErr.
Import ListNotations.
Local Open Scope R_scope.

(** What one push does to the sum of squares *)
Lemma decay_sum2 {T} (N : Num T) c d x c' : c_len c = 3%nat -> c_add_decay N c d x = Ok c' ->
  let e := if (c_count c + 1 =? 1)%Z then nz N 1 else d in let u := nsub N (nz N 1) e in
  c_len c' = 3%nat /\ c_sums c' 2%nat = nadd N (nmul N u (c_sums c 2%nat))
    (nmul N (nadd N (nmul N u (npow N (nsub N (nz N 0) e) 2)) (nmul N e (npow N u 2))) (npow N (nsub N x (c_mean c)) 2)).
Proof.
  intros Hl E. unfold c_add_decay in E. cbv zeta in *. rewrite Hl in E. change (rev (ks_up 3)) with [2%nat] in E. cbn [outer] in E. change (2 - 2)%nat with 0%nat in E.
  cbn [seq inner bind] in E. injection E as <-. split; reflexivity.
Qed.

Section Ewm.
Variable B : R.
Hypothesis HB : bpow radix2 (-400) <= B <= bpow radix2 400.
Ltac abs := repeat match goal with H : Rabs _ <= _ |- _ => apply Rabs_le_inv in H end; try apply Rabs_le.

Lemma eps_pos : 0 < eps <= / 1000.
Proof. rewrite eps_val. lra. Qed.
Lemma inB_22 x : inB B x -> in22 x.
Proof. intros [F H]. split; [exact F|]. eapply Rle_trans; [exact H|]. eapply Rle_trans; [apply HB|]. apply bpow_le. lia. Qed.
Lemma big_BB t : Rabs t <= 1024 * (B * B) -> Rabs t <= bpow radix2 900.
Proof.
  intros H. eapply Rle_trans; [exact H|]. apply Rle_trans with (bpow radix2 10 * (bpow radix2 400 * bpow radix2 400)).
  - change (bpow radix2 10) with 1024. pose proof (B_pos B HB). apply Rmult_le_compat_l; [lra|]. apply Rmult_le_compat; lra.
  - rewrite <- !bpow_plus. apply bpow_le. lia.
Qed.
Lemma rnd_1 t K : 0 <= K -> Rabs t <= K -> Rabs (rnd t - t) <= (K + 1) * eps.
Proof.
  intros HK H. pose proof (rnd_err t). pose proof eps_pos. assert (bpow radix2 (-1074) <= eps) by (apply bpow_le; lia).
  apply Rmult_le_compat_l with (r := eps) in H; [|lra]. lra.
Qed.
Lemma big_1 t : Rabs t <= 4 -> Rabs t <= bpow radix2 10.
Proof. intros H. eapply Rle_trans; [exact H|]. change (bpow radix2 10) with 1024. lra. Qed.

(** ** One step *)
Section Step.
(** [e]: the decay, or 1 for the first value *)
Variables (x m e : f64).
Hypothesis Hx : inB B x.
Hypothesis Hm : inB B m.
Hypothesis Fe : is_finite e = true.
Hypothesis He : 0 < B2R e <= 1.

Lemma ewma_step : Rabs (B2R (fadd m (fmul e (fsub x m))) - (B2R m + B2R e * (B2R x - B2R m))) <= 16 * (eps * B).
Proof.
  pose proof (B_pos B HB) as H0. destruct Hm as [Fm Bm].
  destruct (delta_err B HB x m Hx Fm ltac:(lra)) as (Fd & Ed & Bd). set (D := B2R (fsub x m)) in *. set (t := B2R x - B2R m) in *.
  assert (H1 : Rabs (B2R e * D) <= 4 * B) by (rewrite Rabs_mult, (Rabs_pos_eq (B2R e)) by lra; pose proof (Rabs_pos D); nra).
  destruct (fmul_b e (fsub x m) 1000 Fe Fd ltac:(lia)) as [Fq Eq]; [apply (big_B B HB); fold D; lra|]. fold D in Eq.
  pose proof (rnd_B B HB _ _ H1) as H2. rewrite <- Eq in H2. set (q := B2R (fmul e (fsub x m))) in *.
  assert (H3 : Rabs (B2R e * D - B2R e * t) <= 4 * (eps * B)).
  { replace (B2R e * D - B2R e * t) with (B2R e * (D - t)) by ring. rewrite Rabs_mult, (Rabs_pos_eq (B2R e)) by lra. pose proof (Rabs_pos (D - t)). nra. }
  assert (HE : 0 < eps * B <= B / 1000) by (pose proof eps_pos; split; nra).
  assert (H4 : Rabs (B2R m + q) <= 6 * B) by (abs; lra).
  destruct (fadd_b m (fmul e (fsub x m)) 1000 Fm Fq ltac:(lia)) as [Fs Es]; [apply (big_B B HB); fold q; lra|]. fold q in Es.
  pose proof (rnd_B B HB _ _ H4) as H5. rewrite <- Es in H5. abs. lra.
Qed.

Definition ecoeff : f64 := fadd (fmul (fsub (fz 1) e) (fpow (fsub (fz 0) e) 2)) (fmul e (fpow (fsub (fz 1) e) 2)).
Lemma one_sub : is_finite (fsub (fz 1) e) = true /\ Rabs (B2R (fsub (fz 1) e) - (1 - B2R e)) <= 2 * eps /\ 0 <= B2R (fsub (fz 1) e) <= 1.
Proof.
  destruct (fz_real 1 ltac:(lia)) as [F1 E1]. assert (H : Rabs (B2R (fz 1) - B2R e) <= 1) by (rewrite E1; abs; lra).
  destruct (fsub_b (fz 1) e 10 F1 Fe ltac:(lia)) as [Fs Es]; [apply big_1; lra|]. split; [exact Fs|]. rewrite Es. rewrite E1 in *.
  split; [pose proof (rnd_1 _ 1 ltac:(lra) H); lra|]. split; [apply rnd_nonneg; lra|]. pose proof (rnd_abs_bpow (1 - B2R e) 0 ltac:(lia) H) as Hb. change (bpow radix2 0) with 1 in Hb. abs. lra.
Qed.
Lemma zero_sub : is_finite (fsub (fz 0) e) = true /\ B2R (fsub (fz 0) e) = - B2R e.
Proof.
  destruct (fz_real 0 ltac:(lia)) as [F1 E1].
  destruct (fsub_b (fz 0) e 10 F1 Fe ltac:(lia)) as [Fs Es]; [apply big_1; rewrite E1; abs; lra|]. split; [exact Fs|]. rewrite Es, E1.
  replace (0 - B2R e) with (- B2R e) by ring. rewrite rnd_opp, rnd_fmt by apply fmt_B2R. reflexivity.
Qed.
Lemma sq_1 (y : f64) : is_finite y = true -> Rabs (B2R y) <= 1 ->
  is_finite (fpow y 2) = true /\ 0 <= B2R (fpow y 2) <= 2 /\ Rabs (B2R (fpow y 2) - B2R y * B2R y) <= 2 * eps.
Proof.
  intros Fy Hy. destruct (fpow2_spec y 0 Fy ltac:(lia) Hy) as (Fp & Pp & Ep & _). split; [exact Fp|]. fold eps in Ep.
  assert (0 <= B2R y * B2R y <= 1) by (abs; split; nra). pose proof eps_pos. assert (bpow radix2 (-1074) <= eps) by (apply bpow_le; lia).
  assert (Rabs (B2R (fpow y 2) - B2R y * B2R y) <= 2 * eps) by nra. split; [|assumption]. abs. lra.
Qed.
Lemma mul_1 (y z : f64) (u v : R) a b : is_finite y = true -> is_finite z = true -> 0 <= B2R y <= 1 -> 0 <= B2R z <= 2 -> 0 <= u <= 1 -> 0 <= v <= 1 ->
  Rabs (B2R y - u) <= a * eps -> Rabs (B2R z - v) <= b * eps ->
  is_finite (fmul y z) = true /\ 0 <= B2R (fmul y z) <= 3 /\ Rabs (B2R (fmul y z) - u * v) <= (2 * a + b + 3) * eps.
Proof.
  intros Fy Fz Hy Hz Hu Hv Ha Hb. assert (H : Rabs (B2R y * B2R z) <= 2) by (rewrite Rabs_mult, !Rabs_pos_eq by lra; nra).
  destruct (fmul_b y z 10 Fy Fz ltac:(lia)) as [Fq Eq]; [apply big_1; lra|]. split; [exact Fq|].
  pose proof (rnd_1 _ 2 ltac:(lra) H) as Hr. rewrite <- Eq in Hr. pose proof eps_pos as Hp.
  split.
  { split; [rewrite Eq; apply rnd_nonneg; nra|]. abs. lra. }
  assert (Hd : Rabs (B2R y * B2R z - u * v) <= (2 * a + b) * eps).
  { replace (B2R y * B2R z - u * v) with ((B2R y - u) * B2R z + u * (B2R z - v)) by ring. eapply Rle_trans; [apply Rabs_triang|].
    rewrite !Rabs_mult, (Rabs_pos_eq (B2R z)), (Rabs_pos_eq u) by lra. pose proof (Rabs_pos (B2R y - u)). pose proof (Rabs_pos (B2R z - v)). nra. }
  abs. lra.
Qed.
Lemma ecoeff_err : is_finite ecoeff = true /\ 0 <= B2R ecoeff <= 8 /\ Rabs (B2R ecoeff - B2R e * (1 - B2R e)) <= 29 * eps.
Proof.
  destruct one_sub as (Fu & Eu & Bu). destruct zero_sub as (Fz & Ez). pose proof eps_pos as Hp. unfold ecoeff.
  set (u := fsub (fz 1) e) in *. set (z := fsub (fz 0) e) in *.
  destruct (sq_1 z Fz) as (Fzz & Bzz & Ezz); [rewrite Ez; abs; lra|]. rewrite Ez in Ezz. replace (- B2R e * - B2R e) with (B2R e * B2R e) in Ezz by ring.
  destruct (sq_1 u Fu) as (Fuu & Buu & Euu); [abs; lra|].
  assert (Euu' : Rabs (B2R (fpow u 2) - (1 - B2R e) * (1 - B2R e)) <= 6 * eps).
  { assert (Rabs (B2R u * B2R u - (1 - B2R e) * (1 - B2R e)) <= 4 * eps).
    { replace (B2R u * B2R u - (1 - B2R e) * (1 - B2R e)) with ((B2R u - (1 - B2R e)) * (B2R u + (1 - B2R e))) by ring.
      rewrite Rabs_mult, (Rabs_pos_eq (B2R u + _)) by lra. pose proof (Rabs_pos (B2R u - (1 - B2R e))). nra. }
    abs. lra. }
  destruct (mul_1 u (fpow z 2) (1 - B2R e) (B2R e * B2R e) 2 2) as (F1 & B1 & E1); auto; try lra; [split; nra|].
  destruct (mul_1 e (fpow u 2) (B2R e) ((1 - B2R e) * (1 - B2R e)) 0 6) as (F2 & B2 & E2); auto; try lra; [split; nra|rewrite Rminus_eq_0, Rabs_R0; lra|].
  destruct (fadd_b (fmul u (fpow z 2)) (fmul e (fpow u 2)) 10 F1 F2 ltac:(lia)) as [Fs Es].
  { apply Rle_trans with 6; [rewrite Rabs_pos_eq; lra|change (bpow radix2 10) with 1024; lra]. }
  split; [exact Fs|]. assert (H : Rabs (B2R (fmul u (fpow z 2)) + B2R (fmul e (fpow u 2))) <= 6) by (rewrite Rabs_pos_eq; lra).
  pose proof (rnd_1 _ 6 ltac:(lra) H) as Hr. rewrite <- Es in Hr. split.
  { split; [rewrite Es; apply rnd_nonneg; lra|]. abs. lra. }
  replace (B2R e * (1 - B2R e)) with ((1 - B2R e) * (B2R e * B2R e) + B2R e * ((1 - B2R e) * (1 - B2R e))) by ring.
  abs. lra.
Qed.

Variables (s : f64) (mu S0 : R).
Hypothesis Fs : is_finite s = true.
Hypothesis Ps : 0 <= B2R s.
Hypothesis HS : 0 <= S0 <= 4 * (B * B).
Hypothesis Hs : Rabs (B2R s - S0) <= 2 * (B * B).
Hypothesis Hmu : Rabs mu <= B.
Hypothesis Hmm : B2R e * Rabs (B2R m - mu) <= 16 * (eps * B).
Definition enext : f64 := fadd (fmul (fsub (fz 1) e) s) (fmul ecoeff (fpow (fsub x m) 2)).
Lemma ewm2_step : is_finite enext = true /\ 0 <= B2R enext /\
  Rabs (B2R enext - ((1 - B2R e) * S0 + B2R e * (1 - B2R e) * ((B2R x - mu) * (B2R x - mu)))) <= (1 - B2R e) * Rabs (B2R s - S0) + 1000 * (eps * (B * B)).
Proof.
  pose proof (B_pos B HB) as H0. pose proof eps_pos as Hp. set (b2 := B * B) in *. assert (Hb2 : 0 < b2) by (unfold b2; nra).
  assert (HE : 0 < eps * b2 <= b2 / 1000) by (split; nra).
  destruct Hm as [Fm Bm]. destruct Hx as [Fx Bx].
  destruct (delta_err B HB x m Hx Fm ltac:(lra)) as (Fd & Ed & Bd). unfold enext. set (D := fsub x m) in *.
  destruct (fpow2_spec D 402 Fd ltac:(lia)) as (Fp & Pp & Ep & _).
  { eapply Rle_trans; [exact Bd|]. replace 402%Z with (2 + 400)%Z by lia. rewrite bpow_plus. change (bpow radix2 2) with 4. lra. }
  assert (HD2 : 0 <= B2R D * B2R D <= 16 * b2) by (abs; unfold b2; split; nra).
  assert (Hp2 : Rabs (B2R (fpow D 2) - B2R D * B2R D) <= 17 * (eps * b2)).
  { pose proof (tiny_B2 B HB) as T. fold b2 in T. fold eps in Ep. assert (eps * (B2R D * B2R D) <= eps * (16 * b2)) by (apply Rmult_le_compat_l; lra). lra. }
  set (p := B2R (fpow D 2)) in *. set (D0 := B2R x - mu).
  assert (Bp : 0 <= p <= 17 * b2) by (split; [exact Pp|]; abs; lra).
  destruct ecoeff_err as (Fc & Bc & Ec). set (k := B2R ecoeff) in *. set (r := B2R e) in *.
  assert (HD0 : Rabs D0 <= 2 * B) by (unfold D0; abs; lra).
  (* the error of the square, weighted *)
  assert (Hsq : r * Rabs (B2R D * B2R D - D0 * D0) <= 120 * (eps * b2)).
  { replace (B2R D * B2R D - D0 * D0) with ((B2R D - D0) * (B2R D + D0)) by ring. rewrite Rabs_mult.
    assert (H1 : Rabs (B2R D + D0) <= 6 * B) by (abs; lra).
    assert (H2 : r * Rabs (B2R D - D0) <= 20 * (eps * B)).
    { replace (B2R D - D0) with ((B2R D - (B2R x - B2R m)) + - (B2R m - mu)) by (unfold D0; ring).
      apply Rle_trans with (r * (Rabs (B2R D - (B2R x - B2R m)) + Rabs (B2R m - mu))).
      - apply Rmult_le_compat_l; [lra|]. rewrite <- (Rabs_Ropp (B2R m - mu)). apply Rabs_triang.
      - pose proof (Rabs_pos (B2R D - (B2R x - B2R m))). nra. }
    apply Rle_trans with (20 * (eps * B) * (6 * B)); [|unfold b2; nra]. rewrite <- Rmult_assoc. pose proof (Rabs_pos (B2R D - D0)).
    apply Rmult_le_compat; [nra|apply Rabs_pos|lra|lra]. }
  assert (Ht : Rabs (k * p - r * (1 - r) * (D0 * D0)) <= 630 * (eps * b2)).
  { replace (k * p - r * (1 - r) * (D0 * D0)) with ((k - r * (1 - r)) * p + (1 - r) * (r * (p - B2R D * B2R D)) + (1 - r) * (r * (B2R D * B2R D - D0 * D0))) by ring.
    assert (G1 : Rabs ((k - r * (1 - r)) * p) <= 29 * eps * (17 * b2)) by (rewrite Rabs_mult, (Rabs_pos_eq p) by lra; apply Rmult_le_compat; try lra; apply Rabs_pos).
    assert (G2 : Rabs ((1 - r) * (r * (p - B2R D * B2R D))) <= 17 * (eps * b2)).
    { rewrite Rabs_mult, (Rabs_pos_eq (1 - r)), Rabs_mult, (Rabs_pos_eq r) by lra. pose proof (Rabs_pos (p - B2R D * B2R D)).
      assert (r * Rabs (p - B2R D * B2R D) <= Rabs (p - B2R D * B2R D)) by nra. nra. }
    assert (G3 : Rabs ((1 - r) * (r * (B2R D * B2R D - D0 * D0))) <= 120 * (eps * b2)).
    { rewrite Rabs_mult, (Rabs_pos_eq (1 - r)), Rabs_mult, (Rabs_pos_eq r) by lra. pose proof (Rabs_pos (B2R D * B2R D - D0 * D0)).
      assert (0 <= r * Rabs (B2R D * B2R D - D0 * D0)) by nra. nra. }
    abs. lra. }
  assert (Hkp : Rabs (k * p) <= 136 * b2) by (rewrite Rabs_pos_eq by nra; nra).
  destruct (fmul_b ecoeff (fpow D 2) 900 Fc Fp ltac:(lia)) as [Ft Et]; [fold k p; apply big_BB; fold b2; lra|]. fold k p in Et.
  pose proof (rnd_BB B HB _ _ Hkp) as Hrt. rewrite <- Et in Hrt. fold b2 in Hrt.
  assert (Pt : 0 <= B2R (fmul ecoeff (fpow D 2))) by (rewrite Et; apply rnd_nonneg; nra).
  destruct one_sub as (Fu & Eu & Bu). set (u := B2R (fsub (fz 1) e)) in *. fold r in Eu.
  assert (Bs : B2R s <= 6 * b2) by (abs; lra).
  assert (Hus : Rabs (u * B2R s) <= 6 * b2) by (rewrite Rabs_pos_eq by nra; nra).
  destruct (fmul_b (fsub (fz 1) e) s 900 Fu Fs ltac:(lia)) as [Fo Eo]; [fold u; apply big_BB; fold b2; lra|]. fold u in Eo.
  pose proof (rnd_BB B HB _ _ Hus) as Hro. rewrite <- Eo in Hro. fold b2 in Hro.
  assert (Po : 0 <= B2R (fmul (fsub (fz 1) e) s)) by (rewrite Eo; apply rnd_nonneg; nra).
  assert (Hu : Rabs (u * B2R s - (1 - r) * S0) <= (1 - r) * Rabs (B2R s - S0) + 12 * (eps * b2)).
  { replace (u * B2R s - (1 - r) * S0) with ((1 - r) * (B2R s - S0) + (u - (1 - r)) * B2R s) by ring. eapply Rle_trans; [apply Rabs_triang|].
    rewrite !Rabs_mult, (Rabs_pos_eq (1 - r)), (Rabs_pos_eq (B2R s)) by lra. apply Rplus_le_compat_l.
    apply Rle_trans with (2 * eps * (6 * b2)); [|lra]. apply Rmult_le_compat; try lra. apply Rabs_pos. }
  set (o := B2R (fmul (fsub (fz 1) e) s)) in *. set (t := B2R (fmul ecoeff (fpow D 2))) in *.
  assert (Hot : Rabs (o + t) <= 145 * b2) by (rewrite Rabs_pos_eq by lra; abs; lra).
  destruct (fadd_b (fmul (fsub (fz 1) e) s) (fmul ecoeff (fpow D 2)) 900 Fo Ft ltac:(lia)) as [Fr Er]; [fold o t; apply big_BB; fold b2; lra|]. fold o t in Er.
  split; [exact Fr|]. split; [rewrite Er; apply rnd_nonneg; lra|].
  pose proof (rnd_BB B HB _ _ Hot) as Hrr. rewrite <- Er in Hrr. fold b2 in Hrr.
  generalize dependent (Rabs (B2R s - S0)). intros es _ Hu. clear - Hu Hrr Hro Hrt Ht HE. abs. lra.
Qed.
End Step.

(** ** Histories *)
Variable d : f64.
Hypothesis Fd : is_finite d = true.
Hypothesis Hd : 0 < B2R d < 1.

Lemma ewma_bound h : Forall (inB B) h -> Rabs (ewma (B2R d) (rl h)) <= B.
Proof.
  pose proof (B_pos B HB) as H0. induction h as [|x h IH] using rev_ind; intros Hf; [cbn [rl map]; rewrite ewma_nil, Rabs_R0; lra|].
  apply Forall_app in Hf. destruct Hf as [Hh Hx]. inversion Hx as [|? ? Hx1 _]; subst. destruct Hx1 as [_ Bx]. specialize (IH Hh).
  unfold rl in *. rewrite map_app. cbn [map]. destruct h as [|y h]; [cbn [map app]; rewrite ewma_one; exact Bx|].
  rewrite ewma_push by discriminate. set (a := ewma _ _) in *. clear - Hd Bx IH. abs. split; nra.
Qed.
Lemma ewm2_next h x : h <> [] -> ewmoment (B2R d) 2 (rl (h ++ [x])) =
  (1 - B2R d) * ewmoment (B2R d) 2 (rl h) + B2R d * (1 - B2R d) * ((B2R x - ewma (B2R d) (rl h)) * (B2R x - ewma (B2R d) (rl h))).
Proof.
  intros Hh. unfold rl. rewrite map_app. cbn [map]. rewrite ewmoment_push; [|destruct h; [contradiction|discriminate]|lia].
  cbn [Nat.sub seq map]. unfold rsum. cbn [fold_right]. ring.
Qed.
Lemma ewm2_bound h : Forall (inB B) h -> 0 <= ewmoment (B2R d) 2 (rl h) <= 4 * (B * B).
Proof.
  pose proof (B_pos B HB) as H0. induction h as [|x h IH] using rev_ind; intros Hf; [cbn [rl map]; rewrite ewmoment_nil; split; nra|].
  apply Forall_app in Hf. destruct Hf as [Hh Hx]. inversion Hx as [|? ? Hx1 _]; subst. destruct Hx1 as [_ Bx]. specialize (IH Hh).
  destruct h as [|y h]; [cbn [rl map app]; rewrite ewmoment_one by lia; split; nra|].
  rewrite ewm2_next by discriminate. pose proof (ewma_bound _ Hh) as Ha. set (a := ewma _ _) in *. set (q := ewmoment _ _ _) in *.
  assert (Ht : 0 <= (B2R x - a) * (B2R x - a) <= 4 * (B * B)) by (clear - Ha Bx; apply Rabs_le_inv in Ha; apply Rabs_le_inv in Bx; assert (Hb : - (2 * B) <= B2R x - a <= 2 * B) by lra; set (z0 := B2R x - a) in *; split; nra).
  set (t := (B2R x - a) * (B2R x - a)) in *. set (b2 := B * B) in *. set (r := B2R d) in *. clear - Ht IH Hd.
  assert (0 <= r * (1 - r) <= r) by nra. assert (0 <= r * (1 - r) * t <= r * (4 * b2)) by (split; nra). split; nra.
Qed.

Definition Em (h : list f64) (c : @core f64) : Prop :=
  (c_len c <= 66)%nat /\ c_window c = 0%Z /\ c_decay c = Some d /\ c_count c = zlen h /\ Forall (inB B) h /\
  inB B (c_mean c) /\ (h = [] -> B2R (c_mean c) = 0) /\ B2R d * Rabs (B2R (c_mean c) - ewma (B2R d) (rl h)) <= 16 * (eps * B).
Definition E2 (h : list f64) (c : @core f64) : Prop :=
  Em h c /\ c_len c = 3%nat /\ is_finite (c_sums c 2) = true /\ 0 <= B2R (c_sums c 2) /\
  B2R d * Rabs (B2R (c_sums c 2) - ewmoment (B2R d) 2 (rl h)) <= 1000 * (eps * (B * B)).

Lemma first_dec (h : list f64) : {h = [] /\ (zlen h + 1 =? 1)%Z = true} + {h <> [] /\ (zlen h + 1 =? 1)%Z = false}.
Proof. destruct h as [|y h]; [left; auto|]. right. split; [discriminate|]. apply Z.eqb_neq. unfold zlen. cbn [length]. lia. Qed.
Lemma mean_next h c x : Em h c -> inB B x -> let e := if (zlen h + 1 =? 1)%Z then fz 1 else d in
  let m' := fadd (c_mean c) (fmul e (fsub x (c_mean c))) in
  inB B m' /\ B2R d * Rabs (B2R m' - ewma (B2R d) (rl (h ++ [x]))) <= 16 * (eps * B).
Proof.
  intros (Hl & Hw & Hdd & Hc & Hf & Hm & Hz & He) Hx. cbv zeta. pose proof (B_pos B HB) as H0. pose proof eps_pos as Hp.
  assert (HE : 0 < eps * B) by nra. unfold rl in *. rewrite map_app. cbn [map].
  destruct (first_dec h) as [[-> ->]|[Hh ->]].
  - cbn [map app]. rewrite ewma_one. destruct (fz_real 1 ltac:(lia)) as [F1 E1]. destruct Hm as [Fm Bm]. specialize (Hz eq_refl). destruct (inB_22 x Hx) as [Fx Bx]. 
    destruct (fsub_b x (c_mean c) 1022 Fx Fm ltac:(lia)) as [Fd1 Ed1]; [rewrite Hz, Rminus_0_r; exact Bx|]. rewrite Hz, Rminus_0_r, rnd_fmt in Ed1 by apply fmt_B2R.
    destruct (fmul_b (fz 1) (fsub x (c_mean c)) 1022 F1 Fd1 ltac:(lia)) as [Fq Eq]; [rewrite E1, Ed1, Rmult_1_l; exact Bx|].
    rewrite E1, Ed1, Rmult_1_l, rnd_fmt in Eq by apply fmt_B2R.
    destruct (fadd_b (c_mean c) (fmul (fz 1) (fsub x (c_mean c))) 1022 Fm Fq ltac:(lia)) as [Fs Es]; [rewrite Hz, Eq, Rplus_0_l; exact Bx|].
    rewrite Hz, Eq, Rplus_0_l, rnd_fmt in Es by apply fmt_B2R. split; [split; [exact Fs|rewrite Es; apply Hx]|]. rewrite Es, Rminus_eq_0, Rabs_R0. lra.
  - destruct (ewma_between x (c_mean c) d (inB_22 _ Hx) (inB_22 _ Hm) Fd Hd) as [[Fm' _] Hb]. set (m' := fadd _ _) in *.
    split.
    { split; [exact Fm'|]. destruct Hx as [_ Bx]. destruct Hm as [_ Bm]. unfold Rmin, Rmax in Hb. clear - Hb Bx Bm. destruct (Rle_dec (B2R (c_mean c)) (B2R x)); abs; lra. }
    pose proof (ewma_step x (c_mean c) d Hx Hm Fd ltac:(lra)) as Hs. fold m' in Hs. rewrite ewma_push by (destruct h; [contradiction|discriminate]).
    set (a := ewma _ _) in *. set (r := B2R d) in *. set (m := B2R (c_mean c)) in *.
    assert (Ht : Rabs (B2R m' - (a + r * (B2R x - a))) <= (1 - r) * Rabs (m - a) + 16 * (eps * B)).
    { replace (B2R m' - (a + r * (B2R x - a))) with ((B2R m' - (m + r * (B2R x - m))) + (1 - r) * (m - a)) by ring.
      eapply Rle_trans; [apply Rabs_triang|]. rewrite (Rabs_mult (1 - r)), (Rabs_pos_eq (1 - r)) by lra. lra. }
    clear - Ht He Hd HE. set (u := Rabs (m - a)) in *. set (g := 16 * (eps * B)) in *. nra.
Qed.
Lemma Em_push h c x : Em h c -> inB B x -> exists c', c_push FN c x = Ok c' /\ Em (h ++ [x]) c'.
Proof.
  intros HE Hx. pose proof (mean_next h c x HE Hx) as Hn. cbv zeta in Hn. destruct HE as (Hl & Hw & Hdd & Hc & Hf & Hm & Hz & He).
  destruct (c_add_decay_any FN c d x Hl) as (c' & E & (P1 & P2 & P3 & P4) & Ec & Emn). exists c'.
  split; [unfold c_push; rewrite Hw; cbn [Z.eqb negb bind]; rewrite Hdd; exact E|]. cbn [nadd nmul nsub nz FN] in Emn. rewrite Hc in Emn. rewrite <- Emn in Hn.
  destruct Hn as [Hn1 Hn2]. split; [lia|]. split; [congruence|]. split; [congruence|].
  split; [rewrite Ec, Hc; unfold zlen; rewrite app_length; cbn [length]; lia|]. split; [apply Forall_app; auto|]. split; [exact Hn1|].
  split; [intros X; destruct h; discriminate|exact Hn2].
Qed.
Hypothesis Hd40 : bpow radix2 (-40) <= B2R d.
Lemma E2_push h c x : E2 h c -> inB B x -> exists c', c_push FN c x = Ok c' /\ E2 (h ++ [x]) c'.
Proof.
  intros (HE & Hl & Fs & Ps & Hs) Hx. destruct (Em_push h c x HE Hx) as (c' & E & HE'). exists c'. split; [exact E|]. split; [exact HE'|].
  destruct HE as (_ & Hw & Hdd & Hc & Hf & Hm & Hz & He). unfold c_push in E. rewrite Hw in E. cbn [Z.eqb negb bind] in E. rewrite Hdd in E.
  destruct (decay_sum2 FN c d x c' Hl E) as [El Esum]. split; [exact El|]. clear El. cbn [nz nadd nsub nmul npow FN] in Esum. rewrite Hc in Esum.
  change (c_sums c' 2%nat = enext x (c_mean c) (if (zlen h + 1 =? 1)%Z then fz 1 else d) (c_sums c 2%nat)) in Esum. rewrite Esum. clear E Esum HE'.
  pose proof (B_pos B HB) as H0. pose proof eps_pos as Hp. assert (Hb2 : 0 < B * B) by nra.
  assert (Hd41 : / 1099511627776 <= B2R d) by exact Hd40.
  assert (HBB : 1000 * (eps * (B * B)) <= / 1099511627776 * (2 * (B * B))) by (rewrite eps_val; lra).
  destruct (first_dec h) as [[-> ->]|[Hh ->]].
  - destruct (fz_real 1 ltac:(lia)) as [F1 E1]. cbn [rl map] in *. rewrite ewmoment_nil in Hs. 
    assert (Hs0 : Rabs (B2R (c_sums c 2) - 0) <= 2 * (B * B)) by (pose proof (Rabs_pos (B2R (c_sums c 2) - 0)); nra).
    destruct (ewm2_step x (c_mean c) (fz 1) Hx Hm F1 ltac:(lra) (c_sums c 2) 0 0 Fs Ps ltac:(lra) Hs0) as (Fn & Pn & En).
    { rewrite Rabs_R0. lra. }
    { rewrite E1, (Hz eq_refl), Rminus_eq_0, Rabs_R0. nra. }
    split; [exact Fn|]. split; [exact Pn|]. cbn [app rl map]. rewrite ewmoment_one by lia. rewrite E1 in En.
    set (v := B2R _) in En |- *. replace (v - 0) with (v - ((1 - 1) * 0 + 1 * (1 - 1) * ((B2R x - 0) * (B2R x - 0)))) by ring.
    set (w := Rabs _) in *. pose proof (Rabs_pos (v - ((1 - 1) * 0 + 1 * (1 - 1) * ((B2R x - 0) * (B2R x - 0))))) as Hw0. fold w in Hw0. nra.
  - pose proof (ewm2_bound h Hf) as HS. pose proof (ewma_bound h Hf) as Ha.
    assert (Hs0 : Rabs (B2R (c_sums c 2) - ewmoment (B2R d) 2 (rl h)) <= 2 * (B * B)) by (pose proof (Rabs_pos (B2R (c_sums c 2) - ewmoment (B2R d) 2 (rl h))); nra).
    destruct (ewm2_step x (c_mean c) d Hx Hm Fd ltac:(lra) (c_sums c 2) _ _ Fs Ps HS Hs0 Ha He) as (Fn & Pn & En).
    split; [exact Fn|]. split; [exact Pn|]. rewrite (ewm2_next h x Hh). eapply Rle_trans; [apply Rmult_le_compat_l; [lra|exact En]|].
    set (w := Rabs _) in *. set (g := 1000 * (eps * (B * B))) in *. set (r := B2R d) in *. clear - Hs Hd. nra.
Qed.

Lemma Em_nil n q : (n <= 66)%nat -> Em [] (mkCore (fz 0) n (fun _ => fz 0) 0 0 (Some d) q).
Proof.
  intros Hn. destruct (fz_real 0 ltac:(lia)) as [F0 Z0]. pose proof (B_pos B HB). pose proof eps_pos. unfold Em. cbn [c_len c_window c_decay c_count c_mean]. repeat split; auto.
  - rewrite Z0, Rabs_R0. lra.
  - cbn [rl map]. rewrite ewma_nil, Z0, Rminus_eq_0, Rabs_R0. nra.
Qed.
Lemma E2_nil q : E2 [] (mkCore (fz 0) 3 (fun _ => fz 0) 0 0 (Some d) q).
Proof.
  split; [apply Em_nil; lia|]. destruct (fz_real 0 ltac:(lia)) as [F0 Z0]. pose proof (B_pos B HB). pose proof eps_pos. cbn [c_len c_sums]. repeat split; auto.
  - rewrite Z0. lra.
  - cbn [rl map]. rewrite ewmoment_nil, Z0, Rminus_eq_0, Rabs_R0. nra.
Qed.
(** Any history, of any length *)
Lemma inv_run (I : list f64 -> @core f64 -> Prop) c0 ops : I [] c0 -> (forall h c x, I h c -> inB B x -> exists c', c_push FN c x = Ok c' /\ I (h ++ [x]) c') ->
  (forall h c, I h c -> exists c', c_clear FN c = Ok c' /\ I [] c') -> (forall x, In (OPush x) ops -> inB B x) ->
  exists c, core_run FN c0 ops = Ok c /\ I (hist ops) c.
Proof.
  intros H0 Hp Hc. unfold core_run. induction ops as [|o ops IH] using rev_ind; intros Hr; [exists c0; auto|].
  destruct IH as (c & E & Hi). { intros x Hx. apply Hr, in_or_app. left. exact Hx. }
  rewrite run_app, E. cbn [bind]. destruct o as [x|]; cbn [run].
  - destruct (Hp _ c x Hi) as (c' & E' & I'); [apply Hr, last_in|]. rewrite E'. cbn [bind]. exists c'. rewrite hist_push. auto.
  - destruct (Hc _ _ Hi) as (c' & E' & I'). rewrite E'. cbn [bind]. exists c'. rewrite hist_clear. auto.
Qed.
Lemma Em_run n ops : (n <= 66)%nat -> (forall x, In (OPush x) ops -> inB B x) ->
  exists c, core_run FN (mkCore (fz 0) n (fun _ => fz 0) 0 0 (Some d) (ring_new 0)) ops = Ok c /\ Em (hist ops) c.
Proof.
  intros Hn. apply inv_run; [apply Em_nil; exact Hn|exact Em_push|]. intros h c (Hl & Hw & Hdd & _). eexists. split; [reflexivity|]. rewrite Hw, Hdd. apply Em_nil. exact Hl.
Qed.
Lemma E2_run ops : (forall x, In (OPush x) ops -> inB B x) ->
  exists c, core_run FN (mkCore (fz 0) 3 (fun _ => fz 0) 0 0 (Some d) (ring_new 0)) ops = Ok c /\ E2 (hist ops) c.
Proof.
  apply inv_run; [apply E2_nil|exact E2_push|]. intros h c ((_ & Hw & Hdd & _) & Hl & _). eexists. split; [reflexivity|]. rewrite Hw, Hdd, Hl. apply E2_nil.
Qed.

(** The square root *)
Lemma sqrt_err (v : f64) : is_finite v = true -> 0 <= B2R v ->
  is_finite (fsqrt v) = true /\ 0 <= B2R (fsqrt v) /\ Rabs (B2R (fsqrt v) * B2R (fsqrt v) - B2R v) <= 3 * eps * B2R v.
Proof.
  intros Fv Pv. unfold fsqrt. pose proof (Bsqrt_correct 53 1024 _ _ mode_NE v) as (E & F & _). fold (rnd (sqrt (B2R v))) in E.
  assert (Fs : is_finite (Bsqrt mode_NE v) = true).
  { rewrite F. destruct v as [?|?| |sg mm ee Hv]; try discriminate Fv; [reflexivity|]. destruct sg; [|reflexivity].
    exfalso. cbn [B2R] in Pv. apply ge_0_F2R in Pv. cbn [Fnum] in Pv. cbn in Pv. lia. }
  split; [exact Fs|]. rewrite E. set (r := sqrt (B2R v)). assert (Hr : 0 <= r) by apply sqrt_pos. assert (Hrr : r * r = B2R v) by (apply sqrt_sqrt; lra).
  split; [apply rnd_nonneg; lra|]. destruct (Req_dec (B2R v) 0) as [Hz|Hz].
  { assert (r = 0) by (unfold r; rewrite Hz; apply sqrt_0). rewrite H, rnd_0, Hz, Rmult_0_l, Rminus_eq_0, Rabs_R0. lra. }
  destruct (rnd_rel 0 r) as (e & He & Ee).
  { rewrite Rabs_pos_eq by lra. assert (Hv : bpow radix2 (-1074) <= B2R v).
    { apply (generic_format_ge_bpow radix2 fexp64 (-1074)); [|lra|apply fmt_B2R]. intros x. unfold fexp64, FLT_exp, SpecFloat.fexp, SpecFloat.emin. lia. }
    apply Rnot_lt_le. intros Hlt. assert (H : r * r < bpow radix2 (-1022) * bpow radix2 (-1022)) by nra. rewrite Hrr, <- bpow_plus in H.
    assert (bpow radix2 (-1022 + -1022) <= bpow radix2 (-1074)) by (apply bpow_le; lia). lra. }
  rewrite Ee. replace (r * (1 + e) * (r * (1 + e)) - B2R v) with (B2R v * (2 * e + e * e)) by (rewrite <- Hrr; ring).
  pose proof eps_pos. assert (He2 : Rabs (2 * e + e * e) <= 3 * eps) by (apply Rabs_le_inv in He; apply Rabs_le; nra).
  rewrite Rabs_mult, (Rabs_pos_eq (B2R v)) by lra. rewrite (Rmult_comm (3 * eps)). apply Rmult_le_compat_l; [exact Pv|exact He2].
Qed.
Lemma E2_sqrt h c : E2 h c -> is_finite (fsqrt (c_sums c 2)) = true /\ 0 <= B2R (fsqrt (c_sums c 2)) /\
  B2R d * Rabs (B2R (fsqrt (c_sums c 2)) * B2R (fsqrt (c_sums c 2)) - ewmoment (B2R d) 2 (rl h)) <= 1100 * (eps * (B * B)).
Proof.
  intros (HE & Hl & Fs & Ps & Hs). destruct (sqrt_err _ Fs Ps) as (Fq & Pq & Eq). split; [exact Fq|]. split; [exact Pq|].
  destruct HE as (_ & _ & _ & _ & Hf & _). pose proof (ewm2_bound h Hf) as HS. pose proof (B_pos B HB) as H0. pose proof eps_pos as Hp.
  assert (Hd41 : / 1099511627776 <= B2R d) by exact Hd40. assert (Hb2 : 0 < B * B) by nra.
  assert (HBB : 1000 * (eps * (B * B)) <= / 1099511627776 * (2 * (B * B))) by (rewrite eps_val; lra).
  set (v := B2R (c_sums c 2)) in *. set (q := B2R (fsqrt (c_sums c 2)) * B2R (fsqrt (c_sums c 2))) in *. set (m2 := ewmoment _ _ _) in *. set (b2 := B * B) in *. set (r := B2R d) in *.
  assert (Hs0 : Rabs (v - m2) <= 2 * b2) by (pose proof (Rabs_pos (v - m2)); nra).
  assert (Bv : v <= 6 * b2) by (abs; lra).
  assert (Hq : Rabs (q - v) <= 18 * (eps * b2)) by (eapply Rle_trans; [exact Eq|]; nra).
  replace (q - m2) with ((q - v) + (v - m2)) by ring. apply Rle_trans with (r * (Rabs (q - v) + Rabs (v - m2))); [apply Rmult_le_compat_l; [lra|apply Rabs_triang]|].
  pose proof (Rabs_pos (q - v)). nra.
Qed.
End Ewm.
