(** float64 arithmetic on numbers multiplied by a power of two. Nothing here models repository code. *)
From Coq Require Import ZArith Lia Bool Reals Lra.
From Flocq Require Import Core BinarySingleNaN.
From Verif Require Import Base F64 FloatR PowFloat FloatErr SelfArith.
Local Open Scope R_scope.
Local Notation b2 := (bpow radix2).

(** ** Rounding *)
Lemma mag_scale r k : r <> 0 -> (mag radix2 (r * b2 k) : Z) = ((mag radix2 r : Z) + k)%Z.
Proof. intros H. apply mag_mult_bpow, H. Qed.
Lemma fexp_big e : (-1021 <= e)%Z -> fexp64 e = (e - 53)%Z.
Proof. intros H. unfold fexp64, SpecFloat.fexp, SpecFloat.emin. lia. Qed.
Lemma mag_big r e : b2 e <= Rabs r -> (e + 1 <= (mag radix2 r : Z))%Z.
Proof. intros H. pose proof (mag_ge_bpow radix2 r (e + 1)) as L. replace (e + 1 - 1)%Z with e in L by lia. exact (L H). Qed.
Lemma rnd_scale r k : r = 0 \/ b2 (-1022) <= Rabs r /\ b2 (-1022) <= Rabs (r * b2 k) -> rnd (r * b2 k) = rnd r * b2 k.
Proof.
  intros [->|[H1 H2]]; [rewrite Rmult_0_l, rnd_0, Rmult_0_l; reflexivity|]. assert (Hr : r <> 0) by (intros ->; rewrite Rabs_R0 in H1; pose proof (bpow_gt_0 radix2 (-1022)); lra).
  apply mag_big in H1. apply mag_big in H2. rewrite (mag_scale r k Hr) in H2.
  assert (E1 : cexp radix2 fexp64 r = ((mag radix2 r : Z) - 53)%Z) by (unfold cexp; apply fexp_big; lia).
  assert (E2 : cexp radix2 fexp64 (r * b2 k) = ((mag radix2 r : Z) - 53 + k)%Z) by (unfold cexp; rewrite (mag_scale r k Hr), fexp_big by lia; lia).
  unfold rnd, round, scaled_mantissa. rewrite E1, E2. unfold F2R. cbn [Fnum Fexp].
  assert (E : r * b2 k * b2 (- ((mag radix2 r : Z) - 53 + k)) = r * b2 (- ((mag radix2 r : Z) - 53))).
  { rewrite Rmult_assoc, <- bpow_plus. do 2 f_equal. lia. }
  rewrite E, Rmult_assoc, <- bpow_plus. reflexivity.
Qed.

(** ** Sizes *)
(** zero, or at least 2^e *)
Definition low (e : Z) (r : R) : Prop := r = 0 \/ b2 e <= Rabs r.
(** a multiple of 2^e *)
Definition grid (e : Z) (r : R) : Prop := exists z, r = IZR z * b2 e.
Lemma low_le e e' r : (e' <= e)%Z -> low e r -> low e' r.
Proof. intros H [->|L]; [left; reflexivity|right]. eapply Rle_trans; [apply bpow_le, H|exact L]. Qed.
Lemma grid_low e r : grid e r -> low e r.
Proof.
  intros (z & ->). destruct (Z.eq_dec z 0) as [->|N]; [left; ring|right]. rewrite Rabs_mult, (Rabs_pos_eq (b2 e)) by apply bpow_ge_0. rewrite <- abs_IZR.
  assert (1 <= IZR (Z.abs z)) by (apply (IZR_le 1); lia). pose proof (bpow_gt_0 radix2 e). nra.
Qed.
Lemma grid_le e e' r : (e' <= e)%Z -> grid e r -> grid e' r.
Proof.
  intros H (z & ->). exists (z * 2 ^ (e - e'))%Z. rewrite mult_IZR, Rmult_assoc. change 2%Z with (radix_val radix2). rewrite IZR_Zpower by lia. rewrite <- bpow_plus. do 2 f_equal. lia.
Qed.
Lemma grid_add e a b : grid e a -> grid e b -> grid e (a + b).
Proof. intros (x & ->) (y & ->). exists (x + y)%Z. rewrite plus_IZR. ring. Qed.
Lemma grid_opp e a : grid e a -> grid e (- a).
Proof. intros (x & ->). exists (- x)%Z. rewrite opp_IZR. ring. Qed.
Lemma grid_0 e : grid e 0. Proof. exists 0%Z. ring. Qed.
Lemma fmt_grid x e : fmt x -> low e x -> (-1022 <= e)%Z -> grid (e - 52) x.
Proof.
  intros F [->|L] He; [apply grid_0|]. apply mag_big in L. apply (grid_le (cexp radix2 fexp64 x)); [unfold cexp; rewrite fexp_big by lia; lia|].
  unfold fmt, generic_format in F. exists (Ztrunc (scaled_mantissa radix2 fexp64 x)). exact F.
Qed.
Lemma grid_rnd e r : (-1074 <= e)%Z -> grid e r -> grid e (rnd r).
Proof.
  intros He (z & Hz). destruct (Z_le_gt_dec (cexp radix2 fexp64 r) e) as [L|G].
  - rewrite rnd_fmt; [exists z; exact Hz|]. destruct (Req_dec r 0) as [->|Hr]; [apply fmt_0|]. unfold fmt. subst r. change (IZR z * b2 e) with (F2R (Float radix2 z e)) in *. apply generic_format_F2R. intros _. exact L.
  - apply (grid_le (cexp radix2 fexp64 r)); [lia|]. unfold rnd, round, F2R. cbn [Fnum Fexp]. eexists. reflexivity.
Qed.
Lemma low_rnd e r : (-1074 <= e)%Z -> low e r -> low e (rnd r).
Proof.
  intros He [->|L]; [left; apply rnd_0|right]. apply abs_round_ge_generic; try typeclasses eauto; [apply fmt_bpow; exact He|exact L].
Qed.
Lemma low_add e x y : fmt x -> fmt y -> low e x -> low e y -> (-1022 <= e)%Z -> low (e - 52) (x + y).
Proof. intros Fx Fy Lx Ly He. apply grid_low, grid_add; apply fmt_grid; assumption. Qed.
Lemma low_opp e x : low e x -> low e (- x).
Proof. intros [->|L]; [left; ring|right; rewrite Rabs_Ropp; exact L]. Qed.
Lemma fmt_opp x : fmt x -> fmt (- x). Proof. apply generic_format_opp. Qed.
Lemma low_sub e x y : fmt x -> fmt y -> low e x -> low e y -> (-1022 <= e)%Z -> low (e - 52) (x - y).
Proof. intros Fx Fy Lx Ly He. unfold Rminus. apply low_add; auto using fmt_opp, low_opp. Qed.
Lemma low_mul e e' x y : low e x -> low e' y -> low (e + e') (x * y).
Proof.
  intros [->|L] [->|L']; try (left; ring). right. rewrite Rabs_mult, bpow_plus. apply Rmult_le_compat; auto; apply bpow_ge_0.
Qed.
Lemma low_div e e' x y : low e x -> 0 < y <= b2 e' -> low (e - e') (x / y).
Proof.
  intros [->|L] [Py Hy]; [left; unfold Rdiv; ring|right]. unfold Rdiv, Zminus. rewrite Rabs_mult, bpow_plus, bpow_opp, (Rabs_pos_eq (/ y)) by (left; apply Rinv_0_lt_compat, Py).
  apply Rmult_le_compat; auto; [apply bpow_ge_0|left; apply Rinv_0_lt_compat, bpow_gt_0|apply Rinv_le; assumption].
Qed.

(** ** Pairs of floats *)
(** [b] is [a] times 2^k. *)
Definition sc (k : Z) (a b : f64) : Prop := is_finite a = true /\ is_finite b = true /\ B2R b = B2R a * b2 k.
Definition mid (r : R) : Prop := low (-800) r /\ Rabs r <= b2 800.
Lemma mid_ok r k : (-200 <= k <= 200)%Z -> mid r -> (r = 0 \/ b2 (-1022) <= Rabs r /\ b2 (-1022) <= Rabs (r * b2 k)) /\ Rabs r <= b2 1000 /\ Rabs (r * b2 k) <= b2 1000.
Proof.
  intros Hk [L U]. rewrite Rabs_mult, (Rabs_pos_eq (b2 k)) by apply bpow_ge_0. repeat split.
  - destruct L as [L|L]; [left; exact L|right]. split; [eapply Rle_trans; [|exact L]; apply bpow_le; lia|]. apply Rle_trans with (b2 (-800) * b2 k); [rewrite <- bpow_plus; apply bpow_le; lia|]. apply Rmult_le_compat_r; [apply bpow_ge_0|exact L].
  - eapply Rle_trans; [exact U|]. apply bpow_le. lia.
  - apply Rle_trans with (b2 800 * b2 k); [apply Rmult_le_compat_r; [apply bpow_ge_0|exact U]|]. rewrite <- bpow_plus. apply bpow_le. lia.
Qed.
Section Pairs.
Variable k : Z.
Hypothesis Hk : (-200 <= k <= 200)%Z.
Lemma sc_add a a' b b' : sc k a a' -> sc k b b' -> mid (B2R a + B2R b) -> sc k (fadd a b) (fadd a' b') /\ B2R (fadd a b) = rnd (B2R a + B2R b).
Proof.
  intros (Fa & Fa' & Ea) (Fb & Fb' & Eb) M. destruct (mid_ok _ k Hk M) as (H & U & U'). destruct (fadd_b a b 1000 Fa Fb ltac:(lia) U) as [F E].
  assert (S : B2R a' + B2R b' = (B2R a + B2R b) * b2 k) by (rewrite Ea, Eb; ring). destruct (fadd_b a' b' 1000 Fa' Fb' ltac:(lia)) as [F' E']; [rewrite S; exact U'|].
  split; [|exact E]. split; [exact F|]. split; [exact F'|]. rewrite E', S, rnd_scale, E by exact H. reflexivity.
Qed.
Lemma sc_sub a a' b b' : sc k a a' -> sc k b b' -> mid (B2R a - B2R b) -> sc k (fsub a b) (fsub a' b') /\ B2R (fsub a b) = rnd (B2R a - B2R b).
Proof.
  intros (Fa & Fa' & Ea) (Fb & Fb' & Eb) M. destruct (mid_ok _ k Hk M) as (H & U & U'). destruct (fsub_b a b 1000 Fa Fb ltac:(lia) U) as [F E].
  assert (S : B2R a' - B2R b' = (B2R a - B2R b) * b2 k) by (rewrite Ea, Eb; ring). destruct (fsub_b a' b' 1000 Fa' Fb' ltac:(lia)) as [F' E']; [rewrite S; exact U'|].
  split; [|exact E]. split; [exact F|]. split; [exact F'|]. rewrite E', S, rnd_scale, E by exact H. reflexivity.
Qed.
Lemma sc_mul i j a a' b b' : (i + j = k)%Z -> sc i a a' -> sc j b b' -> mid (B2R a * B2R b) -> sc k (fmul a b) (fmul a' b') /\ B2R (fmul a b) = rnd (B2R a * B2R b).
Proof.
  intros Hij (Fa & Fa' & Ea) (Fb & Fb' & Eb) M. destruct (mid_ok _ k Hk M) as (H & U & U'). destruct (fmul_b a b 1000 Fa Fb ltac:(lia) U) as [F E].
  assert (S : B2R a' * B2R b' = (B2R a * B2R b) * b2 k) by (rewrite Ea, Eb, <- Hij, bpow_plus; ring). destruct (fmul_b a' b' 1000 Fa' Fb' ltac:(lia)) as [F' E']; [rewrite S; exact U'|].
  split; [|exact E]. split; [exact F|]. split; [exact F'|]. rewrite E', S, rnd_scale, E by exact H. reflexivity.
Qed.
(** Dividing both by the same number *)
Lemma sc_div a a' c : sc k a a' -> is_finite c = true -> B2R c <> 0 -> mid (B2R a / B2R c) -> sc k (fdiv a c) (fdiv a' c) /\ B2R (fdiv a c) = rnd (B2R a / B2R c).
Proof.
  intros (Fa & Fa' & Ea) Fc Nc M. destruct (mid_ok _ k Hk M) as (H & U & U'). destruct (fdiv_b a c 1000 Fa ltac:(lia) Nc U) as [F E].
  assert (S : B2R a' / B2R c = (B2R a / B2R c) * b2 k) by (rewrite Ea; unfold Rdiv; ring). destruct (fdiv_b a' c 1000 Fa' ltac:(lia) Nc) as [F' E']; [rewrite S; exact U'|].
  split; [|exact E]. split; [exact F|]. split; [exact F'|]. rewrite E', S, rnd_scale, E by exact H. reflexivity.
Qed.
End Pairs.
Lemma sc_self a : is_finite a = true -> sc 0 a a.
Proof. intros F. split; [exact F|]. split; [exact F|]. cbn [bpow]. ring. Qed.
Lemma sc_zero k : sc k (fz 0) (fz 0).
Proof. split; [reflexivity|]. split; [reflexivity|]. change (B2R (fz 0)) with 0. ring. Qed.
(** The square root *)
Lemma sc_sqrt k a a' : (-100 <= k <= 100)%Z -> sc (2 * k) a a' -> mid (B2R a) ->
  (B2R a < 0 -> fsqrt a = fnan /\ fsqrt a' = fnan) /\ (0 <= B2R a -> sc k (fsqrt a) (fsqrt a')).
Proof.
  intros Hk (Fa & Fa' & Ea) M. pose proof (bpow_gt_0 radix2 (2 * k)) as P2. split; intros Ha.
  - assert (N : forall x : f64, is_finite x = true -> B2R x < 0 -> fsqrt x = fnan).
    { intros x Fx Hx. destruct x as [?|?| |[|] m e Q]; try discriminate Fx; try (cbn [B2R] in Hx; lra); [reflexivity|]. exfalso. cbn [B2R] in Hx. apply lt_0_F2R in Hx. cbn in Hx. lia. }
    split; [apply N; assumption|]. apply N; [exact Fa'|]. rewrite Ea. nra.
  - pose proof (Bsqrt_correct 53 1024 _ _ mode_NE a) as (E & F & _). pose proof (Bsqrt_correct 53 1024 _ _ mode_NE a') as (E' & F' & _). fold (rnd (sqrt (B2R a))) in E. fold (rnd (sqrt (B2R a'))) in E'.
    assert (N : forall x : f64, is_finite x = true -> 0 <= B2R x -> is_finite (fsqrt x) = true).
    { intros x Fx Hx. unfold fsqrt. pose proof (Bsqrt_correct 53 1024 _ _ mode_NE x) as (_ & G & _). rewrite G. destruct x as [?|?| |[|] m e Q]; try discriminate Fx; try reflexivity. exfalso. cbn [B2R] in Hx. apply ge_0_F2R in Hx. cbn in Hx. lia. }
    split; [apply N; assumption|]. split; [apply N; [exact Fa'|rewrite Ea; nra]|]. unfold fsqrt. rewrite E, E', Ea.
    assert (S : sqrt (B2R a * b2 (2 * k)) = sqrt (B2R a) * b2 k). { rewrite sqrt_mult by lra. f_equal. replace (2 * k)%Z with (k + k)%Z by lia. rewrite bpow_plus. apply sqrt_square, bpow_ge_0. }
    rewrite S. apply rnd_scale. destruct M as [[Z|L] _]; [left; rewrite Z; apply sqrt_0|right].
    assert (Q : b2 (-400) <= sqrt (B2R a)). { rewrite <- (sqrt_square (b2 (-400))) by apply bpow_ge_0. apply sqrt_le_1_alt. rewrite <- bpow_plus. rewrite Rabs_pos_eq in L by exact Ha. exact L. }
    pose proof (bpow_ge_0 radix2 (-400)) as P4. rewrite !Rabs_mult, (Rabs_pos_eq (b2 k)), (Rabs_pos_eq (sqrt _)) by (try apply bpow_ge_0; apply sqrt_pos). split; [eapply Rle_trans; [|exact Q]; apply bpow_le; lia|].
    apply Rle_trans with (b2 (-400) * b2 k); [rewrite <- bpow_plus; apply bpow_le; lia|]. apply Rmult_le_compat_r; [apply bpow_ge_0|exact Q].
Qed.
