(** float64 behaviour of the variance of an unwindowed stream. *)
From Coq Require Import ZArith Lia Bool Reals Lra List.
From Flocq Require Import Core Mult_error BinarySingleNaN.
From Verif Require Export PowFloat.
From Verif Require Import Base F64 FloatR HistSpec RingModel MathModel NumModel MomentModel.
Import ListNotations.
Local Open Scope R_scope.

(** Nonnegative, possibly +Inf, not NaN. *)
Definition nneg (x : f64) : Prop := (is_finite x = true /\ 0 <= B2R x) \/ x = finf false.
Lemma nneg_nonnan (x : f64) : nneg x -> isnan x = false.
Proof. intros [[H _]| ->]; [destruct x; easy|reflexivity]. Qed.

Lemma sign_pos (x : f64) : is_finite x = true -> 0 < B2R x -> Bsign x = false.
Proof. destruct x as [s|s| |s m e H]; cbn; intros Hf H0; try (lra || easy). destruct s; [|reflexivity]. exfalso.
  assert (F2R (Float radix2 (Z.neg m) e) < 0) by (apply F2R_lt_0; reflexivity). unfold F2R in *. cbn in *. lra. Qed.

Lemma overflow_inf (x : f64) s : B2SF x = binary_overflow 53 1024 mode_NE s -> x = finf s.
Proof. unfold binary_overflow, overflow_to_inf. cbn. destruct x; cbn; intros H; inversion H; reflexivity. Qed.

Lemma fmul_nneg (x y : f64) : is_finite x = true -> is_finite y = true -> 0 <= B2R x -> 0 <= B2R y -> nneg (fmul x y).
Proof.
  intros Hx Hy H1 H2. pose proof (Bmult_correct 53 1024 _ _ mode_NE x y) as H. fold (rnd (B2R x * B2R y)) in H.
  assert (H0 : 0 <= B2R x * B2R y) by nra. pose proof (rnd_nonneg _ H0) as Hr.
  destruct (Rlt_bool_spec (Rabs (rnd (B2R x * B2R y))) (bpow radix2 1024)) as [Hl|Hl].
  - left. destruct H as (E & Hf & _). unfold fmul. rewrite Hx, Hy in Hf. rewrite E. auto.
  - right. apply overflow_inf in H. unfold fmul. rewrite H. f_equal.
    assert (0 < B2R x * B2R y). { destruct H0 as [H0|H0]; [exact H0|]. exfalso. rewrite <- H0, rnd_0, Rabs_R0 in Hl. pose proof (bpow_gt_0 radix2 1024). lra. }
    rewrite (sign_pos x), (sign_pos y); auto; nra.
Qed.
Lemma fadd_nneg x y : nneg x -> nneg y -> nneg (fadd x y).
Proof.
  intros [[Hx H1]| ->] [[Hy H2]| ->].
  - pose proof (Bplus_correct 53 1024 _ _ mode_NE x y Hx Hy) as H. fold (rnd (B2R x + B2R y)) in H.
    assert (H0 : 0 <= B2R x + B2R y) by lra. pose proof (rnd_nonneg _ H0) as Hr.
    destruct (Rlt_bool_spec (Rabs (rnd (B2R x + B2R y))) (bpow radix2 1024)) as [Hl|Hl].
    + left. destruct H as (E & Hf & _). unfold fadd. rewrite E. auto.
    + right. destruct H as [H Hs]. apply overflow_inf in H. unfold fadd. rewrite H. f_equal.
      assert (0 < B2R x + B2R y). { destruct H0 as [H0|H0]; [exact H0|]. exfalso. rewrite <- H0, rnd_0, Rabs_R0 in Hl. pose proof (bpow_gt_0 radix2 1024). lra. }
      destruct (Rle_lt_or_eq_dec _ _ H1) as [H4|H4]; [apply sign_pos; assumption|]. rewrite Hs. apply sign_pos; [assumption|lra].
  - right. destruct x; try discriminate; reflexivity.
  - right. destruct y; try discriminate; reflexivity.
  - right. reflexivity.
Qed.
Lemma fdiv_nneg (x y : f64) : nneg x -> is_finite y = true -> 1 <= B2R y -> nneg (fdiv x y).
Proof.
  intros [[Hx H1]| ->] Hy H2.
  - pose proof (Bdiv_correct 53 1024 _ _ mode_NE x y ltac:(lra)) as H. fold (rnd (B2R x / B2R y)) in H.
    assert (H0 : 0 <= B2R x / B2R y) by (apply Rmult_le_pos; [exact H1|left; apply Rinv_0_lt_compat; lra]). pose proof (rnd_nonneg _ H0) as Hr.
    destruct (Rlt_bool_spec (Rabs (rnd (B2R x / B2R y))) (bpow radix2 1024)) as [Hl|Hl].
    + left. destruct H as (E & Hf & _). unfold fdiv. rewrite E, Hf. auto.
    + right. apply overflow_inf in H. unfold fdiv. rewrite H. f_equal.
      assert (0 < B2R x / B2R y). { destruct H0 as [H0|H0]; [exact H0|]. exfalso. rewrite <- H0, rnd_0, Rabs_R0 in Hl. pose proof (bpow_gt_0 radix2 1024). lra. }
      assert (0 < B2R x). { destruct H1 as [H1|H1]; [exact H1|]. rewrite <- H1 in H3. unfold Rdiv in H3. rewrite Rmult_0_l in H3. lra. }
      rewrite (sign_pos x), (sign_pos y); auto; lra.
  - right. pose proof (sign_pos y Hy ltac:(lra)) as Hs. destruct y as [s|s| |s m e H]; cbn in *; try discriminate; try lra. subst s. reflexivity.
Qed.
Lemma fsqrt_nneg x : nneg x -> isnan (fsqrt x) = false.
Proof.
  intros [[Hx H1]| ->]; [|reflexivity]. pose proof (Bsqrt_correct 53 1024 _ _ mode_NE x) as (_ & Hf & _).
  unfold fsqrt. destruct x as [s|s| |s m e H]; try discriminate; [reflexivity|].
  destruct s; [|destruct (Bsqrt mode_NE (B754_finite false m e H)); cbn in *; easy].
  exfalso. cbn in H1. assert (F2R (Float radix2 (Z.neg m) e) < 0) by (apply F2R_lt_0; reflexivity). lra.
Qed.

(** ** The running mean never leaves the range of the data *)
Definition E0 : Z := 500.
Definition M : R := bpow radix2 E0.

Lemma step_up m x n : fmt m -> m <= M -> x <= M -> 2 <= n -> m + rnd (rnd (x - m) / n) <= M.
Proof.
  intros Fm Hm Hx Hn. destruct (Rle_lt_dec x m) as [H|H].
  - assert (rnd (x - m) <= 0) by (rewrite <- rnd_0; apply rnd_le; lra).
    assert (rnd (rnd (x - m) / n) <= 0).
    { rewrite <- rnd_0. apply rnd_le. assert (0 < / n) by (apply Rinv_0_lt_compat; lra). unfold Rdiv. nra. }
    lra.
  - set (D := M - m). assert (HD : bpow radix2 (E0 - 53) <= D).
    { assert (Hlt : m < M) by lra. assert (Hp : m <= pred radix2 fexp64 M).
      { apply pred_ge_gt; try typeclasses eauto; [exact Fm|apply fmt_bpow; unfold E0; lia|exact Hlt]. }
      unfold M in Hp. rewrite pred_bpow in Hp. change (fexp64 E0) with (E0 - 53)%Z in Hp. unfold D, M. lra. }
    assert (HDp : 0 < D) by (pose proof (bpow_gt_0 radix2 (E0 - 53)); lra).
    assert (H1 : rnd (x - m) <= rnd D) by (apply rnd_le; unfold D; lra).
    assert (H2 : rnd D <= 2 * D).
    { destruct (mag radix2 D) as (e & He). specialize (He ltac:(lra)). rewrite Rabs_pos_eq in He by lra. destruct He as [He1 He2].
      assert (Hme : (E0 - 53 < e)%Z) by (apply (lt_bpow radix2); lra).
      apply Rle_trans with (bpow radix2 e).
      - rewrite <- (rnd_fmt (bpow radix2 e)) by (apply fmt_bpow; unfold E0 in *; lia). apply rnd_le. lra.
      - replace e with (1 + (e - 1))%Z by lia. rewrite bpow_plus. change (bpow radix2 1) with 2. lra. }
    assert (H3 : bpow radix2 (E0 - 53) <= rnd D).
    { rewrite <- (rnd_fmt (bpow radix2 (E0 - 53))) by (apply fmt_bpow; unfold E0; lia). apply rnd_le. exact HD. }
    assert (H4 : fmt (rnd D / 2)).
    { replace (rnd D / 2) with (rnd D * bpow radix2 (-1)) by (cbn; field). change fmt with (generic_format radix2 (FLT_exp (-1074) 53)).
      apply mult_bpow_exact_FLT; [apply generic_format_round; typeclasses eauto|].
      assert (Hmag : (E0 - 53 < mag radix2 (rnd D))%Z).
      { apply mag_gt_bpow. rewrite Rabs_pos_eq; [exact H3|]. pose proof (bpow_gt_0 radix2 (E0 - 53)). lra. }
      unfold E0 in Hmag. lia. }
    assert (H5 : rnd (rnd (x - m) / n) <= rnd D / 2).
    { rewrite <- (rnd_fmt (rnd D / 2)) by exact H4. apply rnd_le. assert (0 <= rnd (x - m)) by (apply rnd_nonneg; lra).
      apply Rle_trans with (rnd (x - m) / 2); [|unfold Rdiv; lra]. unfold Rdiv. apply Rmult_le_compat_l; [assumption|]. apply Rinv_le_contravar; lra. }
    unfold D in *. lra.
Qed.
Lemma fmt_opp x : fmt x -> fmt (- x).
Proof. apply generic_format_opp. Qed.
Lemma step_range m x n : fmt m -> Rabs m <= M -> Rabs x <= M -> 2 <= n -> Rabs (m + rnd (rnd (x - m) / n)) <= M.
Proof.
  intros Fm Hm Hx Hn. apply Rabs_le. apply Rabs_le_inv in Hm. apply Rabs_le_inv in Hx. split; [|apply step_up; tauto || lra].
  pose proof (step_up (- m) (- x) n (fmt_opp m Fm) ltac:(lra) ltac:(lra) Hn) as H.
  replace (- x - - m) with (- (x - m)) in H by ring. rewrite rnd_opp in H. replace (- rnd (x - m) / n) with (- (rnd (x - m) / n)) in H by (field; lra).
  rewrite rnd_opp in H. lra.
Qed.

(** ** One push *)
Definition in_range (x : f64) : Prop := is_finite x = true /\ Rabs (B2R x) <= M.
Lemma fz_real n : (0 <= n <= 2 ^ 53)%Z -> is_finite (fz n) = true /\ B2R (fz n) = IZR n.
Proof. intros H. apply fz_exact. lia. Qed.
Lemma bpow53 : bpow radix2 53 = IZR (2 ^ 53). Proof. reflexivity. Qed.
Lemma rnd_IZR n : (0 <= n <= 2 ^ 53)%Z -> rnd (IZR n) = IZR n.
Proof. intros H. apply rnd_fmt, fmt_IZR. lia. Qed.

Lemma mean_push mean x n : (1 <= n <= 2 ^ 53)%Z -> in_range mean -> (n = 1%Z -> B2R mean = 0) -> in_range x ->
  is_finite (fsub x mean) = true /\ Rabs (B2R (fsub x mean)) <= bpow radix2 501 /\ in_range (fadd mean (fdiv (fsub x mean) (fz n))).
Proof.
  intros Hn [Fm Bm] H1 [Fx Bx]. destruct (fz_real n ltac:(lia)) as [Fn En].
  assert (Hd : Rabs (B2R x - B2R mean) <= bpow radix2 501).
  { replace 501%Z with (1 + E0)%Z by reflexivity. rewrite bpow_plus. change (bpow radix2 1) with 2. fold M.
    apply Rabs_le. apply Rabs_le_inv in Bm. apply Rabs_le_inv in Bx. lra. }
  destruct (fsub_b x mean 501 Fx Fm ltac:(lia) Hd) as [Fd Ed].
  assert (Bd : Rabs (B2R (fsub x mean)) <= bpow radix2 501) by (rewrite Ed; apply rnd_abs_bpow; [lia|exact Hd]).
  assert (Hn1 : 1 <= IZR n) by (apply IZR_le; lia).
  assert (Hq : Rabs (B2R (fsub x mean) / B2R (fz n)) <= bpow radix2 501).
  { rewrite En. unfold Rdiv. rewrite Rabs_mult. rewrite (Rabs_pos_eq (/ IZR n)) by (left; apply Rinv_0_lt_compat; lra).
    rewrite <- (Rmult_1_r (bpow radix2 501)). apply Rmult_le_compat; [apply Rabs_pos|left; apply Rinv_0_lt_compat; lra|exact Bd|].
    rewrite <- Rinv_1. apply Rinv_le_contravar; lra. }
  destruct (fdiv_b (fsub x mean) (fz n) 501 Fd ltac:(lia) ltac:(lra) Hq) as [Fq Eq].
  split; [exact Fd|]. split; [exact Bd|].
  assert (Hs : Rabs (B2R mean + B2R (fdiv (fsub x mean) (fz n))) <= M).
  { rewrite Eq, En, Ed. destruct (Z.eq_dec n 1) as [->|Hne].
    - rewrite (H1 eq_refl). rewrite Rminus_0_r, (rnd_fmt (B2R x)) by apply fmt_B2R. unfold Rdiv. rewrite Rinv_1, Rmult_1_r, Rplus_0_l.
      rewrite rnd_fmt by apply fmt_B2R. exact Bx.
    - apply step_range; [apply fmt_B2R|exact Bm|exact Bx|]. apply (IZR_le 2). lia. }
  destruct (fadd_b mean (fdiv (fsub x mean) (fz n)) E0 Fm Fq ltac:(unfold E0; lia) Hs) as [Fs Es].
  split; [exact Fs|]. rewrite Es. apply rnd_abs_bpow; [unfold E0; lia|exact Hs].
Qed.

Lemma term_nneg n d : (1 <= n <= 2 ^ 53)%Z -> is_finite d = true -> Rabs (B2R d) <= bpow radix2 501 ->
  nneg (fmul (fmul (fdiv (fsub (fz n) (fz 1)) (fpow (fz n) 2)) (fadd (fsub (fz n) (fz 1)) (fz 1))) (fpow d 2)).
Proof.
  intros Hn Fd Bd. destruct (fz_real n ltac:(lia)) as [Fn En]. destruct (fz_real 1 ltac:(lia)) as [F1 E1].
  assert (Hn1 : 1 <= IZR n) by (apply IZR_le; lia). assert (Hn2 : IZR n <= bpow radix2 53) by (rewrite bpow53; apply IZR_le; lia).
  destruct (fsub_b (fz n) (fz 1) 53 Fn F1 ltac:(lia)) as [Fa Ea]; [rewrite En, E1; apply Rabs_le; lra|].
  rewrite En, E1, <- minus_IZR, rnd_IZR in Ea by lia.
  assert (Hb1 : 1 <= B2R (fpow (fz n) 2)) by (apply (pow_ge1 _ _ 53); try lia; [split; [exact Fn|rewrite En; apply Rabs_le; lra]|rewrite En; lra]).
  assert (Ha : 0 <= IZR (n - 1) <= bpow radix2 53) by (rewrite minus_IZR; lra).
  assert (Hq : 0 <= B2R (fsub (fz n) (fz 1)) / B2R (fpow (fz n) 2) <= bpow radix2 53).
  { rewrite Ea. assert (Hi : 0 < / B2R (fpow (fz n) 2) <= 1) by (split; [apply Rinv_0_lt_compat; lra|rewrite <- Rinv_1; apply Rinv_le_contravar; lra]). unfold Rdiv. nra. }
  destruct (fdiv_b (fsub (fz n) (fz 1)) (fpow (fz n) 2) 53 Fa ltac:(lia) ltac:(lra)) as [Fc Ec]; [apply Rabs_le; lra|].
  assert (Hc : 0 <= B2R (fdiv (fsub (fz n) (fz 1)) (fpow (fz n) 2)) <= bpow radix2 53).
  { rewrite Ec. split; [apply rnd_nonneg; lra|]. rewrite <- (rnd_fmt (bpow radix2 53)) by (apply fmt_bpow; lia). apply rnd_le. lra. }
  destruct (fadd_b (fsub (fz n) (fz 1)) (fz 1) 53 Fa F1 ltac:(lia)) as [Fe Ee].
  { rewrite Ea, E1, minus_IZR. apply Rabs_le. lra. }
  rewrite Ea, E1, minus_IZR in Ee. replace (IZR n - 1 + 1) with (IZR n) in Ee by ring. rewrite rnd_IZR in Ee by lia.
  destruct (fmul_b _ _ 106 Fc Fe ltac:(lia)) as [Ff Ef].
  { rewrite Ee. replace 106%Z with (53 + 53)%Z by reflexivity. rewrite bpow_plus. pose proof (bpow_gt_0 radix2 53). apply Rabs_le. nra. }
  destruct (fpow2_spec d 501 Fd ltac:(lia) Bd) as (Fg & Eg & _).
  apply fmul_nneg; auto.
  - rewrite Ef, Ee. apply rnd_nonneg. nra.
Qed.

(** ** Runs of Std without a window *)
Definition sinv (h : list f64) (c : core) : Prop :=
  c_len c = 3%nat /\ c_window c = 0%Z /\ c_decay c = None /\ c_count c = zlen h /\ in_range (c_mean c) /\ (h = [] -> c_mean c = fz 0) /\ nneg (c_sums c 2).

Lemma sinv_push h c x : sinv h c -> (zlen h < 2 ^ 53)%Z -> in_range x -> exists c', c_push FN c x = Ok c' /\ sinv (h ++ [x]) c'.
Proof.
  intros (Hl & Hw & Hd & Hc & Hm & Hz & Hs) Hlen Hx. unfold c_push. rewrite Hw. cbn [Z.eqb negb bind]. rewrite Hd.
  unfold c_add. cbv zeta. rewrite Hl, Hc. change (rev (ks_up 3)) with [2%nat]. cbn [outer]. change (2 - 2)%nat with 0%nat. cbn [seq inner bind].
  assert (Hn : (1 <= zlen h + 1 <= 2 ^ 53)%Z) by (unfold zlen in *; lia).
  destruct (mean_push (c_mean c) x (zlen h + 1) Hn Hm) as (Fd & Bd & Hm'); [|exact Hx|].
  { intros E. destruct h; [|unfold zlen in E; cbn [length] in E; lia]. rewrite (Hz eq_refl). apply fz_real. lia. }
  eexists. split; [reflexivity|]. unfold sinv. cbn [c_len c_window c_decay c_count c_mean c_sums FN nadd nsub nmul ndiv npow nz]. repeat split; auto; try apply Hm'.
  - unfold zlen. rewrite app_length. cbn [length]. lia.
  - intros E. destruct h; discriminate.
  - unfold sput. cbn [Nat.eqb]. apply fadd_nneg; [exact Hs|].
    change (sign (Z.of_nat 2)) with 1%Z. change (npow FN (fsub (fz (zlen h + 1)) (fz 1)) (2 - 1)) with (fsub (fz (zlen h + 1)) (fz 1)).
    exact (term_nneg (zlen h + 1) (fsub x (c_mean c)) Hn Fd Bd).
Qed.
Lemma in_range0 : in_range (fz 0).
Proof. destruct (fz_real 0 ltac:(lia)) as [F E]. split; [exact F|]. rewrite E, Rabs_R0. apply bpow_ge_0. Qed.
Lemma nneg0 : nneg (fz 0).
Proof. destruct (fz_real 0 ltac:(lia)) as [F E]. left. split; [exact F|]. rewrite E. lra. Qed.
Lemma sinv_nil q : sinv [] (mkCore (fz 0) 3 (fun _ => fz 0) 0 0 None q).
Proof. repeat split; auto; try apply in_range0. apply nneg0. Qed.

Lemma std_run_ok ops : (forall x, In (OPush x) ops -> in_range x) -> (zlen ops <= 2 ^ 53)%Z ->
  exists c, core_run FN (mkCore (fz 0) 3 (fun _ => fz 0) 0 0 None (ring_new 0)) ops = Ok c /\ sinv (hist ops) c /\ (zlen (hist ops) <= zlen ops)%Z.
Proof.
  unfold core_run. induction ops as [|o ops IH] using rev_ind; intros Hr Hlen.
  - eexists. split; [reflexivity|]. split; [apply sinv_nil|]. reflexivity.
  - destruct IH as (c & E & I & L).
    { intros x Hx. apply Hr. apply in_or_app. left. exact Hx. }
    { unfold zlen in *. rewrite app_length in Hlen. cbn [length] in Hlen. lia. }
    assert (Hll : (zlen (ops ++ [o]) = zlen ops + 1)%Z) by (unfold zlen; rewrite app_length; cbn [length]; lia).
    rewrite run_app, E. cbn [bind]. destruct o as [x|]; cbn [run].
    + destruct (sinv_push _ c x I) as (c' & E' & I'); [lia|apply Hr, in_or_app; right; left; reflexivity|]. rewrite E'. cbn [bind].
      exists c'. rewrite hist_push. split; [reflexivity|]. split; [exact I'|]. unfold zlen in *. rewrite !app_length. cbn [length]. lia.
    + rewrite hist_clear. destruct I as (Hl & Hw & Hd & _). eexists. split; [reflexivity|]. split; [|unfold zlen; cbn; lia].
      rewrite Hl, Hw, Hd. apply sinv_nil.
Qed.

Lemma std_value_ok c h w : sinv h c -> (2 <= zlen h <= 2 ^ 53)%Z -> exists v, kvalue FN (KStd w) c = Ok v /\ isnan v = false.
Proof.
  intros (Hl & Hw & Hd & Hc & Hm & Hz & Hs) Hn. cbn [kvalue]. unfold moment_value, c_get_sum, c_get_count. rewrite Hc, Hl.
  destruct (Z.eqb_spec (zlen h) 0); [lia|]. cbn [bind]. eexists. split; [reflexivity|]. cbn [nsqrt FN ndiv nsub nz].
  apply fsqrt_nneg, fdiv_nneg; [exact Hs| |].
  all: destruct (fz_real (zlen h) ltac:(lia)) as [Fn En]; destruct (fz_real 1 ltac:(lia)) as [F1 E1].
  all: assert (2 <= IZR (zlen h)) by (apply (IZR_le 2); lia).
  all: assert (IZR (zlen h) <= bpow radix2 53) by (rewrite bpow53; apply IZR_le; lia).
  all: destruct (fsub_b (fz (zlen h)) (fz 1) 53 Fn F1 ltac:(lia)) as [Fa Ea]; [rewrite En, E1; apply Rabs_le; lra|].
  - exact Fa.
  - rewrite Ea, En, E1, <- minus_IZR, rnd_IZR by lia. apply (IZR_le 1). lia.
Qed.
