(** Rounding errors of the mean and of the sum of squares kept by the moment core, with or without a window. *)
From Coq Require Import ZArith Lia Bool Reals Lra Psatz List.
From Flocq Require Import Core Relative BinarySingleNaN.
From Verif Require Import Base F64 FloatR HistSpec RingModel MathModel NumModel MomentModel MomentSpec RealLib MomentProof StdFloat CoreInv.
Import ListNotations.
Local Open Scope R_scope.

Definition eps : R := bpow radix2 (-53).
Lemma eps_val : eps = / 9007199254740992.
Proof. reflexivity. Qed.
Lemma rnd_err t : Rabs (rnd t - t) <= eps * Rabs t + bpow radix2 (-1074).
Proof.
  unfold rnd. cbn [round_mode]. change fexp64 with (FLT_exp (-1074) 53).
  destruct (error_N_FLT radix2 (-1074) 53 ltac:(lia) (fun x => negb (Z.even x)) t) as (e & h & He & Hh & _ & E). rewrite E.
  replace (t * (1 + e) + h - t) with (e * t + h) by ring. eapply Rle_trans; [apply Rabs_triang|]. rewrite Rabs_mult.
  assert (/ 2 * bpow radix2 (- (53) + 1) = eps) as H by (unfold eps; replace (- (53) + 1)%Z with (1 + -53)%Z by lia; rewrite bpow_plus; change (bpow radix2 1) with 2; lra).
  rewrite H in He. pose proof (bpow_gt_0 radix2 (-1074)). pose proof (Rabs_pos t). nra.
Qed.

Section Err.
(** All values are at most [B] in magnitude. *)
Variable B : R.
Hypothesis HB : bpow radix2 (-400) <= B <= bpow radix2 400.
Definition inB (x : f64) : Prop := is_finite x = true /\ Rabs (B2R x) <= B.

Lemma B_pos : 0 < B.
Proof. pose proof (bpow_gt_0 radix2 (-400)). lra. Qed.
Lemma tiny_B : bpow radix2 (-1074) <= eps * B.
Proof.
  apply Rle_trans with (eps * bpow radix2 (-400)); [|apply Rmult_le_compat_l; [apply bpow_ge_0|lra]].
  unfold eps. rewrite <- bpow_plus. apply bpow_le. lia.
Qed.
Lemma tiny_B2 : bpow radix2 (-1074) <= eps * (B * B).
Proof.
  apply Rle_trans with (eps * (bpow radix2 (-400) * bpow radix2 (-400))).
  - unfold eps. rewrite <- !bpow_plus. apply bpow_le. lia.
  - pose proof (bpow_gt_0 radix2 (-400)). apply Rmult_le_compat_l; [apply bpow_ge_0|]. apply Rmult_le_compat; lra.
Qed.
Lemma rnd_B t K : Rabs t <= K * B -> Rabs (rnd t - t) <= (K + 1) * (eps * B).
Proof.
  intros H. pose proof (rnd_err t). pose proof tiny_B. assert (0 < eps) by apply bpow_gt_0.
  apply Rmult_le_compat_l with (r := eps) in H; [|lra]. lra.
Qed.
Lemma rnd_BB t K : Rabs t <= K * (B * B) -> Rabs (rnd t - t) <= (K + 1) * (eps * (B * B)).
Proof.
  intros H. pose proof (rnd_err t). pose proof tiny_B2. assert (0 < eps) by apply bpow_gt_0.
  apply Rmult_le_compat_l with (r := eps) in H; [|lra]. lra.
Qed.
(** Magnitudes that cannot overflow *)
Lemma big_B t : Rabs t <= 64 * B -> Rabs t <= bpow radix2 1000.
Proof.
  intros H. eapply Rle_trans; [exact H|]. apply Rle_trans with (bpow radix2 6 * bpow radix2 400).
  - change (bpow radix2 6) with 64. lra.
  - rewrite <- bpow_plus. apply bpow_le. lia.
Qed.

Ltac abs := repeat match goal with H : Rabs _ <= _ |- _ => apply Rabs_le_inv in H end; try apply Rabs_le.

(** ** The mean *)
(** The value computed for [m + s * (x - m) / n], s being 1 or -1 *)
Section Step.
Variables (x m : f64) (n : Z) (d : R).
Hypothesis Hx : inB x.
Hypothesis Fm : is_finite m = true.
Hypothesis Hm : Rabs (B2R m) <= 2 * B.
Hypothesis Hn : (1 <= n <= 2 ^ 53)%Z.
Lemma delta_err : is_finite (fsub x m) = true /\ Rabs (B2R (fsub x m) - (B2R x - B2R m)) <= 4 * (eps * B) /\ Rabs (B2R (fsub x m)) <= 4 * B.
Proof.
  destruct Hx as [Fx Bx]. pose proof B_pos.
  assert (H1 : Rabs (B2R x - B2R m) <= 3 * B) by (abs; lra).
  destruct (fsub_b x m 1000 Fx Fm ltac:(lia)) as [Fd Ed]; [apply big_B; lra|].
  pose proof (rnd_B _ _ H1) as H2. rewrite <- Ed in H2. split; [exact Fd|]. split; [lra|].
  rewrite eps_val in H2. abs. lra.
Qed.
Lemma quot_err : let q := fdiv (fsub x m) (fz n) in
  is_finite q = true /\ Rabs (B2R q - (B2R x - B2R m) / IZR n) <= 9 * (eps * B) /\ Rabs (B2R q) <= 5 * B.
Proof.
  cbv zeta. destruct delta_err as (Fd & Ed & Bd). destruct (fz_real n ltac:(lia)) as [Fn En]. pose proof B_pos.
  assert (Hn1 : 1 <= IZR n) by (apply IZR_le; lia).
  assert (Hi : 0 < / IZR n <= 1) by (split; [apply Rinv_0_lt_compat; lra|rewrite <- Rinv_1; apply Rinv_le_contravar; lra]).
  assert (H1 : Rabs (B2R (fsub x m) / B2R (fz n)) <= 4 * B).
  { rewrite En. unfold Rdiv. rewrite Rabs_mult, (Rabs_pos_eq (/ IZR n)) by lra. pose proof (Rabs_pos (B2R (fsub x m))). nra. }
  destruct (fdiv_b (fsub x m) (fz n) 1000 Fd ltac:(lia) ltac:(lra)) as [Fq Eq]; [apply big_B; lra|].
  pose proof (rnd_B _ _ H1) as H2. rewrite <- Eq in H2. rewrite En in *. split; [exact Fq|].
  assert (H3 : Rabs (B2R (fsub x m) / IZR n - (B2R x - B2R m) / IZR n) <= 4 * (eps * B)).
  { replace (B2R (fsub x m) / IZR n - (B2R x - B2R m) / IZR n) with ((B2R (fsub x m) - (B2R x - B2R m)) * / IZR n) by (field; lra).
    rewrite Rabs_mult, (Rabs_pos_eq (/ IZR n)) by lra. pose proof (Rabs_pos (B2R (fsub x m) - (B2R x - B2R m))). nra. }
  split; [abs; lra|]. rewrite eps_val in H2. abs. lra.
Qed.
Lemma add_mean_err : let m' := add_mean FN m x n in
  is_finite m' = true /\ Rabs (B2R m' - (B2R m + (B2R x - B2R m) / IZR n)) <= 17 * (eps * B).
Proof.
  cbv zeta. unfold add_mean. cbn [nadd ndiv nsub nz FN]. destruct quot_err as (Fq & Eq & Bq). cbv zeta in *. pose proof B_pos.
  set (q := fdiv (fsub x m) (fz n)) in *.
  assert (H1 : Rabs (B2R m + B2R q) <= 7 * B) by (abs; lra).
  destruct (fadd_b m q 1000 Fm Fq ltac:(lia)) as [Fs Es]; [apply big_B; lra|]. split; [exact Fs|].
  pose proof (rnd_B _ _ H1) as H2. rewrite <- Es in H2. abs. lra.
Qed.
Lemma rem_mean_err : let m' := rem_mean FN m x n in
  is_finite m' = true /\ Rabs (B2R m' - (B2R m - (B2R x - B2R m) / IZR n)) <= 17 * (eps * B).
Proof.
  cbv zeta. unfold rem_mean. cbn [nadd ndiv nsub nz FN]. destruct quot_err as (Fq & Eq & Bq). cbv zeta in *. pose proof B_pos.
  set (q := fdiv (fsub x m) (fz n)) in *.
  assert (H1 : Rabs (B2R m - B2R q) <= 7 * B) by (abs; lra).
  destruct (fsub_b m q 1000 Fm Fq ltac:(lia)) as [Fs Es]; [apply big_B; lra|]. split; [exact Fs|].
  pose proof (rnd_B _ _ H1) as H2. rewrite <- Es in H2. abs. lra.
Qed.
End Step.

Definition rl (l : list f64) : list R := map (fun x : f64 => B2R x) l.
Variable nmax : nat.
Hypothesis Hnmax : (Z.of_nat nmax <= 2 ^ 40)%Z.
Lemma rmean_bound l : Forall inB l -> Rabs (rmean (rl l)) <= B.
Proof.
  intros H. pose proof B_pos. destruct l as [|y l]; [cbn [rl map]; rewrite rmean_nil, Rabs_R0; lra|].
  assert (Hs : forall l, Forall inB l -> Rabs (rsum (rl l)) <= rlen (rl l) * B).
  { clear. intros l H. induction H as [|x l [_ Hx] _ IH]; cbn [rl map]; [unfold rsum, rlen; cbn; rewrite Rabs_R0; lra|].
    rewrite rlen_cons. change (rsum (B2R x :: map (fun x : f64 => B2R x) l)) with (B2R x + rsum (rl l)). fold (rl l). abs. lra. }
  specialize (Hs _ H). assert (Hp : 0 < rlen (rl (y :: l))) by (apply rlen_pos; discriminate).
  unfold rmean, Rdiv. rewrite Rabs_mult, (Rabs_pos_eq (/ _)) by (left; apply Rinv_0_lt_compat; exact Hp).
  apply Rmult_le_reg_r with (rlen (rl (y :: l))); [exact Hp|]. rewrite Rmult_assoc, Rinv_l by lra. lra.
Qed.
Lemma rlen_rl l : rlen (rl l) = INR (length l).
Proof. unfold rlen, zlen, rl. rewrite map_length, <- INR_IZR_INZ. reflexivity. Qed.

(** [n] values have been pushed since the last Clear, [l] are in the window. *)
Definition Qm (n : nat) (l : list f64) (c : @core f64) : Prop :=
  (c_len c <= 66)%nat /\ (length l <= n)%nat /\ c_count c = zlen l /\ is_finite (c_mean c) = true /\ Forall inB l /\
  Rabs (B2R (c_mean c) - rmean (rl l)) <= 34 * INR n * (eps * B).
Definition Rm (n : nat) (l : list f64) (c : @core f64) : Prop :=
  (c_len c <= 66)%nat /\ (length l <= n)%nat /\ c_count c = zlen l /\ is_finite (c_mean c) = true /\
  Rabs (B2R (c_mean c) - rmean (rl l)) <= B / 16 /\
  Rabs (B2R (c_mean c) - rmean (rl l)) * (1 - / (rlen (rl l) + 1)) <= (34 * INR n + 17) * (eps * B).

Lemma n_small n : (n <= nmax)%nat -> 0 <= INR n * eps <= / 8192.
Proof.
  intros H. assert (Hn : INR n <= 1099511627776).
  { rewrite INR_IZR_INZ. apply (IZR_le _ (2 ^ 40)). lia. }
  pose proof (pos_INR n). rewrite eps_val. split; [nra|]. lra.
Qed.
Lemma small_mean n e : (n <= nmax)%nat -> e <= 34 * INR n * (eps * B) -> e <= B / 200.
Proof.
  intros Hn He. pose proof (n_small n Hn) as Hs. pose proof B_pos as H0. eapply Rle_trans; [exact He|].
  replace (34 * INR n * (eps * B)) with (34 * (INR n * eps) * B) by ring. nra.
Qed.
Lemma inv_len l : 0 < / (rlen l + 1) <= 1.
Proof.
  assert (0 <= rlen l) by (unfold rlen; apply IZR_le; unfold zlen; lia).
  split; [apply Rinv_0_lt_compat; lra|]. rewrite <- Rinv_1. apply Rinv_le_contravar; lra.
Qed.
Lemma Qm_Rm n l c : (n <= nmax)%nat -> Qm n l c -> Rm n l c.
Proof.
  intros Hn (H1 & H2 & H3 & H4 & _ & H5). split; [exact H1|]. split; [exact H2|]. split; [exact H3|]. split; [exact H4|]. pose proof B_pos as H0.
  split; [pose proof (small_mean _ _ Hn H5); lra|]. pose proof (inv_len (rl l)). pose proof (Rabs_pos (B2R (c_mean c) - rmean (rl l))).
  assert (0 < eps) by apply bpow_gt_0. nra.
Qed.
Lemma mean_of_err (m mu : R) e : Rabs (m - mu) <= e -> Rabs mu <= B -> e <= B -> Rabs m <= 2 * B.
Proof. intros H1 H2 H3. abs. lra. Qed.

Lemma zlen_rlen (l : list f64) : IZR (zlen l) = rlen (rl l).
Proof. unfold rlen, rl, zlen. rewrite map_length. reflexivity. Qed.
Lemma Qm_rem n y l c : (n < nmax)%nat -> Forall inB (y :: l) -> Qm n (y :: l) c -> exists c', c_remove FN c y = Ok c' /\ Rm n l c' /\ same_par c c'.
Proof.
  intros Hn Hf (H1 & H2 & H3 & H4 & _ & H5). destruct (c_remove_any FN c y H1) as (c' & E & P & Ec & Em). exists c'. split; [exact E|]. split; [|exact P].
  pose proof B_pos as H0. pose proof (rmean_bound _ Hf) as Hmu. inversion Hf as [|? ? Hy Hl]; subst. cbn [length] in H2.
  assert (Hc : (c_count c - 1 = zlen l)%Z) by (rewrite H3; unfold zlen; cbn [length]; lia). rewrite Hc in *.
  unfold Rm. destruct P as (P1 & _). rewrite P1, Ec. do 3 (split; [assumption || lia|]).
  destruct (Z.gtb_spec (zlen l) 0) as [Hpos|Hz].
  - pose proof (small_mean n _ ltac:(lia) H5) as He.
    destruct (rem_mean_err y (c_mean c) (zlen l) Hy H4) as [Fm' Em'].
    { apply (mean_of_err _ _ _ He Hmu). lra. }
    { unfold zlen in *. lia. }
    cbv zeta in *. rewrite <- Em in *. split; [exact Fm'|].
    assert (Hk : 1 <= rlen (rl l)) by (rewrite <- zlen_rlen; apply IZR_le; lia). rewrite zlen_rlen in Em'.
    assert (Emu : rmean (rl l) = rmean (rl (y :: l)) - (B2R y - rmean (rl (y :: l))) / rlen (rl l)).
    { unfold rmean. cbn [rl map]. fold (rl l). rewrite rlen_cons. change (rsum (B2R y :: rl l)) with (B2R y + rsum (rl l)). field. lra. }
    set (k := rlen (rl l)) in *. set (mu := rmean (rl (y :: l))) in *. set (m := B2R (c_mean c)) in *. set (e := m - mu) in *.
    assert (Hd : B2R (c_mean c') - rmean (rl l) = (B2R (c_mean c') - (m - (B2R y - m) / k)) + e * (1 + / k)).
    { rewrite Emu. unfold e. field. lra. }
    assert (Hik : 0 < / k <= 1) by (split; [apply Rinv_0_lt_compat; lra|rewrite <- Rinv_1; apply Rinv_le_contravar; lra]).
    assert (Hr : Rabs (B2R (c_mean c') - rmean (rl l)) <= Rabs e * (1 + / k) + 17 * (eps * B)).
    { rewrite Hd. eapply Rle_trans; [apply Rabs_triang|]. rewrite Rabs_mult, (Rabs_pos_eq (1 + / k)) by lra. lra. }
    pose proof (Rabs_pos e) as Hep. split.
    + eapply Rle_trans; [exact Hr|]. rewrite eps_val. nra.
    + set (r := Rabs (B2R (c_mean c') - rmean (rl l))) in *. pose proof (inv_len (rl l)) as Hi. fold k in Hi.
      apply Rle_trans with ((Rabs e * (1 + / k) + 17 * (eps * B)) * (1 - / (k + 1))); [nra|].
      replace ((Rabs e * (1 + / k) + 17 * (eps * B)) * (1 - / (k + 1))) with (Rabs e + 17 * (eps * B) * (1 - / (k + 1))) by (field; lra).
      assert (0 < eps * B) by (apply Rmult_lt_0_compat; [apply bpow_gt_0|exact H0]). nra.
  - assert (l = []) as -> by (destruct l; [reflexivity|]; unfold zlen in Hz; cbn [length] in Hz; lia).
    rewrite Em. destruct (fz_real 0 ltac:(lia)) as [F0 E0']. split; [exact F0|]. cbn [nz FN rl map]. rewrite rmean_nil, E0', Rminus_0_r, Rabs_R0, Rmult_0_l.
    split; [lra|]. pose proof (pos_INR n). assert (0 < eps) by apply bpow_gt_0.
    apply Rmult_le_pos; [lra|apply Rmult_le_pos; lra].
Qed.
Lemma Rm_add n l x c : (n < nmax)%nat -> Forall inB l -> inB x -> Rm n l c -> exists c', c_add FN c x = Ok c' /\ Qm (S n) (l ++ [x]) c' /\ same_par c c'.
Proof.
  intros Hn Hf Hx (H1 & H2 & H3 & H4 & H5 & H6). destruct (c_add_any FN c x H1) as (c' & E & P & Ec & Em). exists c'. split; [exact E|]. split; [|exact P].
  pose proof B_pos as H0. pose proof (rmean_bound _ Hf) as Hmu.
  unfold Qm. destruct P as (P1 & _). rewrite P1, Ec. split; [exact H1|]. split; [rewrite app_length; cbn [length]; lia|].
  split; [rewrite H3; unfold zlen; rewrite app_length; cbn [length]; lia|].
  destruct (add_mean_err x (c_mean c) (c_count c + 1) Hx H4) as [Fm' Em'].
  { apply (mean_of_err _ _ _ H5 Hmu). lra. }
  { rewrite H3. unfold zlen in *. lia. }
  cbv zeta in *. rewrite <- Em in *. split; [exact Fm'|]. split; [apply Forall_app; auto|].
  rewrite plus_IZR, H3, zlen_rlen in Em'. unfold rl at 1. rewrite map_app. cbn [map]. fold (rl l). rewrite rmean_push.
  assert (Hk : 0 <= rlen (rl l)) by (rewrite <- zlen_rlen; apply IZR_le; unfold zlen; lia).
  set (k := rlen (rl l)) in *. set (mu := rmean (rl l)) in *. set (m := B2R (c_mean c)) in *. set (e := m - mu) in *.
  assert (Hd : B2R (c_mean c') - (mu + (B2R x - mu) / (k + 1)) = (B2R (c_mean c') - (m + (B2R x - m) / (k + 1))) + e * (1 - / (k + 1))).
  { unfold e. field. lra. }
  rewrite Hd. eapply Rle_trans; [apply Rabs_triang|]. pose proof (inv_len (rl l)) as Hi. fold k in Hi.
  rewrite Rabs_mult, (Rabs_pos_eq (1 - _)) by lra. rewrite S_INR. lra.
Qed.
Lemma Qm_nil c : (c_len c <= 66)%nat -> c_mean c = nz FN 0 -> c_count c = 0%Z -> Qm 0 [] c.
Proof.
  intros H1 H2 H3. split; [exact H1|]. split; [apply le_n|]. split; [exact H3|]. rewrite H2. destruct (fz_real 0 ltac:(lia)) as [F0 E0'].
  split; [exact F0|]. split; [constructor|]. cbn [nz FN rl map INR]. rewrite rmean_nil, E0', Rminus_0_r, Rabs_R0. lra.
Qed.

(** ** The sum of squares *)
Lemma outer_other {T} (step : (nat -> T) -> nat -> res T) k ks f g : ~ In k ks -> outer step ks f = Ok g -> g k = f k.
Proof.
  revert f. induction ks as [|j ks IH]; intros f Hk E; cbn [outer] in E; [congruence|].
  apply bind_ok in E. destruct E as (v & _ & E). apply IH in E; [|intros H; apply Hk; right; exact H]. rewrite E. apply sput_other.
  intros ->. apply Hk. left. reflexivity.
Qed.
Lemma outer_app {T} (step : (nat -> T) -> nat -> res T) ks ks' f : outer step (ks ++ ks') f = (g <- outer step ks f ;; outer step ks' g).
Proof. revert f. induction ks as [|k ks IH]; intros f; cbn [outer app bind]; [reflexivity|]. destruct (step f k); cbn [bind]; auto. Qed.
Lemma ks_up_split len : (3 <= len)%nat -> ks_up len = 2%nat :: seq 3 (len - 3).
Proof. intros H. unfold ks_up. replace (len - 2)%nat with (S (len - 3)) by lia. reflexivity. Qed.

(** [coeff a b]: the factor of the square, [a] and [b] being n-1 and n *)
Definition coeff (a b : f64) : f64 := fmul (fdiv a (fpow b 2)) (fadd a (fz 1)).
Lemma c_add_sum2 (c c' : @core f64) x : (3 <= c_len c)%nat -> c_add FN c x = Ok c' ->
  c_sums c' 2 = fadd (c_sums c 2) (fmul (coeff (fsub (fz (c_count c + 1)) (fz 1)) (fz (c_count c + 1))) (fpow (fsub x (c_mean c)) 2)).
Proof.
  intros Hl E. unfold c_add in E. cbv zeta in E. apply bind_ok in E. destruct E as (f & E & E'). injection E' as <-. cbn [c_sums].
  rewrite (ks_up_split _ Hl) in E. cbn [rev] in E. rewrite outer_app in E. apply bind_ok in E. destruct E as (g & E1 & E2).
  apply outer_other with (k := 2%nat) in E1; [|rewrite <- in_rev, in_seq; lia].
  cbn [outer] in E2. change (2 - 2)%nat with 0%nat in E2. cbn [seq inner bind] in E2. injection E2 as <-. rewrite sput_same, E1. reflexivity.
Qed.
Lemma c_remove_sum2 (c c' : @core f64) x : (3 <= c_len c)%nat -> (0 < c_count c - 1)%Z -> c_remove FN c x = Ok c' ->
  c_sums c' 2 = fsub (c_sums c 2) (fmul (coeff (fz (c_count c - 1)) (fadd (fz (c_count c - 1)) (fz 1))) (fpow (fsub x (c_mean c')) 2)).
Proof.
  intros Hl Hc E. unfold c_remove in E. cbv zeta in E. destruct (Z.gtb_spec (c_count c - 1) 0) as [_|?]; [|lia].
  apply bind_ok in E. destruct E as (f & E & E'). injection E' as <-. cbn [c_sums c_mean].
  rewrite (ks_up_split _ Hl) in E. cbn [outer] in E. change (2 - 2)%nat with 0%nat in E. cbn [seq inner bind] in E.
  apply outer_other with (k := 2%nat) in E; [|rewrite in_seq; lia]. rewrite E, sput_same. reflexivity.
Qed.

Lemma rnd_rel t : bpow radix2 (-1022) <= Rabs t -> exists e, Rabs e <= eps /\ rnd t = t * (1 + e).
Proof.
  intros H. unfold rnd. cbn [round_mode]. change fexp64 with (FLT_exp (-1074) 53).
  destruct (relative_error_N_FLT_ex radix2 (-1074) 53 ltac:(lia) (fun x => negb (Z.even x)) t) as (e & He & E); [exact H|].
  exists e. split; [|exact E]. eapply Rle_trans; [exact He|].
  unfold eps. replace (- (53) + 1)%Z with (1 + -53)%Z by lia. rewrite bpow_plus. change (bpow radix2 1) with 2. lra.
Qed.
Lemma rel_of_abs t u : t <> 0 -> Rabs (u - t) <= eps * Rabs t -> exists e, Rabs e <= eps /\ u = t * (1 + e).
Proof.
  intros H0 H. exists ((u - t) / t). split; [|field; exact H0]. unfold Rdiv. rewrite Rabs_mult, Rabs_inv. apply Rmult_le_reg_r with (Rabs t); [apply Rabs_pos_lt; exact H0|].
  rewrite Rmult_assoc, Rinv_l by (apply Rabs_no_R0; exact H0). lra.
Qed.
Lemma coeff_err a b n : is_finite a = true -> is_finite b = true -> B2R a = IZR (n - 1) -> B2R b = IZR n -> (1 <= n <= 2 ^ 41)%Z ->
  is_finite (coeff a b) = true /\ Rabs (B2R (coeff a b) - (IZR n - 1) / IZR n) <= 4 * eps /\ 0 <= (IZR n - 1) / IZR n <= 1.
Proof.
  intros Fa Fb Ea Eb Hn. unfold coeff. destruct (fz_real 1 ltac:(lia)) as [F1 E1]. rewrite minus_IZR in Ea.
  assert (Hn1 : 1 <= IZR n) by (apply IZR_le; lia).
  assert (Hn2 : IZR n <= bpow radix2 41) by (change (bpow radix2 41) with (IZR (2 ^ 41)); apply IZR_le; lia).
  assert (He : 0 < eps <= / 1000) by (rewrite eps_val; lra).
  assert (Hbig : bpow radix2 41 = 2199023255552) by reflexivity.
  destruct (fpow2_spec b 41 Fb ltac:(lia)) as (Fp & _ & _ & Ep0); [rewrite Eb; apply Rabs_le; lra|]. rewrite Eb in Ep0.
  assert (Ep : exists e1, Rabs e1 <= eps /\ B2R (fpow b 2) = IZR n * IZR n * (1 + e1)).
  { apply rel_of_abs; [nra|]. rewrite (Rabs_pos_eq (IZR n * IZR n)) by nra. apply Ep0. apply Rle_trans with (bpow radix2 0); [apply bpow_le; lia|]. change (bpow radix2 0) with 1. nra. }
  destruct Ep as (e1 & He1 & Ep).
  destruct (fadd_b a (fz 1) 53 Fa F1 ltac:(lia)) as [Fs Es]; [rewrite Ea, E1; change (bpow radix2 53) with 9007199254740992; apply Rabs_le; lra|].
  replace (B2R a + B2R (fz 1)) with (IZR n) in Es by (rewrite Ea, E1; ring). rewrite rnd_IZR in Es by lia.
  assert (Hg : 0 <= (IZR n - 1) / IZR n <= 1).
  { split; [apply Rmult_le_pos; [lra|left; apply Rinv_0_lt_compat; lra]|]. apply Rmult_le_reg_r with (IZR n); [lra|]. unfold Rdiv. rewrite Rmult_assoc, Rinv_l by lra. lra. }
  apply Rabs_le_inv in He1.
  assert (Hp : 0 < B2R (fpow b 2) <= bpow radix2 83).
  { rewrite Ep. split; [apply Rmult_lt_0_compat; nra|]. replace 83%Z with (41 + 41 + 1)%Z by lia. rewrite !bpow_plus. change (bpow radix2 1) with 2.
    apply Rmult_le_compat; nra. }
  destruct (Z.eq_dec n 1) as [->|Hne].
  - destruct (fdiv_b a (fpow b 2) 0 Fa ltac:(lia) ltac:(lra)) as [Fq Eq]; [rewrite Ea; unfold Rdiv; replace (1 - 1) with 0 by ring; rewrite Rmult_0_l, Rabs_R0; apply bpow_ge_0|].
    rewrite Ea in Eq. unfold Rdiv in Eq. replace (1 - 1) with 0 in Eq by ring. rewrite Rmult_0_l, rnd_0 in Eq.
    destruct (fmul_b (fdiv a (fpow b 2)) (fadd a (fz 1)) 0 Fq Fs ltac:(lia)) as [Fm Em]; [rewrite Eq, Rmult_0_l, Rabs_R0; apply bpow_ge_0|].
    split; [exact Fm|]. split; [|exact Hg]. rewrite Em, Eq, Rmult_0_l, rnd_0. apply Rabs_le. split; lra.
  - assert (Hn3 : 2 <= IZR n) by (apply IZR_le; lia).
    assert (Hr : bpow radix2 (-83) <= B2R a / B2R (fpow b 2) <= bpow radix2 41).
    { rewrite Ea. split.
      - replace (bpow radix2 (-83)) with (/ bpow radix2 83) by (symmetry; apply (bpow_opp radix2 83)).
        apply Rle_trans with (/ B2R (fpow b 2)); [apply Rinv_le_contravar; lra|]. assert (0 < / B2R (fpow b 2)) by (apply Rinv_0_lt_compat; lra). unfold Rdiv. nra.
      - assert (H1 : 1 <= B2R (fpow b 2)) by (rewrite Ep; nra). assert (0 < / B2R (fpow b 2) <= 1) by (split; [apply Rinv_0_lt_compat; lra|rewrite <- Rinv_1; apply Rinv_le_contravar; lra]).
        unfold Rdiv. nra. }
    assert (Hr0 : 0 < B2R a / B2R (fpow b 2)) by (pose proof (bpow_gt_0 radix2 (-83)); lra).
    destruct (fdiv_b a (fpow b 2) 41 Fa ltac:(lia) ltac:(lra)) as [Fq Eq]; [rewrite Rabs_pos_eq by lra; lra|].
    destruct (rnd_rel (B2R a / B2R (fpow b 2))) as (e2 & He2 & R2).
    { rewrite Rabs_pos_eq by lra. apply Rle_trans with (bpow radix2 (-83)); [apply bpow_le; lia|lra]. }
    rewrite R2 in Eq. apply Rabs_le_inv in He2.
    assert (Hq : bpow radix2 (-84) <= B2R (fdiv a (fpow b 2)) * IZR n <= bpow radix2 83).
    { rewrite Eq. split.
      - replace (-84)%Z with (-83 + -1)%Z by lia. rewrite bpow_plus. change (bpow radix2 (-1)) with (/ 2). pose proof (bpow_gt_0 radix2 (-83)).
        apply Rle_trans with (bpow radix2 (-83) * (1 + e2)); [nra|]. apply Rle_trans with (B2R a / B2R (fpow b 2) * (1 + e2)); [apply Rmult_le_compat_r; lra|]. 
        rewrite <- (Rmult_1_r (_ * (1 + e2))) at 1. apply Rmult_le_compat_l; [apply Rmult_le_pos; lra|lra].
      - replace 83%Z with (41 + 1 + 41)%Z by lia. rewrite !bpow_plus. change (bpow radix2 1) with 2. apply Rmult_le_compat; try lra; [apply Rmult_le_pos; lra|]. apply Rmult_le_compat; lra. }
    assert (Hq0 : 0 < B2R (fdiv a (fpow b 2)) * IZR n) by (pose proof (bpow_gt_0 radix2 (-84)); lra).
    destruct (fmul_b (fdiv a (fpow b 2)) (fadd a (fz 1)) 83 Fq Fs ltac:(lia)) as [Fm Em]; [rewrite Es, Rabs_pos_eq by lra; lra|].
    rewrite Es in Em. destruct (rnd_rel (B2R (fdiv a (fpow b 2)) * IZR n)) as (e3 & He3 & R3).
    { rewrite Rabs_pos_eq by lra. apply Rle_trans with (bpow radix2 (-84)); [apply bpow_le; lia|lra]. }
    rewrite R3, Eq, Ea, Ep in Em. apply Rabs_le_inv in He3. split; [exact Fm|]. split; [|exact Hg]. rewrite Em.
    replace ((IZR n - 1) / (IZR n * IZR n * (1 + e1)) * (1 + e2) * IZR n * (1 + e3)) with ((IZR n - 1) / IZR n * ((1 + e2) * (1 + e3) / (1 + e1))) by (field; split; lra).
    set (g := (IZR n - 1) / IZR n) in *. set (r := (1 + e2) * (1 + e3) / (1 + e1)).
    assert (Hrr : 1 - 4 * eps <= r <= 1 + 4 * eps).
    { unfold r. split; apply Rmult_le_reg_r with (1 + e1); try lra; unfold Rdiv; rewrite Rmult_assoc, Rinv_l by lra; clear - He He1 He2 He3; nra. }
    apply Rabs_le. split; clear - Hg Hrr He; nra.
Qed.
(** The square of the difference to the mean, times the factor *)
Lemma term_err a b D n : is_finite a = true -> is_finite b = true -> B2R a = IZR (n - 1) -> B2R b = IZR n -> (1 <= n <= 2 ^ 41)%Z ->
  is_finite D = true -> Rabs (B2R D) <= 4 * B ->
  let T := fmul (coeff a b) (fpow D 2) in
  is_finite T = true /\ Rabs (B2R T - (IZR n - 1) / IZR n * (B2R D * B2R D)) <= 128 * (eps * (B * B)) /\ Rabs (B2R T) <= 20 * (B * B).
Proof.
  intros Fa Fb Ea Eb Hn FD HD. cbv zeta. destruct (coeff_err a b n Fa Fb Ea Eb Hn) as (Fc & Ec & Hg). pose proof B_pos as H0.
  assert (He : 0 < eps <= / 1000) by (rewrite eps_val; lra).
  set (g := (IZR n - 1) / IZR n) in *. set (q := B2R (coeff a b)) in *.
  assert (HBB : 0 < B * B <= bpow radix2 800).
  { split; [nra|]. replace 800%Z with (400 + 400)%Z by lia. rewrite bpow_plus. apply Rmult_le_compat; lra. }
  destruct (fpow2_spec D 402 FD ltac:(lia)) as (Fp & _ & Ep & _).
  { eapply Rle_trans; [exact HD|]. replace 402%Z with (2 + 400)%Z by lia. rewrite bpow_plus. change (bpow radix2 2) with 4. lra. }
  assert (HD2 : 0 <= B2R D * B2R D <= 16 * (B * B)) by (abs; split; nra).
  assert (Hd2 : Rabs (B2R D * B2R D) <= 16 * (B * B)) by (rewrite Rabs_pos_eq; lra).
  assert (Hp : Rabs (B2R (fpow D 2) - B2R D * B2R D) <= (16 + 1) * (eps * (B * B))).
  { pose proof tiny_B2. fold eps in Ep. assert (eps * (B2R D * B2R D) <= eps * (16 * (B * B))) by (apply Rmult_le_compat_l; lra). lra. }
  set (D2 := B2R (fpow D 2)) in *. set (dd := B2R D * B2R D) in *.
  set (b2 := B * B) in *. apply Rabs_le_inv in Hp. apply Rabs_le_inv in Ec.
  assert (Hp2 : - b2 / 10 <= D2 - dd <= b2 / 10) by (clear - Hp HBB He; nra).
  assert (Hd3 : - b2 / 10 <= D2 <= 17 * b2) by lra.
  assert (Hq : - / 100 <= q <= 1 + / 100) by lra.
  assert (Hm : Rabs (q * D2) <= 18 * b2) by (apply Rabs_le; clear - Hq Hd3 HBB; nra).
  destruct (fmul_b (coeff a b) (fpow D 2) 900 Fc Fp ltac:(lia)) as [Fm Em].
  { fold q D2. eapply Rle_trans; [exact Hm|]. apply Rle_trans with (bpow radix2 5 * bpow radix2 800); [change (bpow radix2 5) with 32; lra|]. rewrite <- bpow_plus. apply bpow_le. lia. }
  fold q D2 in Em. pose proof (rnd_BB _ _ Hm) as Hr. rewrite <- Em in Hr. fold b2 in Hr. apply Rabs_le_inv in Hr.
  split; [exact Fm|].
  assert (Hx : - (86 * (eps * b2)) <= q * D2 - g * dd <= 86 * (eps * b2)).
  { replace (q * D2 - g * dd) with ((q - g) * D2 + g * (D2 - dd)) by ring.
    assert (H1 : - (4 * eps * (17 * b2)) <= (q - g) * D2 <= 4 * eps * (17 * b2)).
    { apply Rabs_le_inv. rewrite Rabs_mult. apply Rmult_le_compat; try apply Rabs_pos; apply Rabs_le; lra. }
    assert (H2 : - (1 * ((16 + 1) * (eps * b2))) <= g * (D2 - dd) <= 1 * ((16 + 1) * (eps * b2))).
    { apply Rabs_le_inv. rewrite Rabs_mult. apply Rmult_le_compat; try apply Rabs_pos; apply Rabs_le; lra. }
    assert (0 < eps * b2) by (apply Rmult_lt_0_compat; lra). lra. }
  assert (0 < eps * b2) by (apply Rmult_lt_0_compat; lra).
  split; [apply Rabs_le; lra|]. apply Rabs_le_inv in Hm. assert (eps * b2 <= / 1000 * b2) by (apply Rmult_le_compat_r; lra). apply Rabs_le. lra.
Qed.

Definition EB : R := eps * (B * B).
Lemma EB_pos : 0 < EB.
Proof. pose proof B_pos. apply Rmult_lt_0_compat; [apply bpow_gt_0|nra]. Qed.
(** The distance of the mean to the true mean *)
Lemma Rm_dist n l c : Rm n l c -> l <> [] -> Rabs (B2R (c_mean c) - rmean (rl l)) <= (68 * INR n + 34) * (eps * B).
Proof.
  intros (_ & _ & _ & _ & _ & H) Hl. set (e := Rabs _) in *. assert (0 <= e) by apply Rabs_pos.
  assert (Hk : 1 <= rlen (rl l)). { rewrite <- zlen_rlen. apply IZR_le. destruct l; [congruence|]. unfold zlen. cbn [length]. lia. }
  assert (Hi : / (rlen (rl l) + 1) <= / 2) by (apply Rinv_le_contravar; lra). nra.
Qed.

Lemma acc_err n S Ct t tt e : (n <= nmax)%nat -> Rabs Ct <= 4 * INR n * (B * B) -> Rabs (S - Ct) <= e ->
  e <= (800 * (INR n * INR n) + 420 * INR n + 400) * EB -> Rabs (t - tt) <= (408 * INR n + 356) * EB -> Rabs t <= 20 * (B * B) ->
  Rabs (S + t) <= bpow radix2 1000 /\ Rabs (rnd (S + t) - (Ct + tt)) <= e + (413 * INR n + 378) * EB.
Proof.
  intros Hn HC HS He Ht Ht2. pose proof (n_small n Hn) as Hs. pose proof (pos_INR n) as Hp. pose proof EB_pos as HE. pose proof B_pos as H0.
  assert (HBB : 0 < B * B <= bpow radix2 800).
  { split; [nra|]. replace 800%Z with (400 + 400)%Z by lia. rewrite bpow_plus. apply Rmult_le_compat; lra. }
  assert (He2 : e <= (INR n / 8 + 1) * (B * B)).
  { eapply Rle_trans; [exact He|]. unfold EB.
    replace ((800 * (INR n * INR n) + 420 * INR n + 400) * (eps * (B * B))) with ((800 * (INR n * (INR n * eps)) + 420 * (INR n * eps) + 400 * eps) * (B * B)) by ring.
    apply Rmult_le_compat_r; [lra|]. assert (INR n * (INR n * eps) <= INR n * / 8192) by (apply Rmult_le_compat_l; lra).
    assert (eps <= / 1000) by (rewrite eps_val; lra). lra. }
  assert (Hsum : Rabs (S + t) <= (33 / 8 * INR n + 21) * (B * B)).
  { abs. lra. }
  split.
  - eapply Rle_trans; [exact Hsum|]. apply Rle_trans with (bpow radix2 50 * bpow radix2 800); [|rewrite <- bpow_plus; apply bpow_le; lia].
    apply Rmult_le_compat; try lra. change (bpow radix2 50) with 1125899906842624. 
    assert (INR n <= 1099511627776) by (rewrite INR_IZR_INZ; apply (IZR_le _ (2 ^ 40)); lia). lra.
  - pose proof (rnd_BB _ _ Hsum) as Hr. fold EB in Hr. clear Hsum Ht2 HC. assert (0 <= INR n * EB) by (apply Rmult_le_pos; lra). abs. lra.
Qed.
Lemma sq_err n (D : f64) x m mu : is_finite D = true -> Rabs (B2R D - (x - m)) <= 4 * (eps * B) -> Rabs (m - mu) <= (68 * INR n + 34) * (eps * B) ->
  Rabs (B2R D) <= 4 * B -> Rabs x <= B -> Rabs mu <= B -> Rabs (B2R D * B2R D - (x - mu) ^ 2) <= (408 * INR n + 228) * EB.
Proof.
  intros _ H1 H2 H3 H4 H5. pose proof B_pos as H0. replace (B2R D * B2R D - (x - mu) ^ 2) with ((B2R D - (x - mu)) * (B2R D + (x - mu))) by ring.
  rewrite Rabs_mult. replace ((408 * INR n + 228) * EB) with (((68 * INR n + 38) * (eps * B)) * (6 * B)) by (unfold EB; ring).
  apply Rmult_le_compat; try apply Rabs_pos; abs; lra.
Qed.
Lemma csum2_push l x : csum 2 (l ++ [x]) = csum 2 l + rlen l / (rlen l + 1) * (x - rmean l) ^ 2.
Proof.
  rewrite csum_push by lia. cbn [seq map Nat.sub]. unfold rsum at 1. cbn [fold_right]. 
  assert (0 <= rlen l) by (unfold rlen; apply IZR_le; unfold zlen; lia). field. lra.
Qed.
Lemma csum2_cons l x : csum 2 (x :: l) = csum 2 l + rlen l / (rlen l + 1) * (x - rmean l) ^ 2.
Proof. rewrite <- csum2_push. apply csum_perm. change (x :: l) with ([x] ++ l). apply Permutation.Permutation_app_comm. Qed.
Lemma csum2_bound l : Forall inB l -> 0 <= csum 2 (rl l) <= 4 * INR (length l) * (B * B).
Proof.
  intros H. pose proof (rmean_bound l H) as Hm. pose proof B_pos as H0. unfold csum. set (mu := rmean (rl l)) in *. clearbody mu.
  induction H as [|x l [_ Hx] _ IH]; cbn [rl map length]; [unfold rsum; cbn; lra|].
  rewrite rsum_cons, S_INR. fold (rl l). assert (Hd : - (2 * B) <= B2R x - mu <= 2 * B) by (apply Rabs_le_inv in Hx; apply Rabs_le_inv in Hm; lra).
  assert (0 <= (B2R x - mu) ^ 2 <= 4 * (B * B)) by (revert Hd; generalize (B2R x - mu); clear - H0; intros a Hd; split; [apply pow2_ge_0|]; replace (a ^ 2) with (a * a) by ring; nra).
  clear - IH H. lra.
Qed.

Definition Q2 (n : nat) (l : list f64) (c : @core f64) : Prop :=
  Qm n l c /\ (3 <= c_len c)%nat /\ is_finite (c_sums c 2) = true /\ Rabs (B2R (c_sums c 2) - csum 2 (rl l)) <= 800 * (INR n * INR n) * EB.
Definition R2 (n : nat) (l : list f64) (c : @core f64) : Prop :=
  Rm n l c /\ (3 <= c_len c)%nat /\ is_finite (c_sums c 2) = true /\
  Rabs (B2R (c_sums c 2) - csum 2 (rl l)) <= (800 * (INR n * INR n) + 420 * INR n + 400) * EB.
Lemma Q2_R2 n l c : (n <= nmax)%nat -> Q2 n l c -> R2 n l c.
Proof.
  intros Hn (H1 & H2 & H3 & H4). split; [apply Qm_Rm; assumption|]. split; [exact H2|]. split; [exact H3|].
  pose proof EB_pos. pose proof (pos_INR n). eapply Rle_trans; [exact H4|]. apply Rmult_le_compat_r; lra.
Qed.
Lemma sub1_real n : (1 <= n <= 2 ^ 53)%Z -> is_finite (fsub (fz n) (fz 1)) = true /\ B2R (fsub (fz n) (fz 1)) = IZR (n - 1).
Proof.
  intros Hn. destruct (fz_real n ltac:(lia)) as [Fn En]. destruct (fz_real 1 ltac:(lia)) as [F1 E1].
  assert (1 <= IZR n) by (apply IZR_le; lia). assert (IZR n <= bpow radix2 53) by (rewrite bpow53; apply IZR_le; lia).
  destruct (fsub_b (fz n) (fz 1) 53 Fn F1 ltac:(lia)) as [Fa Ea]; [rewrite En, E1; apply Rabs_le; lra|].
  rewrite En, E1, <- minus_IZR, rnd_IZR in Ea by lia. auto.
Qed.
Lemma add1_real n : (0 <= n < 2 ^ 53)%Z -> is_finite (fadd (fz n) (fz 1)) = true /\ B2R (fadd (fz n) (fz 1)) = IZR (n + 1).
Proof.
  intros Hn. destruct (fz_real n ltac:(lia)) as [Fn En]. destruct (fz_real 1 ltac:(lia)) as [F1 E1].
  assert (0 <= IZR n) by (apply IZR_le; lia). assert (IZR (n + 1) <= bpow radix2 53) by (rewrite bpow53; apply IZR_le; lia). rewrite plus_IZR in *.
  destruct (fadd_b (fz n) (fz 1) 53 Fn F1 ltac:(lia)) as [Fa Ea]; [rewrite En, E1; apply Rabs_le; lra|].
  rewrite En, E1, <- plus_IZR, rnd_IZR in Ea by lia. rewrite <- plus_IZR. auto.
Qed.
Lemma R2_add n l x c : (n < nmax)%nat -> Forall inB l -> inB x -> R2 n l c -> exists c', c_add FN c x = Ok c' /\ Q2 (S n) (l ++ [x]) c' /\ same_par c c'.
Proof.
  intros Hn Hf Hx (HR & Hl & Fs & Hs). destruct (Rm_add n l x c Hn Hf Hx HR) as (c' & E & HQ & P). exists c'. split; [exact E|]. split; [|exact P].
  split; [exact HQ|]. destruct P as (P1 & _). rewrite P1. split; [exact Hl|]. rewrite (c_add_sum2 c c' x Hl E).
  pose proof B_pos as H0. pose proof (rmean_bound _ Hf) as Hmu. pose proof EB_pos as HE. pose proof (pos_INR n) as Hp.
  destruct HR as (H1 & H2 & H3 & H4 & H5 & H6). pose proof (conj H1 (conj H2 (conj H3 (conj H4 (conj H5 H6))))) as HR.
  assert (Hm : Rabs (B2R (c_mean c)) <= 2 * B) by (apply (mean_of_err _ _ _ H5 Hmu); lra).
  destruct (delta_err x (c_mean c) Hx H4 Hm) as (Fd & Ed & Bd).
  assert (Hc : (1 <= c_count c + 1 <= 2 ^ 41)%Z) by (rewrite H3; unfold zlen; lia).
  destruct (sub1_real (c_count c + 1) ltac:(lia)) as [Fa Ea]. destruct (fz_real (c_count c + 1) ltac:(lia)) as [Fb Eb].
  destruct (term_err _ _ _ _ Fa Fb Ea Eb Hc Fd Bd) as (FT & ET & BT). cbv zeta in *.
  set (T := fmul (coeff _ _) _) in *. set (D := fsub x (c_mean c)) in *.
  rewrite plus_IZR, H3, zlen_rlen in ET. replace (rlen (rl l) + 1 - 1) with (rlen (rl l)) in ET by ring.
  assert (Hk : 0 <= rlen (rl l)) by (rewrite <- zlen_rlen; apply IZR_le; unfold zlen; lia).
  set (g := rlen (rl l) / (rlen (rl l) + 1)) in *.
  assert (Hg : 0 <= g <= 1).
  { unfold g. split; [apply Rmult_le_pos; [exact Hk|left; apply Rinv_0_lt_compat; lra]|]. apply Rmult_le_reg_r with (rlen (rl l) + 1); [lra|]. unfold Rdiv. rewrite Rmult_assoc, Rinv_l by lra. lra. }
  assert (Hd : Rabs (g * (B2R D * B2R D) - g * (B2R x - rmean (rl l)) ^ 2) <= (408 * INR n + 228) * EB).
  { destruct l as [|y l'].
    - unfold g. cbn [rl map]. unfold rlen, zlen. cbn [length Z.of_nat]. replace (0 / (0 + 1)) with 0 by field. rewrite !Rmult_0_l, Rminus_0_r, Rabs_R0. apply Rmult_le_pos; lra.
    - assert (Hds : Rabs (B2R (c_mean c) - rmean (rl (y :: l'))) <= (68 * INR n + 34) * (eps * B)) by (apply Rm_dist; [exact HR|discriminate]).
      pose proof (sq_err n D (B2R x) _ _ Fd Ed Hds Bd (proj2 Hx) Hmu) as Hsq.
      rewrite <- Rmult_minus_distr_l, Rabs_mult, (Rabs_pos_eq g) by lra.
      pose proof (Rabs_pos (B2R D * B2R D - (B2R x - rmean (rl (y :: l'))) ^ 2)). nra. }
  fold EB in ET. 
  assert (Ht : Rabs (B2R T - g * (B2R x - rmean (rl l)) ^ 2) <= (408 * INR n + 356) * EB) by (clear - ET Hd; abs; lra).
  assert (HC : Rabs (csum 2 (rl l)) <= 4 * INR n * (B * B)).
  { destruct (csum2_bound l Hf) as [Hc1 Hc2]. rewrite Rabs_pos_eq by exact Hc1. assert (INR (length l) <= INR n) by (apply le_INR; exact H2). nra. }
  destruct (acc_err n _ _ _ _ _ ltac:(lia) HC Hs (Rle_refl _) Ht BT) as [Hov Herr].
  destruct (fadd_b (c_sums c 2) T 1000 Fs FT ltac:(lia) Hov) as [FS ES]. split; [exact FS|]. rewrite ES.
  unfold rl at 1. rewrite map_app. cbn [map]. fold (rl l). rewrite csum2_push. fold g. eapply Rle_trans; [exact Herr|].
  rewrite S_INR. rewrite <- Rmult_plus_distr_r. apply Rmult_le_compat_r; [lra|]. nra.
Qed.
Lemma Q2_rem n y l c : (n < nmax)%nat -> Forall inB (y :: l) -> Q2 n (y :: l) c -> exists c', c_remove FN c y = Ok c' /\ R2 n l c' /\ same_par c c'.
Proof.
  intros Hn Hf (HQ & Hl & Fs & Hs). destruct (Qm_rem n y l c Hn Hf HQ) as (c' & E & HR & P). exists c'. split; [exact E|]. split; [|exact P].
  split; [exact HR|]. destruct P as (P1 & _). rewrite P1. split; [exact Hl|].
  pose proof B_pos as H0. inversion Hf as [|? ? Hy Hf']; subst. pose proof (rmean_bound _ Hf') as Hmu. pose proof EB_pos as HE. pose proof (pos_INR n) as Hp.
  destruct HR as (H1 & H2 & H3 & H4 & H5 & H6). pose proof (conj H1 (conj H2 (conj H3 (conj H4 (conj H5 H6))))) as HR.
  assert (Hcc : (c_count c - 1 = zlen l)%Z) by (destruct HQ as (_ & _ & -> & _); unfold zlen; cbn [length]; lia).
  destruct l as [|z l'].
  { unfold c_remove in E. cbv zeta in E. rewrite Hcc in E. change (zlen [] >? 0)%Z with false in E. cbv iota in E. injection E as <-. cbn [c_sums nz FN]. destruct (fz_real 0 ltac:(lia)) as [F0 E0'].
    split; [exact F0|]. cbn [rl map B2R]. unfold csum, rsum. cbn [map fold_right]. rewrite Rminus_0_r, Rabs_R0. apply Rmult_le_pos; [nra|lra]. }
  set (l := z :: l') in *. assert (Hne : l <> []) by discriminate.
  assert (Hz : (1 <= zlen l <= 2 ^ 40)%Z) by (unfold zlen in *; cbn [length l] in *; lia).
  rewrite (c_remove_sum2 c c' y Hl) by (try exact E; lia). rewrite Hcc.
  assert (Hm : Rabs (B2R (c_mean c')) <= 2 * B) by (apply (mean_of_err _ _ _ H5 Hmu); lra).
  destruct (delta_err y (c_mean c') Hy H4 Hm) as (Fd & Ed & Bd).
  destruct (add1_real (zlen l) ltac:(lia)) as [Fb Eb]. destruct (fz_real (zlen l) ltac:(lia)) as [Fa Ea].
  replace (zlen l) with (zlen l + 1 - 1)%Z in Ea at 2 by lia.
  destruct (term_err _ _ _ _ Fa Fb Ea Eb ltac:(lia) Fd Bd) as (FT & ET & BT). cbv zeta in *.
  set (T := fmul (coeff _ _) _) in *. set (D := fsub y (c_mean c')) in *.
  rewrite plus_IZR, zlen_rlen in ET. replace (rlen (rl l) + 1 - 1) with (rlen (rl l)) in ET by ring.
  assert (Hk : 0 <= rlen (rl l)) by (rewrite <- zlen_rlen; apply IZR_le; lia).
  set (g := rlen (rl l) / (rlen (rl l) + 1)) in *.
  assert (Hg : 0 <= g <= 1).
  { unfold g. split; [apply Rmult_le_pos; [exact Hk|left; apply Rinv_0_lt_compat; lra]|]. apply Rmult_le_reg_r with (rlen (rl l) + 1); [lra|]. unfold Rdiv. rewrite Rmult_assoc, Rinv_l by lra. lra. }
  pose proof (Rm_dist n l c' HR Hne) as Hds.
  pose proof (sq_err n D (B2R y) _ _ Fd Ed Hds Bd (proj2 Hy) Hmu) as Hsq.
  assert (Hd : Rabs (g * (B2R D * B2R D) - g * (B2R y - rmean (rl l)) ^ 2) <= (408 * INR n + 228) * EB).
  { rewrite <- Rmult_minus_distr_l, Rabs_mult, (Rabs_pos_eq g) by lra.
    pose proof (Rabs_pos (B2R D * B2R D - (B2R y - rmean (rl l)) ^ 2)). nra. }
  fold EB in ET.
  assert (Ht : Rabs (- B2R T - - (g * (B2R y - rmean (rl l)) ^ 2)) <= (408 * INR n + 356) * EB) by (clear - ET Hd; abs; lra).
  assert (HC : Rabs (csum 2 (rl (y :: l))) <= 4 * INR n * (B * B)).
  { destruct (csum2_bound (y :: l) Hf) as [Hc1 Hc2]. rewrite Rabs_pos_eq by exact Hc1.
    assert (INR (length (y :: l)) <= INR n) by (apply le_INR; apply HQ). nra. }
  rewrite <- (Rabs_Ropp (B2R T)) in BT.
  destruct (acc_err n _ _ _ _ _ ltac:(lia) HC Hs ltac:(apply Rmult_le_compat_r; lra) Ht BT) as [Hov Herr].
  destruct (fsub_b (c_sums c 2) T 1000 Fs FT ltac:(lia) Hov) as [FS ES]. split; [exact FS|]. rewrite ES.
  change (rl (y :: l)) with (B2R y :: rl l) in Herr. rewrite csum2_cons in Herr. fold g in Herr.
  replace (csum 2 (rl l)) with (csum 2 (rl l) + g * (B2R y - rmean (rl l)) ^ 2 + - (g * (B2R y - rmean (rl l)) ^ 2)) by ring.
  eapply Rle_trans; [exact Herr|]. rewrite <- Rmult_plus_distr_r. apply Rmult_le_compat_r; lra.
Qed.
Lemma Q2_nil c : (3 <= c_len c <= 66)%nat -> c_mean c = nz FN 0 -> (forall k, c_sums c k = nz FN 0) -> c_count c = 0%Z -> Q2 0 [] c.
Proof.
  intros H1 H2 Hs H3. split; [apply Qm_nil; [lia|assumption|assumption]|]. split; [lia|]. rewrite Hs. destruct (fz_real 0 ltac:(lia)) as [F0 E0'].
  split; [exact F0|]. cbn [nz FN rl map INR]. rewrite E0'. unfold csum, rsum. cbn [map fold_right]. rewrite Rminus_0_r, Rabs_R0. lra.
Qed.
End Err.

(** ** Histories *)
Section Runs.
Variables (B : R) (w : Z) (ops : list (op f64)).
Hypothesis HB : bpow radix2 (-400) <= B <= bpow radix2 400.
Hypothesis Hw : (0 <= w)%Z.
Hypothesis Hops : forall x, In (OPush x) ops -> inB B x.
Hypothesis Hlen : (zlen ops <= 2 ^ 40)%Z.
Lemma mean_run n : (n <= 66)%nat -> exists c, core_run FN (mkCore (fz 0) n (fun _ => fz 0) 0 w None (ring_new w)) ops = Ok c /\
  Qm B (length (hist ops)) (live w (hist ops)) c.
Proof.
  intros Hn.
  destruct (core_run_winv FN (inB B) (length ops) (fun l => (l <= 66)%nat) (Qm B) (Rm B)) with (w := w) (ops := ops) (c0 := mkCore (fz 0) n (fun _ : nat => fz 0) 0 w None (ring_new w)) as (c & E & I & _).
  - intros ? ? ? H. apply H.
  - intros ? ? ? ? ? ? H. exact H.
  - intros ? ? ? ? ? ? H. exact H.
  - intros m l c Hm. apply (Qm_Rm B HB (length ops)); [exact Hlen|lia].
  - intros m y l c. apply (Qm_rem B HB (length ops) Hlen).
  - intros m l x c. apply (Rm_add B HB (length ops) Hlen).
  - intros c H1 H2 _ H3. apply (Qm_nil B 0); assumption.
  - exact Hw.
  - split; [rewrite live_nil; apply (Qm_nil B 0); [exact Hn|reflexivity|reflexivity]|]. rewrite live_nil. repeat split.
  - exact Hops.
  - apply le_n.
  - exists c. auto.
Qed.
Lemma sum2_run n : (3 <= n <= 66)%nat -> exists c, core_run FN (mkCore (fz 0) n (fun _ => fz 0) 0 w None (ring_new w)) ops = Ok c /\
  Q2 B (length (hist ops)) (live w (hist ops)) c.
Proof.
  intros Hn.
  destruct (core_run_winv FN (inB B) (length ops) (fun l => (3 <= l <= 66)%nat) (Q2 B) (R2 B)) with (w := w) (ops := ops) (c0 := mkCore (fz 0) n (fun _ : nat => fz 0) 0 w None (ring_new w)) as (c & E & I & _).
  - intros ? ? ? (H & H2 & _). destruct H as (H & _). lia.
  - intros ? ? ? ? ? ? H. exact H.
  - intros ? ? ? ? ? ? H. exact H.
  - intros m l c Hm. apply (Q2_R2 B HB (length ops)); [exact Hlen|lia].
  - intros m y l c. apply (Q2_rem B HB (length ops) Hlen).
  - intros m l x c. apply (R2_add B HB (length ops) Hlen).
  - intros c H1 H2 H3 H4. apply (Q2_nil B 0); assumption.
  - exact Hw.
  - split; [rewrite live_nil; apply (Q2_nil B 0); [exact Hn|reflexivity|reflexivity|reflexivity]|]. rewrite live_nil. repeat split.
  - exact Hops.
  - apply le_n.
  - exists c. auto.
Qed.
Lemma hist_le : (length (hist ops) <= length ops)%nat.
Proof.
  clear. induction ops as [|o l IH] using rev_ind; [apply le_n|]. rewrite app_length. destruct o as [x|].
  - rewrite hist_push, app_length. cbn [length]. lia.
  - rewrite hist_clear. cbn [length]. lia.
Qed.
(** The variance and its square root *)
Lemma var_value c n l : Q2 B n l c -> (2 <= length l)%nat -> (n <= length ops)%nat ->
  exists v, moment_value FN c 2 = Ok v /\ is_finite v = true /\
    Rabs (B2R v - sample_moment 2 (rl l)) <= 1000 * (INR n * INR n) * (eps * (B * B)) /\ Rabs (B2R v) <= (INR n + 10) * (B * B).
Proof.
  intros ((H1 & H2 & H3 & H4 & Hf & H5) & Hl & Fs & Hs) Hk Hn.
  pose proof (n_small (length ops) Hlen n Hn) as Hsm. pose proof (pos_INR n) as Hp. pose proof (EB_pos B HB) as HE. pose proof (B_pos B HB) as H0.
  pose proof (csum2_bound B HB l Hf) as HC. fold (EB B).
  unfold moment_value, c_get_sum, c_get_count. rewrite H3. 
  assert (Hz : (2 <= zlen l <= 2 ^ 53)%Z) by (unfold zlen in *; lia).
  destruct (Z.eqb_spec (zlen l) 0) as [?|_]; [lia|]. destruct (Z.geb_spec 2 (Z.of_nat (c_len c))) as [?|_]; [lia|]. cbn [Z.leb Z.compare orb bind].
  eexists. split; [reflexivity|]. change (Z.to_nat 2) with 2%nat. cbn [FN ndiv nsub nz].
  destruct (sub1_real 0 (zlen l) ltac:(lia)) as [Fa Ea]. unfold sample_moment. rewrite <- zlen_rlen. rewrite minus_IZR in Ea.
  assert (Hk1 : 1 <= IZR (zlen l) - 1) by (rewrite <- minus_IZR; apply IZR_le; lia).
  set (k := IZR (zlen l) - 1) in *. assert (Hlk : INR (length l) = k + 1) by (unfold k, zlen; rewrite <- INR_IZR_INZ; ring). rewrite Hlk in HC.
  set (C := csum 2 (rl l)) in *. set (S := B2R (c_sums c 2)) in *. set (b2 := B * B) in *. assert (Hb2 : 0 < b2) by (unfold b2; nra).
  assert (Hi : 0 < / k <= 1) by (split; [apply Rinv_0_lt_compat; lra|rewrite <- Rinv_1; apply Rinv_le_contravar; lra]).
  assert (Hn2 : 2 <= INR n) by (apply (le_INR 2); lia).
  assert (He2 : 800 * (INR n * INR n) * EB B <= INR n / 8 * b2).
  { unfold EB. fold b2. replace (800 * (INR n * INR n) * (eps * b2)) with (800 * (INR n * (INR n * eps)) * b2) by ring.
    apply Rmult_le_compat_r; [lra|]. assert (INR n * (INR n * eps) <= INR n * / 8192) by (apply Rmult_le_compat_l; lra). lra. }
  assert (HCk : 0 <= C / k <= 8 * b2).
  { split; [apply Rmult_le_pos; lra|]. apply Rmult_le_reg_r with k; [lra|]. unfold Rdiv. rewrite Rmult_assoc, Rinv_l by lra. nra. }
  assert (HSC : Rabs (S / k - C / k) <= 800 * (INR n * INR n) * EB B).
  { unfold Rdiv. rewrite <- Rmult_minus_distr_r, Rabs_mult, (Rabs_pos_eq (/ k)) by lra. pose proof (Rabs_pos (S - C)). nra. }
  assert (HSk : Rabs (S / k) <= (INR n / 8 + 8) * b2).
  { apply Rabs_le_inv in HSC. apply Rabs_le. lra. }
  pose proof (rnd_BB B HB _ _ HSk) as Hr. fold (EB B) in Hr.
  assert (HBB : b2 <= bpow radix2 800).
  { unfold b2. replace 800%Z with (400 + 400)%Z by lia. rewrite bpow_plus. apply Rmult_le_compat; lra. }
  destruct (fdiv_b (c_sums c 2) (fsub (fz (zlen l)) (fz 1)) 1000 Fs ltac:(lia)) as [Fv Ev].
  { rewrite Ea. lra. }
  { rewrite Ea. fold S. eapply Rle_trans; [exact HSk|]. apply Rle_trans with (bpow radix2 50 * bpow radix2 800); [|rewrite <- bpow_plus; apply bpow_le; lia].
    apply Rmult_le_compat; try lra. change (bpow radix2 50) with 1125899906842624.
    assert (INR n <= 1099511627776) by (rewrite INR_IZR_INZ; apply (IZR_le _ (2 ^ 40)); unfold zlen in Hlen; lia). lra. }
  split; [exact Fv|]. rewrite Ev, Ea. fold S.
  assert (HEb : EB B <= / 1000 * b2) by (unfold EB; fold b2; apply Rmult_le_compat_r; [lra|rewrite eps_val; lra]).
  assert (HnE : 0 <= INR n * EB B) by (apply Rmult_le_pos; lra).
  assert (HnE2 : 2 * (INR n * EB B) <= INR n * INR n * EB B) by (rewrite Rmult_assoc; apply Rmult_le_compat_r; lra).
  assert (HnE3 : INR n * EB B <= INR n * (/ 1000 * b2)) by (apply Rmult_le_compat_l; lra).
  assert (Hn2E : 2 * EB B <= INR n * EB B) by (apply Rmult_le_compat_r; lra).
  split.
  - apply Rabs_le_inv in HSC. apply Rabs_le_inv in Hr. apply Rabs_le. lra.
  - apply Rabs_le_inv in HSk. apply Rabs_le_inv in Hr. apply Rabs_le. assert (0 <= INR n * b2) by (apply Rmult_le_pos; lra). lra.
Qed.
Lemma std_err v n s : is_finite v = true -> 0 < B2R v -> Rabs (B2R v) <= (INR n + 10) * (B * B) -> (1 <= n)%nat ->
  Rabs (B2R v - s) <= 1000 * (INR n * INR n) * (eps * (B * B)) ->
  is_finite (fsqrt v) = true /\ 0 <= B2R (fsqrt v) /\ Rabs (B2R (fsqrt v) * B2R (fsqrt v) - s) <= 1100 * (INR n * INR n) * (eps * (B * B)).
Proof.
  intros Fv Pv Bv Hn Hs. unfold fsqrt. pose proof (Bsqrt_correct 53 1024 _ _ mode_NE v) as (E & F & _).
  fold (rnd (sqrt (B2R v))) in E. pose proof (B_pos B HB) as H0. set (b2 := B * B) in *. assert (Hb2 : 0 < b2) by (unfold b2; nra).
  assert (Hn1 : 1 <= INR n) by (apply (le_INR 1); exact Hn).
  assert (Fs : is_finite (Bsqrt mode_NE v) = true).
  { rewrite F. destruct v as [?|?| |sg m e Hv]; try discriminate Fv; [reflexivity|]. destruct sg; [|reflexivity].
    exfalso. cbn [B2R] in Pv. apply gt_0_F2R in Pv. cbn [Fnum] in Pv. cbn in Pv. lia. }
  split; [exact Fs|]. rewrite E. set (r := sqrt (B2R v)).
  assert (Hr : 0 < r) by (apply sqrt_lt_R0; exact Pv). assert (Hrr : r * r = B2R v) by (apply sqrt_sqrt; lra).
  split; [apply rnd_nonneg; lra|].
  destruct (rnd_rel 0 r) as (e & He & Ee).
  { rewrite Rabs_pos_eq by lra. assert (Hv : bpow radix2 (-1074) <= B2R v).
    { assert (Hf : fmt (B2R v)) by apply fmt_B2R. destruct (Rle_or_lt (bpow radix2 (-1074)) (B2R v)) as [H|H]; [exact H|]. exfalso.
      pose proof (generic_format_ge_bpow radix2 fexp64 (-1074)) as G. assert (G2 : bpow radix2 (-1074) <= B2R v).
      { apply G; [|exact Pv|exact Hf]. intros x. unfold fexp64, FLT_exp, SpecFloat.fexp, SpecFloat.emin. lia. } lra. }
    apply Rnot_lt_le. intros Hlt. assert (r * r < bpow radix2 (-1022) * bpow radix2 (-1022)) by nra. rewrite Hrr, <- bpow_plus in H.
    assert (bpow radix2 (-1022 + -1022) <= bpow radix2 (-1074)) by (apply bpow_le; lia). lra. }
  rewrite Ee. replace (r * (1 + e) * (r * (1 + e))) with (B2R v + B2R v * (2 * e + e * e)) by (rewrite <- Hrr; ring).
  rewrite Rabs_pos_eq in Bv by lra.
  assert (Heps : 0 < eps <= / 1000) by (rewrite eps_val; lra).
  assert (He2 : Rabs (2 * e + e * e) <= 3 * eps) by (apply Rabs_le_inv in He; apply Rabs_le; nra).
  assert (Hx : Rabs (B2R v * (2 * e + e * e)) <= (INR n + 10) * b2 * (3 * eps)).
  { rewrite Rabs_mult, (Rabs_pos_eq (B2R v)) by lra. apply Rmult_le_compat; try lra. apply Rabs_pos. }
  assert (HE : 0 < eps * b2) by (apply Rmult_lt_0_compat; lra).
  assert (Hy : (INR n + 10) * b2 * (3 * eps) <= 100 * (INR n * INR n) * (eps * b2)).
  { replace ((INR n + 10) * b2 * (3 * eps)) with ((3 * INR n + 30) * (eps * b2)) by ring. apply Rmult_le_compat_r; [lra|]. nra. }
  apply Rabs_le_inv in Hx. apply Rabs_le_inv in Hs. apply Rabs_le. lra.
Qed.
End Runs.
