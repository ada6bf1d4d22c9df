(** Cov and Corr of a stream with itself, in float64 and without a window. Nothing here models repository code. *)
From Coq Require Import ZArith Lia Bool Reals Lra List.
From Flocq Require Import Core BinarySingleNaN.
From Verif Require Import Base F64 FloatR HistSpec RingModel MathModel NumModel MomentModel RealLib MetricProof CoreInv NanCore StdFloat PowFloat FloatErr JointModel JointMetric JointConf TotalProof JointShare JointErr JointRun JointSym LagProof SelfArith.
Import ListNotations.
Local Open Scope R_scope.
Local Ltac abs := repeat match goal with H : Rabs _ <= _ |- _ => apply Rabs_le_inv in H end; try apply Rabs_le.

(** Adding a number far below the last bit changes nothing. *)
Lemma rnd_absorb r t : fmt r -> bpow radix2 (-410) <= r -> Rabs t <= bpow radix2 (-900) -> rnd (r + t) = r.
Proof.
  intros Fr L Ht. pose proof (bpow_gt_0 radix2 (-410)) as P0. assert (Pr : 0 < r) by lra.
  set (e := (mag radix2 r : Z)). assert (He : (-410 < e)%Z). { apply (lt_bpow radix2). eapply Rle_lt_trans; [exact L|]. pose proof (bpow_mag_gt radix2 r) as A. rewrite Rabs_pos_eq in A by lra. exact A. }
  assert (Fe : fexp64 e = (e - 53)%Z) by (unfold fexp64, SpecFloat.fexp, SpecFloat.emin; lia). assert (Fe' : fexp64 (e - 1) = (e - 1 - 53)%Z) by (unfold fexp64, SpecFloat.fexp, SpecFloat.emin; lia).
  assert (Hu : ulp radix2 fexp64 r = bpow radix2 (e - 53)). { rewrite ulp_neq_0 by lra. unfold cexp. fold e. rewrite Fe. reflexivity. }
  assert (G : forall k, (-500 <= k)%Z -> 2 * bpow radix2 (-900) < bpow radix2 k). { intros k Hk. change 2 with (bpow radix2 1). rewrite <- bpow_plus. apply bpow_lt. lia. }
  apply Rabs_le_inv in Ht. apply Rle_antisym.
  + apply round_N_le_midp; try typeclasses eauto; [exact Fr|]. rewrite succ_eq_pos, Hu by lra. specialize (G (e - 53)%Z ltac:(lia)). lra.
  + apply round_N_ge_midp; try typeclasses eauto; [exact Fr|]. rewrite pred_eq_pos by lra. unfold pred_pos. fold e. destruct (Req_bool r (bpow radix2 (e - 1))).
    * rewrite Fe'. specialize (G (e - 1 - 53)%Z ltac:(lia)). lra.
    * rewrite Hu. specialize (G (e - 53)%Z ltac:(lia)). lra.
Qed.
Lemma absorb (s t : f64) : is_finite s = true -> is_finite t = true -> bpow radix2 (-410) <= B2R s <= bpow radix2 400 -> Rabs (B2R t) <= bpow radix2 (-900) -> fadd s t = s.
Proof.
  intros Fs Ft [L U] Ht. pose proof (bpow_gt_0 radix2 (-410)) as P0.
  assert (T1 : bpow radix2 (-900) <= 1) by (apply (bpow_le radix2 (-900) 0); lia). assert (U' : bpow radix2 400 + 1 <= bpow radix2 401).
  { replace 401%Z with (1 + 400)%Z by lia. rewrite bpow_plus. change (bpow radix2 1) with 2. assert (1 <= bpow radix2 400) by (apply (bpow_le radix2 0); lia). lra. }
  destruct (fadd_b s t 401 Fs Ft ltac:(lia)) as [Fa Ea]. { apply Rabs_le_inv in Ht. apply Rabs_le. lra. }
  rewrite rnd_absorb in Ea by (try assumption; apply fmt_B2R). apply pos_inj; try assumption. lra.
Qed.
Lemma fadd_zero (x t : f64) : nmz x -> zero t -> fadd x t = x.
Proof. intros Hx Ht. destruct (zero_form t Ht) as (s & ->). rewrite fadd_zn by (auto; left; eauto). reflexivity. Qed.
Lemma fadd_0_l (x : f64) : nmz x -> fadd (fz 0) x = x.
Proof. intros H. change (fz 0) with (B754_zero false : f64). destruct x as [[|]|?| |? ? ? ?]; try reflexivity. destruct H; reflexivity. Qed.
Lemma nonzero_nmz (x : f64) : B2R x <> 0 -> nmz x.
Proof. intros H ->. apply H. reflexivity. Qed.
Lemma nmz_zero (x : f64) : nmz x -> zero x -> x = B754_zero false.
Proof. intros H Z. destruct (zero_form x Z) as ([|] & ->); [destruct H; reflexivity|reflexivity]. Qed.

(** ** One term *)
Section Term.
Variable n : Z.
Hypothesis Hn : (1 <= n <= 2 ^ 41)%Z.
Definition cf : f64 := coeff (fsub (fz n) (fz 1)) (fz n).
Lemma cf_one : n = 1%Z -> zero cf.
Proof. intros E. unfold cf. rewrite E. assert (X : coeff (fsub (fz 1) (fz 1)) (fz 1) = B754_zero false) by (vm_compute; reflexivity). rewrite X. split; reflexivity. Qed.
Lemma cf_bounds : is_finite cf = true /\ 0 <= B2R cf <= 2 /\ ((2 <= n)%Z -> / 4 <= B2R cf).
Proof.
  destruct (sub1_real 0 n ltac:(lia)) as [Fa Ea]. destruct (fz_real n ltac:(lia)) as [Fb Eb].
  destruct (coeff_err 0%nat (fsub (fz n) (fz 1)) (fz n) n) as (Fc & Ec & G); try assumption. fold cf in *. split; [exact Fc|].
  assert (He : 0 < eps <= / 1000) by (rewrite eps_val; lra). apply Rabs_le_inv in Ec.
  assert (H2 : (2 <= n)%Z -> / 4 <= B2R cf).
  { intros H. assert (/ 2 <= (IZR n - 1) / IZR n). { apply IZR_le in H. apply Rmult_le_reg_r with (IZR n); [lra|]. unfold Rdiv. rewrite Rmult_assoc, Rinv_l by lra. lra. } lra. }
  split; [|exact H2]. destruct (Z.eq_dec n 1) as [E|E]; [destruct (cf_one E) as [_ ->]; lra|]. specialize (H2 ltac:(lia)). lra.
Qed.
Variables d s : f64.
Hypothesis Fd : is_finite d = true.
Hypothesis Bd : Rabs (B2R d) <= bpow radix2 103.
Lemma sq_b : is_finite (fmul d d) = true /\ B2R (fmul d d) = rnd (B2R d * B2R d) /\ 0 <= B2R (fmul d d) <= bpow radix2 206.
Proof.
  assert (H : Rabs (B2R d * B2R d) <= bpow radix2 206) by (rewrite Rabs_mult; replace 206%Z with (103 + 103)%Z by lia; rewrite bpow_plus; apply Rmult_le_compat; try apply Rabs_pos; assumption).
  destruct (fmul_b d d 206 Fd Fd ltac:(lia) H) as [F E]. split; [exact F|]. split; [exact E|]. rewrite E. split; [apply rnd_nonneg; nra|].
  eapply Rle_trans; [apply Rle_abs|]. apply rnd_abs_bpow; [lia|exact H].
Qed.
Lemma term_b p e : is_finite p = true -> (-1000 <= e <= 900)%Z -> Rabs (B2R p) <= bpow radix2 e -> is_finite (fmul cf p) = true /\ B2R (fmul cf p) = rnd (B2R cf * B2R p) /\ Rabs (B2R (fmul cf p)) <= bpow radix2 (e + 1).
Proof.
  intros Fp He Bp. destruct cf_bounds as (Fc & Bc & _). assert (H : Rabs (B2R cf * B2R p) <= bpow radix2 (e + 1)).
  { rewrite Rabs_mult, (Rabs_pos_eq (B2R cf)), Z.add_comm, bpow_plus by lra. change (bpow radix2 1) with 2. apply Rmult_le_compat; try lra. apply Rabs_pos. }
  destruct (fmul_b cf p (e + 1) Fc Fp ltac:(lia) H) as [F E]. split; [exact F|]. split; [exact E|]. rewrite E. apply rnd_abs_bpow; [lia|exact H].
Qed.
(** The term with the product of the differences and the one with the power of one of them *)
Lemma same_term : (zero d \/ bpow radix2 (-500) <= Rabs (B2R d) \/ is_finite s = true /\ bpow radix2 (-410) <= B2R s <= bpow radix2 400) ->
  fadd s (fmul cf (fpow d 2)) = fadd s (fmul cf (fmul d d)).
Proof.
  assert (L : bpow radix2 103 <= bpow radix2 500) by (apply bpow_le; lia). assert (Q : zero d \/ bpow radix2 (-500) <= Rabs (B2R d) -> fpow d 2 = fmul d d).
  { intros H. apply pow2_mul; [exact Fd|]. destruct H as [H|H]; [left; exact H|right; lra]. }
  intros [H|[H|(Fs & Hs)]]; try (rewrite Q by tauto; reflexivity). destruct (Rle_or_lt (bpow radix2 (-500)) (Rabs (B2R d))) as [H|H]; [rewrite Q by tauto; reflexivity|].
  assert (Hd2 : B2R d * B2R d <= bpow radix2 (-1000)). { rewrite <- (Rabs_pos_eq (B2R d * B2R d)) by nra. rewrite Rabs_mult. replace (-1000)%Z with (-500 + -500)%Z by lia. rewrite bpow_plus. apply Rmult_le_compat; try apply Rabs_pos; lra. }
  assert (Hs2 : 0 <= B2R d * B2R d) by nra.
  destruct (fpow2_spec d 103 Fd ltac:(lia) Bd) as (Fp & Pp & Ep & _). destruct sq_b as (Fm & Em & Pm).
  assert (P1000 : bpow radix2 (-1074) <= bpow radix2 (-1000)) by (apply bpow_le; lia). assert (P53 : bpow radix2 (-53) <= 1) by (apply (bpow_le radix2 (-53) 0); lia).
  assert (Big : 4 * bpow radix2 (-1000) <= bpow radix2 (-901 + -1)) by (change 4 with (bpow radix2 2); rewrite <- bpow_plus; apply bpow_le; lia). pose proof (bpow_gt_0 radix2 (-1000)) as P0.
  assert (Big' : bpow radix2 (-901 + -1) <= bpow radix2 (-901)) by (apply bpow_le; lia).
  assert (A : forall p, is_finite p = true -> Rabs (B2R p) <= bpow radix2 (-901) -> fadd s (fmul cf p) = s).
  { intros p Fq Bq. destruct (term_b p (-901) Fq ltac:(lia) Bq) as (F & _ & U). apply absorb; assumption. }
  rewrite !A; try assumption; try reflexivity.
  - rewrite Em. apply rnd_abs_bpow; [lia|]. rewrite Rabs_pos_eq; lra.
  - apply Rabs_le_inv in Ep. rewrite Rabs_pos_eq by exact Pp. assert (bpow radix2 (-53) * (B2R d * B2R d) <= B2R d * B2R d) by nra. lra.
Qed.
Lemma term_nonneg : is_finite (fmul cf (fmul d d)) = true /\ 0 <= B2R (fmul cf (fmul d d)) <= bpow radix2 207.
Proof.
  destruct sq_b as (Fm & Em & Pm). destruct (term_b (fmul d d) 206 Fm ltac:(lia)) as (F & E & U); [rewrite Rabs_pos_eq; lra|]. split; [exact F|]. destruct cf_bounds as (_ & Bc & _).
  split; [rewrite E; apply rnd_nonneg; nra|]. eapply Rle_trans; [apply Rle_abs|exact U].
Qed.
Lemma term_big : (2 <= n)%Z -> bpow radix2 (-200) <= Rabs (B2R d) -> bpow radix2 (-402) <= B2R (fmul cf (fmul d d)).
Proof.
  intros H2 Hd. destruct sq_b as (Fm & Em & Pm). destruct (term_b (fmul d d) 206 Fm ltac:(lia)) as (F & E & U); [rewrite Rabs_pos_eq; lra|]. destruct cf_bounds as (_ & _ & Bc). specialize (Bc H2).
  assert (Q : bpow radix2 (-400) <= B2R (fmul d d)).
  { rewrite Em. rewrite <- (rnd_fmt (bpow radix2 (-400))) by (apply fmt_bpow; lia). apply rnd_le. rewrite <- (Rabs_pos_eq (B2R d * B2R d)) by nra. rewrite Rabs_mult. replace (-400)%Z with (-200 + -200)%Z by lia. rewrite bpow_plus. pose proof (bpow_ge_0 radix2 (-200)). apply Rmult_le_compat; assumption. }
  rewrite E. rewrite <- (rnd_fmt (bpow radix2 (-402))) by (apply fmt_bpow; lia). apply rnd_le. replace (-402)%Z with (-2 + -400)%Z by lia. rewrite bpow_plus. change (bpow radix2 (-2)) with (/ 4). pose proof (bpow_ge_0 radix2 (-400)). apply Rmult_le_compat; lra.
Qed.
Lemma term_zero : n = 1%Z \/ zero d -> zero (fmul cf (fmul d d)) /\ zero (fmul cf (fpow d 2)).
Proof.
  destruct sq_b as (Fm & _). destruct (fpow2_spec d 103 Fd ltac:(lia) Bd) as (Fp & _). destruct cf_bounds as (Fc & _). intros [H|H].
  - pose proof (cf_one H). split; apply zmul_l; assumption.
  - split; apply zmul_r; try assumption; [apply zmul_r; assumption|apply pow_zero; [lia|exact H]].
Qed.
End Term.

(** ** The state *)
Local Notation vc := (@jcore f64 (list f64)).
(** A multiple of 2^-200 of at most 2^100 *)
Definition grid (x : f64) : Prop := is_finite x = true /\ Rabs (B2R x) <= bpow radix2 100 /\ exists k, B2R x = IZR k * bpow radix2 (-200).
Definition B100 : R := bpow radix2 100.
Lemma HB100 : bpow radix2 (-400) <= B100 <= bpow radix2 400.
Proof. split; apply bpow_le; lia. Qed.
Definition dbl (x : f64) : list f64 := [x; x].
Section Run.
Variable nmax : nat.
Hypothesis Hnmax : (Z.of_nat nmax <= 2 ^ 40)%Z.
Definition spread (h : list f64) (m s : f64) : Prop :=
  (exists v, Forall (fun x => B2R x = v) h /\ zero s /\ B2R m = v /\ (h = [] -> v = 0)) \/ ((exists a b, In a h /\ In b h /\ B2R a <> B2R b) /\ bpow radix2 (-410) <= B2R s).
Definition SI (h : list f64) (j : vc) (c : @core f64) : Prop :=
  jwinv B100 0 (map dbl h) j /\ Forall grid h /\
  (c_len c = 3%nat /\ c_window c = 0%Z /\ c_decay c = None /\ c_count c = zlen h) /\
  exists m s, j_means j = [m; m] /\ c_mean c = m /\ c_sums c 2 = s /\ j_sums j 32%Z = Some s /\ j_sums j 62%Z = Some s /\ j_sums j 2%Z = Some s /\ nmz s /\ is_finite m = true /\ is_finite s = true /\ Rabs (B2R s) <= bpow radix2 400 /\ spread h m s.
Lemma grid_okp x : grid x -> okp B100 (dbl x).
Proof. intros (F & H & _). split; [reflexivity|]. split; split; assumption. Qed.
Lemma s_upper l c s : (length l <= nmax)%nat -> JQ B100 (length l) l c -> j_sums c 62%Z = Some s -> Rabs (B2R s) <= bpow radix2 400.
Proof.
  intros Hl (_ & _ & Ho & _ & _ & _ & _ & mx & my & sxy & sxx & syy & _ & _ & _ & _ & E & _ & _ & (_ & Hb) & _) Es. rewrite Es in E. injection E as <-.
  pose proof (cs_bound B100 HB100 (map px l) (map px l) eq_refl (okp_x _ _ Ho) (okp_x _ _ Ho)) as Hc. rewrite map_length in Hc.
  set (n := length l) in *. assert (Hi : 0 <= INR n <= bpow radix2 40).
  { split; [apply pos_INR|]. rewrite INR_IZR_INZ. change (bpow radix2 40) with (IZR (2 ^ 40)). apply IZR_le. lia. }
  assert (HE : 0 < EB B100 <= bpow radix2 200). { split; [apply EB_pos, HB100|]. unfold EB, B100. assert (He : 0 < eps <= / 1000) by (rewrite eps_val; lra). rewrite <- bpow_plus. change (100 + 100)%Z with 200%Z. pose proof (bpow_gt_0 radix2 200). nra. }
  assert (HBB : B100 * B100 = bpow radix2 200) by (unfold B100; rewrite <- bpow_plus; reflexivity). rewrite HBB in Hc.
  assert (H1 : 800 * (INR n * INR n) * EB B100 <= bpow radix2 10 * (bpow radix2 40 * bpow radix2 40) * bpow radix2 200).
  { assert (800 <= bpow radix2 10) by (change (bpow radix2 10) with 1024; lra). apply Rmult_le_compat; try lra; [nra|]. apply Rmult_le_compat; try lra; [nra|]. apply Rmult_le_compat; lra. }
  assert (H2 : 4 * INR n * bpow radix2 200 <= bpow radix2 2 * bpow radix2 40 * bpow radix2 200).
  { change (bpow radix2 2) with 4. pose proof (bpow_gt_0 radix2 200). apply Rmult_le_compat_r; lra. }
  rewrite <- !bpow_plus in H1. rewrite <- !bpow_plus in H2.
  assert (H3 : bpow radix2 (10 + (40 + 40) + 200) <= bpow radix2 399) by (apply bpow_le; lia). assert (H4 : bpow radix2 (2 + 40 + 200) <= bpow radix2 399) by (apply bpow_le; lia).
  assert (H5 : bpow radix2 400 = 2 * bpow radix2 399) by (replace 400%Z with (1 + 399)%Z by lia; rewrite bpow_plus; reflexivity).
  apply Rabs_le_inv in Hb. apply Rabs_le_inv in Hc. apply Rabs_le. lra.
Qed.
Lemma SI_push h j c x : (length h < nmax)%nat -> grid x -> SI h j c -> exists j' c', jpush FN j (dbl x) = Ok j' /\ c_push FN c x = Ok c' /\ SI (h ++ [x]) j' c'.
Proof.
  intros Hb Gx (HJ & HG & (Cl & Cw & Cd & Cc) & m & s & Em & Ecm & Ecs & E32 & E62 & E2 & Ns & Fm & Fs & Us & Sp).
  assert (Hlen : length (map dbl h) = length h) by (rewrite map_length; reflexivity).
  destruct (jwinv_push B100 HB100 nmax Hnmax 0 (map dbl h) j (dbl x) ltac:(lia) ltac:(lia) (grid_okp x Gx) HJ) as (j' & Ej & HJ').
  replace (map dbl h ++ [dbl x]) with (map dbl (h ++ [x])) in HJ' by (rewrite map_app; reflexivity).
  destruct HJ as (HQ & Jw & Jd & _). pose proof HQ as (Ht & Hc & Ho & Z1 & Z31 & _ & _ & mx & my & sxy & sxx & syy & Em' & Mx & _).
  rewrite live_0 in *. assert (Zl : zlen (map dbl h) = zlen h) by apply zlen_map. rewrite Zl in Hc.
  assert (Emx : mx = m) by congruence. subst mx.
  pose proof Gx as (Fx & Bx & kx & Kx).
  assert (HQR := JQ_JR B100 HB100 nmax Hnmax (length (map dbl h)) _ _ ltac:(lia) HQ). destruct HQR as (_ & _ & _ & _ & _ & _ & _ & mx1 & my1 & a1 & a2 & a3 & Em1 & Mx1 & My1 & _).
  assert (mx1 = m) by congruence. assert (my1 = m) by congruence. subst mx1 my1. clear a1 a2 a3 Em1.
  rewrite <- (zlen_map px (map dbl h)) in Mx1. rewrite <- (zlen_map py (map dbl h)) in My1.
  destruct (dxy B100 HB100 (length (map dbl h)) (map px (map dbl h)) (map py (map dbl h)) x x m m (okp_x _ _ Ho) (okp_y _ _ Ho) (conj Fx Bx) (conj Fx Bx) Mx1 My1) as (Fd & _ & Bd & _).
  set (d := fsub x m) in *. assert (Bd3 : Rabs (B2R d) <= bpow radix2 103).
  { eapply Rle_trans; [exact Bd|]. unfold B100. replace 103%Z with (3 + 100)%Z by lia. rewrite bpow_plus. change (bpow radix2 3) with 8. pose proof (bpow_gt_0 radix2 100). lra. }
  set (n := (zlen h + 1)%Z). assert (Hn : (1 <= n <= 2 ^ 41)%Z) by (unfold n, zlen; lia).
  set (t := fmul (cf n) (fmul d d)).
  (* the differences *)
  assert (Bm : Rabs (B2R m) <= 2 * B100).
  { destruct Mx1 as (_ & _ & _ & _ & X & _). cbn [c_mean mk] in X. pose proof (rmean_bound B100 HB100 _ (okp_x _ _ Ho)) as Y. pose proof (B_pos B100 HB100). abs. lra. }
  destruct (fsub_b x m 1000 Fx Fm ltac:(lia)) as [_ Ed].
  { assert (4 * B100 <= bpow radix2 1000) by (unfold B100; change 4 with (bpow radix2 2); rewrite <- bpow_plus; apply bpow_le; lia). pose proof (B_pos B100 HB100). change (bpow radix2 100) with B100 in Bx. abs. lra. }
  fold d in Ed. destruct (term_nonneg n Hn d Fd Bd3) as [Ft Pt]. fold t in Ft, Pt.
  assert (U401 : bpow radix2 400 + bpow radix2 207 <= bpow radix2 401).
  { replace 401%Z with (1 + 400)%Z by lia. rewrite bpow_plus. change (bpow radix2 1) with 2. assert (bpow radix2 207 <= bpow radix2 400) by (apply bpow_le; lia). lra. }
  destruct (fadd_b s t 401 Fs Ft ltac:(lia)) as [Fa Ea]. { abs. lra. }
  assert (Main : fadd s (fmul (cf n) (fpow d 2)) = fadd s t /\ nmz (fadd s t) /\ spread (h ++ [x]) (add_mean FN m x n) (fadd s t)).
  { destruct Sp as [(v & Hv & Zs & Hm & H0)|((a & b & Ia & Ib & Hab) & Ls)].
    - pose proof (nmz_zero s Ns Zs) as Es. destruct (Req_dec (B2R x) v) as [Exv|Nxv].
      + assert (Zd : zero d) by (split; [exact Fd|]; rewrite Ed, Exv, Hm, Rminus_diag_eq, rnd_0; reflexivity).
        destruct (term_zero n Hn d Fd Bd3 (or_intror Zd)) as [T1 T2]. fold t in T1. rewrite !(fadd_zero s) by assumption. split; [reflexivity|]. split; [exact Ns|]. left. exists v.
        split; [apply Forall_app; auto|]. split; [exact Zs|]. split; [|intros E; destruct h; discriminate E].
        unfold add_mean. cbn [nadd nsub ndiv nz FN]. fold d. destruct (fz_real n ltac:(lia)) as [Fn En].
        assert (Zq : zero (fdiv d (fz n))). { destruct Zd as [_ Zd]. assert (IZR n <> 0) by (apply not_0_IZR; lia). destruct (fdiv_b d (fz n) 0 Fd ltac:(lia)) as [Fq Eq]; [rewrite En; assumption|rewrite Zd; unfold Rdiv; rewrite Rmult_0_l, Rabs_R0; apply bpow_ge_0|]. split; [exact Fq|]. rewrite Eq, Zd. unfold Rdiv. rewrite Rmult_0_l. apply rnd_0. }
        destruct (add_zero m _ Fm Zq) as [_ E]. rewrite E. exact Hm.
      + destruct h as [|y h'].
        * specialize (H0 eq_refl). rewrite H0 in *. assert (En : n = 1%Z) by reflexivity. destruct (term_zero n Hn d Fd Bd3 (or_introl En)) as [T1 T2]. fold t in T1. rewrite !(fadd_zero s) by assumption. split; [reflexivity|]. split; [exact Ns|].
          left. exists (B2R x). split; [repeat constructor|]. split; [exact Zs|]. split; [|discriminate]. rewrite En. unfold add_mean. cbn [nadd nsub ndiv nz FN]. fold d.
          rewrite Hm, Rminus_0_r, rnd_fmt in Ed by apply fmt_B2R. destruct (fz_real 1 ltac:(lia)) as [F1 E1].
          assert (L100 : bpow radix2 100 <= bpow radix2 1000) by (apply bpow_le; lia).
          destruct (fdiv_b d (fz 1) 1000 Fd ltac:(lia)) as [Fq Eq]; [rewrite E1; lra|rewrite E1, Ed; unfold Rdiv; rewrite Rinv_1, Rmult_1_r; lra|].
          rewrite E1, Ed in Eq. unfold Rdiv in Eq. rewrite Rinv_1, Rmult_1_r, rnd_fmt in Eq by apply fmt_B2R.
          destruct (fadd_b m (fdiv d (fz 1)) 1000 Fm Fq ltac:(lia)) as [_ E]; [rewrite Hm, Eq, Rplus_0_l; lra|]. rewrite E, Hm, Eq, Rplus_0_l. apply rnd_fmt, fmt_B2R.
        * assert (Hy : B2R y = v) by (inversion Hv; assumption). assert (Gy : grid y) by (inversion HG; assumption). destruct Gy as (_ & _ & ky & Ky).
          assert (Hk : bpow radix2 (-200) <= Rabs (B2R x - v)).
          { rewrite <- Hy, Kx, Ky, <- Rmult_minus_distr_r, <- minus_IZR, Rabs_mult, (Rabs_pos_eq (bpow radix2 (-200))) by apply bpow_ge_0.
            assert (1 <= Rabs (IZR (kx - ky))). { rewrite <- abs_IZR. apply IZR_le. assert (kx <> ky) by (intros ->; apply Nxv; congruence). lia. } pose proof (bpow_gt_0 radix2 (-200)). nra. }
          assert (Hd : bpow radix2 (-200) <= Rabs (B2R d)) by (rewrite Ed, Hm; apply abs_round_ge_generic; try typeclasses eauto; [apply fmt_bpow; lia|exact Hk]).
          assert (Hd5 : bpow radix2 (-500) <= Rabs (B2R d)) by (eapply Rle_trans; [|exact Hd]; apply bpow_le; lia).
          pose proof (term_big n Hn d Fd Bd3 ltac:(unfold n, zlen; cbn [length]; lia) Hd) as Hbig. fold t in Hbig.
          split; [apply (same_term n Hn d s Fd Bd3); auto|]. rewrite (proj2 Zs), Rplus_0_l, rnd_fmt in Ea by apply fmt_B2R. assert (L402 : bpow radix2 (-410) <= bpow radix2 (-402)) by (apply bpow_le; lia). pose proof (bpow_gt_0 radix2 (-410)).
          split; [apply nonzero_nmz; lra|]. right. split; [|lra]. exists x, y. split; [apply in_or_app; right; left; reflexivity|]. split; [left; reflexivity|]. congruence.
    - assert (Lr : B2R s <= B2R (fadd s t)) by (rewrite Ea, <- (rnd_fmt (B2R s)) at 1 by apply fmt_B2R; apply rnd_le; lra).
      pose proof (bpow_gt_0 radix2 (-410)). split; [apply (same_term n Hn d s Fd Bd3); right; right; split; [exact Fs|abs; lra]|]. split; [apply nonzero_nmz; lra|]. right. split; [|lra]. exists a, b. auto using in_or_app. }
  destruct Main as (T2 & Nt & Sp').
  exists j'. assert (Ej' := Ej). unfold jpush, j_push in Ej'. cbv beta in Ej'. rewrite Em in Ej'. cbn [length Nat.eqb negb dbl] in Ej'. rewrite Jw in Ej'. cbn [Z.eqb negb bind] in Ej'. rewrite Jd in Ej'.
  unfold j_add in Ej'. rewrite Ht, Em, Hc in Ej'. change (deltas FN (dbl x) [m; m]) with [d; d] in Ej'. fold n in Ej'. cbn [nz FN] in Ej'.
  destruct (add6 FN (fz n) d d (j_sums j) (j_new j)) as (mm & E & _ & _ & _ & G32 & G62 & G2 & _). rewrite E in Ej'. cbn [bind] in Ej'. injection Ej' as <-.
  assert (Gs : hget FN (j_sums j) 32 = s /\ hget FN (j_sums j) 62 = s /\ hget FN (j_sums j) 2 = s) by (unfold hget; rewrite E32, E62, E2; auto). destruct Gs as (Gs1 & Gs2 & Gs3).
  destruct (sub1_real 0 n ltac:(lia)) as [Fa1 Ea1]. destruct (fz_real n ltac:(lia)) as [Fb Eb]. assert (Bb : 1 <= B2R (fz n)) by (rewrite Eb; apply IZR_le; lia).
  assert (M10 : forall k z, (Z.abs k <= 2)%Z -> zero z -> zero (mixed FN k (fz n) (pw FN d d 1 0) z)) by (intros k z Hk Hz; eapply mixed10; eauto using HB100).
  assert (M01 : forall k z, (Z.abs k <= 2)%Z -> zero z -> zero (mixed FN k (fz n) (pw FN d d 0 1) z)) by (intros k z Hk Hz; eapply mixed01; eauto using HB100).
  assert (Sq : forall p, sq FN (nsub FN (fz n) (nz FN 1)) (fz n) p = fmul (cf n) p) by reflexivity.
  assert (P11 : pw FN d d 1 1 = fmul d d). { change (fmul (fmul (fz 1) d) d = fmul d d). rewrite fmul_1_l. reflexivity. }
  assert (P20 : pw FN d d 2 0 = fpow d 2). { change (fmul (fmul (fz 1) (fpow d 2)) (fz 1) = fpow d 2). rewrite fmul_1_l. apply fmul_1_r. }
  assert (P02 : pw FN d d 0 2 = fpow d 2). { change (fmul (fmul (fz 1) (fz 1)) (fpow d 2) = fpow d 2). rewrite !fmul_1_l. reflexivity. }
  rewrite Sq, P11, Gs1 in G32. rewrite Sq, P20, Gs2 in G62. rewrite Sq, P02, Gs3 in G2. change (nadd FN) with fadd in *. change (nz FN 0) with (fz 0) in *.
  rewrite fadd_0_l, !(fadd_zero s) in G32 by (auto; apply M10 || apply M01; auto; lia). rewrite fadd_0_l, !(fadd_zero s) in G62 by (auto; apply M10 || apply M01; auto; lia). rewrite fadd_0_l, !(fadd_zero s) in G2 by (auto; apply M10 || apply M01; auto; lia).
  fold t in G32. rewrite T2 in G62, G2.
  destruct (c_push FN c x) as [c'| | | |] eqn:Ec.
  2-5: exfalso; unfold c_push in Ec; rewrite Cw in Ec; cbn [Z.eqb negb bind] in Ec; rewrite Cd in Ec; unfold c_add in Ec; cbv zeta in Ec; rewrite Cl in Ec; change (rev (ks_up 3)) with [2%nat] in Ec; cbn [outer] in Ec; change (2 - 2)%nat with 0%nat in Ec; cbn [seq inner bind] in Ec; discriminate Ec.
  exists c'. split; [exact Ej|]. split; [reflexivity|].
  unfold c_push in Ec. rewrite Cw in Ec. cbn [Z.eqb negb bind] in Ec. rewrite Cd in Ec. pose proof (c_add_sum2 0%nat c c' x ltac:(lia) Ec) as K2. rewrite Cc, Ecm, Ecs in K2. fold n d in K2. fold (cf n) in K2. rewrite T2 in K2.
  unfold c_add in Ec. cbv zeta in Ec. apply bind_ok in Ec. destruct Ec as (f & _ & Ec). injection Ec as <-. cbn [c_sums] in K2.
  split; [exact HJ'|]. split; [apply Forall_app; auto|]. cbn [c_len c_window c_decay c_count c_mean c_sums j_means j_sums]. split; [split; [exact Cl|]; split; [exact Cw|]; split; [exact Cd|]; rewrite Cc; unfold zlen; rewrite app_length; cbn [length]; lia|].
  exists (add_mean FN m x n), (fadd s t). rewrite K2, Ecm, Cc. fold n. split; [reflexivity|]. split; [reflexivity|]. split; [reflexivity|]. do 3 (split; [assumption|]). split; [exact Nt|].
  destruct HJ' as (HQ' & _). rewrite live_0 in HQ'. split.
  { destruct HQ' as (_ & _ & _ & _ & _ & _ & _ & mx2 & my2 & b1 & b2 & b3 & Em2 & Mx2 & _). cbn [j_means] in Em2. injection Em2 as Em2 _. destruct Mx2 as (_ & _ & _ & Fm2 & _). cbn [c_mean mk] in Fm2. rewrite <- Em2 in Fm2. exact Fm2. }
  split; [exact Fa|]. split; [|exact Sp']. eapply (s_upper (map dbl (h ++ [x]))); [|exact HQ'|exact G62]. rewrite map_length, app_length. cbn [length]. lia.
Qed.
Definition start : @core f64 := mkCore (fz 0) 3 (fun _ => fz 0) 0 0 None (ring_new 0).
Lemma SI_nil j c : jwinv B100 0 [] j -> (exists a b, j_means j = [a; b] /\ a = fz 0 /\ b = fz 0) -> (forall k, In k [32; 62; 2]%Z -> j_sums j k = Some (fz 0)) ->
  c_len c = 3%nat -> c_window c = 0%Z -> c_decay c = None -> c_count c = 0%Z -> c_mean c = fz 0 -> c_sums c 2 = fz 0 -> SI [] j c.
Proof.
  intros HJ (a & b & Em & -> & ->) Hk H1 H2 H3 H4 H5 H6. split; [exact HJ|]. split; [constructor|]. split; [auto|]. exists (fz 0), (fz 0). destruct (fz_real 0 ltac:(lia)) as [F0 E0].
  split; [exact Em|]. split; [exact H5|]. split; [exact H6|]. do 3 (split; [apply Hk; cbn; auto|]). split; [discriminate|]. split; [exact F0|]. split; [exact F0|]. split; [rewrite E0, Rabs_R0; apply bpow_ge_0|].
  left. exists 0. split; [constructor|]. split; [split; assumption|]. auto.
Qed.
Lemma SI_clear h j c : SI h j c -> exists j' c', j_clear FN j = Ok j' /\ c_clear FN c = Ok c' /\ SI [] j' c'.
Proof.
  intros (HJ & _ & (Cl & Cw & Cd & _) & m & s & Em & _ & _ & E32 & E62 & E2 & _). destruct (jwinv_clear B100 nmax 0 _ j HJ) as (j' & Ej & HJ'). exists j'. eexists. split; [exact Ej|]. split; [reflexivity|].
  injection Ej as <-. apply SI_nil; try assumption; try reflexivity; cbn [j_means j_sums]; [rewrite Em; eexists _, _; split; [reflexivity|auto]|].
  intros k Hk. unfold hzero. cbn [In] in Hk. destruct Hk as [<-|[<-|[<-|[]]]]; [rewrite E32|rewrite E62|rewrite E2]; reflexivity.
Qed.
Definition dblop (o : op f64) : op (list f64) := match o with OPush x => OPush (dbl x) | OClear => OClear end.
Lemma SI_run ops : (forall x, In (OPush x) ops -> grid x) -> (length ops <= nmax)%nat -> exists j c, jcore_run FN (core0 FN corr_sums 0 None) (map dblop ops) = Ok j /\ core_run FN start ops = Ok c /\ SI (hist ops) j c /\ (length (hist ops) <= length ops)%nat.
Proof.
  induction ops as [|o ops IH] using rev_ind; intros Hr Hl.
  - eexists _, _. split; [reflexivity|]. split; [reflexivity|]. split; [|apply le_n]. apply SI_nil; try reflexivity; [apply core0_win, HB100|eexists _, _; split; [reflexivity|split; reflexivity]|].
    intros k Hk. cbn [core0 j_sums]. apply init_keys_corr. cbn [In] in *. tauto.
  - rewrite app_length in Hl. cbn [length] in Hl. destruct IH as (j & c & Ej & Ec & HS & Hh); [intros x Hx; apply Hr, in_or_app; left; exact Hx|lia|].
    rewrite map_app. cbn [map]. unfold jcore_run, core_run in *. rewrite !run_app, Ej, Ec. cbn [bind run]. destruct o as [x|]; cbn [dblop].
    + destruct (SI_push (hist ops) j c x ltac:(lia) (Hr x ltac:(apply in_or_app; right; left; reflexivity)) HS) as (j' & c' & Ej' & Ec' & HS'). rewrite Ej', Ec'. cbn [bind]. exists j', c'. rewrite hist_push. do 2 (split; [reflexivity|]). split; [exact HS'|]. rewrite !app_length. cbn [length]. lia.
    + destruct (SI_clear _ _ _ HS) as (j' & c' & Ej' & Ec' & HS'). rewrite Ej', Ec'. cbn [bind]. exists j', c'. rewrite hist_clear. do 2 (split; [reflexivity|]). split; [exact HS'|]. cbn [length]. lia.
Qed.
End Run.

Lemma dblop_two ops p : In (OPush p) (map dblop ops) -> length p = 2%nat.
Proof. intros H. apply in_map_iff in H. destruct H as ([x|] & E & _); [|discriminate E]. injection E as <-. reflexivity. Qed.
Section Values.
Variable ops : list (op f64).
Hypothesis Hr : forall x, In (OPush x) ops -> grid x.
Hypothesis Hl : (zlen ops <= 2 ^ 40)%Z.
Lemma self_run : exists j c, jcore_run FN (core0 FN corr_sums 0 None) (map dblop ops) = Ok j /\ core_run FN start ops = Ok c /\ SI (hist ops) j c.
Proof. destruct (SI_run (length ops) Hl ops Hr (le_n _)) as (j & c & H1 & H2 & H3 & _). eauto. Qed.
Lemma self_cov : (m <- jm_run FN (JCov 0) (map dblop ops) ;; jm_value FN m) = (m <- m_run FN (KMoment 2 0) ops ;; m_value FN m).
Proof.
  destruct self_run as (j & c & Ej & Ec & HS). destruct (jrel_run _ _ _ j (core0_rel 0 None (or_intror eq_refl)) Ej) as (d & Ed & Hrel).
  unfold jm_run, jm_init, new_jmetric. cbn [jm_kind]. rewrite (new_cov FN 0) by lia. cbn [bind]. rewrite (jm_lift FN (JCov 0) (map dblop ops) (dblop_two ops)), Ed. cbn [rmap bind]. unfold jm_value. cbn [jm_core jm_kind].
  rewrite (jrel_value (JCov 0) d j Hrel eq_refl).
  unfold m_run, m_init, new_metric. cbn [m_kind]. change (new_core FN (kconfig (KMoment 2 0))) with (Ok start). cbn [bind]. rewrite m_run_core, Ec. cbn [rmap bind]. unfold m_value. cbn [m_core m_kind].
  destruct HS as ((HQ & _) & _ & (Cl & _ & _ & Cc) & m & s & _ & _ & Es & E32 & _). destruct HQ as (_ & Hc & _). rewrite live_0, zlen_map in Hc.
  cbn [jvalue kvalue]. unfold moment_value, j_get_sum, c_get_sum, j_get_count, c_get_count. rewrite Hc, Cc, Cl. destruct (zlen (hist ops) =? 0)%Z; [reflexivity|]. change (t_hash [1; 1]%Z) with 32%Z. rewrite E32. cbn [Z.leb Z.geb Z.of_nat orb bind]. change (Z.to_nat 2) with 2%nat.
  cbn. rewrite Es. reflexivity.
Qed.
Lemma self_corr : hist ops <> [] -> exists v, (m <- jm_run FN (JCorr 0) (map dblop ops) ;; jm_value FN m) = Ok v /\
  ((exists a b, In a (hist ops) /\ In b (hist ops) /\ B2R a <> B2R b) -> v = fz 1) /\ ((forall a b, In a (hist ops) -> In b (hist ops) -> B2R a = B2R b) -> v = fnan).
Proof.
  intros Hh. destruct self_run as (j & c & Ej & Ec & HS).
  unfold jm_run, jm_init, new_jmetric. cbn [jm_kind]. rewrite (new_corr FN 0) by lia. cbn [bind]. rewrite (jm_lift FN (JCorr 0) (map dblop ops) (dblop_two ops)), Ej. cbn [rmap bind]. unfold jm_value. cbn [jm_core jm_kind].
  destruct HS as ((HQ & _) & _ & _ & m & s & _ & _ & _ & E32 & E62 & E2 & Ns & _ & Fs & Us & Sp). destruct HQ as (_ & Hc & _). rewrite live_0, zlen_map in Hc.
  unfold jvalue, corr_value, j_get_sum. rewrite Hc. destruct (Z.eqb_spec (zlen (hist ops)) 0) as [Z|_]. { exfalso. apply Hh. destruct (hist ops); [reflexivity|discriminate Z]. }
  change (t_hash [1; 1]%Z) with 32%Z. change (t_hash [2; 0]%Z) with 62%Z. change (t_hash [0; 2]%Z) with 2%Z. rewrite E32, E62, E2. cbn [bind]. eexists. split; [reflexivity|]. cbn [ndiv nsqrt nmul FN].
  destruct Sp as [(v & Hv & Zs & _)|((a & b & Ia & Ib & Hab) & Ls)].
  - split. { intros (a & b & Ia & Ib & Hab). exfalso. apply Hab. rewrite Forall_forall in Hv. rewrite (Hv a Ia), (Hv b Ib). reflexivity. } intros _. rewrite (nmz_zero s Ns Zs). reflexivity.
  - split; [|intros H; exfalso; apply Hab, H; assumption]. intros _. apply self_div; [exact Fs|]. assert (bpow radix2 (-500) <= bpow radix2 (-410)) by (apply bpow_le; lia). assert (bpow radix2 400 <= bpow radix2 500) by (apply bpow_le; lia). abs. lra.
Qed.
End Values.
Lemma lag0_calls (ops : list (op f64)) : forall h, LagProof.lag_calls 0 h ops = map dblop ops.
Proof. induction ops as [|[x|] ops IH]; intros h; cbn [LagProof.lag_calls map dblop]; rewrite ?IH; [reflexivity| |reflexivity]. cbn [Nat.leb]. rewrite Nat.sub_0_r, app_nth2, Nat.sub_diag by lia. reflexivity. Qed.
