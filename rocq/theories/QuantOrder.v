(** Order properties of quantile results (C55, C56). *)
From Coq Require Import Reals List Lia Lra.
From Flocq Require Import Core BinarySingleNaN.
From Verif Require Import Base F64 FloatR OrderSpec SortLib StdFloat FloatMean FloatErr QuantileSpec QuantileProof.
Local Open Scope R_scope.

(** ** Order statistics *)
Lemma count_mono l a b : Forall nonnan l -> nonnan a -> nonnan b -> (fk a < fk b)%Z -> (count_le a l <= count_lt b l)%nat.
Proof.
  intros Hl Ha Hb H. rewrite count_le_keys, count_lt_keys by assumption. clear Hl. induction (keys l) as [|z t IH]; cbn; [lia|].
  destruct (Z.leb_spec z (fk a)); destruct (Z.ltb_spec z (fk b)); cbn; lia.
Qed.
Lemma kth_mono l i j u v : Forall nonnan l -> (i <= j)%nat -> is_kth l i u -> is_kth l j v -> (fk u <= fk v)%Z.
Proof.
  intros Hl Hij [Nu Hu] [Nv Hv]. destruct (Z.le_gt_cases (fk u) (fk v)) as [H|H]; [exact H|].
  pose proof (count_mono l v u Hl Nv Nu H). lia.
Qed.
Lemma filter_le_len {A} (f : A -> bool) l : (length (filter f l) <= length l)%nat.
Proof. induction l as [|x l IH]; cbn; [lia|]. destruct (f x); cbn; lia. Qed.
Lemma kth_between l i u : Forall nonnan l -> is_kth l i u -> (exists a, In a l /\ fle a u = true) /\ exists b, In b l /\ fle u b = true.
Proof.
  intros Hl [Nu [H1 H2]]. split.
  - unfold count_le in H2. destruct (filter (fun y => fle y u) l) as [|a t] eqn:E; [cbn in H2; lia|].
    assert (Ha : In a (a :: t)) by (left; reflexivity). rewrite <- E in Ha. apply filter_In in Ha. exists a. exact Ha.
  - assert (Hlen : (count_lt u l < length l)%nat) by (eapply Nat.le_lt_trans; [exact H1|]; eapply Nat.lt_le_trans; [exact H2|]; apply filter_le_len).
    unfold count_lt in Hlen. clear H1 H2. induction l as [|x l IH]; cbn in Hlen; [lia|]. pose proof (Forall_inv Hl) as Nx. apply Forall_inv_tail in Hl.
    destruct (flt x u) eqn:E.
    + cbn in Hlen. destruct (IH Hl ltac:(lia)) as (b & Hb & Hu). exists b. split; [right; exact Hb|exact Hu].
    + exists x. split; [left; reflexivity|]. rewrite fle_key by assumption. rewrite flt_key in E by assumption. apply Z.ltb_ge in E. apply Z.leb_le. exact E.
Qed.

(** ** The midpoint *)
Lemma fmt_2 x : fmt x -> fmt (2 * x).
Proof.
  intros H. unfold fmt in *. apply (generic_format_FLT radix2 (-1074) 53). apply (FLT_format_generic radix2 (-1074) 53) in H.
  destruct H as [[m e] Hx Hm He]. exists (Float radix2 m (e + 1)); cbn [Fnum Fexp] in *; [|exact Hm|lia].
  rewrite Hx. unfold F2R. cbn [Fnum Fexp]. rewrite bpow_plus. change (bpow radix2 1) with 2. ring.
Qed.

Lemma mid_real lo hi : in22 lo -> in22 hi -> let r := fdiv (fadd lo hi) (fz 2) in is_finite r = true /\ B2R r = rnd (rnd (B2R lo + B2R hi) / 2).
Proof.
  intros [Fl Bl] [Fh Bh] r. assert (E : bpow radix2 1023 = 2 * bpow radix2 1022) by (change 1023%Z with (1 + 1022)%Z; rewrite bpow_plus; reflexivity).
  pose proof (bpow_gt_0 radix2 1022) as P0.
  assert (Hs : Rabs (B2R lo + B2R hi) <= bpow radix2 1023) by (eapply Rle_trans; [apply Rabs_triang|]; lra).
  destruct (fadd_b lo hi 1023 Fl Fh ltac:(lia) Hs) as [Fa Ra]. destruct (fz_exact 2 ltac:(lia)) as [F2 R2].
  assert (Hr : Rabs (B2R (fadd lo hi)) <= bpow radix2 1023) by (rewrite Ra; apply rnd_abs_bpow; [lia|exact Hs]).
  destruct (fdiv_b (fadd lo hi) (fz 2) 1023 Fa ltac:(lia)) as [Fd Rd].
  - rewrite R2. lra.
  - rewrite R2. unfold Rdiv. rewrite Rabs_mult, (Rabs_pos_eq (/ 2)) by lra. pose proof (bpow_gt_0 radix2 1023). lra.
  - split; [exact Fd|]. unfold r. rewrite Rd, Ra, R2. reflexivity.
Qed.
Lemma mid_between lo hi : in22 lo -> in22 hi -> B2R lo <= B2R hi -> let r := fdiv (fadd lo hi) (fz 2) in is_finite r = true /\ B2R lo <= B2R r <= B2R hi.
Proof.
  intros Sl Sh H r. destruct (mid_real lo hi Sl Sh) as [F E]. split; [exact F|]. fold r in E. rewrite E.
  assert (L : 2 * B2R lo <= rnd (B2R lo + B2R hi)) by (apply rnd_above; [apply fmt_2, fmt_B2R|lra]).
  assert (U : rnd (B2R lo + B2R hi) <= 2 * B2R hi) by (apply rnd_below; [apply fmt_2, fmt_B2R|lra]).
  split; [apply rnd_above|apply rnd_below]; try apply fmt_B2R; lra.
Qed.

(** ** One query: the result lies between the two neighbouring order statistics *)
Definition mode_ok (mode : Z) (b : list f64) : Prop := (mode = 1 \/ mode = 2 \/ mode = 3)%Z \/ mode = 4%Z /\ Forall in22 b.
Lemma fin_between (a u c : f64) : is_finite a = true -> is_finite c = true -> fle a u = true -> fle u c = true -> is_finite u = true.
Proof.
  intros Fa Fc Ea Ec. destruct u as [s|[|]| |s m e Hb]; try reflexivity; exfalso.
  - destruct a as [?|?| |? ? ? ?]; cbn in Fa; try discriminate; rewrite fle_key in Ea by reflexivity; revert Ea; cbn; try discriminate.
    intros Ea. apply Z.leb_le in Ea. pose proof (finite_bound s m e e0). destruct s; cbn in *; lia.
  - destruct c as [?|?| |? ? ? ?]; cbn in Fc; try discriminate; rewrite fle_key in Ec by reflexivity; revert Ec; cbn; try discriminate.
    intros Ec. apply Z.leb_le in Ec. pose proof (finite_bound s m e e0). destruct s; cbn in *; lia.
  - destruct a; discriminate Ea.
Qed.
Lemma small_kth b i u : Forall nonnan b -> Forall in22 b -> is_kth b i u -> in22 u.
Proof.
  intros Hn Hs Hk. destruct (kth_between b i u Hn Hk) as ((a & Ha & Ea) & c & Hc & Ec). rewrite Forall_forall in Hs.
  destruct (Hs _ Ha) as [Fa Ba]. destruct (Hs _ Hc) as [Fc Bc].
  pose proof (fin_between a u c Fa Fc Ea Ec) as Fu.
  split; [exact Fu|]. rewrite fle_R in Ea, Ec by assumption. apply Rabs_le. apply Rabs_le_inv in Ba, Bc. lra.
Qed.

Lemma kth_in22 b i u : Forall nonnan b -> Forall in22 b -> is_kth b i u -> in22 u.
Proof. exact (small_kth b i u). Qed.
Lemma fle_fin_key (x y : f64) : is_finite x = true -> is_finite y = true -> B2R x <= B2R y -> (fk x <= fk y)%Z.
Proof. intros Hx Hy H. apply fle_R in H; auto. rewrite fle_key in H by (apply fin_nonnan; assumption). apply Z.leb_le. exact H. Qed.
Lemma key_fin_le (x y : f64) : is_finite x = true -> is_finite y = true -> (fk x <= fk y)%Z -> B2R x <= B2R y.
Proof. intros Hx Hy H. apply fle_R; auto. rewrite fle_key by (apply fin_nonnan; assumption). apply Z.leb_le. exact H. Qed.

Lemma result_bounds mode b phi r : Forall nonnan b -> mode_ok mode b -> quantile_result mode b phi r ->
  exists i lo, let raw := B2R (fmul phi (fz (zlen b - 1))) in (INR i <= raw < INR i + 1) /\ nonnan r /\ is_kth b i lo /\ (fk lo <= fk r)%Z /\
    (raw = INR i /\ fk r = fk lo \/ raw <> INR i /\ exists hi, is_kth b (S i) hi /\ (fk r <= fk hi)%Z /\
      (mode = 1%Z -> fk r = fk lo) /\ (mode = 2%Z -> fk r = fk hi) /\
      (mode = 3%Z -> (raw - INR i < / 2 -> fk r = fk lo) /\ (raw - INR i > / 2 -> fk r = fk hi) /\ (raw - INR i = / 2 -> (Nat.Even i -> fk r = fk lo) /\ (Nat.Odd i -> fk r = fk hi))) /\
      (mode = 4%Z -> r = fdiv (fadd lo hi) (fz 2))).
Proof.
  intros Hn Hm (i & Hi & [[E Hk]|(E & lo & hi & d & Hlo & Hhi & _ & _ & Hr)]).
  - exists i, r. cbv zeta. split; [exact Hi|]. split; [apply Hk|]. split; [exact Hk|]. split; [lia|]. left. auto.
  - pose proof (kth_mono b i (S i) lo hi Hn ltac:(lia) Hlo Hhi) as Hle. exists i, lo. cbv zeta. split; [exact Hi|].
    assert (C : r = lo \/ r = hi \/ mode = 4%Z).
    { destruct Hr as [[? _]|[[_ H]|[[_ H]|[(_ & H1 & H2 & H3)|[? _]]]]]; [destruct Hm as [|[]]; lia|auto|auto| |auto].
      destruct (Rtotal_order (B2R (fmul phi (fz (zlen b - 1))) - INR i) (/ 2)) as [H|[H|H]]; auto.
      destruct (H3 H) as [H4 H5]. destruct (Nat.Even_or_Odd i); auto. }
    assert (K : nonnan r /\ (fk lo <= fk r <= fk hi)%Z).
    { destruct C as [->|[->|C]]; [split; [apply Hlo|lia]|split; [apply Hhi|lia]|].
      destruct Hm as [|[_ Hs]]; [lia|]. pose proof (kth_in22 b i lo Hn Hs Hlo) as Sl. pose proof (kth_in22 b _ hi Hn Hs Hhi) as Sh.
      destruct Hr as [[? _]|[[? _]|[[? _]|[[? _]|[_ ->]]]]]; try lia.
      destruct (mid_between lo hi Sl Sh) as [F [H1 H2]]; [apply key_fin_le; [apply Sl|apply Sh|exact Hle]|].
      split; [apply fin_nonnan; exact F|]. split; apply fle_fin_key; try assumption; [apply Sl|apply Sh]. }
    destruct K as [K1 [K2 K3]]. split; [exact K1|]. split; [exact Hlo|]. split; [exact K2|]. right. split; [exact E|]. exists hi. split; [exact Hhi|]. split; [exact K3|].
    destruct Hr as [[Em Er]|[[Em Er]|[[Em Er]|[(Em & H1 & H2 & H3)|[Em Er]]]]]; rewrite Em.
    + destruct Hm as [Hm|[Hm _]]; lia.
    + split; [intros _; rewrite Er; reflexivity|]. repeat split; discriminate.
    + split; [discriminate|]. split; [intros _; rewrite Er; reflexivity|]. repeat split; discriminate.
    + split; [discriminate|]. split; [discriminate|]. split; [intros _|discriminate].
      split; [intros T; rewrite (H1 T); reflexivity|]. split; [intros T; rewrite (H2 T); reflexivity|].
      intros T. destruct (H3 T) as [H4 H5]. split; intros P; [rewrite (H4 P)|rewrite (H5 P)]; reflexivity.
    + split; [discriminate|]. split; [discriminate|]. split; [discriminate|]. intros _. exact Er.
Qed.

Lemma raw_mono p1 p2 n : nonnan p1 -> nonnan p2 -> fle p1 (fz 0) || fge p1 (fz 1) = false -> fle p2 (fz 0) || fge p2 (fz 1) = false -> fle p1 p2 = true -> (1 <= n <= 2 ^ 53)%Z ->
  B2R (fmul p1 (fz (n - 1))) <= B2R (fmul p2 (fz (n - 1))).
Proof.
  intros N1 N2 R1 R2 Hle Hn. destruct (phi_range p1 N1 R1) as [F1 [A1 A2]]. destruct (phi_range p2 N2 R2) as [F2 [B1 B2]]. destruct (fz_exact (n - 1) ltac:(lia)) as [Fn Rn].
  apply fle_R in Hle; auto. assert (HN : 0 <= IZR (n - 1)) by (apply IZR_le; lia).
  assert (G : forall p : f64, 0 < B2R p < 1 -> Rabs (B2R p * B2R (fz (n - 1))) <= IZR (n - 1)).
  { intros p Hp. rewrite Rn, Rabs_pos_eq by nra. nra. }
  destruct (fmul_fin p1 (fz (n - 1)) (n - 1) F1 Fn (G _ (conj A1 A2)) ltac:(lia)) as [_ ->].
  destruct (fmul_fin p2 (fz (n - 1)) (n - 1) F2 Fn (G _ (conj B1 B2)) ltac:(lia)) as [_ ->].
  apply rnd_le. rewrite Rn. nra.
Qed.

Lemma result_mono mode b p1 p2 r1 r2 : Forall nonnan b -> mode_ok mode b -> (1 <= zlen b <= 2 ^ 53)%Z -> nonnan p1 -> nonnan p2 ->
  fle p1 (fz 0) || fge p1 (fz 1) = false -> fle p2 (fz 0) || fge p2 (fz 1) = false -> fle p1 p2 = true ->
  quantile_result mode b p1 r1 -> quantile_result mode b p2 r2 -> fle r1 r2 = true.
Proof.
  intros Hn Hm Hz N1 N2 I1 I2 Hle Q1 Q2. pose proof (raw_mono p1 p2 (zlen b) N1 N2 I1 I2 Hle Hz) as Hraw.
  destruct (result_bounds mode b p1 r1 Hn Hm Q1) as (i & lo & Hi & Nr1 & Kl & Ll & C1). destruct (result_bounds mode b p2 r2 Hn Hm Q2) as (j & lo' & Hj & Nr2 & Kl' & Ll' & C2).
  rewrite fle_key by assumption. apply Z.leb_le. set (x := B2R (fmul p1 (fz (zlen b - 1)))) in *. set (y := B2R (fmul p2 (fz (zlen b - 1)))) in *.
  destruct (Nat.lt_trichotomy i j) as [Hij|[<-|Hij]].
  - assert (Hu : exists k u, (k <= j)%nat /\ is_kth b k u /\ (fk r1 <= fk u)%Z).
    { destruct C1 as [[_ E]|(_ & hi & Kh & Lh & _)]; [exists i, lo|exists (S i), hi]; split; try lia; split; try assumption; lia. }
    destruct Hu as (k & u & Hk & Ku & Lu). pose proof (kth_mono b k j u lo' Hn Hk Ku Kl'). lia.
  - pose proof (SortLib.kth_unique b i lo lo' Hn Kl Kl') as El. destruct C1 as [[_ E]|(Ex & hi & Kh & Lh & C1)]; [lia|].
    destruct C2 as [[Ey _]|(Ey & hi' & Kh' & Lh' & C2)]; [exfalso; apply Ex; lra|].
    pose proof (SortLib.kth_unique b (S i) hi hi' Hn Kh Kh') as Eh. destruct C1 as (A1 & A2 & A3 & A4). destruct C2 as (B1 & B2 & B3 & B4).
    destruct Hm as [[H|[H|H]]|[H Hs]].
    + specialize (A1 H). specialize (B1 H). lia.
    + specialize (A2 H). specialize (B2 H). lia.
    + destruct (A3 H) as (P1 & P2 & P3). destruct (B3 H) as (P4 & P5 & P6).
      destruct (Rtotal_order (x - INR i) (/ 2)) as [T|[T|T]]; [rewrite (P1 T); lia| |rewrite (P5 ltac:(lra)); lia].
      destruct (P3 T) as [P7 P8]. destruct (Nat.Even_or_Odd i) as [Pe|Po]; [rewrite (P7 Pe); lia|]. rewrite (P8 Po).
      destruct (Rle_lt_or_eq_dec _ _ Hraw) as [T2|T2]; [rewrite (P5 ltac:(lra)); lia|]. destruct (P6 ltac:(lra)) as [_ P9]. rewrite (P9 Po). lia.
    + rewrite (A4 H), (B4 H). pose proof (kth_in22 b i lo Hn Hs Kl) as S1. pose proof (kth_in22 b _ hi Hn Hs Kh) as S2. pose proof (kth_in22 b i lo' Hn Hs Kl') as S3. pose proof (kth_in22 b _ hi' Hn Hs Kh') as S4.
      destruct (mid_real lo hi S1 S2) as [F1 E1]. destruct (mid_real lo' hi' S3 S4) as [F2 E2]. apply fle_fin_key; auto. rewrite E1, E2. apply Req_le.
      assert (B2R lo = B2R lo') by (apply Rle_antisym; apply key_fin_le; try apply S1; try apply S3; lia). assert (B2R hi = B2R hi') by (apply Rle_antisym; apply key_fin_le; try apply S2; try apply S4; lia). congruence.
  - exfalso. assert (INR (S j) <= INR i) by (apply le_INR; lia). rewrite S_INR in H. lra.
Qed.
Lemma result_within mode b phi r : Forall nonnan b -> mode_ok mode b -> quantile_result mode b phi r ->
  (exists a, In a b /\ fle a r = true) /\ exists c, In c b /\ fle r c = true.
Proof.
  intros Hn Hm Q. destruct (result_bounds mode b phi r Hn Hm Q) as (i & lo & _ & Nr & Kl & Ll & C). rewrite Forall_forall in Hn. split.
  - destruct (kth_between b i lo ltac:(apply Forall_forall; exact Hn) Kl) as [(a & Ha & Ea) _]. exists a. split; [exact Ha|]. pose proof (proj1 Kl) as Nl. rewrite fle_key in * by (auto; apply Hn; exact Ha). apply Z.leb_le in Ea. apply Z.leb_le. lia.
  - assert (U : exists k u, is_kth b k u /\ (fk r <= fk u)%Z) by (destruct C as [[_ E]|(_ & hi & Kh & Lh & _)]; [exists i, lo|exists (S i), hi]; split; auto; lia).
    destruct U as (k & u & Ku & Lu). destruct (kth_between b k u ltac:(apply Forall_forall; exact Hn) Ku) as [_ (a & Ha & Ea)]. exists a. split; [exact Ha|]. pose proof (proj1 Ku) as Nu. rewrite fle_key in * by (auto; apply Hn; exact Ha). apply Z.leb_le in Ea. apply Z.leb_le. lia.
Qed.

(** ** Linear interpolation in float64 *)
Definition eta : R := bpow radix2 (-1074).
Lemma eta_eps : 0 < eta <= eps.
Proof. unfold eta, eps. split; [apply bpow_gt_0|apply bpow_le; lia]. Qed.
Lemma small_1000 t M : Rabs t <= 4 * M -> M <= bpow radix2 1020 -> Rabs t <= bpow radix2 1022.
Proof. intros H HM. replace (bpow radix2 1022) with (4 * bpow radix2 1020) by (change 1022%Z with (2 + 1020)%Z; rewrite bpow_plus; reflexivity). lra. Qed.
Lemma linear_err (lo hi d : f64) M : is_finite lo = true -> is_finite hi = true -> is_finite d = true -> 0 <= B2R d <= 1 ->
  Rabs (B2R lo) <= M -> Rabs (B2R hi) <= M -> M <= bpow radix2 1020 ->
  let r := fadd (fmul (fsub (fz 1) d) lo) (fmul d hi) in
  is_finite r = true /\ Rabs (B2R r - ((1 - B2R d) * B2R lo + B2R d * B2R hi)) <= 8 * (eps * M) + 4 * eta.
Proof.
  intros Fl Fh Fd Hd Bl Bh HM r. destruct (fz_exact 1 ltac:(lia)) as [F1 R1]. destruct eta_eps as [E0 E1].
  assert (He : eps <= / 1024) by (rewrite eps_val; lra). assert (H0 : 0 < eps) by (rewrite eps_val; lra).
  assert (HM0 : 0 <= M) by (eapply Rle_trans; [apply Rabs_pos|exact Bl]).
  destruct (fsub_fin (fz 1) d 1 F1 Fd) as [Fa Ra]; [rewrite R1, Rabs_pos_eq by lra; lra|lia|]. rewrite R1 in Ra.
  assert (Ha : 0 <= B2R (fsub (fz 1) d) <= 1).
  { rewrite Ra. split; [apply rnd_above; [apply fmt_0|lra]|apply rnd_below; [apply fmt_IZR; lia|lra]]. }
  pose proof (rnd_err (1 - B2R d)) as Ea. rewrite <- Ra in Ea. fold eta in Ea. rewrite (Rabs_pos_eq (1 - B2R d)) in Ea by lra.
  set (a := B2R (fsub (fz 1) d)) in *.
  assert (Pa : forall p x, 0 <= p <= 1 -> Rabs x <= M -> Rabs (p * x) <= M).
  { intros p x Hp Hx. rewrite Rabs_mult, (Rabs_pos_eq p) by lra. pose proof (Rabs_pos x). nra. }
  assert (Hb : forall x, Rabs x <= M -> Rabs x <= bpow radix2 1022) by (intros x Hx; apply (small_1000 x M); [lra|exact HM]).
  destruct (fmul_b (fsub (fz 1) d) lo 1022 Fa Fl ltac:(lia)) as [Fp Rp]; [apply Hb, Pa; assumption|]. fold a in Rp.
  destruct (fmul_b d hi 1022 Fd Fh ltac:(lia)) as [Fq Rq]; [apply Hb, Pa; assumption|].
  pose proof (rnd_err (a * B2R lo)) as Ep. pose proof (rnd_err (B2R d * B2R hi)) as Eq. fold eta in Ep, Eq. rewrite <- Rp in Ep. rewrite <- Rq in Eq.
  pose proof (Pa a (B2R lo) Ha Bl) as Bp. pose proof (Pa (B2R d) (B2R hi) Hd Bh) as Bq.
  set (p := B2R (fmul (fsub (fz 1) d) lo)) in *. set (q := B2R (fmul d hi)) in *.
  assert (Gp : Rabs (p - a * B2R lo) <= eps * M + eta) by (eapply Rle_trans; [exact Ep|]; apply Rplus_le_compat_r, Rmult_le_compat_l; lra).
  assert (Gq : Rabs (q - B2R d * B2R hi) <= eps * M + eta) by (eapply Rle_trans; [exact Eq|]; apply Rplus_le_compat_r, Rmult_le_compat_l; lra).
  assert (Gd : Rabs (a * B2R lo - (1 - B2R d) * B2R lo) <= 2 * (eps * M)).
  { replace (a * B2R lo - (1 - B2R d) * B2R lo) with ((a - (1 - B2R d)) * B2R lo) by ring. rewrite Rabs_mult.
    assert (Rabs (a - (1 - B2R d)) <= 2 * eps) by (eapply Rle_trans; [exact Ea|]; nra).
    replace (2 * (eps * M)) with (2 * eps * M) by ring. apply Rmult_le_compat; auto using Rabs_pos. }
  assert (Bs : Rabs (p + q) <= 2 * M + 2 * (eps * M) + 2 * eta).
  { apply Rabs_le. apply Rabs_le_inv in Bp, Bq, Gp, Gq. lra. }
  assert (HeM : 0 <= eps * M <= M / 1024) by nra.
  assert (Hs : Rabs (p + q) <= bpow radix2 1023).
  { eapply Rle_trans; [exact Bs|]. replace (bpow radix2 1023) with (8 * bpow radix2 1020) by (change 1023%Z with (3 + 1020)%Z; rewrite bpow_plus; reflexivity).
    assert (eta <= bpow radix2 1020) by (unfold eta; apply bpow_le; lia). lra. }
  destruct (fadd_b _ _ 1023 Fp Fq ltac:(lia) Hs) as [Fr Rr]. split; [exact Fr|]. unfold r. rewrite Rr. fold p q.
  pose proof (rnd_err (p + q)) as Er. fold eta in Er.
  assert (Gr : Rabs (rnd (p + q) - (p + q)) <= 3 * (eps * M) + 2 * eta).
  { eapply Rle_trans; [exact Er|]. assert (eps * Rabs (p + q) <= eps * (2 * M + 2 * (eps * M) + 2 * eta)) by (apply Rmult_le_compat_l; lra). nra. }
  apply Rabs_le. apply Rabs_le_inv in Gr, Gp, Gq, Gd. lra.
Qed.

(** Every mode: the result is within [delta] of the range of the values, where [delta] covers the rounding of the linear mode *)
Definition slack (M : R) : R := 8 * (eps * M) + 4 * eta.
Lemma linear_within b phi r M : Forall nonnan b -> Forall (fun x => is_finite x = true /\ Rabs (B2R x) <= M) b -> M <= bpow radix2 1020 -> quantile_result 0 b phi r ->
  is_finite r = true /\ (exists a, In a b /\ B2R a - slack M <= B2R r) /\ exists c, In c b /\ B2R r <= B2R c + slack M.
Proof.
  intros Hn Hs HM (i & Hi & Q). assert (H22 : Forall in22 b).
  { eapply Forall_impl; [|exact Hs]. intros x [Fx Bx]. split; [exact Fx|]. eapply Rle_trans; [exact Bx|]. eapply Rle_trans; [exact HM|]. apply bpow_le. lia. }
  assert (HMb : forall u k, is_kth b k u -> is_finite u = true /\ Rabs (B2R u) <= M /\ (exists a, In a b /\ B2R a <= B2R u) /\ exists c, In c b /\ B2R u <= B2R c).
  { intros u k Hk. destruct (kth_in22 b k u Hn H22 Hk) as [Fu _]. destruct (kth_between b k u Hn Hk) as ((a & Ia & La) & c & Ic & Lc). rewrite Forall_forall in Hs.
    destruct (Hs _ Ia) as [Fa Ba]. destruct (Hs _ Ic) as [Fc Bc]. rewrite fle_R in La, Lc by assumption. split; [exact Fu|]. split; [|split; [exists a; auto|exists c; auto]].
    apply Rabs_le. apply Rabs_le_inv in Ba, Bc. lra. }
  assert (S0 : forall u k, is_kth b k u -> 0 <= slack M).
  { intros u k Hk. destruct (HMb u k Hk) as (_ & HB & _). pose proof (Rabs_pos (B2R u)). destruct eta_eps. unfold slack. nra. }
  destruct Q as [[_ Hk]|(Hne & lo & hi & d & Hlo & Hhi & Fd & Ed & Hr)].
  - destruct (HMb r i Hk) as (Fr & _ & (a & Ia & La) & c & Ic & Lc). pose proof (S0 r i Hk). split; [exact Fr|]. split; [exists a|exists c]; split; auto; lra.
  - destruct Hr as [[_ ->]|[[? _]|[[? _]|[[? _]|[? _]]]]]; try discriminate.
    destruct (HMb lo _ Hlo) as (Fl & Bl & (a & Ia & La) & _). destruct (HMb hi _ Hhi) as (Fh & Bh & _ & (c & Ic & Lc)).
    destruct (linear_err lo hi d M Fl Fh Fd ltac:(rewrite Ed; lra) Bl Bh HM) as [Fr Er]. fold (slack M) in Er. split; [exact Fr|].
    pose proof (kth_mono b i (S i) lo hi Hn ltac:(lia) Hlo Hhi) as Hk. apply key_fin_le in Hk; auto. apply Rabs_le_inv in Er.
    assert (Hd : 0 <= B2R d <= 1) by (rewrite Ed; lra). split; [exists a|exists c]; split; auto; nra.
Qed.
