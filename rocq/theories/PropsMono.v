(** C90: raising values never lowers a metric of location. *)
From Coq Require Import ZArith Lia Bool Reals Lra List.
From Flocq Require Import Core BinarySingleNaN.
From Verif Require Import Base F64 FloatR FloatMean PowFloat HistSpec RingModel MathModel NumModel OrderSpec MinMaxModel MomentModel MomentSpec MetricProof EwmProof EwmErr QuantileSpec QuantileModel QuantileProof QuantOrder HeapModel PropsMinMax PropsMoment PropsQuantile PropsQuantOrder PropsHeap PropsEwm.
Import ListNotations.
Local Open Scope Z_scope.

(** The second history arises from the first by replacing values by others that are not below them. *)
Definition raised {A} (le : A -> A -> Prop) (ops ops' : list (op A)) : Prop :=
  Forall2 (fun o o' => match o, o' with OPush x, OPush y => le x y | OClear, OClear => True | _, _ => False end) ops ops'.
(** Not below, both numbers *)
Definition fup (x y : f64) : Prop := fle x y = true.

Lemma fup_num x y : fup x y -> nonnan x /\ nonnan y /\ fk x <= fk y.
Proof.
  unfold fup, nonnan. intros H. assert (Hx : isnan x = false) by (destruct x; try reflexivity; discriminate H). assert (Hy : isnan y = false) by (destruct y; try reflexivity; rewrite fle_nan_r in H; discriminate H).
  split; [exact Hx|]. split; [exact Hy|]. rewrite fle_key in H by assumption. apply Z.leb_le, H.
Qed.
Lemma F2_length {A B} {P : A -> B -> Prop} {l l'} : Forall2 P l l' -> length l = length l'.
Proof. intros H. induction H; cbn [length]; congruence. Qed.
Lemma raised_hist {A} (le : A -> A -> Prop) ops : forall ops' h h', raised le ops ops' -> Forall2 le h h' ->
  Forall2 le (fold_left (fun h o => match o with OPush x => h ++ [x] | OClear => [] end) ops h) (fold_left (fun h o => match o with OPush x => h ++ [x] | OClear => [] end) ops' h').
Proof.
  induction ops as [|o ops IH]; intros ops' h h' H Hh; inversion H as [|? o' ? t Ho Ht]; subst; cbn [fold_left]; [exact Hh|].
  destruct o as [x|], o' as [y|]; try contradiction; apply IH; try exact Ht; [|constructor]. apply Forall2_app; [exact Hh|]. constructor; [exact Ho|constructor].
Qed.
Lemma raised_live {A} (le : A -> A -> Prop) w ops ops' : raised le ops ops' -> Forall2 le (live w (hist ops)) (live w (hist ops')).
Proof.
  intros H. pose proof (raised_hist le ops ops' [] [] H (Forall2_nil _)) as Hh. fold (hist ops) in Hh. fold (hist ops') in Hh. unfold live. destruct (w =? 0); [exact Hh|]. unfold lastn.
  rewrite <- (F2_length Hh). generalize (length (hist ops) - Z.to_nat w)%nat. clear H. intros n. revert n. induction Hh as [|x y l l' Hx Hl IH]; intros [|n]; cbn [skipn]; try constructor; auto.
Qed.
Lemma raised_num ops ops' : raised fup ops ops' -> pushes_nonnan ops /\ pushes_nonnan ops'.
Proof.
  intros H. unfold pushes_nonnan. split; (induction H as [|a b l l' Ho Hl IH]; intros x Hx; [destruct Hx|]; destruct Hx as [Hx|Hx]; [subst; first [destruct b as [y|]|destruct a as [y|]]; try contradiction; apply fup_num in Ho; tauto|apply IH, Hx]).
Qed.
Lemma up_nonnan l l' : Forall2 fup l l' -> Forall nonnan l /\ Forall nonnan l'.
Proof. intros H. induction H as [|x y l l' Hx _ [I1 I2]]; split; constructor; auto; apply fup_num in Hx; tauto. Qed.
(** ** Order statistics *)
Lemma count_up u v l l' : Forall2 fup l l' -> nonnan u -> nonnan v -> fk v < fk u -> (count_le v l' <= count_lt u l)%nat.
Proof.
  intros H Nu Nv Huv. unfold count_le, count_lt. induction H as [|x y l l' Hx _ IH]; cbn [filter length]; [lia|]. destruct (fup_num x y Hx) as (Nx & Ny & Hk).
  rewrite fle_key, flt_key by assumption. destruct (Z.leb_spec (fk y) (fk v)); destruct (Z.ltb_spec (fk x) (fk u)); cbn [length]; lia.
Qed.
Lemma kth_up l l' k u v : Forall2 fup l l' -> is_kth l k u -> is_kth l' k v -> fk u <= fk v.
Proof.
  intros H (Nu & Hu1 & _) (Nv & _ & Hv2). destruct (Z.le_gt_cases (fk u) (fk v)) as [L|L]; [exact L|]. pose proof (count_up u v l l' H Nu Nv L). lia.
Qed.
Lemma mid_up lo hi lo' hi' : in22 lo -> in22 hi -> in22 lo' -> in22 hi' -> fk lo <= fk lo' -> fk hi <= fk hi' -> fle (fdiv (fadd lo hi) (fz 2)) (fdiv (fadd lo' hi') (fz 2)) = true.
Proof.
  intros S1 S2 S3 S4 H1 H2. destruct (mid_real lo hi S1 S2) as [F1 E1]. destruct (mid_real lo' hi' S3 S4) as [F2 E2]. apply fle_R; [exact F1|exact F2|]. rewrite E1, E2.
  apply key_fin_le in H1; [|apply S1|apply S3]. apply key_fin_le in H2; [|apply S2|apply S4]. apply rnd_le. assert (rnd (B2R lo + B2R hi) <= rnd (B2R lo' + B2R hi'))%R by (apply rnd_le; lra). lra.
Qed.
Lemma lin_real d lo hi : is_finite d = true -> (0 <= B2R d <= 1)%R -> in22 lo -> in22 hi ->
  let r := fadd (fmul (fsub (fz 1) d) lo) (fmul d hi) in is_finite r = true /\ B2R r = rnd (rnd (rnd (1 - B2R d) * B2R lo) + rnd (B2R d * B2R hi)).
Proof.
  intros Fd Hd [Fl Bl] [Fh Bh] r. assert (E : bpow radix2 1023 = (2 * bpow radix2 1022)%R) by (change 1023%Z with (1 + 1022)%Z; rewrite bpow_plus; reflexivity). pose proof (bpow_gt_0 radix2 1022) as P0.
  destruct (fz_exact 1 ltac:(lia)) as [F1 R1].
  assert (B1 : (1 <= bpow radix2 1022)%R) by (change 1%R with (bpow radix2 0); apply bpow_le; lia).
  destruct (fsub_b (fz 1) d 1022 F1 Fd ltac:(lia)) as [Fs Es]; [rewrite R1; rewrite Rabs_pos_eq; lra|]. rewrite R1 in Es.
  assert (Hs : (0 <= B2R (fsub (fz 1) d) <= 1)%R).
  { rewrite Es. split; [rewrite <- rnd_0; apply rnd_le; lra|]. apply Rle_trans with (rnd 1); [apply rnd_le; lra|]. right. apply rnd_fmt. change 1%R with (IZR 1). rewrite <- R1. apply fmt_B2R. }
  assert (P : forall a b, (0 <= a <= 1)%R -> (Rabs b <= bpow radix2 1022)%R -> (Rabs (a * b) <= bpow radix2 1022)%R).
  { intros a b Ha Hb. rewrite Rabs_mult, (Rabs_pos_eq a) by lra. pose proof (Rabs_pos b). nra. }
  destruct (fmul_b (fsub (fz 1) d) lo 1022 Fs Fl ltac:(lia)) as [Fa Ea]; [apply P; assumption|].
  destruct (fmul_b d hi 1022 Fd Fh ltac:(lia)) as [Fb Eb]; [apply P; assumption|].
  assert (Ba : (Rabs (B2R (fmul (fsub (fz 1) d) lo)) <= bpow radix2 1022)%R) by (rewrite Ea; apply rnd_abs_bpow; [lia|apply P; assumption]).
  assert (Bb : (Rabs (B2R (fmul d hi)) <= bpow radix2 1022)%R) by (rewrite Eb; apply rnd_abs_bpow; [lia|apply P; assumption]).
  destruct (fadd_b (fmul (fsub (fz 1) d) lo) (fmul d hi) 1023 Fa Fb ltac:(lia)) as [Fr Er]; [eapply Rle_trans; [apply Rabs_triang|lra]|].
  split; [exact Fr|]. unfold r. rewrite Er, Ea, Eb, Es. reflexivity.
Qed.
Lemma result_up mode l l' phi r r' : Forall2 fup l l' -> (mode = 1 \/ mode = 2 \/ mode = 3) \/ (mode = 0 \/ mode = 4) /\ Forall in22 l /\ Forall in22 l' ->
  quantile_result mode l phi r -> quantile_result mode l' phi r' -> fle r r' = true.
Proof.
  intros H Hm Q Q'. destruct (up_nonnan l l' H) as [Nl Nl']. assert (Ez : zlen l' = zlen l) by (unfold zlen; rewrite (F2_length H); reflexivity).
  unfold quantile_result in Q, Q'. rewrite Ez in Q'. cbv zeta in Q, Q'. set (raw := fmul phi (fz (zlen l - 1))) in *.
  destruct Q as (i & Hi & Q). destruct Q' as (j & Hj & Q').
  assert (i = j). { destruct (Nat.lt_trichotomy i j) as [L|[L|L]]; [|exact L|]; exfalso; assert (L' : (INR (S i) <= INR j)%R \/ (INR (S j) <= INR i)%R) by (first [left; apply le_INR; lia|right; apply le_INR; lia]); rewrite !S_INR in L'; lra. }
  subst j. assert (K : forall k u v, is_kth l k u -> is_kth l' k v -> fle u v = true) by (intros k u v Ku Kv; rewrite fle_key by (first [apply Ku|apply Kv]); apply Z.leb_le; exact (kth_up l l' k u v H Ku Kv)).
  destruct Q as [[E Ku]|(E & lo & hi & d & Klo & Khi & Fd & Ed & Q)].
  - destruct Q' as [[_ Kv]|(E' & _)]; [exact (K i r r' Ku Kv)|contradiction].
  - destruct Q' as [[E' _]|(_ & lo' & hi' & d' & Klo' & Khi' & Fd' & Ed' & Q')]; [contradiction|].
    assert (R : in22 lo -> in22 hi -> in22 lo' -> in22 hi' -> fle (fadd (fmul (fsub (fz 1) d) lo) (fmul d hi)) (fadd (fmul (fsub (fz 1) d') lo') (fmul d' hi')) = true).
    { intros S1 S2 S3 S4. destruct (lin_real d lo hi Fd ltac:(rewrite Ed; lra) S1 S2) as [F1 E1]. destruct (lin_real d' lo' hi' Fd' ltac:(rewrite Ed'; lra) S3 S4) as [F2 E2]. apply fle_R; [exact F1|exact F2|]. rewrite E1, E2, Ed, Ed'.
      pose proof (key_fin_le lo lo' (proj1 S1) (proj1 S3) (kth_up l l' i lo lo' H Klo Klo')) as L1. pose proof (key_fin_le hi hi' (proj1 S2) (proj1 S4) (kth_up l l' _ hi hi' H Khi Khi')) as L2.
      assert (P : (0 <= rnd (1 - (B2R raw - INR i)))%R) by (rewrite <- rnd_0; apply rnd_le; lra).
      apply rnd_le. apply Rplus_le_compat; apply rnd_le; apply Rmult_le_compat_l; lra. }
    destruct Hm as [Hm|(Hm & S & S')].
    + destruct Q as [[M Er]|[[M Er]|[[M Er]|[(M & A1 & A2 & A3)|[M Er]]]]]; destruct Q' as [[M' Er']|[[M' Er']|[[M' Er']|[(M' & B1 & B2 & B3)|[M' Er']]]]]; try lia; try (rewrite Er, Er'; eauto).
      destruct (Rtotal_order (B2R raw - INR i) (/ 2)) as [T|[T|T]]; [rewrite (A1 T), (B1 T); eauto| |rewrite (A2 T), (B2 T); eauto].
      destruct (A3 T) as [A4 A5]. destruct (B3 T) as [B4 B5]. destruct (Nat.Even_or_Odd i) as [P|P]; [rewrite (A4 P), (B4 P); eauto|rewrite (A5 P), (B5 P); eauto].
    + pose proof (kth_in22 l i lo Nl S Klo) as S1. pose proof (kth_in22 l _ hi Nl S Khi) as S2. pose proof (kth_in22 l' i lo' Nl' S' Klo') as S3. pose proof (kth_in22 l' _ hi' Nl' S' Khi') as S4.
      destruct Q as [[M Er]|[[M Er]|[[M Er]|[(M & A1 & A2 & A3)|[M Er]]]]]; destruct Q' as [[M' Er']|[[M' Er']|[[M' Er']|[(M' & B1 & B2 & B3)|[M' Er']]]]]; try lia; rewrite Er, Er'; [exact (R S1 S2 S3 S4)|].
      apply mid_up; auto; [exact (kth_up l l' i lo lo' H Klo Klo')|exact (kth_up l l' _ hi hi' H Khi Khi')].
Qed.
Lemma median_up l l' r r' : Forall2 fup l l' -> Forall in22 l -> Forall in22 l' -> median_result l r -> median_result l' r' -> fle r r' = true.
Proof.
  intros H S S' [O E] [O' E']. destruct (up_nonnan l l' H) as [Nl Nl']. rewrite <- (F2_length H) in O', E'. destruct (Nat.Even_or_Odd (length l)) as [P|P].
  - destruct (E P) as (lo & hi & K1 & K2 & ->). destruct (E' P) as (lo' & hi' & K3 & K4 & ->). apply mid_up; [exact (kth_in22 l _ lo Nl S K1)|exact (kth_in22 l _ hi Nl S K2)|exact (kth_in22 l' _ lo' Nl' S' K3)|exact (kth_in22 l' _ hi' Nl' S' K4)|exact (kth_up l l' _ _ _ H K1 K3)|exact (kth_up l l' _ _ _ H K2 K4)].
  - rewrite fle_key by (first [apply (O P)|apply (O' P)]). apply Z.leb_le. exact (kth_up l l' _ _ _ H (O P) (O' P)).
Qed.
Lemma exists_up l l' y : Forall2 fup l l' -> In y l' -> exists x, In x l /\ fup x y.
Proof. intros H. induction H as [|a b l l' Hab _ IH]; [intros []|]; intros [Hy|Hy]; [subst; exists a; split; [left; reflexivity|exact Hab]|]. destruct (IH Hy) as (x & Hx & Hxy). exists x. split; [right; exact Hx|exact Hxy]. Qed.
Lemma exists_down l l' x : Forall2 fup l l' -> In x l -> exists y, In y l' /\ fup x y.
Proof. intros H. induction H as [|a b l l' Hab _ IH]; [intros []|]; intros [Hy|Hy]; [subst; exists b; split; [left; reflexivity|exact Hab]|]. destruct (IH Hy) as (y & Hx & Hxy). exists y. split; [right; exact Hx|exact Hxy]. Qed.
Lemma fup_trans x y z : fup x y -> fup y z -> fup x z.
Proof. intros H1 H2. destruct (fup_num x y H1) as (Nx & Ny & L1). destruct (fup_num y z H2) as (_ & Nz & L2). unfold fup. rewrite fle_key by assumption. apply Z.leb_le. lia. Qed.

Definition in22b (x : f64) : bool := is_finite x && fle x (fdy 1 900) && fle (fdy (-1) 900) x.
Lemma Forall_in22b l : forallb in22b l = true -> Forall in22 l.
Proof.
  intros H. apply Forall_forall. intros x Hx. rewrite forallb_forall in H. specialize (H x Hx). unfold in22b in H. apply andb_prop in H as [H H3]. apply andb_prop in H as [H1 H2].
  destruct (fdy_exact 1 900 ltac:(lia) ltac:(lia)) as (F & E & _). destruct (fdy_exact (-1) 900 ltac:(lia) ltac:(lia)) as (F' & E' & _).
  apply fle_R in H2; [|assumption|assumption]. apply fle_R in H3; [|assumption|assumption]. rewrite E in H2. rewrite E' in H3. unfold F2R in H2, H3. cbn [Fnum Fexp] in H2, H3. split; [exact H1|]. apply Rabs_le. pose proof (bpow_le radix2 900 1022 ltac:(lia)). lra.
Qed.
Lemma both_lt (a b : res f64) : (match a, b with Ok x, Ok y => flt y x | _, _ => false end) = true -> exists x y, a = Ok x /\ b = Ok y /\ flt y x = true.
Proof. destruct a as [x| | | |]; try discriminate. destruct b as [y| | | |]; try discriminate. intros H. exists x, y. auto. Qed.

(** ** C90 *)
(** Min and Max with any window. *)
Theorem C90_min_max : forall w ops ops', 0 <= w -> raised fup ops ops' -> hist ops <> [] ->
  exists m m' n n' a a' b b', min_run w ops = Ok m /\ min_run w ops' = Ok m' /\ max_run w ops = Ok n /\ max_run w ops' = Ok n' /\
    min_value m = Ok a /\ min_value m' = Ok a' /\ fle a a' = true /\ max_value n = Ok b /\ max_value n' = Ok b' /\ fle b b' = true.
Proof.
  intros w ops ops' Hw H Hne. pose proof (raised_live fup w ops ops' H) as Hl. pose proof (raised_live fup 0 ops ops' H) as Hh. change (Forall2 fup (hist ops) (hist ops')) in Hh. destruct (up_nonnan _ _ Hh) as [N N'].
  assert (Hne' : hist ops' <> []) by (intros E; rewrite E in Hh; inversion Hh; congruence).
  destruct (C01_min_is_window_minimum w ops Hw N) as (m & Em & _ & Vm). destruct (C01_min_is_window_minimum w ops' Hw N') as (m' & Em' & _ & Vm'). destruct (C02_max_is_window_maximum w ops Hw N) as (n & En & _ & Vn). destruct (C02_max_is_window_maximum w ops' Hw N') as (n' & En' & _ & Vn').
  destruct (Vm Hne) as (a & Ea & Ia & La). destruct (Vm' Hne') as (a' & Ea' & Ia' & La'). destruct (Vn Hne) as (b & Eb & Ib & Lb). destruct (Vn' Hne') as (b' & Eb' & Ib' & Lb').
  exists m, m', n, n', a, a', b, b'. do 6 (split; [assumption|]). split; [|split; [assumption|split; [assumption|]]].
  - destruct (exists_up _ _ a' Hl Ia') as (x & Ix & Hx). exact (fup_trans a x a' (La x Ix) Hx).
  - destruct (exists_down _ _ b Hl Ib) as (y & Iy & Hy). exact (fup_trans b y b' Hy (Lb' y Iy)).
Qed.
Print Assumptions C90_min_max.
(** Quantile (hence Median) in all five modes, under the storage conditions of C11; the modes that compute, linear and midpoint, for values up to 2^1022. *)
Theorem C90_quantile_partial : forall e w os ops ops' phi, 0 <= w -> Forall qopt_num os -> Forall qopt_valid os -> raised fup ops ops' -> impl_cond (chosen_impl os) w ops -> impl_cond (chosen_impl os) w ops' ->
  nonnan phi -> in_range phi = true -> live w (hist ops) <> [] -> zlen (live w (hist ops)) <= 2 ^ 53 ->
  (chosen_interp os = 1 \/ chosen_interp os = 2 \/ chosen_interp os = 3) \/ (chosen_interp os = 0 \/ chosen_interp os = 4) /\ Forall in22 (live w (hist ops)) /\ Forall in22 (live w (hist ops')) ->
  exists q q' r r', q_run e w os ops = Ok q /\ q_run e w os ops' = Ok q' /\ q_value e q phi = Ok r /\ q_value e q' phi = Ok r' /\ fle r r' = true.
Proof.
  intros e w os ops ops' phi Hw Hn Hv H Hi Hi' Np Hr Hl Hz Hm. destruct (raised_num ops ops' H) as [N N']. pose proof (raised_live fup w ops ops' H) as Hd.
  assert (Hl' : live w (hist ops') <> []) by (intros E; rewrite E in Hd; inversion Hd; congruence).
  destruct (quantile_ok e w os ops phi Hw Hn Hv N Hi Np Hr Hl Hz) as (q & r & E & Er & Q).
  destruct (quantile_ok e w os ops' phi Hw Hn Hv N' Hi' Np Hr Hl' ltac:(unfold zlen in *; rewrite <- (F2_length Hd); exact Hz)) as (q' & r' & E' & Er' & Q').
  exists q, q', r, r'. do 4 (split; [assumption|]). exact (result_up (chosen_interp os) _ _ phi r r' Hd Hm Q Q').
Qed.
Print Assumptions C90_quantile_partial.
(** HeapMedian without a window. *)
Theorem C90_heap_median_partial : forall ops ops', raised fup ops ops' -> hist ops <> [] -> Forall in22 (hist ops) -> Forall in22 (hist ops') ->
  exists m m' r r', hm_run 0 ops = Ok m /\ hm_run 0 ops' = Ok m' /\ hm_value m = Ok r /\ hm_value m' = Ok r' /\ fle r r' = true.
Proof.
  intros ops ops' H Hne S S'. destruct (raised_num ops ops' H) as [N N']. pose proof (raised_live fup 0 ops ops' H) as Hd. change (Forall2 fup (hist ops) (hist ops')) in Hd.
  destruct (C17_global_heap_median ops N) as (m & E & V). destruct (C17_global_heap_median ops' N') as (m' & E' & V').
  destruct (hist ops) as [|x l] eqn:El; [contradiction|]. destruct (hist ops') as [|x' l'] eqn:El'; [inversion Hd|]. destruct V as (r & Er & R). destruct V' as (r' & Er' & R').
  exists m, m', r, r'. do 4 (split; [assumption|]). exact (median_up _ _ r r' Hd S S' R R').
Qed.
Print Assumptions C90_heap_median_partial.
(** Mean and EWMA in exact arithmetic. *)
Lemma rsum_up l l' : Forall2 Rle l l' -> (rsum l <= rsum l')%R.
Proof. intros H. induction H as [|x y l l' Hx _ IH]; cbn [rsum fold_right]; [lra|]. unfold rsum in IH. lra. Qed.
Lemma ewma_up d l l' : (0 < d < 1)%R -> Forall2 Rle l l' -> (ewma d l <= ewma d l')%R.
Proof.
  intros Hd. revert l'. induction l as [|x l IH] using rev_ind; intros l' H.
  - inversion H. subst. lra.
  - apply Forall2_app_inv_l in H as (k & y' & H1 & H2 & ->). inversion H2 as [|? y ? t Hxy Ht]. subst. inversion Ht. subst. specialize (IH k H1). destruct l as [|z l].
    + inversion H1. subst. cbn. unfold ewma, wsum, eweights. cbn. unfold eweight. cbn. lra.
    + assert (k <> []) by (intros ->; inversion H1). rewrite !ewma_push by (first [assumption|discriminate]). nra.
Qed.
Theorem C90_mean_exact_partial : forall w d ops ops', 0 <= w -> (0 < d < 1)%R -> raised Rle ops ops' -> hist ops <> [] ->
  (exists a a', mval (KMean w) ops = Ok (Fin a) /\ mval (KMean w) ops' = Ok (Fin a') /\ (a <= a')%R) /\
  (exists b b', mval (KEwma (Fin d)) ops = Ok (Fin b) /\ mval (KEwma (Fin d)) ops' = Ok (Fin b') /\ (b <= b')%R).
Proof.
  intros w d ops ops' Hw Hd H Hne. pose proof (raised_live Rle w ops ops' H) as Hl. pose proof (raised_live Rle 0 ops ops' H) as Hh. change (Forall2 Rle (hist ops) (hist ops')) in Hh. split.
  - destruct (C20_moment_metrics w ops Hw) as (A & _). destruct (C20_moment_metrics w ops' Hw) as (B & _). rewrite A, B. destruct (live w (hist ops)) as [|x l] eqn:E; [exfalso; apply Hne; apply (live_empty w); assumption|].
    destruct (live w (hist ops')) as [|x' l'] eqn:E'; [inversion Hl|]. cbn [mean_of]. eexists. eexists. split; [reflexivity|]. split; [reflexivity|]. unfold rmean, rlen, zlen. rewrite (F2_length Hl).
    apply Rmult_le_compat_r; [|exact (rsum_up _ _ Hl)]. left. apply Rinv_0_lt_compat. apply IZR_lt. cbn [length]. lia.
  - destruct (C21_ewm d ops Hd) as (A & _). destruct (C21_ewm d ops' Hd) as (B & _). rewrite A, B. destruct (hist ops) as [|x l] eqn:E; [contradiction|]. destruct (hist ops') as [|x' l'] eqn:E'; [inversion Hh|].
    cbn [ewma_of]. eexists. eexists. split; [reflexivity|]. split; [reflexivity|]. exact (ewma_up d _ _ Hd Hh).
Qed.
Print Assumptions C90_mean_exact_partial.

(** In float64 neither Mean nor EWMA keeps the order: raising one value by one unit in the last place can lower the result; and HeapMedian with a window can lose the wrong value (C18). *)
Theorem C90_float_refuted : exists ops ops' e e' d, raised fup ops ops' /\ raised fup e e' /\ decay_ok d /\ Forall in22 (hist ops ++ hist ops' ++ hist e ++ hist e') /\
  (exists a a', (m <- m_run FN (KMean 0) ops ;; m_value FN m) = Ok a /\ (m <- m_run FN (KMean 0) ops' ;; m_value FN m) = Ok a' /\ flt a' a = true) /\
  (exists b b', (m <- m_run FN (KEwma d) e ;; m_value FN m) = Ok b /\ (m <- m_run FN (KEwma d) e' ;; m_value FN m) = Ok b' /\ flt b' b = true).
Proof.
  exists (map OPush [fdy 6195526582907739 (-52); fdy 6814478870972586 (-49)]), (map OPush [fdy 6195526582907740 (-52); fdy 6814478870972586 (-49)]), (map OPush [fz 0; fz 2; fz 9]), (map OPush [fz 0; fdy 4503599627370497 (-51); fz 9]), (fdy 8106479329266893 (-53)).
  split; [repeat constructor; vm_compute; reflexivity|]. split; [repeat constructor; vm_compute; reflexivity|]. split; [split; vm_compute; reflexivity|]. split; [apply Forall_in22b; vm_compute; reflexivity|].
  split; apply both_lt; vm_compute; reflexivity.
Qed.
Print Assumptions C90_float_refuted.
Theorem C90_heap_median_window_refuted : exists w ops ops' r r', 0 < w /\ raised fup ops ops' /\ Forall in22 (hist ops ++ hist ops') /\
  (m <- hm_run w ops ;; hm_value m) = Ok r /\ (m <- hm_run w ops' ;; hm_value m) = Ok r' /\ flt r' r = true.
Proof.
  destruct (both_lt (m <- hm_run 2 (hm_ops [2; 2; 0; 0]) ;; hm_value m) (m <- hm_run 2 (hm_ops [2; 5; 0; 0]) ;; hm_value m)) as (r & r' & A & B & C); [vm_compute; reflexivity|].
  exists 2, (hm_ops [2; 2; 0; 0]), (hm_ops [2; 5; 0; 0]), r, r'. split; [lia|]. split; [repeat constructor; vm_compute; reflexivity|]. split; [apply Forall_in22b; vm_compute; reflexivity|]. split; [exact A|]. split; [exact B|exact C].
Qed.
Print Assumptions C90_heap_median_window_refuted.

(** Window 3, values 5 1 4 2 against 5 1 6 2: the quantiles at 0.75 are 3 and 4, Min 1 and 1, Max 4 and 6; HeapMedian without a window 3 and 3.5. *)
Example C90_case : raised fup (hm_ops [5; 1; 4; 2]) (hm_ops [5; 1; 6; 2]) /\ Forall in22 (hist (hm_ops [5; 1; 4; 2]) ++ hist (hm_ops [5; 1; 6; 2])) /\ impl_cond (chosen_impl []) 3 (hm_ops [5; 1; 4; 2]) /\ impl_cond (chosen_impl []) 3 (hm_ops [5; 1; 6; 2]) /\
  map (fun l => rmap fbits (m <- min_run 3 (hm_ops l) ;; min_value m)) [[5; 1; 4; 2]; [5; 1; 6; 2]] = [Ok (fbits (fz 1)); Ok (fbits (fz 1))] /\
  map (fun l => rmap fbits (m <- max_run 3 (hm_ops l) ;; max_value m)) [[5; 1; 4; 2]; [5; 1; 6; 2]] = [Ok (fbits (fz 4)); Ok (fbits (fz 6))] /\
  map (fun l => rmap fbits (q <- q_run env0 3 [] (hm_ops l) ;; q_value env0 q (fdy 3 (-2)))) [[5; 1; 4; 2]; [5; 1; 6; 2]] = [Ok (fbits (fz 3)); Ok (fbits (fz 4))] /\
  map (fun l => rmap fbits (m <- hm_run 0 (hm_ops l) ;; hm_value m)) [[5; 1; 4; 2]; [5; 1; 6; 2]] = [Ok (fbits (fz 3)); Ok (fbits (fdy 7 (-1)))].
Proof. split; [repeat constructor; vm_compute; reflexivity|]. split; [apply Forall_in22b; vm_compute; reflexivity|]. do 2 (split; [left; reflexivity|]). repeat split; vm_compute; reflexivity. Qed.
Example C90_exact_case : raised Rle [OPush 1%R; OClear; OPush 2%R] [OPush 3%R; OClear; OPush 2%R].
Proof. repeat constructor; lra. Qed.
