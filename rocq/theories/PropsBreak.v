(** C97: a few wrong values cannot move a quantile, or IQR, out of the range of the others. *)
From Coq Require Import ZArith Lia Bool Reals Lra List.
From Flocq Require Import Core BinarySingleNaN.
From Verif Require Import Base F64 FloatR FloatMean HistSpec RingModel NumModel OrderSpec MinMaxModel QuantileSpec QuantileModel QuantileProof QuantOrder QuantAcc HeapModel PropsMinMax PropsQuantile PropsQuantOrder PropsHeap PropsMono PropsRobust PropsStable.
Import ListNotations.
Local Open Scope Z_scope.

(** How many values are below [lo], and above [hi] *)
Definition below (lo : f64) (l : list f64) : nat := length (filter (fun x => flt x lo) l).
Definition above (hi : f64) (l : list f64) : nat := length (filter (fun x => flt hi x) l).

Lemma above_count hi l : Forall nonnan l -> nonnan hi -> (length l = count_le hi l + above hi l)%nat.
Proof.
  intros H Nh. unfold count_le, above. induction H as [|x l Nx _ IH]; cbn [filter length]; [reflexivity|]. rewrite fle_key, flt_key by assumption. destruct (Z.leb_spec (fk x) (fk hi)); destruct (Z.ltb_spec (fk hi) (fk x)); cbn [length]; lia.
Qed.
Lemma mid_inside lo hi a b : in22 lo -> in22 hi -> in22 a -> in22 b -> (B2R lo <= B2R a <= B2R hi -> B2R lo <= B2R b <= B2R hi -> is_finite (fdiv (fadd a b) (fz 2)) = true /\ B2R lo <= B2R (fdiv (fadd a b) (fz 2)) <= B2R hi)%R.
Proof.
  intros Sl Sh Sa Sb Ha Hb. destruct (mid_real a b Sa Sb) as [F X]. split; [exact F|]. destruct (mid_between lo lo Sl Sl ltac:(lra)) as [_ Y]. destruct (mid_between hi hi Sh Sh ltac:(lra)) as [_ Z]. cbv zeta in Y, Z. destruct (mid_real lo lo Sl Sl) as [_ Y']. destruct (mid_real hi hi Sh Sh) as [_ Z']. rewrite X. rewrite Y' in Y. rewrite Z' in Z.
  assert (A1 : (rnd (B2R lo + B2R lo) <= rnd (B2R a + B2R b))%R) by (apply rnd_le; lra). assert (A2 : (rnd (B2R a + B2R b) <= rnd (B2R hi + B2R hi))%R) by (apply rnd_le; lra).
  assert (A3 : (rnd (rnd (B2R lo + B2R lo) / 2) <= rnd (rnd (B2R a + B2R b) / 2))%R) by (apply rnd_le; lra). assert (A4 : (rnd (rnd (B2R a + B2R b) / 2) <= rnd (rnd (B2R hi + B2R hi) / 2))%R) by (apply rnd_le; lra). lra.
Qed.
Lemma result_inside mode l phi r lo hi : Forall nonnan l -> l <> [] -> zlen l <= 2 ^ 53 -> nonnan phi -> in_range phi = true -> mode = 1 \/ mode = 2 \/ mode = 3 \/ mode = 4 -> in22 lo -> in22 hi ->
  (INR (below lo l) <= B2R phi * IZR (zlen l - 1))%R -> (INR (above hi l) <= (1 - B2R phi) * IZR (zlen l - 1))%R -> quantile_result mode l phi r -> in22 r /\ (B2R lo <= B2R r <= B2R hi)%R.
Proof.
  intros H Hl Hz Np Hr Hm Sl Sh Cb Ca Q. pose proof (fin_nonnan lo (proj1 Sl)) as Nl. pose proof (fin_nonnan hi (proj1 Sh)) as Nh. pose proof (above_count hi l H Nh) as Ac. change (below lo l) with (count_lt lo l) in Cb.
  assert (Hz1 : 1 <= zlen l) by (destruct l; [congruence|unfold zlen; cbn [length]; lia]). destruct (fz_exact (zlen l - 1) ltac:(lia)) as [Fn Rn].
  destruct (phi_range phi Np) as [Fp Rp]; [rewrite (range_neg phi Np); unfold in_range in Hr; rewrite Hr; reflexivity|]. assert (HN : (0 <= IZR (zlen l - 1))%R) by (apply IZR_le; lia).
  assert (Ht : (0 <= B2R phi * IZR (zlen l - 1) <= IZR (zlen l - 1))%R) by nra.
  destruct (fmul_fin phi (fz (zlen l - 1)) (zlen l - 1) Fp Fn) as [Fr Rr]; [rewrite Rn, Rabs_pos_eq; lra|lia|]. rewrite Rn in Rr.
  unfold quantile_result in Q. cbv zeta in Q. set (t := B2R (fmul phi (fz (zlen l - 1)))) in *. assert (Le : zlen l = Z.of_nat (length l)) by reflexivity. rewrite INR_IZR_INZ in Cb, Ca.
  assert (T1 : (IZR (Z.of_nat (count_lt lo l)) <= t)%R) by (rewrite Rr; apply rnd_above; [apply fmt_IZR; pose proof (majority_count lo lo l H Nl Nl); lia|exact Cb]).
  assert (T2 : (t <= IZR (zlen l - 1 - Z.of_nat (above hi l)))%R) by (rewrite Rr; apply rnd_below; [apply fmt_IZR; lia|rewrite (minus_IZR (zlen l - 1)); lra]).
  assert (In : forall k u, is_kth l k u -> (count_lt lo l <= k)%nat -> (k < count_le hi l)%nat -> in22 u /\ (B2R lo <= B2R u <= B2R hi)%R).
  { intros k u K K1 K2. pose proof (kth_inside lo hi l k u H Nl Nh K (conj K1 K2)) as B. pose proof (between_in22 lo hi u Sl Sh (proj1 K) B) as Su. split; [exact Su|]. split; (apply key_fin_le; [first [apply Sl|apply Su]|first [apply Su|apply Sh]|lia]). }
  destruct Q as (i & Hi & Q). rewrite INR_IZR_INZ in Hi, Q. assert (I1 : (count_lt lo l <= i)%nat). { assert (Z.of_nat (count_lt lo l) < Z.of_nat i + 1); [apply lt_IZR; rewrite plus_IZR; lra|lia]. }
  destruct Q as [[E K]|(E & a & b & d & Ka & Kb & _ & _ & Q)].
  - apply (In i r K I1). assert (Z.of_nat i <= zlen l - 1 - Z.of_nat (above hi l)) by (apply le_IZR; lra). lia.
  - assert (I2 : Z.of_nat i < zlen l - 1 - Z.of_nat (above hi l)) by (apply lt_IZR; lra). destruct (In i a Ka I1 ltac:(lia)) as [Sa Ba]. destruct (In (Datatypes.S i) b Kb ltac:(lia) ltac:(lia)) as [Sb Bb].
    destruct Q as [[M _]|[[_ ->]|[[_ ->]|[(_ & A1 & A2 & A3)|[_ ->]]]]]; [lia|split; assumption|split; assumption| |].
    + destruct (Rtotal_order (t - IZR (Z.of_nat i)) (/ 2)) as [T|[T|T]]; [rewrite (A1 T); split; assumption| |rewrite (A2 T); split; assumption].
      destruct (A3 T) as [A4 A5]. destruct (Nat.Even_or_Odd i) as [P|P]; [rewrite (A4 P)|rewrite (A5 P)]; split; assumption.
    + destruct (mid_inside lo hi a b Sl Sh Sa Sb Ba Bb) as [F B]. split; [|exact B]. split; [exact F|]. destruct Sl as [_ Bl]. destruct Sh as [_ Bh]. apply Rabs_le. apply Rabs_le_inv in Bl. apply Rabs_le_inv in Bh. lra.
Qed.

(** ** C97 *)
(** Quantile in the modes lower, higher, nearest and midpoint, under the storage conditions of C11. The other values may be infinite. *)
Theorem C97_quantile_partial : forall e w os ops phi lo hi, 0 <= w -> Forall qopt_num os -> Forall qopt_valid os -> pushes_nonnan ops -> impl_cond (chosen_impl os) w ops -> nonnan phi -> in_range phi = true ->
  let l := live w (hist ops) in l <> [] -> zlen l <= 2 ^ 53 -> chosen_interp os = 1 \/ chosen_interp os = 2 \/ chosen_interp os = 3 \/ chosen_interp os = 4 -> in22 lo -> in22 hi ->
  (INR (below lo l) <= B2R phi * IZR (zlen l - 1))%R -> (INR (above hi l) <= (1 - B2R phi) * IZR (zlen l - 1))%R ->
  exists q r, q_run e w os ops = Ok q /\ q_value e q phi = Ok r /\ isfin r = true /\ (B2R lo <= B2R r <= B2R hi)%R.
Proof.
  intros e w os ops phi lo hi Hw Hn Hv Hp Hi Np Hr l Hl Hz Hm Sl Sh Cb Ca. destruct (quantile_ok e w os ops phi Hw Hn Hv Hp Hi Np Hr Hl Hz) as (q & r & E & Er & Q). exists q, r. split; [exact E|]. split; [exact Er|].
  destruct (result_inside _ _ phi r lo hi (pushes_live w ops Hp) Hl Hz Np Hr Hm Sl Sh Cb Ca Q) as [[F _] B]. split; [exact F|exact B].
Qed.
Print Assumptions C97_quantile_partial.
(** IQR: with fewer than a quarter of the values below lo, and fewer than a quarter above hi, it is at most hi - lo, as computed in float64. *)
Theorem C97_iqr_partial : forall e w os ops lo hi, 0 <= w -> Forall qopt_num os -> Forall qopt_valid os -> pushes_nonnan ops -> impl_cond (chosen_impl os) w ops ->
  let l := live w (hist ops) in l <> [] -> zlen l <= 2 ^ 53 -> in22 lo -> in22 hi -> (4 * below lo l < length l)%nat -> (4 * above hi l < length l)%nat ->
  exists q r, iqr_run e w os ops = Ok q /\ iqr_value e q = Ok r /\ fle r (fsub hi lo) = true.
Proof.
  intros e w os ops lo hi Hw Hn Hv Hp Hi l Hl Hz Sl Sh Cb Ca. destruct (C13_iqr_partial e w os ops Hw Hn Hv Hp Hi) as (q & E & _ & V). destruct (V Hl Hz) as (x & y & Er & Qx & Qy). exists q, (fsub y x). split; [exact E|]. split; [exact Er|].
  assert (N1 : nonnan (fdy 1 (-2))) by (vm_compute; reflexivity). assert (N2 : nonnan (fdy 3 (-2))) by (vm_compute; reflexivity). assert (R1 : in_range (fdy 1 (-2)) = true) by (vm_compute; reflexivity). assert (R2 : in_range (fdy 3 (-2)) = true) by (vm_compute; reflexivity).
  assert (B1 : B2R (fdy 1 (-2)) = (1 / 4)%R) by (destruct (fdy_exact 1 (-2) ltac:(lia) ltac:(lia)) as (_ & -> & _); unfold F2R; cbn; lra).
  assert (B3 : B2R (fdy 3 (-2)) = (3 / 4)%R) by (destruct (fdy_exact 3 (-2) ltac:(lia) ltac:(lia)) as (_ & -> & _); unfold F2R; cbn; lra).
  assert (L : forall k, (4 * k < length l)%nat -> (4 * INR k <= IZR (zlen l - 1))%R) by (intros k Hk; rewrite INR_IZR_INZ, <- mult_IZR; apply IZR_le; unfold zlen; lia). apply L in Cb. apply L in Ca. pose proof (pos_INR (below lo l)) as P1. pose proof (pos_INR (above hi l)) as P2.
  destruct (result_inside 4 l (fdy 1 (-2)) x lo hi (pushes_live w ops Hp) Hl Hz N1 R1 ltac:(lia) Sl Sh ltac:(rewrite B1; lra) ltac:(rewrite B1; lra) Qx) as [[Fx Bx] Ix].
  destruct (result_inside 4 l (fdy 3 (-2)) y lo hi (pushes_live w ops Hp) Hl Hz N2 R2 ltac:(lia) Sl Sh ltac:(rewrite B3; lra) ltac:(rewrite B3; lra) Qy) as [[Fy By] Iy]. destruct Sl as [Fl Bl]. destruct Sh as [Fh Bh].
  assert (P : (2 * bpow radix2 1022 = bpow radix2 1023)%R) by (change 1023 with (1 + 1022); rewrite bpow_plus; reflexivity). apply Rabs_le_inv in Bl. apply Rabs_le_inv in Bh. apply Rabs_le_inv in Bx. apply Rabs_le_inv in By.
  destruct (PowFloat.fsub_b y x 1023 Fy Fx ltac:(lia)) as [Fs Rs]; [apply Rabs_le; lra|]. destruct (PowFloat.fsub_b hi lo 1023 Fh Fl ltac:(lia)) as [Fd Rd]; [apply Rabs_le; lra|]. apply fle_R; [exact Fs|exact Fd|]. rewrite Rs, Rd. apply rnd_le. lra.
Qed.
Print Assumptions C97_iqr_partial.
(** In particular IQR is at most Max - Min with the same window. *)
Theorem C97_iqr_range_partial : forall e w os ops, 0 <= w -> Forall qopt_num os -> Forall qopt_valid os -> pushes_nonnan ops -> impl_cond (chosen_impl os) w ops ->
  let l := live w (hist ops) in l <> [] -> zlen l <= 2 ^ 53 -> Forall in22 l ->
  exists q r m n a b, iqr_run e w os ops = Ok q /\ iqr_value e q = Ok r /\ min_run w ops = Ok m /\ min_value m = Ok a /\ max_run w ops = Ok n /\ max_value n = Ok b /\ fle (fz 0) r = true /\ fle r (fsub b a) = true.
Proof.
  intros e w os ops Hw Hn Hv Hp Hi l Hl Hz H. pose proof (pushes_live w ops Hp) as Nl. fold l in Nl. pose proof (pushes_live 0 ops Hp) as Nh. change (Forall nonnan (hist ops)) in Nh. assert (Hh : hist ops <> []) by (intros X; apply Hl; unfold l; rewrite X; destruct w; reflexivity).
  destruct (C01_min_is_window_minimum w ops Hw Nh) as (m & Em & _ & Vm). destruct (C02_max_is_window_maximum w ops Hw Nh) as (n & En & _ & Vn). destruct (Vm Hh) as (a & Ea & Ia & La). destruct (Vn Hh) as (b & Eb & Ib & Lb). fold l in Ia, La, Ib, Lb.
  pose proof (proj1 (Forall_forall _ _) H) as HF. pose proof (proj1 (Forall_forall _ _) Nl) as NF. assert (Len : (0 < length l)%nat) by (destruct l; [congruence|cbn; lia]).
  assert (A0 : below a l = 0%nat). { unfold below. clear - La Ia NF. assert (G : forall k, (forall x, In x k -> fle a x = true /\ nonnan x) -> length (filter (fun x => flt x a) k) = 0%nat); [|apply G; intros x Hx; split; [apply La, Hx|apply NF, Hx]]. intros k. pose proof (NF a Ia) as Na. induction k as [|x k IH]; intros G; [reflexivity|]. cbn [filter]. destruct (G x (or_introl eq_refl)) as [L Nx]. rewrite fle_key in L by assumption. rewrite flt_key by assumption. apply Z.leb_le in L. destruct (Z.ltb_spec (fk x) (fk a)); [lia|]. apply IH. intros y Hy. apply G. right. exact Hy. }
  assert (B0 : above b l = 0%nat). { unfold above. clear - Lb Ib NF. assert (G : forall k, (forall x, In x k -> fle x b = true /\ nonnan x) -> length (filter (fun x => flt b x) k) = 0%nat); [|apply G; intros x Hx; split; [apply Lb, Hx|apply NF, Hx]]. intros k. pose proof (NF b Ib) as Na. induction k as [|x k IH]; intros G; [reflexivity|]. cbn [filter]. destruct (G x (or_introl eq_refl)) as [L Nx]. rewrite fle_key in L by assumption. rewrite flt_key by assumption. apply Z.leb_le in L. destruct (Z.ltb_spec (fk b) (fk x)); [lia|]. apply IH. intros y Hy. apply G. right. exact Hy. }
  destruct (C97_iqr_partial e w os ops a b Hw Hn Hv Hp Hi Hl Hz (HF a Ia) (HF b Ib)) as (q & r & E & Er & L); [fold l; lia|fold l; lia|]. destruct (C56_iqr_partial e w os ops Hw Hn Hv Hp Hi Hl Hz HF) as (q' & r' & E' & Er' & L'). assert (q' = q) by congruence. subst q'. assert (r' = r) by congruence. subst r'.
  exists q, r, m, n, a, b. repeat (split; [assumption|]). exact L.
Qed.
Print Assumptions C97_iqr_range_partial.
(** A quarter of the values is enough to move IQR: of 0, 0, 0, 100 it is 50. *)
Theorem C97_iqr_quarter_refuted : forall e, exists ops lo hi q r, pushes_nonnan ops /\ in22 lo /\ in22 hi /\ (4 * above hi (hist ops) = length (hist ops))%nat /\ below lo (hist ops) = 0%nat /\
  iqr_run e 0 [] ops = Ok q /\ iqr_value e q = Ok r /\ flt (fsub hi lo) r = true.
Proof.
  intros e. assert (S0 : in22 (fz 0)) by (assert (X : Forall in22 [fz 0]) by (apply Forall_in22b; vm_compute; reflexivity); inversion X; assumption).
  destruct (C13_iqr_partial e 0 [] (hm_ops [0; 0; 0; 100]) ltac:(lia) ltac:(constructor) ltac:(constructor) (hm_ops_num [0; 0; 0; 100] ltac:(repeat constructor)) ltac:(left; reflexivity)) as (q & E & _ & V).
  assert (G : (match (q <- iqr_run e 0 [] (hm_ops [0; 0; 0; 100]) ;; iqr_value e q) with Ok r => flt (fsub (fz 0) (fz 0)) r | _ => false end) = true) by (vm_compute; reflexivity).
  rewrite E in G. cbn [bind] in G. destruct (iqr_value e q) as [r| | | |] eqn:Er; try discriminate. exists (hm_ops [0; 0; 0; 100]), (fz 0), (fz 0), q, r. split; [exact (hm_ops_num [0; 0; 0; 100] ltac:(repeat constructor))|]. split; [exact S0|]. split; [exact S0|]. split; [vm_compute; reflexivity|]. split; [vm_compute; reflexivity|]. auto.
Qed.
Print Assumptions C97_iqr_quarter_refuted.
(** Window 5, values 8 1 2 3 4 -1000: live 1 2 3 4 -1000, one below 1. IQR is 2, at most 4 - 1. *)
Example C97_case : pushes_nonnan (hm_ops [8; 1; 2; 3; 4; -1000]) /\ impl_cond (chosen_impl []) 5 (hm_ops [8; 1; 2; 3; 4; -1000]) /\ Forall in22 [fz 1; fz 4] /\ below (fz 1) (live 5 (hist (hm_ops [8; 1; 2; 3; 4; -1000]))) = 1%nat /\ above (fz 4) (live 5 (hist (hm_ops [8; 1; 2; 3; 4; -1000]))) = 0%nat /\
  length (live 5 (hist (hm_ops [8; 1; 2; 3; 4; -1000]))) = 5%nat /\ rmap fbits (q <- iqr_run env0 5 [] (hm_ops [8; 1; 2; 3; 4; -1000]) ;; iqr_value env0 q) = Ok (fbits (fz 2)).
Proof.
  split; [exact (hm_ops_num [8; 1; 2; 3; 4; -1000] ltac:(repeat constructor))|]. split; [left; reflexivity|]. split; [apply Forall_in22b; vm_compute; reflexivity|]. repeat split; vm_compute; reflexivity.
Qed.
