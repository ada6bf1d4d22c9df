(** C96: the range bounds the standard deviation on both sides, and no value is far from the mean in standard deviations. *)
From Coq Require Import ZArith Lia Bool Reals Lra List.
From Flocq Require Import Core BinarySingleNaN.
From Verif Require Import Base F64 FloatR FloatMean FloatErr HistSpec RingModel NumModel OrderSpec MinMaxModel MomentModel MomentSpec RealLib IneqProof JointValue MetricProof HeapModel PropsMinMax PropsMoment PropsHeap PropsMono PropsStable PropsBest.
Import ListNotations.
Local Open Scope R_scope.

Lemma sum_sq (f : R -> R) l : rsum (map f l) ^ 2 <= rlen l * rsum (map (fun x => f x ^ 2) l).
Proof.
  induction l as [|x l IH]; [unfold rsum, rlen, zlen; cbn; lra|]. cbn [map]. rewrite !rsum_cons, rlen_consB. set (u := f x).
  destruct l as [|y l]; [unfold rsum, rlen, zlen; cbn; nra|]. pose proof (rlen_pos (y :: l) ltac:(discriminate)) as P. set (A := rsum (map f (y :: l))) in *. set (Q := rsum (map (fun x => f x ^ 2) (y :: l))) in *. set (n := rlen (y :: l)) in *.
  assert (2 * u * A <= n * u ^ 2 + Q). { apply (Rmult_le_reg_l n); [exact P|]. pose proof (pow2_ge_0 (n * u - A)). nra. } nra.
Qed.
Lemma sq_shift c l : l <> [] -> csum 2 l <= rsum (map (fun x => (x - c) ^ 2) l).
Proof.
  intros Hl. unfold csum. assert (G : forall c, rsum (map (fun x => (x - c) ^ 2) l) = rsum (map (fun x => x * x) l) - 2 * c * rsum l + rlen l * (c * c)).
  { clear. intros c. induction l as [|x l IH]; [unfold rsum, rlen, zlen; cbn; ring|]. cbn [map]. rewrite !rsum_cons, rlen_consB, IH. ring. }
  rewrite !G. pose proof (rlen_pos l Hl) as P. rewrite (rsum_mean l Hl). pose proof (pow2_ge_0 (c - rmean l)). nra.
Qed.
Lemma range_upper a b l : l <> [] -> (forall x, In x l -> a <= x <= b) -> 4 * csum 2 l <= rlen l * (b - a) ^ 2.
Proof.
  intros Hl H. pose proof (sq_shift ((a + b) / 2) l Hl) as A. assert (B : 4 * rsum (map (fun x => (x - (a + b) / 2) ^ 2) l) <= rlen l * (b - a) ^ 2); [|lra]. clear A Hl.
  induction l as [|x l IH]; [unfold rsum, rlen, zlen; cbn; lra|]. cbn [map]. rewrite rsum_cons, rlen_consB. specialize (IH (fun y Hy => H y (or_intror Hy))). destruct (H x (or_introl eq_refl)). assert (4 * (x - (a + b) / 2) ^ 2 <= (b - a) ^ 2) by nra. lra.
Qed.
Lemma sum_pick (f : R -> R) l x : (forall y, 0 <= f y) -> In x l -> f x <= rsum (map f l).
Proof.
  intros F. induction l as [|y l IH]; [intros []|]. cbn [map]. rewrite rsum_cons. intros [->|H].
  - assert (0 <= rsum (map f l)); [|lra]. clear - F. induction l as [|y l IH]; [unfold rsum; cbn; lra|]. cbn [map]. rewrite rsum_cons. specialize (F y). lra.
  - specialize (IH H). specialize (F y). lra.
Qed.
Lemma sum_pick2 (f : R -> R) l a b : (forall y, 0 <= f y) -> In a l -> In b l -> a <> b -> f a + f b <= rsum (map f l).
Proof.
  intros F. induction l as [|y l IH]; [intros []|]. cbn [map]. rewrite rsum_cons. intros [->|Ha] [Hb|Hb] N; [congruence| | |].
  - pose proof (sum_pick f l b F Hb). lra.
  - subst y. pose proof (sum_pick f l a F Ha). lra.
  - specialize (IH Ha Hb N). specialize (F y). lra.
Qed.
Lemma range_lower a b l : In a l -> In b l -> (b - a) ^ 2 <= 2 * csum 2 l.
Proof.
  intros Ha Hb. assert (F : forall y, 0 <= (y - rmean l) ^ 2) by (intros; apply pow2_ge_0). destruct (Req_dec a b) as [->|N].
  - pose proof (sum_pick _ l b F Hb) as A. cbv beta in A. fold (csum 2 l) in A. specialize (F b). nra.
  - pose proof (sum_pick2 _ l a b F Ha Hb N) as A. cbv beta in A. fold (csum 2 l) in A. pose proof (pow2_ge_0 ((a - rmean l) + (b - rmean l))). nra.
Qed.
Lemma samuelson x l : In x l -> rlen l * (x - rmean l) ^ 2 <= (rlen l - 1) * csum 2 l.
Proof.
  intros H. assert (Hl : l <> []) by (intros ->; destruct H). pose proof (csum_1 l Hl) as C1. unfold csum in *. set (m := rmean l) in *. clearbody m. apply in_split in H as (l1 & l2 & ->).
  rewrite map_app, rsum_app in C1 |- *. cbn [map] in C1 |- *. rewrite rsum_cons in C1 |- *. pose proof (sum_sq (fun y => y - m) (l1 ++ l2)) as A. rewrite !map_app, !rsum_app in A.
  assert (E : rlen (l1 ++ x :: l2) = rlen (l1 ++ l2) + 1) by (rewrite <- (rlen_consB x); unfold rlen, zlen; cbn [length]; rewrite !app_length; cbn [length]; do 2 f_equal; lia). rewrite E.
  set (n := rlen (l1 ++ l2)) in *. set (S1 := rsum (map (fun y => y - m) l1)) in *. set (S2 := rsum (map (fun y => y - m) l2)) in *. rewrite (rsum_ext (fun y => (y - m) ^ 1) (fun y => y - m)) in C1 by (intros; ring). rewrite (rsum_ext (fun y => (y - m) ^ 1) (fun y => y - m)) in C1 by (intros; ring). fold S1 S2 in C1.
  assert (S1 + S2 = - (x - m)) by lra. rewrite H in A. replace ((- (x - m)) ^ 2) with ((x - m) ^ 2) in A by ring. lra.
Qed.

(** ** C96 *)
(** Min and Max in float64, Mean and Std in exact arithmetic; N values are live. *)
Theorem C96_range_partial : forall w ops, (0 <= w)%Z -> Forall (fun x => isfin x = true) (hist ops) -> let l := live w (hist ops) in (2 <= length l)%nat -> let N := IZR (zlen l) in
  exists m n a b mu s, min_run w ops = Ok m /\ max_run w ops = Ok n /\ min_value m = Ok a /\ max_value n = Ok b /\ mval (KMean w) (reals ops) = Ok (Fin mu) /\ mval (KStd w) (reals ops) = Ok (Fin s) /\ 0 <= s /\
    (B2R b - B2R a) ^ 2 <= 2 * (N - 1) * s ^ 2 /\ 4 * (N - 1) * s ^ 2 <= N * (B2R b - B2R a) ^ 2 /\
    forall x, In x l -> N * (B2R x - mu) ^ 2 <= (N - 1) ^ 2 * s ^ 2.
Proof.
  intros w ops Hw H l Hn N. assert (Nn : Forall nonnan (hist ops)) by (eapply Forall_impl; [|exact H]; intros x Fx; apply fin_nonnan; exact Fx).
  assert (Hh : hist ops <> []) by (intros E; unfold l in Hn; rewrite E in Hn; destruct w; cbn in Hn; lia).
  assert (Fl : forall x, In x l -> isfin x = true) by (intros x Hx; rewrite Forall_forall in H; apply H; exact (live_incl w _ x Hx)).
  destruct (C01_min_is_window_minimum w ops Hw Nn) as (m & Em & _ & Vm). destruct (C02_max_is_window_maximum w ops Hw Nn) as (n & En & _ & Vn). destruct (Vm Hh) as (a & Ea & Ia & La). destruct (Vn Hh) as (b & Eb & Ib & Lb). fold l in Ia, La, Ib, Lb.
  destruct (C20_moment_metrics w (reals ops) Hw) as (A & _ & B & _). rewrite live_reals in A, B. fold l in A, B. set (L := rl l) in *.
  assert (EN : rlen L = N) by (unfold rlen, zlen, N, L, rl; rewrite map_length; reflexivity). assert (PN : 2 <= N) by (unfold N, zlen; apply IZR_le; lia). assert (HL : L <> []) by (unfold L; destruct l; [cbn in Hn; lia|discriminate]).
  assert (Q : sqrt (sample_moment 2 L) ^ 2 * (N - 1) = csum 2 L).
  { assert (0 <= sample_moment 2 L). { unfold sample_moment. apply Rmult_le_pos; [unfold csum; apply rsum_nonneg; intros; apply pow2_ge_0|]. left. apply Rinv_0_lt_compat. lra. }
    rewrite pow2_sqrt by assumption. unfold sample_moment. rewrite EN. field. lra. }
  exists m, n, a, b, (rmean L), (sqrt (sample_moment 2 L)). do 4 (split; [assumption|]). split; [rewrite A; destruct L; [congruence|reflexivity]|]. split; [rewrite B; unfold L; destruct l as [|? [|? ?]]; cbn [length] in Hn; [lia|lia|reflexivity]|]. split; [apply sqrt_pos|].
  assert (IR : forall x, In x l -> In (B2R x) L) by (intros x Hx; apply (in_map (fun x : f64 => B2R x)); exact Hx). split; [|split].
  - pose proof (range_lower _ _ L (IR a Ia) (IR b Ib)). lra.
  - assert (U : forall x, In x L -> B2R a <= x <= B2R b). { intros x Hx. apply in_map_iff in Hx as (y & <- & Hy). split; apply fle_B; auto. apply Lb. exact Hy. }
    pose proof (range_upper _ _ L HL U) as R. rewrite EN in R. lra.
  - intros x Hx. pose proof (samuelson (B2R x) L (IR x Hx)) as R. rewrite EN, <- Q in R. eapply Rle_trans; [exact R|]. right. ring.
Qed.
Print Assumptions C96_range_partial.
(** None of the three can be improved: for two different values all are equalities. *)
Theorem C96_sharp : forall x y : R, let ops := [OPush x; OPush y] in exists mu s, mval (KMean 0) ops = Ok (Fin mu) /\ mval (KStd 0) ops = Ok (Fin s) /\
  (y - x) ^ 2 = 2 * (2 - 1) * s ^ 2 /\ 4 * (2 - 1) * s ^ 2 = 2 * (y - x) ^ 2 /\ 2 * (x - mu) ^ 2 = (2 - 1) ^ 2 * s ^ 2.
Proof.
  intros x y ops. destruct (C20_moment_metrics 0 ops ltac:(lia)) as (A & _ & B & _). change (live 0 (hist ops)) with [x; y] in A, B. exists (rmean [x; y]), (sqrt (sample_moment 2 [x; y])). split; [exact A|]. split; [exact B|].
  assert (E : sample_moment 2 [x; y] = (y - x) ^ 2 / 2) by (unfold sample_moment, csum, rmean, rlen, zlen, rsum; cbn; field). rewrite E, pow2_sqrt by (pose proof (pow2_ge_0 (y - x)); lra). unfold rmean, rlen, zlen, rsum. cbn. repeat split; field.
Qed.
Print Assumptions C96_sharp.
(** Window 3, values 7 1 2 9: live 1 2 9, Min 1, Max 9, Mean 4, Std^2 19: 64 <= 76, 152 <= 192, 75 <= 76. *)
Example C96_case : Forall in22 (hist (hm_ops [7; 1; 2; 9]%Z)) /\ length (live 3 (hist (hm_ops [7; 1; 2; 9]%Z))) = 3%nat /\
  rmap fbits (m <- min_run 3 (hm_ops [7; 1; 2; 9]%Z) ;; min_value m) = Ok (fbits (fz 1)) /\ rmap fbits (m <- max_run 3 (hm_ops [7; 1; 2; 9]%Z) ;; max_value m) = Ok (fbits (fz 9)) /\ rmean [1; 2; 9] = 4 /\ sample_moment 2 [1; 2; 9] = 19.
Proof.
  split; [apply Forall_in22b; vm_compute; reflexivity|]. split; [reflexivity|]. split; [vm_compute; reflexivity|]. split; [vm_compute; reflexivity|]. split; [unfold rmean, rlen, zlen, rsum; cbn; field|]. unfold sample_moment, csum, rmean, rlen, zlen, rsum. cbn. field.
Qed.
