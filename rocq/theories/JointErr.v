(** Rounding errors of the sums kept by the core of a Corr (and so of a Cov), with or without a window. *)
From Coq Require Import ZArith Lia Bool Reals Lra Psatz List.
From Flocq Require Import Core Relative BinarySingleNaN.
From Verif Require Import Base F64 FloatR HistSpec RingModel MathModel NumModel MomentModel MomentSpec RealLib MomentProof PowFloat StdFloat CoreInv FloatErr JointModel JointSpec JointValue JointShare.
Import ListNotations.

(** ** What the updates compute, in any arithmetic *)
Section Shape.
Local Open Scope Z_scope.
Context {T : Type} (N : Num T).
Local Notation "x ⊕ y" := (nadd N x y) (at level 50, left associativity).
Local Notation "x ⊖ y" := (nsub N x y) (at level 50, left associativity).
Local Notation "x ⊗ y" := (nmul N x y) (at level 40, left associativity).
Local Notation "x ⊘ y" := (ndiv N x y) (at level 40, left associativity).
Local Notation "# z" := (nz N z) (at level 5, format "# z").
Local Notation g := (hget N).
Local Notation o := #0.
Definition pw (dx dy : T) (i j : nat) : T := #1 ⊗ npow N dx i ⊗ npow N dy j.
(** The contribution of a point to a sum of degree one, to one of degree two, and the mixed ones; [a] and [b] are the
    counts without and with the point. *)
Definition one (a b dp : T) : T := (a ⊘ npow N b 1 ⊗ (npow N a 0 ⊕ #(-1))) ⊗ dp.
Definition sq (a b dp : T) : T := (a ⊘ npow N b 2 ⊗ (npow N a 1 ⊕ #1)) ⊗ dp.
Definition mixed (k : Z) (b dp s : T) : T := #k ⊘ npow N b 1 ⊗ dp ⊗ s.

Lemma add6 (b dx dy : T) (s new : @hmap T) : let a := b ⊖ #1 in let p := pw dx dy in
  exists m, upd_tuples N (add_term N b [dx; dy] s) true corr_sums new = Ok m /\
    hcopy m s 0 = Some (o ⊕ g s 0) /\ hcopy m s 1 = Some (o ⊕ g s 1 ⊕ one a b (p 0 1)%nat) /\ hcopy m s 31 = Some (o ⊕ g s 31 ⊕ one a b (p 1 0)%nat) /\
    hcopy m s 32 = Some (o ⊕ g s 32 ⊕ mixed (-1) b (p 1 0)%nat (g s 1) ⊕ mixed (-1) b (p 0 1)%nat (g s 31) ⊕ sq a b (p 1 1)%nat) /\
    hcopy m s 62 = Some (o ⊕ g s 62 ⊕ mixed (-2) b (p 1 0)%nat (g s 31) ⊕ sq a b (p 2 0)%nat) /\
    hcopy m s 2 = Some (o ⊕ g s 2 ⊕ mixed (-2) b (p 0 1)%nat (g s 1) ⊕ sq a b (p 0 2)%nat) /\
    hcopy m (hcopy m s) 62 = hcopy m s 62 /\ hcopy m (hcopy m s) 2 = hcopy m s 2.
Proof. cbv zeta. eexists. split; [lazy; reflexivity|]. repeat split; lazy; reflexivity. Qed.

Lemma rem6 (a dx dy : T) (s new : @hmap T) : hcopy new s 62 = s 62 -> hcopy new s 2 = s 2 -> let b := a ⊕ #1 in let p := pw dx dy in
  let s1 := o ⊕ g s 1 ⊖ one a b (p 0 1)%nat in let s31 := o ⊕ g s 31 ⊖ one a b (p 1 0)%nat in
  exists m, rem_tuples N a [dx; dy] corr_sums s new = Ok m /\ let h := fst m in
    h 0 = Some (o ⊕ (o ⊕ (o ⊕ g s 0))) /\ h 1 = Some (o ⊕ s1 ⊖ one a b (p 0 1)%nat) /\ h 31 = Some (o ⊕ s31 ⊖ one a b (p 1 0)%nat) /\
    h 32 = Some (o ⊕ g s 32 ⊖ mixed (-1) b (p 1 0)%nat s1 ⊖ mixed (-1) b (p 0 1)%nat s31 ⊖ sq a b (p 1 1)%nat) /\
    h 62 = Some (o ⊕ g s 62 ⊖ mixed (-2) b (p 1 0)%nat (o ⊕ s31 ⊖ one a b (p 1 0)%nat) ⊖ sq a b (p 2 0)%nat) /\
    h 2 = Some (o ⊕ g s 2 ⊖ mixed (-2) b (p 0 1)%nat (o ⊕ s1 ⊖ one a b (p 0 1)%nat) ⊖ sq a b (p 0 2)%nat) /\
    hcopy (snd m) h 62 = h 62 /\ hcopy (snd m) h 2 = h 2.
Proof.
  intros H62 H2. cbv zeta. eexists. split; [lazy; reflexivity|]. cbn [fst snd].
  split; [lazy; reflexivity|]. split; [lazy; reflexivity|]. split; [lazy; reflexivity|]. split; [lazy; reflexivity|].
  split; [lazy in H62; lazy; destruct (new 62); [rewrite <- H62|]; reflexivity|]. split; [lazy in H2; lazy; destruct (new 2); [rewrite <- H2|]; reflexivity|]. split; lazy; reflexivity.
Qed.

Definition done (d dp : T) : T := ((#1 ⊖ d) ⊗ npow N (#0 ⊖ d) 1 ⊕ d ⊗ npow N (#1 ⊖ d) 1) ⊗ dp.
Definition dsq (d dp : T) : T := ((#1 ⊖ d) ⊗ npow N (#0 ⊖ d) 2 ⊕ d ⊗ npow N (#1 ⊖ d) 2) ⊗ dp.
Definition dmixed (k : Z) (d dp s : T) : T := #k ⊗ npow N d 1 ⊗ dp ⊗ (#1 ⊖ d) ⊗ s.
Lemma decay6 (d dx dy : T) (s new : @hmap T) : let u := #1 ⊖ d in let p := pw dx dy in
  exists m, upd_tuples N (decay_term N d [dx; dy] s) true corr_sums new = Ok m /\
    hcopy m s 0 = Some (o ⊕ u ⊗ g s 0) /\ hcopy m s 1 = Some (o ⊕ u ⊗ g s 1 ⊕ done d (p 0 1)%nat) /\ hcopy m s 31 = Some (o ⊕ u ⊗ g s 31 ⊕ done d (p 1 0)%nat) /\
    hcopy m s 32 = Some (o ⊕ u ⊗ g s 32 ⊕ dmixed (-1) d (p 1 0)%nat (g s 1) ⊕ dmixed (-1) d (p 0 1)%nat (g s 31) ⊕ dsq d (p 1 1)%nat) /\
    hcopy m s 62 = Some (o ⊕ u ⊗ g s 62 ⊕ dmixed (-2) d (p 1 0)%nat (g s 31) ⊕ dsq d (p 2 0)%nat) /\
    hcopy m s 2 = Some (o ⊕ u ⊗ g s 2 ⊕ dmixed (-2) d (p 0 1)%nat (g s 1) ⊕ dsq d (p 0 2)%nat) /\
    hcopy m (hcopy m s) 62 = hcopy m s 62 /\ hcopy m (hcopy m s) 2 = hcopy m s 2.
Proof. cbv zeta. eexists. split; [lazy; reflexivity|]. repeat split; lazy; reflexivity. Qed.
End Shape.

Local Open Scope R_scope.
(** ** Sums of products of real numbers *)
Definition cs (a b : list R) : R := sxy (combine a b).
Lemma comb_fst (a b : list R) : length a = length b -> map fst (combine a b) = a.
Proof. revert b. induction a as [|x a IH]; intros [|y b] H; try discriminate; [reflexivity|]. cbn [combine map fst]. f_equal. apply IH. injection H as H. exact H. Qed.
Lemma comb_snd (a b : list R) : length a = length b -> map snd (combine a b) = b.
Proof. revert b. induction a as [|x a IH]; intros [|y b] H; try discriminate; [reflexivity|]. cbn [combine map snd]. f_equal. apply IH. injection H as H. exact H. Qed.
Lemma cs_expand a b u v : length a = length b ->
  rsum (map (fun p => (fst p - u) * (snd p - v)) (combine a b)) = rsum (map (fun p => fst p * snd p) (combine a b)) - u * rsum b - v * rsum a + rlen a * (u * v).
Proof.
  revert b. induction a as [|x a IH]; intros [|y b] H; try discriminate; [unfold rlen, rsum, zlen; cbn; ring|]. cbn [combine map fst snd].
  rewrite !rsum_cons, rlen_cons, IH by (injection H as H; exact H). ring.
Qed.
Lemma cs_alt a b : length a = length b -> rlen a <> 0 -> cs a b = rsum (map (fun p => fst p * snd p) (combine a b)) - rsum a * rsum b / rlen a.
Proof.
  intros H Hl. unfold cs, sxy. rewrite comb_fst, comb_snd, cs_expand by exact H. unfold rmean. assert (E : rlen b = rlen a) by (unfold rlen, zlen; rewrite H; reflexivity).
  rewrite E. field. exact Hl.
Qed.
Lemma cs_nil : cs [] [] = 0.
Proof. reflexivity. Qed.
Lemma cs_cons a b x y : length a = length b -> cs (x :: a) (y :: b) = cs a b + rlen a / (rlen a + 1) * ((x - rmean a) * (y - rmean b)).
Proof.
  intros H. destruct a as [|a0 a].
  { destruct b; [|discriminate]. replace (rlen (@nil R)) with 0 by reflexivity. replace (0 / (0 + 1)) with 0 by field. rewrite Rmult_0_l. unfold cs, sxy. cbn [combine map fst snd]. unfold rmean, rlen, rsum, zlen. cbn [map combine fold_right length Z.of_nat]. change (IZR (Z.pos (Pos.of_succ_nat 0))) with 1. field_simplify. lra. }
  set (a' := a0 :: a) in *. assert (Hp : 0 < rlen a') by (apply rlen_pos; discriminate). assert (E : rlen b = rlen a') by (unfold rlen, zlen; rewrite H; reflexivity).
  rewrite (cs_alt (x :: a') (y :: b)) by (try (rewrite rlen_cons; lra); cbn [length]; lia). rewrite (cs_alt a' b) by (try lra; exact H).
  cbn [combine map fst snd]. rewrite !rsum_cons, rlen_cons. unfold rmean. rewrite E. field. lra.
Qed.
Lemma comb_app (a b : list R) x y : length a = length b -> combine (a ++ [x]) (b ++ [y]) = combine a b ++ [(x, y)].
Proof. revert b. induction a as [|z a IH]; intros [|w b] H; try discriminate; [reflexivity|]. cbn [app combine]. f_equal. apply IH. injection H as H. exact H. Qed.
Lemma cs_push a b x y : length a = length b -> cs (a ++ [x]) (b ++ [y]) = cs a b + rlen a / (rlen a + 1) * ((x - rmean a) * (y - rmean b)).
Proof.
  intros H. rewrite <- (cs_cons a b x y H). unfold cs, sxy. rewrite comb_app by exact H. cbn [combine].
  assert (Em : forall (f : R * R -> R) l p, rmean (map f (l ++ [p])) = rmean (map f (p :: l))).
  { intros f l p. rewrite map_app. cbn [map]. unfold rmean. rewrite rsum_app, (rsum_cons (f p) (map f l)). unfold rlen, zlen. rewrite app_length. cbn [length].
    replace (length (map f l) + 1)%nat with (S (length (map f l))) by lia. f_equal. replace (rsum [f p]) with (f p) by (unfold rsum; cbn [fold_right]; ring). ring. }
  rewrite !Em. set (u := rmean (map fst _)). set (v := rmean (map snd _)). rewrite map_app, rsum_app. cbn [map fst snd]. rewrite !rsum_cons. unfold rsum at 2. cbn [fold_right]. ring.
Qed.
Lemma cs_same a : cs a a = csum 2 a.
Proof.
  unfold cs, sxy. rewrite comb_fst, comb_snd by reflexivity. unfold csum. set (u := rmean a). clearbody u. induction a as [|x a IH]; [reflexivity|].
  cbn [combine map fst snd]. rewrite !rsum_cons, IH. ring.
Qed.

Section Err.
Variable B : R.
Hypothesis HB : bpow radix2 (-400) <= B <= bpow radix2 400.
Variable nmax : nat.
Hypothesis Hnmax : (Z.of_nat nmax <= 2 ^ 40)%Z.
Local Notation inB := (inB B).
Local Notation EB := (EB B).
Local Ltac abs := repeat match goal with H : Rabs _ <= _ |- _ => apply Rabs_le_inv in H end; try apply Rabs_le.

(** A product of two differences to the means, times the factor *)
Lemma pterm_err a b P dx dy n : is_finite a = true -> is_finite b = true -> B2R a = IZR (n - 1) -> B2R b = IZR n -> (1 <= n <= 2 ^ 41)%Z ->
  is_finite P = true -> Rabs dx <= 4 * B -> Rabs dy <= 4 * B -> Rabs (B2R P - dx * dy) <= 17 * EB ->
  let T := fmul (coeff a b) P in
  is_finite T = true /\ Rabs (B2R T - (IZR n - 1) / IZR n * (dx * dy)) <= 128 * EB /\ Rabs (B2R T) <= 20 * (B * B).
Proof.
  intros Fa Fb Ea Eb Hn Fp Hx Hy Hp. cbv zeta. destruct (coeff_err 0 a b n Fa Fb Ea Eb Hn) as (Fc & Ec & Hg). pose proof (B_pos B HB) as H0.
  assert (He : 0 < eps <= / 1000) by (rewrite eps_val; lra).
  set (g := (IZR n - 1) / IZR n) in *. set (q := B2R (coeff a b)) in *.
  assert (HBB : 0 < B * B <= bpow radix2 800).
  { split; [nra|]. replace 800%Z with (400 + 400)%Z by lia. rewrite bpow_plus. apply Rmult_le_compat; lra. }
  assert (Hd2 : Rabs (dx * dy) <= 16 * (B * B)).
  { rewrite Rabs_mult. replace (16 * (B * B)) with (4 * B * (4 * B)) by ring. apply Rmult_le_compat; try apply Rabs_pos; assumption. }
  unfold FloatErr.EB in *. set (D2 := B2R P) in *. set (dd := dx * dy) in *.
  set (b2 := B * B) in *. apply Rabs_le_inv in Hp. apply Rabs_le_inv in Ec. apply Rabs_le_inv in Hd2.
  assert (Hp2 : - b2 / 10 <= D2 - dd <= b2 / 10) by (clear - Hp HBB He; nra).
  assert (Hd3 : - (17 * b2) <= D2 <= 17 * b2) by lra.
  assert (Hq : - / 100 <= q <= 1 + / 100) by lra.
  assert (Hm : Rabs (q * D2) <= 18 * b2) by (apply Rabs_le; clear - Hq Hd3 HBB; nra).
  destruct (fmul_b (coeff a b) P 900 Fc Fp ltac:(lia)) as [Fm Em].
  { fold q D2. eapply Rle_trans; [exact Hm|]. apply Rle_trans with (bpow radix2 5 * bpow radix2 800); [change (bpow radix2 5) with 32; lra|]. rewrite <- bpow_plus. apply bpow_le. lia. }
  fold q D2 in Em. pose proof (rnd_BB B HB _ _ Hm) as Hr. rewrite <- Em in Hr. fold b2 in Hr. apply Rabs_le_inv in Hr.
  split; [exact Fm|].
  assert (Hxx : - (86 * (eps * b2)) <= q * D2 - g * dd <= 86 * (eps * b2)).
  { replace (q * D2 - g * dd) with ((q - g) * D2 + g * (D2 - dd)) by ring.
    assert (H1 : - (4 * eps * (17 * b2)) <= (q - g) * D2 <= 4 * eps * (17 * b2)).
    { apply Rabs_le_inv. rewrite Rabs_mult. apply Rmult_le_compat; try apply Rabs_pos; apply Rabs_le; lra. }
    assert (H2 : - (1 * (17 * (eps * b2))) <= g * (D2 - dd) <= 1 * (17 * (eps * b2))).
    { apply Rabs_le_inv. rewrite Rabs_mult. apply Rmult_le_compat; try apply Rabs_pos; apply Rabs_le; lra. }
    assert (0 < eps * b2) by (apply Rmult_lt_0_compat; lra). lra. }
  assert (0 < eps * b2) by (apply Rmult_lt_0_compat; lra).
  split; [apply Rabs_le; lra|]. apply Rabs_le_inv in Hm. assert (eps * b2 <= / 1000 * b2) by (apply Rmult_le_compat_r; lra). apply Rabs_le. lra.
Qed.
Lemma prod_err n dx dy x y m m' mu nu : Rabs (dx - (x - m)) <= 4 * (eps * B) -> Rabs (m - mu) <= (68 * INR n + 34) * (eps * B) ->
  Rabs (dy - (y - m')) <= 4 * (eps * B) -> Rabs (m' - nu) <= (68 * INR n + 34) * (eps * B) ->
  Rabs dy <= 4 * B -> Rabs x <= B -> Rabs mu <= B -> Rabs (dx * dy - (x - mu) * (y - nu)) <= (408 * INR n + 228) * EB.
Proof.
  intros H1 H2 H3 H4 H5 H6 H7. pose proof (B_pos B HB) as H0. replace (dx * dy - (x - mu) * (y - nu)) with ((dx - (x - mu)) * dy + (x - mu) * (dy - (y - nu))) by ring.
  eapply Rle_trans; [apply Rabs_triang|]. rewrite !Rabs_mult.
  replace ((408 * INR n + 228) * EB) with ((68 * INR n + 38) * (eps * B) * (4 * B) + 2 * B * ((68 * INR n + 38) * (eps * B))) by (unfold FloatErr.EB; ring).
  apply Rplus_le_compat; apply Rmult_le_compat; try apply Rabs_pos; abs; lra.
Qed.
Lemma cs_bound lx ly : length lx = length ly -> Forall inB lx -> Forall inB ly -> Rabs (cs (rl lx) (rl ly)) <= 4 * INR (length lx) * (B * B).
Proof.
  intros Hl Hx Hy. pose proof (B_pos B HB) as H0. destruct (csum2_bound B HB lx Hx) as [X1 X2]. destruct (csum2_bound B HB ly Hy) as [Y1 Y2]. rewrite <- Hl in Y2.
  assert (E : length (rl lx) = length (rl ly)) by (unfold rl; rewrite !map_length; exact Hl).
  pose proof (sxy_cauchy (combine (rl lx) (rl ly))) as H. rewrite comb_fst, comb_snd in H by exact E. fold (cs (rl lx) (rl ly)) in H.
  set (M := 4 * INR (length lx) * (B * B)) in *. assert (HM : 0 <= M) by lra. assert (H2 : cs (rl lx) (rl ly) ^ 2 <= M ^ 2).
  { eapply Rle_trans; [exact H|]. replace (M ^ 2) with (M * M) by ring. apply Rmult_le_compat; lra. }
  rewrite <- (Rabs_pos_eq M) by exact HM. apply Rsqr_le_abs_0. unfold Rsqr. lra.
Qed.

(** A mean alone, as a core without sums *)
Definition mk (m : f64) (k : Z) : @core f64 := mkCore m 0 (fun _ => fz 0) k 0 None (ring_new 0).
Lemma zlen_app1 (l : list f64) x : zlen (l ++ [x]) = (zlen l + 1)%Z.
Proof. unfold zlen. rewrite app_length. cbn [length]. lia. Qed.
Lemma Qm_mk n l c k : Qm B n l c -> k = zlen l -> Qm B n l (mk (c_mean c) k).
Proof. intros (_ & H & _ & H') ->. split; [cbn; lia|]. split; [exact H|]. split; [reflexivity|exact H']. Qed.
Lemma Rm_mk n l c k : Rm B n l c -> k = zlen l -> Rm B n l (mk (c_mean c) k).
Proof. intros (_ & H & _ & H') ->. split; [cbn; lia|]. split; [exact H|]. split; [reflexivity|exact H']. Qed.
Lemma mean_add n l x m : (n < nmax)%nat -> Forall inB l -> inB x -> Rm B n l (mk m (zlen l)) -> Qm B (S n) (l ++ [x]) (mk (add_mean FN m x (zlen l + 1)) (zlen l + 1)).
Proof.
  intros Hn Hl Hx H. destruct (Rm_add B HB nmax Hnmax n l x _ Hn Hl Hx H) as (c' & E & HQ & _).
  destruct (c_add_any FN (mk m (zlen l)) x ltac:(cbn; lia)) as (c2 & E2 & _ & _ & Em). rewrite E in E2. injection E2 as <-. cbn [mk c_mean c_count] in Em. rewrite <- Em.
  apply Qm_mk; [exact HQ|symmetry; apply zlen_app1].
Qed.
Lemma mean_rem n y l m : (n < nmax)%nat -> Forall inB (y :: l) -> l <> [] -> Qm B n (y :: l) (mk m (zlen (y :: l))) -> Rm B n l (mk (rem_mean FN m y (zlen l)) (zlen l)).
Proof.
  intros Hn Hl Hne H. destruct (Qm_rem B HB nmax Hnmax n y l _ Hn Hl H) as (c' & E & HR & _).
  destruct (c_remove_any FN (mk m (zlen (y :: l))) y ltac:(cbn; lia)) as (c2 & E2 & _ & _ & Em). rewrite E in E2. injection E2 as <-. cbn [mk c_mean c_count] in Em.
  replace (zlen (y :: l) - 1)%Z with (zlen l) in Em by (unfold zlen; cbn [length]; lia).
  destruct (Z.gtb_spec (zlen l) 0) as [_|X]; [|destruct l; [congruence|unfold zlen in X; cbn [length] in X; lia]]. rewrite <- Em. apply Rm_mk; [exact HR|reflexivity].
Qed.

Section SumStep.
Variables (n : nat) (lx ly : list f64) (x y mx my P s : f64).
Hypothesis Hn : (n < nmax)%nat.
Hypothesis Hl : length lx = length ly.
Hypothesis Hlx : Forall inB lx.
Hypothesis Hly : Forall inB ly.
Hypothesis Hx : inB x.
Hypothesis Hy : inB y.
Hypothesis Rx : Rm B n lx (mk mx (zlen lx)).
Hypothesis Ry : Rm B n ly (mk my (zlen ly)).
Hypothesis FP : is_finite P = true.
Hypothesis HP : Rabs (B2R P - B2R (fsub x mx) * B2R (fsub y my)) <= 17 * EB.
Hypothesis Fs : is_finite s = true.
Lemma dxy : is_finite (fsub x mx) = true /\ is_finite (fsub y my) = true /\ Rabs (B2R (fsub x mx)) <= 4 * B /\ Rabs (B2R (fsub y my)) <= 4 * B.
Proof.
  pose proof (B_pos B HB) as H0. destruct Rx as (_ & _ & _ & X4 & X5 & _). destruct Ry as (_ & _ & _ & Y4 & Y5 & _). cbn [mk c_mean] in *.
  destruct (delta_err B HB x mx Hx X4) as (Fd & _ & Bd); [apply (mean_of_err B _ _ _ X5 (rmean_bound B HB _ Hlx)); lra|].
  destruct (delta_err B HB y my Hy Y4) as (Fd' & _ & Bd'); [apply (mean_of_err B _ _ _ Y5 (rmean_bound B HB _ Hly)); lra|]. auto.
Qed.
Lemma term_xy a b : is_finite a = true -> is_finite b = true -> B2R a = IZR (zlen lx) -> B2R b = IZR (zlen lx + 1) ->
  let g := rlen (rl lx) / (rlen (rl lx) + 1) in let T := fmul (coeff a b) P in
  is_finite T = true /\ Rabs (B2R T - g * ((B2R x - rmean (rl lx)) * (B2R y - rmean (rl ly)))) <= (408 * INR n + 356) * EB /\ Rabs (B2R T) <= 20 * (B * B).
Proof.
  intros Fa Fb Ea Eb. cbv zeta. pose proof (B_pos B HB) as H0. pose proof (EB_pos B HB) as HE. pose proof (pos_INR n) as Hp.
  pose proof Rx as (_ & X2 & _ & X4 & X5 & X6). pose proof Ry as (_ & Y2 & _ & Y4 & Y5 & Y6). cbn [mk c_mean] in *.
  pose proof (rmean_bound B HB _ Hlx) as Mx. pose proof (rmean_bound B HB _ Hly) as My.
  destruct (delta_err B HB x mx Hx X4) as (Fd & Ed & Bd); [apply (mean_of_err B _ _ _ X5 Mx); lra|].
  destruct (delta_err B HB y my Hy Y4) as (Fd' & Ed' & Bd'); [apply (mean_of_err B _ _ _ Y5 My); lra|].
  assert (Hc : (1 <= zlen lx + 1 <= 2 ^ 41)%Z) by (unfold zlen; lia).
  replace (zlen lx) with (zlen lx + 1 - 1)%Z in Ea by lia.
  destruct (pterm_err a b P _ _ _ Fa Fb Ea Eb Hc FP Bd Bd' HP) as (FT & ET & BT). cbv zeta in *.
  set (T := fmul (coeff _ _) _) in *. rewrite plus_IZR, zlen_rlen in ET. replace (rlen (rl lx) + 1 - 1) with (rlen (rl lx)) in ET by ring.
  assert (Hk : 0 <= rlen (rl lx)) by (rewrite <- zlen_rlen; apply IZR_le; unfold zlen; lia).
  set (g := rlen (rl lx) / (rlen (rl lx) + 1)) in *.
  assert (Hg : 0 <= g <= 1).
  { unfold g. split; [apply Rmult_le_pos; [exact Hk|left; apply Rinv_0_lt_compat; lra]|]. apply Rmult_le_reg_r with (rlen (rl lx) + 1); [lra|]. unfold Rdiv. rewrite Rmult_assoc, Rinv_l by lra. lra. }
  set (dx := B2R (fsub x mx)) in *. set (dy := B2R (fsub y my)) in *.
  assert (Hd : Rabs (g * (dx * dy) - g * ((B2R x - rmean (rl lx)) * (B2R y - rmean (rl ly)))) <= (408 * INR n + 228) * EB).
  { destruct lx as [|z l'] eqn:El.
    - unfold g. cbn [rl map]. unfold rlen, zlen. cbn [length Z.of_nat]. replace (0 / (0 + 1)) with 0 by field. rewrite !Rmult_0_l, Rminus_0_r, Rabs_R0. apply Rmult_le_pos; lra.
    - rewrite <- El in *. assert (Hne : lx <> []) by (rewrite El; discriminate). assert (Hne' : ly <> []) by (intros E; rewrite E in Hl; destruct lx; [congruence|discriminate Hl]).
      pose proof (Rm_dist B 0 n lx _ Rx Hne) as D1. pose proof (Rm_dist B 0 n ly _ Ry Hne') as D2. cbn [mk c_mean] in D1, D2.
      pose proof (prod_err n dx dy (B2R x) (B2R y) _ _ _ _ Ed D1 Ed' D2 Bd' (proj2 Hx) Mx) as Hsq.
      rewrite <- Rmult_minus_distr_l, Rabs_mult, (Rabs_pos_eq g) by lra.
      pose proof (Rabs_pos (dx * dy - (B2R x - rmean (rl lx)) * (B2R y - rmean (rl ly)))). nra. }
  split; [exact FT|]. split; [|exact BT]. clear - ET Hd. abs. lra.
Qed.
Lemma rl_len : length (rl lx) = length (rl ly).
Proof. unfold rl. rewrite !map_length. exact Hl. Qed.
Lemma sum_add : Rabs (B2R s - cs (rl lx) (rl ly)) <= (800 * (INR n * INR n) + 420 * INR n + 400) * EB ->
  let r := fadd s (fmul (coeff (fsub (fz (zlen lx + 1)) (fz 1)) (fz (zlen lx + 1))) P) in
  is_finite r = true /\ Rabs (B2R r - cs (rl (lx ++ [x])) (rl (ly ++ [y]))) <= 800 * (INR (S n) * INR (S n)) * EB.
Proof.
  intros Hs. cbv zeta. pose proof (EB_pos B HB) as HE. pose proof (pos_INR n) as Hp. pose proof (B_pos B HB) as H0.
  pose proof Rx as (_ & X2 & _). assert (Hz : (1 <= zlen lx + 1 <= 2 ^ 41)%Z) by (unfold zlen; lia).
  destruct (sub1_real 0 (zlen lx + 1) ltac:(lia)) as [Fa Ea]. destruct (fz_real (zlen lx + 1) ltac:(lia)) as [Fb Eb]. replace (zlen lx + 1 - 1)%Z with (zlen lx) in Ea by lia.
  destruct (term_xy _ _ Fa Fb Ea Eb) as (FT & ET & BT). cbv zeta in *. set (T := fmul (coeff _ _) _) in *.
  assert (HC : Rabs (cs (rl lx) (rl ly)) <= 4 * INR n * (B * B)).
  { pose proof (cs_bound lx ly Hl Hlx Hly) as Hc. assert (INR (length lx) <= INR n) by (apply le_INR; exact X2). nra. }
  destruct (acc_err B HB nmax Hnmax n _ _ _ _ _ ltac:(lia) HC Hs (Rle_refl _) ET BT) as [Hov Herr].
  destruct (fadd_b s T 1000 Fs FT ltac:(lia) Hov) as [FS ES]. split; [exact FS|]. rewrite ES.
  unfold rl at 1 2. rewrite !map_app. cbn [map]. fold (rl lx) (rl ly). rewrite cs_push by apply rl_len. eapply Rle_trans; [exact Herr|].
  rewrite S_INR. rewrite <- Rmult_plus_distr_r. apply Rmult_le_compat_r; [lra|]. nra.
Qed.
Lemma sum_rem : (length lx < n)%nat -> lx <> [] -> Rabs (B2R s - cs (rl (x :: lx)) (rl (y :: ly))) <= 800 * (INR n * INR n) * EB ->
  let r := fsub s (fmul (coeff (fz (zlen lx)) (fadd (fz (zlen lx)) (fz 1))) P) in
  is_finite r = true /\ Rabs (B2R r - cs (rl lx) (rl ly)) <= (800 * (INR n * INR n) + 420 * INR n + 400) * EB.
Proof.
  intros Hlt Hne Hs. cbv zeta. pose proof (EB_pos B HB) as HE. pose proof (pos_INR n) as Hp. pose proof (B_pos B HB) as H0.
  assert (Hz : (1 <= zlen lx <= 2 ^ 40)%Z) by (destruct lx; [congruence|]; unfold zlen in *; cbn [length] in *; lia).
  destruct (add1_real 0 (zlen lx) ltac:(lia)) as [Fb Eb]. destruct (fz_real (zlen lx) ltac:(lia)) as [Fa Ea].
  destruct (term_xy _ _ Fa Fb Ea Eb) as (FT & ET & BT). cbv zeta in *. set (T := fmul (coeff _ _) _) in *.
  assert (HC : Rabs (cs (rl (x :: lx)) (rl (y :: ly))) <= 4 * INR n * (B * B)).
  { pose proof (cs_bound (x :: lx) (y :: ly) ltac:(cbn [length]; lia) ltac:(constructor; assumption) ltac:(constructor; assumption)) as Hc.
    assert (INR (length (x :: lx)) <= INR n) by (apply le_INR; cbn [length]; lia). nra. }
  set (g := rlen (rl lx) / (rlen (rl lx) + 1)) in *. set (t := g * ((B2R x - rmean (rl lx)) * (B2R y - rmean (rl ly)))) in *.
  assert (Ht : Rabs (- B2R T - - t) <= (408 * INR n + 356) * EB) by (clear - ET; abs; lra).
  rewrite <- (Rabs_Ropp (B2R T)) in BT.
  destruct (acc_err B HB nmax Hnmax n _ _ _ _ _ ltac:(lia) HC Hs ltac:(apply Rmult_le_compat_r; lra) Ht BT) as [Hov Herr].
  destruct (fsub_b s T 1000 Fs FT ltac:(lia) Hov) as [FS ES]. split; [exact FS|]. rewrite ES.
  change (rl (x :: lx)) with (B2R x :: rl lx) in Herr. change (rl (y :: ly)) with (B2R y :: rl ly) in Herr. rewrite cs_cons in Herr by apply rl_len. fold g in Herr. fold t in Herr.
  replace (cs (rl lx) (rl ly)) with (cs (rl lx) (rl ly) + t + - t) by ring.
  eapply Rle_trans; [exact Herr|]. rewrite <- Rmult_plus_distr_r. apply Rmult_le_compat_r; lra.
Qed.
End SumStep.

(** ** The products and the sums of degree one *)
Lemma fin_1 : is_finite (fz 1) = true /\ B2R (fz 1) = 1.
Proof. destruct (fz_real 1 ltac:(lia)) as [F E]. auto. Qed.
Lemma mul1_l x : is_finite x = true -> is_finite (fmul (fz 1) x) = true /\ B2R (fmul (fz 1) x) = B2R x.
Proof. intros F. apply one_mul; [apply fin_1|apply fin_1|exact F]. Qed.
Lemma mul1_r x : is_finite x = true -> is_finite (fmul x (fz 1)) = true /\ B2R (fmul x (fz 1)) = B2R x.
Proof.
  intros F. destruct fin_1 as [F1 E1]. pose proof (Bmult_correct 53 1024 _ _ mode_NE x (fz 1)) as H. fold (rnd (B2R x * B2R (fz 1))) in H.
  rewrite E1, Rmult_1_r, rnd_B2R in H. rewrite Rlt_bool_true in H by (apply abs_B2R_lt_emax). unfold fmul. rewrite F, F1 in H. tauto.
Qed.
Section Deltas.
Variables dx dy : f64.
Hypothesis Fx : is_finite dx = true.
Hypothesis Fy : is_finite dy = true.
Hypothesis Bx : Rabs (B2R dx) <= 4 * B.
Hypothesis By : Rabs (B2R dy) <= 4 * B.
Lemma B402 r : Rabs r <= 4 * B -> Rabs r <= bpow radix2 402.
Proof. intros H. eapply Rle_trans; [exact H|]. replace 402%Z with (2 + 400)%Z by lia. rewrite bpow_plus. change (bpow radix2 2) with 4. lra. Qed.
Lemma pw10 : is_finite (pw FN dx dy 1 0) = true /\ B2R (pw FN dx dy 1 0) = B2R dx.
Proof. change (pw FN dx dy 1 0) with (fmul (fmul (fz 1) dx) (fz 1)). destruct (mul1_l dx Fx) as [F1 E1]. destruct (mul1_r _ F1) as [F2 E2]. rewrite E2. auto. Qed.
Lemma pw01 : is_finite (pw FN dx dy 0 1) = true /\ B2R (pw FN dx dy 0 1) = B2R dy.
Proof. change (pw FN dx dy 0 1) with (fmul (fmul (fz 1) (fz 1)) dy). destruct (mul1_l (fz 1) (proj1 fin_1)) as [F1 E1]. apply one_mul; [exact F1|rewrite E1; apply fin_1|exact Fy]. Qed.
Lemma pw11 : is_finite (pw FN dx dy 1 1) = true /\ Rabs (B2R (pw FN dx dy 1 1) - B2R dx * B2R dy) <= 17 * EB.
Proof.
  change (pw FN dx dy 1 1) with (fmul (fmul (fz 1) dx) dy). destruct (mul1_l dx Fx) as [F1 E1]. pose proof (B_pos B HB) as H0.
  assert (H : Rabs (B2R dx * B2R dy) <= 16 * (B * B)).
  { rewrite Rabs_mult. replace (16 * (B * B)) with (4 * B * (4 * B)) by ring. apply Rmult_le_compat; try apply Rabs_pos; assumption. }
  destruct (fmul_b (fmul (fz 1) dx) dy 804 F1 Fy ltac:(lia)) as [F2 E2].
  { rewrite E1, Rabs_mult. replace 804%Z with (402 + 402)%Z by lia. rewrite bpow_plus. apply Rmult_le_compat; try apply Rabs_pos; apply B402; assumption. }
  split; [exact F2|]. rewrite E2, E1. pose proof (rnd_BB B HB _ _ H) as Hr. unfold FloatErr.EB. replace 17 with (16 + 1) by ring. exact Hr.
Qed.
Lemma sq17 d : is_finite d = true -> Rabs (B2R d) <= 4 * B -> is_finite (fpow d 2) = true /\ Rabs (B2R (fpow d 2) - B2R d * B2R d) <= 17 * EB.
Proof.
  intros Fd Bd. pose proof (B_pos B HB) as H0. destruct (fpow2_spec d 402 Fd ltac:(lia) (B402 _ Bd)) as (Fp & _ & Ep & _). split; [exact Fp|].
  assert (He : 0 < eps) by apply bpow_gt_0. assert (HD2 : B2R d * B2R d <= 16 * (B * B)) by (abs; nra).
  pose proof (tiny_B2 B HB). fold eps in Ep. assert (eps * (B2R d * B2R d) <= eps * (16 * (B * B))) by (apply Rmult_le_compat_l; lra). unfold FloatErr.EB. lra.
Qed.
Lemma pw20 : is_finite (pw FN dx dy 2 0) = true /\ Rabs (B2R (pw FN dx dy 2 0) - B2R dx * B2R dx) <= 17 * EB.
Proof.
  change (pw FN dx dy 2 0) with (fmul (fmul (fz 1) (fpow dx 2)) (fz 1)). destruct (sq17 dx Fx Bx) as [F E]. destruct (mul1_l _ F) as [F1 E1]. destruct (mul1_r _ F1) as [F2 E2].
  rewrite E2, E1. auto.
Qed.
Lemma pw02 : is_finite (pw FN dx dy 0 2) = true /\ Rabs (B2R (pw FN dx dy 0 2) - B2R dy * B2R dy) <= 17 * EB.
Proof.
  change (pw FN dx dy 0 2) with (fmul (fmul (fz 1) (fz 1)) (fpow dy 2)). destruct (sq17 dy Fy By) as [F E]. destruct (mul1_l (fz 1) (proj1 fin_1)) as [F1 E1].
  destruct (one_mul (fmul (fz 1) (fz 1)) (fpow dy 2) F1) as [F2 E2]; [rewrite E1; apply fin_1|exact F|]. rewrite E2. auto.
Qed.
Section Counts.
Variables a b : f64.
Hypothesis Fa : is_finite a = true.
Hypothesis Ba : Rabs (B2R a) <= bpow radix2 63.
Hypothesis Bb : 1 <= B2R b.
Lemma one_zero p : is_finite p = true -> zero (one FN a b p).
Proof.
  intros Fp. change (one FN a b p) with (fmul (fmul (fdiv a b) (nadd FN (nz FN 1) (nz FN (-1)))) p). apply zmul_l; [|exact Fp]. apply zmul_r.
  - apply (div_upto 63 a b ltac:(lia) (conj Fa Ba) Bb).
  - destruct one_minus as (sg & ->). split; reflexivity.
Qed.
Lemma mixed_zero k p z : (Z.abs k <= 2)%Z -> is_finite p = true -> Rabs (B2R p) <= 4 * B -> zero z -> zero (mixed FN k b p z).
Proof.
  intros Hk Fp Bp Hz. change (mixed FN k b p z) with (fmul (fmul (fdiv (fz k) b) p) z). apply zmul_r; [|exact Hz].
  apply (mul_upto 63 402); try lia; [apply div_upto; [lia|apply fz_upto; lia|exact Bb]|]. split; [exact Fp|apply B402, Bp].
Qed.
Lemma mixed10 k z : (Z.abs k <= 2)%Z -> zero z -> zero (mixed FN k b (pw FN dx dy 1 0) z).
Proof. intros Hk Hz. destruct pw10 as [F E]. apply mixed_zero; [exact Hk|exact F|rewrite E; exact Bx|exact Hz]. Qed.
Lemma mixed01 k z : (Z.abs k <= 2)%Z -> zero z -> zero (mixed FN k b (pw FN dx dy 0 1) z).
Proof. intros Hk Hz. destruct pw01 as [F E]. apply mixed_zero; [exact Hk|exact F|rewrite E; exact By|exact Hz]. Qed.
Lemma one10 : zero (one FN a b (pw FN dx dy 1 0)).
Proof. apply one_zero, pw10. Qed.
Lemma one01 : zero (one FN a b (pw FN dx dy 0 1)).
Proof. apply one_zero, pw01. Qed.
End Counts.
End Deltas.
Lemma zadd0 s : is_finite s = true -> is_finite (fadd (fz 0) s) = true /\ B2R (fadd (fz 0) s) = B2R s.
Proof. intros F. apply zero_add; [apply z0|exact F]. Qed.

(** ** The core of a Corr *)
Definition px (p : list f64) : f64 := nth 0 p (fz 0).
Definition py (p : list f64) : f64 := nth 1 p (fz 0).
Definition okp (p : list f64) : Prop := length p = 2%nat /\ inB (px p) /\ inB (py p).
Local Notation vc := (@jcore f64 (list f64)).
Definition J (M : nat -> list f64 -> @core f64 -> Prop) (e : R) (n : nat) (l : list (list f64)) (c : vc) : Prop :=
  let lx := map px l in let ly := map py l in
  j_tuples c = corr_sums /\ j_count c = zlen l /\ Forall okp l /\ zero (hget FN (j_sums c) 1) /\ zero (hget FN (j_sums c) 31) /\
  hcopy (j_new c) (j_sums c) 62%Z = j_sums c 62%Z /\ hcopy (j_new c) (j_sums c) 2%Z = j_sums c 2%Z /\
  exists mx my sxy sxx syy, j_means c = [mx; my] /\ M n lx (mk mx (zlen l)) /\ M n ly (mk my (zlen l)) /\
    j_sums c 32%Z = Some sxy /\ j_sums c 62%Z = Some sxx /\ j_sums c 2%Z = Some syy /\
    (is_finite sxy = true /\ Rabs (B2R sxy - cs (rl lx) (rl ly)) <= e * EB) /\
    (is_finite sxx = true /\ Rabs (B2R sxx - cs (rl lx) (rl lx)) <= e * EB) /\
    (is_finite syy = true /\ Rabs (B2R syy - cs (rl ly) (rl ly)) <= e * EB).
Definition JQ (n : nat) := J (Qm B) (800 * (INR n * INR n)) n.
Definition JR (n : nat) := J (Rm B) (800 * (INR n * INR n) + 420 * INR n + 400) n.
Lemma JQ_JR n l c : (n <= nmax)%nat -> JQ n l c -> JR n l c.
Proof.
  intros Hn (H1 & H2 & H3 & H4 & H5 & H6 & H7 & mx & my & a & b & d & E & Mx & My & E1 & E2 & E3 & (F1 & B1) & (F2 & B2) & F3 & B3). pose proof (EB_pos B HB). pose proof (pos_INR n).
  assert (Hle : 800 * (INR n * INR n) * EB <= (800 * (INR n * INR n) + 420 * INR n + 400) * EB) by (apply Rmult_le_compat_r; lra).
  do 7 (split; [assumption|]). exists mx, my, a, b, d. split; [exact E|]. split; [apply (Qm_Rm B HB nmax Hnmax); assumption|]. split; [apply (Qm_Rm B HB nmax Hnmax); assumption|].
  do 3 (split; [assumption|]). split; [split; [exact F1|lra]|]. split; split; assumption || lra.
Qed.
Definition jsame (c c' : vc) : Prop := j_window c' = j_window c /\ j_decay c' = j_decay c /\ j_queue c' = j_queue c.
Lemma okp_x l : Forall okp l -> Forall inB (map px l).
Proof. intros H. apply Forall_map. eapply Forall_impl; [|exact H]. intros p (_ & X & _). exact X. Qed.
Lemma okp_y l : Forall okp l -> Forall inB (map py l).
Proof. intros H. apply Forall_map. eapply Forall_impl; [|exact H]. intros p (_ & _ & X). exact X. Qed.
Lemma zlen_map {A C} (f : A -> C) (l : list A) : zlen (map f l) = zlen l.
Proof. unfold zlen. rewrite map_length. reflexivity. Qed.
Lemma J_add n l p c : (n < nmax)%nat -> okp p -> JR n l c -> exists c', j_add FN c p = Ok c' /\ JQ (S n) (l ++ [p]) c' /\ jsame c c'.
Proof.
  intros Hn Hp (Ht & Hc & Hl & Z1 & Z31 & Hc62 & Hc2 & mx & my & sxy & sxx & syy & Em & Mx & My & E32 & E62 & E2 & (F32 & B32) & (F62 & B62) & F2 & B2).
  pose proof Hp as (Lp & Px & Py). destruct (two p Lp) as (x & y & ->). change (px [x; y]) with x in *. change (py [x; y]) with y in *.
  pose proof (okp_x l Hl) as Hx. pose proof (okp_y l Hl) as Hy. pose proof (zlen_map px l) as Lx. pose proof (zlen_map py l) as Ly.
  assert (Lxy : length (map px l) = length (map py l)) by (rewrite !map_length; reflexivity).
  rewrite <- Lx in Mx. rewrite <- Ly in My. rewrite <- Lx in Hc.
  destruct (dxy n (map px l) (map py l) x y mx my Hx Hy Px Py Mx My) as (Fdx & Fdy & Bdx & Bdy).
  set (lx := map px l) in *. set (ly := map py l) in *.
  assert (Hz : (1 <= zlen lx + 1 <= 2 ^ 41)%Z).
  { destruct Mx as (_ & X & _). unfold zlen. lia. }
  unfold j_add. rewrite Em, Ht, Hc. change (deltas FN [x; y] [mx; my]) with [fsub x mx; fsub y my]. cbn [nz FN]. set (b := fz (zlen lx + 1)) in *.
  destruct (add6 FN b (fsub x mx) (fsub y my) (j_sums c) (j_new c)) as (m & E & G0 & G1 & G31 & G32 & G62 & G2 & K62 & K2). rewrite E. cbn [bind].
  replace (hget FN (j_sums c) 32) with sxy in G32 by (unfold hget; rewrite E32; reflexivity). replace (hget FN (j_sums c) 62) with sxx in G62 by (unfold hget; rewrite E62; reflexivity).
  replace (hget FN (j_sums c) 2) with syy in G2 by (unfold hget; rewrite E2; reflexivity).
  destruct (sub1_real 0 (zlen lx + 1) ltac:(lia)) as [Fa Ea]. destruct (fz_real (zlen lx + 1) ltac:(lia)) as [Fb Eb]. fold b in Fa, Ea, Fb, Eb.
  assert (Ba : Rabs (B2R (fsub b (fz 1))) <= bpow radix2 63).
  { rewrite Ea, <- abs_IZR. change (bpow radix2 63) with (IZR (2 ^ 63)). apply IZR_le. lia. }
  assert (Bb : 1 <= B2R b) by (rewrite Eb; apply IZR_le; lia).
  set (dx := fsub x mx) in *. set (dy := fsub y my) in *.
  change (nsub FN b (nz FN 1)) with (fsub b (fz 1)) in *. set (a := fsub b (fz 1)) in *.
  eexists. split; [reflexivity|]. split; [|split; [reflexivity|split; reflexivity]].
  unfold JQ, J. cbn [j_means j_tuples j_sums j_new j_count j_window j_decay j_queue]. cbv zeta. rewrite !map_app. cbn [map]. change (px [x; y]) with x. change (py [x; y]) with y. fold lx ly.
  assert (Zn : zlen (l ++ [[x; y]]) = (zlen lx + 1)%Z) by (rewrite Lx; unfold zlen; rewrite app_length; cbn [length]; lia).
  split; [reflexivity|]. split; [symmetry; exact Zn|]. split; [apply Forall_app; split; [exact Hl|constructor; [exact Hp|constructor]]|].
  assert (Z1' : zero (fadd (fz 0) (hget FN (j_sums c) 1))) by (apply zadd; [apply z0|exact Z1]).
  assert (Z31' : zero (fadd (fz 0) (hget FN (j_sums c) 31))) by (apply zadd; [apply z0|exact Z31]).
  split. { unfold hget. rewrite G1. cbn [nadd nz FN]. apply zadd; [exact Z1'|]. apply one01; assumption. }
  split. { unfold hget. rewrite G31. cbn [nadd nz FN]. apply zadd; [exact Z31'|]. apply one10; assumption. }
  split; [exact K62|]. split; [exact K2|].
  exists (add_mean FN mx x (zlen lx + 1)), (add_mean FN my y (zlen lx + 1)). eexists _, _, _. split; [reflexivity|]. rewrite Zn.
  assert (Lxl : zlen lx = zlen ly) by congruence.
  split; [apply mean_add; assumption|]. split; [rewrite Lxl; apply mean_add; assumption|]. split; [exact G32|]. split; [exact G62|]. split; [exact G2|].
  cbn [nadd nz FN].
  destruct (pw11 dx dy) as [F11 P11]; try assumption. destruct (pw20 dx dy) as [F20 P20]; try assumption. destruct (pw02 dx dy) as [F02 P02]; try assumption.
  split; [|split].
  - destruct (zadd0 sxy F32) as [A1 A2]. 
    destruct (add_zero _ _ A1 (ltac:(apply mixed10; (assumption || lia)) : zero (mixed FN (-1) b (pw FN dx dy 1 0) (hget FN (j_sums c) 1)))) as [A3 A4].
    destruct (add_zero _ _ A3 (ltac:(apply mixed01; (assumption || lia)) : zero (mixed FN (-1) b (pw FN dx dy 0 1) (hget FN (j_sums c) 31)))) as [A5 A6].
    refine (sum_add n lx ly x y mx my _ _ Hn Lxy Hx Hy Px Py Mx My F11 P11 A5 _). rewrite A6, A4, A2. exact B32.
  - destruct (zadd0 sxx F62) as [A1 A2]. 
    destruct (add_zero _ _ A1 (ltac:(apply mixed10; (assumption || lia)) : zero (mixed FN (-2) b (pw FN dx dy 1 0) (hget FN (j_sums c) 31)))) as [A3 A4].
    refine (sum_add n lx lx x x mx mx _ _ Hn eq_refl Hx Hx Px Px Mx Mx F20 P20 A3 _). rewrite A4, A2. exact B62.
  - destruct (zadd0 syy F2) as [A1 A2]. 
    destruct (add_zero _ _ A1 (ltac:(apply mixed01; (assumption || lia)) : zero (mixed FN (-2) b (pw FN dx dy 0 1) (hget FN (j_sums c) 1)))) as [A3 A4].
    rewrite <- A2, <- A4 in B2. pose proof (sum_add n ly ly y y my my _ _ Hn eq_refl Hy Hy Py Py My My F02 P02 A3 B2) as H3. cbv zeta in H3. rewrite <- Lxl in H3. exact H3.
Qed.
Lemma hcopy_hzero (u v : @hmap f64) k : hcopy u v k = v k -> hcopy (hzero FN u) (hzero FN v) k = hzero FN v k.
Proof. unfold hcopy, hzero. destruct (u k); [intros <-|]; reflexivity. Qed.
Lemma J_zero (c c' : vc) : j_tuples c = corr_sums -> hcopy (j_new c) (j_sums c) 62%Z = j_sums c 62%Z -> hcopy (j_new c) (j_sums c) 2%Z = j_sums c 2%Z ->
  (exists mx my, j_means c = [mx; my]) -> (exists a, j_sums c 32%Z = Some a) -> (exists a, j_sums c 62%Z = Some a) -> (exists a, j_sums c 2%Z = Some a) ->
  j_tuples c' = j_tuples c -> j_sums c' = hzero FN (j_sums c) -> j_new c' = hzero FN (j_new c) -> j_means c' = map (fun _ => fz 0) (j_means c) -> j_count c' = 0%Z ->
  JQ 0 [] c'.
Proof.
  intros Ht H62 H2 (mx & my & Em) (a & Ea) (b & Eb) (d & Ed) E1 E2 E3 E4 E5. destruct (fz_real 0 ltac:(lia)) as [F0 E0'].
  unfold JQ, J. cbv zeta. rewrite E1, E2, E3, E4, E5. cbn [map].
  split; [exact Ht|]. split; [reflexivity|]. split; [constructor|].
  assert (Zh : forall k, zero (hget FN (hzero FN (j_sums c)) k)) by (intros k; unfold hget, hzero; destruct (j_sums c k); exact z0).
  split; [apply Zh|]. split; [apply Zh|]. split; [apply hcopy_hzero, H62|]. split; [apply hcopy_hzero, H2|].
  assert (C0 : Rabs (B2R (fz 0) - cs (rl []) (rl [])) <= 800 * (INR 0 * INR 0) * EB).
  { rewrite E0'. change (rl []) with (@nil R). rewrite cs_nil. cbn [INR]. rewrite Rminus_0_r, Rabs_R0. lra. }
  exists (fz 0), (fz 0), (fz 0), (fz 0), (fz 0). rewrite Em. split; [reflexivity|]. 
  split; [apply Qm_nil; [exact 0%nat|cbn; lia|reflexivity|reflexivity]|]. split; [apply Qm_nil; [exact 0%nat|cbn; lia|reflexivity|reflexivity]|].
  unfold hzero. rewrite Ea, Eb, Ed. do 3 (split; [reflexivity|]). auto.
Qed.
Lemma JQ_0 n l c : JQ n l c -> (forall c', j_tuples c' = j_tuples c -> j_sums c' = hzero FN (j_sums c) -> j_new c' = hzero FN (j_new c) ->
  j_means c' = map (fun _ => fz 0) (j_means c) -> j_count c' = 0%Z -> JQ 0 [] c').
Proof.
  intros (Ht & _ & _ & _ & _ & H62 & H2 & mx & my & a & b & d & Em & _ & _ & E1 & E2 & E3 & _) c'. apply (J_zero c c'); eauto.
Qed.
Lemma JQ0_JR n c : (n <= nmax)%nat -> JQ 0 [] c -> JR n [] c.
Proof.
  intros Hn H. apply JQ_JR in H; [|lia]. destruct H as (H1 & H2 & H3 & H4 & H5 & H6 & H7 & mx & my & a & b & d & E & Mx & My & E1 & E2 & E3 & (F1 & B1) & (F2 & B2) & F3 & B3).
  pose proof (EB_pos B HB) as HE. pose proof (pos_INR n) as Hp. pose proof (B_pos B HB) as H0.
  do 7 (split; [assumption|]). exists mx, my, a, b, d. split; [exact E|].
  assert (HM : forall m, Rm B 0 [] (mk m (zlen (@nil (list f64)))) -> Rm B n [] (mk m (zlen (@nil (list f64))))).
  { intros m (M1 & M2 & M3 & M4 & M5 & M6). split; [exact M1|]. split; [cbn [length]; lia|]. split; [exact M3|]. split; [exact M4|]. split; [exact M5|].
    eapply Rle_trans; [exact M6|]. apply Rmult_le_compat_r; [left; apply Rmult_lt_0_compat; [apply bpow_gt_0|exact H0]|]. cbn [INR]. lra. }
  split; [apply HM, Mx|]. split; [apply HM, My|]. do 3 (split; [assumption|]).
  assert (Hle : (800 * (INR 0 * INR 0) + 420 * INR 0 + 400) * EB <= (800 * (INR n * INR n) + 420 * INR n + 400) * EB) by (apply Rmult_le_compat_r; [lra|cbn [INR]; nra]).
  split; [split; [exact F1|lra]|]. split; split; assumption || lra.
Qed.
Lemma J_rem n p l c : (n < nmax)%nat -> JQ n (p :: l) c -> exists c', j_remove FN c p = Ok c' /\ JR n l c' /\ jsame c c'.
Proof.
  intros Hn HQ. pose proof HQ as (Ht & Hc & Hl & Z1 & Z31 & Hc62 & Hc2 & mx & my & sxy & sxx & syy & Em & Mx & My & E32 & E62 & E2 & (F32 & B32) & (F62 & B62) & F2 & B2).
  assert (Hc' : (j_count c - 1 = zlen l)%Z) by (rewrite Hc; unfold zlen; cbn [length]; lia). unfold j_remove. rewrite Hc'.
  inversion Hl as [|? ? Hp Hl']; subst. destruct (Z.gtb_spec (zlen l) 0) as [Hpos|Hz].
  2:{ assert (l = []) as -> by (destruct l; [reflexivity|]; unfold zlen in Hz; cbn [length] in Hz; lia). eexists. split; [reflexivity|]. split; [|split; [reflexivity|split; reflexivity]].
      apply JQ0_JR; [lia|]. eapply JQ_0; [exact HQ|reflexivity|reflexivity|reflexivity|reflexivity|reflexivity]. }
  pose proof Hp as (Lp & Px & Py). destruct (two p Lp) as (x & y & ->). change (px [x; y]) with x in *. change (py [x; y]) with y in *.
  pose proof (okp_x l Hl') as Hx. pose proof (okp_y l Hl') as Hy. pose proof (zlen_map px l) as Lx. pose proof (zlen_map py l) as Ly.
  assert (Lxy : length (map px l) = length (map py l)) by (rewrite !map_length; reflexivity).
  cbn [map] in Mx, My, B32, B62, B2. change (px [x; y]) with x in *. change (py [x; y]) with y in *.
  assert (Hne : l <> []) by (intros ->; cbn in Hpos; lia).
  assert (Hnx : map px l <> []) by (destruct l; [congruence|discriminate]). assert (Hny : map py l <> []) by (destruct l; [congruence|discriminate]).
  pose proof (okp_x _ Hl) as Hxx. pose proof (okp_y _ Hl) as Hyy. cbn [map] in Hxx, Hyy. change (px [x; y]) with x in *. change (py [x; y]) with y in *.
  assert (Hlt : (length l < n)%nat) by (destruct Mx as (_ & X & _); cbn [length] in X; rewrite map_length in X; lia).
  replace (zlen ([x; y] :: l)) with (zlen (x :: map px l)) in Mx by (unfold zlen; cbn [length]; rewrite map_length; reflexivity).
  replace (zlen ([x; y] :: l)) with (zlen (y :: map py l)) in My by (unfold zlen; cbn [length]; rewrite map_length; reflexivity).
  apply mean_rem in Mx; [|exact Hn|exact Hxx|exact Hnx]. apply mean_rem in My; [|exact Hn|exact Hyy|exact Hny]. rewrite <- Lx.
  set (lx := map px l) in *. set (ly := map py l) in *. assert (Lxl : zlen lx = zlen ly) by congruence.
  rewrite <- Lxl in My. set (mx' := rem_mean FN mx x (zlen lx)) in *. set (my' := rem_mean FN my y (zlen lx)) in *.
  rewrite Em, Ht. cbn [combine map fst snd].
  change (nsub FN mx (ndiv FN (nsub FN x mx) (nz FN (zlen lx)))) with mx'. change (nsub FN my (ndiv FN (nsub FN y my) (nz FN (zlen lx)))) with my'.
  change (deltas FN [x; y] [mx'; my']) with [fsub x mx'; fsub y my']. cbn [nz FN].
  assert (My' : Rm B n ly (mk my' (zlen ly))) by (rewrite <- Lxl; exact My).
  destruct (dxy n lx ly x y mx' my' Hx Hy Px Py Mx My') as (Fdx & Fdy & Bdx & Bdy).
  set (dx := fsub x mx') in *. set (dy := fsub y my') in *.
  assert (Hz : (1 <= zlen lx <= 2 ^ 40)%Z) by (rewrite Lx; split; [lia|unfold zlen; lia]). set (a := fz (zlen lx)) in *.
  destruct (rem6 FN a dx dy (j_sums c) (j_new c) Hc62 Hc2) as ((s', m) & E & G0 & G1 & G31 & G32 & G62 & G2 & K62 & K2). cbn [fst snd] in *. rewrite E. cbn [bind].
  replace (hget FN (j_sums c) 32) with sxy in G32 by (unfold hget; rewrite E32; reflexivity). replace (hget FN (j_sums c) 62) with sxx in G62 by (unfold hget; rewrite E62; reflexivity).
  replace (hget FN (j_sums c) 2) with syy in G2 by (unfold hget; rewrite E2; reflexivity).
  destruct (add1_real 0 (zlen lx) ltac:(lia)) as [Fb Eb]. destruct (fz_real (zlen lx) ltac:(lia)) as [Fa Ea]. fold a in Fa, Ea, Fb, Eb.
  change (nadd FN a (nz FN 1)) with (fadd a (fz 1)) in *. set (b := fadd a (fz 1)) in *.
  assert (Ba : Rabs (B2R a) <= bpow radix2 63).
  { rewrite Ea, <- abs_IZR. change (bpow radix2 63) with (IZR (2 ^ 63)). apply IZR_le. lia. }
  assert (Bb : 1 <= B2R b) by (rewrite Eb; apply IZR_le; lia).
  eexists. split; [reflexivity|]. split; [|split; [reflexivity|split; reflexivity]].
  unfold JR, J. cbn [j_means j_tuples j_sums j_new j_count j_window j_decay j_queue]. cbv zeta. fold lx ly.
  assert (O01 : zero (one FN a b (pw FN dx dy 0 1))) by (apply one01; assumption). assert (O10 : zero (one FN a b (pw FN dx dy 1 0))) by (apply one10; assumption).
  cbn [nadd nsub nz FN] in G1, G31, G32, G62, G2.
  assert (Z1' : zero (fsub (fadd (fz 0) (hget FN (j_sums c) 1)) (one FN a b (pw FN dx dy 0 1)))) by (apply zsub; [apply zadd; [apply z0|exact Z1]|exact O01]).
  assert (Z31' : zero (fsub (fadd (fz 0) (hget FN (j_sums c) 31)) (one FN a b (pw FN dx dy 1 0)))) by (apply zsub; [apply zadd; [apply z0|exact Z31]|exact O10]).
  set (s1 := fsub (fadd (fz 0) (hget FN (j_sums c) 1)) _) in *. set (s31 := fsub (fadd (fz 0) (hget FN (j_sums c) 31)) _) in *.
  assert (Z1'' : zero (fsub (fadd (fz 0) s1) (one FN a b (pw FN dx dy 0 1)))) by (apply zsub; [apply zadd; [apply z0|exact Z1']|exact O01]).
  assert (Z31'' : zero (fsub (fadd (fz 0) s31) (one FN a b (pw FN dx dy 1 0)))) by (apply zsub; [apply zadd; [apply z0|exact Z31']|exact O10]).
  set (s1' := fsub (fadd (fz 0) s1) _) in *. set (s31' := fsub (fadd (fz 0) s31) _) in *.
  split; [reflexivity|]. split; [exact Lx|]. split; [exact Hl'|].
  split. { unfold hget. rewrite G1. exact Z1''. }
  split. { unfold hget. rewrite G31. exact Z31''. }
  split; [exact K62|]. split; [exact K2|].
  exists mx', my'. eexists _, _, _. split; [reflexivity|]. rewrite <- Lx.
  split; [exact Mx|]. split; [exact My|]. split; [exact G32|]. split; [exact G62|]. split; [exact G2|].
  destruct (pw11 dx dy) as [F11 P11]; try assumption. destruct (pw20 dx dy) as [F20 P20]; try assumption. destruct (pw02 dx dy) as [F02 P02]; try assumption.
  assert (Hlx : (length lx < n)%nat) by (unfold lx; rewrite map_length; exact Hlt). assert (Hly : (length ly < n)%nat) by (unfold ly; rewrite map_length; exact Hlt).
  split; [|split].
  - destruct (zadd0 sxy F32) as [A1 A2]. 
    destruct (sub_zero _ _ A1 (ltac:(apply mixed10; (assumption || lia)) : zero (mixed FN (-1) b (pw FN dx dy 1 0) s1))) as [A3 A4].
    destruct (sub_zero _ _ A3 (ltac:(apply mixed01; (assumption || lia)) : zero (mixed FN (-1) b (pw FN dx dy 0 1) s31))) as [A5 A6].
    rewrite <- A2, <- A4, <- A6 in B32. exact (sum_rem n lx ly x y mx' my' _ _ Hn Lxy Hx Hy Px Py Mx My' F11 P11 A5 Hlx Hnx B32).
  - destruct (zadd0 sxx F62) as [A1 A2]. 
    destruct (sub_zero _ _ A1 (ltac:(apply mixed10; (assumption || lia)) : zero (mixed FN (-2) b (pw FN dx dy 1 0) s31'))) as [A3 A4].
    rewrite <- A2, <- A4 in B62. exact (sum_rem n lx lx x x mx' mx' _ _ Hn eq_refl Hx Hx Px Px Mx Mx F20 P20 A3 Hlx Hnx B62).
  - destruct (zadd0 syy F2) as [A1 A2]. 
    destruct (sub_zero _ _ A1 (ltac:(apply mixed01; (assumption || lia)) : zero (mixed FN (-2) b (pw FN dx dy 0 1) s1'))) as [A3 A4].
    rewrite <- A2, <- A4 in B2. pose proof (sum_rem n ly ly y y my' my' _ _ Hn eq_refl Hy Hy Py Py My' My' F02 P02 A3 Hly Hny B2) as H3. cbv zeta in H3. rewrite <- Lxl in H3. exact H3.
Qed.
End Err.
