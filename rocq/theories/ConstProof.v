(** Streams of one repeated value, in float64. *)
From Coq Require Import ZArith Lia Bool Reals Lra List.
From Flocq Require Import Core BinarySingleNaN.
From Verif Require Import Base F64 FloatR HistSpec RingModel MathModel MathProof NumModel MomentModel StdFloat CoreInv FloatErr.
Import ListNotations.
Local Open Scope R_scope.

Lemma coef_upto k i cf : coef FN k i = Ok cf -> upto 63 cf.
Proof.
  unfold coef. intros H. apply bind_ok in H. destruct H as (b & _ & H). cbn [nz FN] in H. apply (f_equal (fun r => match r with Ok v => v | _ => cf end)) in H. rewrite <- H. apply fz_upto.
  pose proof (wrap_range (b * sign (Z.of_nat i))). lia.
Qed.
Lemma sgn_upto k : upto 63 (fz (sign k)).
Proof. apply fz_upto. unfold sign. destruct (Z.rem k 2 =? 0)%Z; lia. Qed.
Lemma inner_zero op t k is_ : (forall a b, zero a -> zero b -> zero (op a b)) -> (forall i, In i is_ -> (i <= k)%nat) -> (k <= 65)%nat -> (forall i cf, In i is_ -> upto 63 cf -> zero (t cf i)) ->
  forall s, zero s -> exists v, inner FN op t k is_ s = Ok v /\ zero v.
Proof.
  intros Hop Hle Hk Ht. induction is_ as [|i is_ IH]; intros s Hs; cbn [inner]; [exists s; auto|].
  destruct (coef_any FN k i) as [cf Ecf]; [split; [apply Hle; left; reflexivity|exact Hk]|]. rewrite Ecf. cbn [bind].
  apply IH; [intros j Hj; apply Hle; right; exact Hj|intros j c Hj; apply Ht; right; exact Hj|]. apply Hop; [exact Hs|]. apply Ht; [left; reflexivity|]. eapply coef_upto. exact Ecf.
Qed.
Lemma outer_zero (step : (nat -> f64) -> nat -> res f64) ks : (forall f k, In k ks -> (forall j, zero (f j)) -> exists v, step f k = Ok v /\ zero v) ->
  forall f, (forall j, zero (f j)) -> exists g, outer step ks f = Ok g /\ forall j, zero (g j).
Proof.
  induction ks as [|k ks IH]; intros Hs f Hf; cbn [outer]; [exists f; auto|]. destruct (Hs f k (or_introl eq_refl) Hf) as (v & Ev & Zv). rewrite Ev. cbn [bind].
  apply IH; [intros f' k' Hk'; apply Hs; right; exact Hk'|]. intros j. unfold sput. destruct (Nat.eqb j k); [exact Zv|apply Hf].
Qed.

Lemma Ei_le E k i : (0 <= E)%Z -> (i <= k)%nat -> (E * Z.of_nat k <= 900)%Z -> (0 <= E * Z.of_nat i <= 900)%Z.
Proof. intros HE Hi H. pose proof (Z.mul_le_mono_nonneg_l (Z.of_nat i) (Z.of_nat k) E HE ltac:(lia)). pose proof (Z.mul_nonneg_nonneg E (Z.of_nat i) HE ltac:(lia)). lia. Qed.

Lemma count_upto n : (0 <= n <= 2 ^ 41)%Z -> upto 41 (fz n) /\ B2R (fz n) = IZR n.
Proof.
  intros Hn. destruct (fz_exact n ltac:(lia)) as [F H]. split; [|exact H]. split; [exact F|]. rewrite H, <- abs_IZR. change (bpow radix2 41) with (IZR (2 ^ 41)). apply IZR_le. lia.
Qed.
Lemma real_upto v n : (0 <= n <= 2 ^ 41)%Z -> is_finite v = true -> B2R v = IZR n -> upto 41 v.
Proof. intros Hn F H. split; [exact F|]. rewrite H, <- abs_IZR. change (bpow radix2 41) with (IZR (2 ^ 41)). apply IZR_le. lia. Qed.
(** The factor a / b^k * (a^(k-1) + sign), for counts a and b = a + 1. *)
Lemma factor_upto a b n k : (2 <= k <= 20)%nat -> (0 <= n <= 2 ^ 40)%Z -> is_finite a = true -> B2R a = IZR n -> is_finite b = true -> B2R b = IZR (n + 1) ->
  upto 41 (fdiv a (fpow b k)) /\ (n = 0%Z -> zero (fdiv a (fpow b k))) /\ upto 900 (fmul (fdiv a (fpow b k)) (fadd (fpow a (k - 1)) (fz (sign (Z.of_nat k))))).
Proof.
  intros Hk Hn Fa Ea Fb Eb. pose proof (real_upto a n ltac:(lia) Fa Ea) as Ua. pose proof (real_upto b (n + 1) ltac:(lia) Fb Eb) as Ub.
  assert (Hb1 : 1 <= B2R b) by (rewrite Eb; apply IZR_le; lia). pose proof (pow_ge1 b k 41 ltac:(lia) ltac:(lia) ltac:(lia) Ub Hb1) as Hp. pose proof (div_upto 41 a (fpow b k) ltac:(lia) Ua Hp) as Ud.
  split; [exact Ud|]. split; [intros ->; apply zdiv; [split; assumption|lra]|].
  apply (upto_le (41 + 821)); [lia|]. apply mul_upto; try lia; [exact Ud|]. apply (add_upto 820); [lia| |].
  - apply (upto_le (41 * Z.of_nat (k - 1))); [lia|]. apply pow_upto; [lia|lia|lia|exact Ua].
  - apply (upto_le 63); [lia|]. apply sgn_upto.
Qed.

Section Const.
Variables (cst : f64) (L : nat) (E : Z) (bound : nat).
Hypothesis Fc : is_finite cst = true.
Hypothesis HL : (L <= 21)%nat.
Hypothesis HE : (0 <= E)%Z.
Hypothesis HEk : forall k, (2 <= k < L)%nat -> (E * Z.of_nat k <= 900)%Z /\ upto E cst.
Hypothesis Hbound : (Z.of_nat bound <= 2 ^ 40)%Z.

Definition cinv (n : nat) (l : list f64) (c : @core f64) : Prop :=
  c_len c = L /\ c_count c = zlen l /\ (length l <= n)%nat /\ (forall k, zero (c_sums c k)) /\ is_finite (c_mean c) = true /\ B2R (c_mean c) = match l with [] => 0 | _ => B2R cst end.

Lemma cinv_add n l c : (n < bound)%nat -> cinv n l c -> exists c', c_add FN c cst = Ok c' /\ cinv (S n) (l ++ [cst]) c' /\ same_par c c'.
Proof.
  intros Hn (Hl & Hc & Hln & Hz & Fm & Em). unfold c_add. cbv zeta. cbn [nz nadd nsub nmul ndiv npow FN]. rewrite Hc.
  assert (H0 : (0 <= zlen l < 2 ^ 40)%Z) by (unfold zlen; lia). set (N := (zlen l + 1)%Z).
  destruct (fz_exact N ltac:(unfold N; lia)) as [FN' EN]. assert (HN0 : B2R (fz N) <> 0) by (rewrite EN; apply IZR_neq; unfold N; lia).
  destruct (sub1_real 0%nat N ltac:(unfold N; lia)) as [Fa Ea]. replace (N - 1)%Z with (zlen l) in Ea by (unfold N; lia).
  set (delta := fsub cst (c_mean c)).
  assert (HD : is_finite delta = true /\ (zlen l = 0%Z -> B2R delta = B2R cst /\ B2R (fz N) = 1) /\ (zlen l <> 0%Z -> zero delta)).
  { unfold delta. destruct l as [|y l'].
    - destruct (sub_zero cst (c_mean c) Fc (conj Fm Em)) as [F1 F2]. split; [exact F1|]. split; [intros _; split; [exact F2|rewrite EN; reflexivity]|]. intros X. exfalso. apply X. reflexivity.
    - pose proof (sub_same cst (c_mean c) Fc Fm (eq_sym Em)) as Z. split; [apply Z|]. split; [intros X; unfold zlen in X; cbn [length] in X; lia|]. intros _. exact Z. }
  destruct HD as (FD & HD1 & HD2).
  assert (HQ : is_finite (fdiv delta (fz N)) = true /\ (zlen l = 0%Z -> B2R (fdiv delta (fz N)) = B2R cst) /\ (zlen l <> 0%Z -> zero (fdiv delta (fz N)))).
  { destruct (Z.eq_dec (zlen l) 0) as [Z|Z].
    - destruct (HD1 Z) as [D1 D2]. destruct (div_one delta (fz N) FD D2) as [F1 F2]. split; [exact F1|]. split; [intros _; congruence|]. contradiction.
    - pose proof (zdiv delta (fz N) (HD2 Z) HN0) as Q. split; [apply Q|]. split; [contradiction|]. intros _. exact Q. }
  destruct HQ as (FQ & HQ1 & HQ2).
  match goal with |- context [outer ?s ?k ?f0] => destruct (fun H => outer_zero s k H f0 Hz) as (g & Eg & Zg) end.
  - intros f k Hk Hf. apply in_rev in Hk. apply in_seq in Hk. rewrite Hl in Hk. assert (Hk' : (2 <= k <= 20)%nat) by lia. destruct (HEk k ltac:(lia)) as [HEk1 Uc].
    assert (UD : upto E delta). { destruct (Z.eq_dec (zlen l) 0) as [Z|Z]; [split; [exact FD|rewrite (proj1 (HD1 Z)); apply Uc]|apply zero_upto; auto]. }
    assert (UQ : upto E (fdiv delta (fz N))). { destruct (Z.eq_dec (zlen l) 0) as [Z|Z]; [split; [exact FQ|rewrite (HQ1 Z); apply Uc]|apply zero_upto; auto]. }
    destruct (factor_upto (fsub (fz N) (fz 1)) (fz N) (zlen l) k Hk' ltac:(lia) Fa Ea FN' EN) as (U1 & U2 & U3).
    apply inner_zero; [apply zadd|apply is_le|lia| |].
    + intros i cf Hi Ucf. apply in_seq in Hi. apply zmul_r; [|apply Hf]. pose proof (Ei_le E k i HE ltac:(lia) HEk1) as HEi. apply (mul_upto 63 (E * Z.of_nat i)); try lia; [exact Ucf|]. apply pow_upto; [exact HE|lia|lia|exact UQ].
    + apply zadd; [apply Hf|]. pose proof (pow_upto delta k E HE ltac:(lia) ltac:(lia) UD) as Up. destruct (Z.eq_dec (zlen l) 0) as [Z|Z].
      * apply zmul_l; [|apply Up]. apply zmul_l; [apply U2; exact Z|]. 
        apply (add_upto 820); [lia| |apply (upto_le 63); [lia|apply sgn_upto]].
        apply (upto_le (41 * Z.of_nat (k - 1))); [lia|]. apply pow_upto; [lia|lia|lia|]. apply (real_upto _ (zlen l)); [lia|exact Fa|exact Ea].
      * apply zmul_r; [apply U3|]. apply pow_zero; [lia|auto].
  - rewrite Eg. cbn [bind]. eexists. split; [reflexivity|]. split; [|repeat split].
    split; [exact Hl|]. split; [cbn [c_count]; unfold N, zlen; rewrite app_length; cbn [length]; lia|]. split; [rewrite app_length; cbn [length]; lia|]. split; [exact Zg|]. cbn [c_mean].
    replace (match l ++ [cst] with [] => 0 | _ => B2R cst end) with (B2R cst) by (destruct l; reflexivity).
    destruct (Z.eq_dec (zlen l) 0) as [Z|Z].
    + assert (l = []) by (destruct l; [reflexivity|unfold zlen in Z; cbn [length] in Z; lia]). subst l. destruct (zero_add (c_mean c) (fdiv delta (fz N)) (conj Fm Em) FQ) as [F1 F2]. split; [exact F1|]. rewrite F2. apply HQ1. exact Z.
    + destruct l as [|y l']; [contradiction|]. destruct (add_zero (c_mean c) (fdiv delta (fz N)) Fm (HQ2 Z)) as [F1 F2]. split; [exact F1|]. rewrite F2. exact Em.
Qed.
Lemma cinv_rem n l c : (n < bound)%nat -> cinv n (cst :: l) c -> exists c', c_remove FN c cst = Ok c' /\ cinv n l c' /\ same_par c c'.
Proof.
  intros Hn (Hl & Hc & Hln & Hz & Fm & Em). unfold c_remove. cbv zeta. cbn [nz nadd nsub nmul ndiv npow FN]. rewrite Hc.
  assert (EL : (zlen (cst :: l) - 1 = zlen l)%Z) by (unfold zlen; cbn [length]; lia). rewrite EL. cbn [length] in Hln.
  assert (H0 : (0 <= zlen l < 2 ^ 40)%Z) by (unfold zlen; lia). pose proof (sub_same cst (c_mean c) Fc Fm (eq_sym Em)) as ZD.
  destruct (Z.gtb_spec (zlen l) 0) as [Hp|Hp].
  - destruct (fz_exact (zlen l) ltac:(lia)) as [FN' EN]. assert (HN0 : B2R (fz (zlen l)) <> 0) by (rewrite EN; apply IZR_neq; lia). destruct (add1_real 0%nat (zlen l) ltac:(lia)) as [Fb Eb].
    pose proof (zdiv _ _ ZD HN0) as ZQ. set (mean := fsub (c_mean c) (fdiv (fsub cst (c_mean c)) (fz (zlen l)))).
    destruct (sub_zero (c_mean c) _ Fm ZQ) as [F1 F2]. fold mean in F1, F2. pose proof (sub_same cst mean Fc F1 ltac:(congruence)) as ZD'.
    assert (ZQ' : zero (fdiv (fsub cst mean) (fadd (fz (zlen l)) (fz 1)))) by (apply zdiv; [exact ZD'|rewrite Eb; apply IZR_neq; lia]).
    match goal with |- context [outer ?s ?k ?f0] => destruct (fun H => outer_zero s k H f0 Hz) as (g & Eg & Zg) end.
    + intros f k Hk Hf. apply in_seq in Hk. rewrite Hl in Hk. assert (Hk' : (2 <= k <= 20)%nat) by lia.
      destruct (factor_upto (fz (zlen l)) (fadd (fz (zlen l)) (fz 1)) (zlen l) k Hk' ltac:(lia) FN' EN Fb Eb) as (_ & _ & U3).
      apply inner_zero; [apply zsub|apply is_le|lia| |].
      * intros i cf Hi Ucf. apply in_seq in Hi. apply zmul_r; [|apply Hf]. apply zmul_r; [apply Ucf|]. apply pow_zero; [lia|exact ZQ'].
      * apply zsub; [apply Hf|]. apply zmul_r; [apply U3|]. apply pow_zero; [lia|exact ZD'].
    + rewrite Eg. cbn [bind]. eexists. split; [reflexivity|]. split; [|repeat split]. split; [exact Hl|]. split; [reflexivity|]. split; [lia|]. split; [exact Zg|]. cbn [c_mean]. split; [exact F1|]. rewrite F2, Em. destruct l; [unfold zlen in Hp; cbn in Hp; lia|reflexivity].
  - eexists. split; [reflexivity|]. split; [|repeat split]. split; [exact Hl|]. split; [reflexivity|]. split; [lia|]. split; [intros k; apply z0|]. cbn [c_mean]. destruct l; [split; apply z0|unfold zlen in Hp; cbn [length] in Hp; lia].
Qed.
Lemma cinv_nil c : c_len c = L -> c_mean c = nz FN 0 -> (forall k, c_sums c k = nz FN 0) -> c_count c = 0%Z -> cinv 0 [] c.
Proof.
  intros H1 H2 H3 H4. split; [exact H1|]. split; [exact H4|]. split; [apply le_n|]. split; [intros k; rewrite H3; apply z0|]. rewrite H2. split; apply z0.
Qed.
Lemma const_run w ops : (0 <= w)%Z -> (forall x, In (OPush x) ops -> x = cst) -> (length ops <= bound)%nat ->
  exists c, core_run FN (mkCore (fz 0) L (fun _ => fz 0) 0 w None (ring_new w)) ops = Ok c /\ cinv (length (hist ops)) (live w (hist ops)) c.
Proof.
  intros Hw Hops Hlen.
  destruct (core_run_winv FN (fun x => x = cst) bound (fun l => l = L) cinv cinv) with (w := w) (ops := ops) (c0 := mkCore (fz 0) L (fun _ : nat => fz 0) 0 w None (ring_new w)) as (c & Ec & I & _).
  - intros ? ? ? H. apply H.
  - intros ? ? ? ? ? ? H. exact H.
  - intros ? ? ? ? ? ? H. exact H.
  - intros ? ? ? _ H. exact H.
  - intros m y l c Hm Hf H. inversion Hf; subst y. apply cinv_rem; assumption.
  - intros m l x c Hm _ -> H. apply cinv_add; assumption.
  - intros c. apply cinv_nil.
  - exact Hw.
  - split; [rewrite live_nil; apply cinv_nil; reflexivity|]. rewrite live_nil. repeat split.
  - exact Hops.
  - exact Hlen.
  - exists c. auto.
Qed.

(** With decay. *)
Definition dinv (d : f64) (h : list f64) (c : @core f64) : Prop := cinv (length h) h c /\ c_window c = 0%Z /\ c_decay c = Some d.
Lemma dinv_push d h c : is_finite d = true -> 0 < B2R d < 1 -> (length h < bound)%nat -> dinv d h c -> exists c', c_push FN c cst = Ok c' /\ dinv d (h ++ [cst]) c'.
Proof.
  intros Fd Hd Hn ((Hl & Hc & Hln & Hz & Fm & Em) & Ew & Ed). unfold c_push. rewrite Ew. cbn [Z.eqb negb bind]. rewrite Ed.
  unfold c_add_decay. cbv zeta. cbn [nz nadd nsub nmul ndiv npow FN]. rewrite Hc. assert (H0 : (0 <= zlen h < 2 ^ 40)%Z) by (unfold zlen; lia).
  set (delta := fsub cst (c_mean c)). set (dc := if (zlen h + 1 =? 1)%Z then fz 1 else d).
  destruct (fz_exact 1 ltac:(lia)) as [F1 E1].
  assert (Hdc : is_finite dc = true /\ 0 < B2R dc <= 1 /\ (zlen h = 0%Z -> dc = fz 1)).
  { unfold dc. destruct (Z.eqb_spec (zlen h + 1) 1) as [X|X]; [rewrite E1; repeat split; auto; lra|]. repeat split; auto; try lra. intros Y. lia. }
  destruct Hdc as (Fdc & Rdc & Hdc1).
  assert (Udc : upto 0 dc) by (split; [exact Fdc|change (bpow radix2 0) with 1; rewrite Rabs_pos_eq; lra]).
  assert (U1d : upto 0 (fsub (fz 1) dc) /\ (zlen h = 0%Z -> zero (fsub (fz 1) dc))).
  { destruct (fsub_b (fz 1) dc 0 F1 Fdc ltac:(lia)) as [Fs Es]; [rewrite E1; change (bpow radix2 0) with 1; apply Rabs_le; lra|]. split.
    - split; [exact Fs|]. rewrite Es. apply rnd_abs_bpow; [lia|]. rewrite E1. change (bpow radix2 0) with 1. apply Rabs_le. lra.
    - intros X. rewrite (Hdc1 X). apply sub_same; auto. }
  destruct U1d as [U1d Z1d].
  assert (U0d : upto 0 (fsub (fz 0) dc)).
  { destruct z0 as [Fz Ez]. destruct (fsub_b (fz 0) dc 0 Fz Fdc ltac:(lia)) as [Fs Es]; [rewrite Ez; change (bpow radix2 0) with 1; apply Rabs_le; lra|].
    split; [exact Fs|]. rewrite Es. apply rnd_abs_bpow; [lia|]. rewrite Ez. change (bpow radix2 0) with 1. apply Rabs_le. lra. }
  assert (HD : is_finite delta = true /\ (zlen h = 0%Z -> B2R delta = B2R cst) /\ (zlen h <> 0%Z -> zero delta)).
  { unfold delta. destruct h as [|y h'].
    - destruct (sub_zero cst (c_mean c) Fc (conj Fm Em)) as [G1 G2]. split; [exact G1|]. split; [intros _; exact G2|]. intros X. exfalso. apply X. reflexivity.
    - pose proof (sub_same cst (c_mean c) Fc Fm (eq_sym Em)) as Z. split; [apply Z|]. split; [intros X; unfold zlen in X; cbn [length] in X; lia|]. intros _. exact Z. }
  destruct HD as (FD & HD1 & HD2).
  assert (HQ : is_finite (fmul dc delta) = true /\ (zlen h = 0%Z -> B2R (fmul dc delta) = B2R cst) /\ (zlen h <> 0%Z -> zero (fmul dc delta))).
  { destruct (Z.eq_dec (zlen h) 0) as [Z|Z].
    - rewrite (Hdc1 Z). destruct (one_mul (fz 1) delta F1 E1 FD) as [G1 G2]. split; [exact G1|]. split; [intros _; rewrite G2; auto|]. contradiction.
    - pose proof (zmul_r dc delta Fdc (HD2 Z)) as Q. split; [apply Q|]. split; [contradiction|]. intros _. exact Q. }
  destruct HQ as (FQ & HQ1 & HQ2).
  match goal with |- context [outer ?s ?k ?f0] => destruct (fun H => outer_zero s k H f0 Hz) as (g & Eg & Zg) end.
  - intros f k Hk Hf. apply in_rev in Hk. apply in_seq in Hk. rewrite Hl in Hk. assert (Hk' : (2 <= k <= 20)%nat) by lia. destruct (HEk k ltac:(lia)) as [HEk1 Uc].
    assert (UD : upto E delta). { destruct (Z.eq_dec (zlen h) 0) as [Z|Z]; [split; [exact FD|rewrite (HD1 Z); apply Uc]|apply zero_upto; auto]. }
    assert (UQ : upto E (fmul dc delta)). { destruct (Z.eq_dec (zlen h) 0) as [Z|Z]; [split; [exact FQ|rewrite (HQ1 Z); apply Uc]|apply zero_upto; auto]. }
    apply inner_zero; [apply zadd|apply is_le|lia| |].
    + intros i cf Hi Ucf. apply in_seq in Hi. apply zmul_r; [|apply Hf]. pose proof (Ei_le E k i HE ltac:(lia) HEk1) as HEi. assert (Up : upto (E * Z.of_nat i) (fpow (fmul dc delta) i)) by (apply pow_upto; [exact HE|lia|lia|exact UQ]).
      assert (Um : upto (63 + E * Z.of_nat i) (fmul cf (fpow (fmul dc delta) i))) by (apply mul_upto; try lia; [exact Ucf|exact Up]).
      apply (mul_upto (63 + E * Z.of_nat i) 0); try lia; [exact Um|exact U1d].
    + apply zadd; [apply zmul_r; [apply U1d|apply Hf]|]. pose proof (pow_upto delta k E HE ltac:(lia) ltac:(lia) UD) as Up.
      assert (Ua : upto 0 (fpow (fsub (fz 0) dc) k)) by (apply (pow_upto _ k 0); [lia|lia|lia|exact U0d]). assert (Ub : upto 0 (fpow (fsub (fz 1) dc) k)) by (apply (pow_upto _ k 0); [lia|lia|lia|exact U1d]).
      destruct (Z.eq_dec (zlen h) 0) as [Z|Z].
      * apply zmul_l; [|apply Up]. apply zadd; [apply zmul_l; [apply Z1d; exact Z|apply Ua]|]. apply zmul_r; [exact Fdc|]. apply pow_zero; [lia|apply Z1d; exact Z].
      * apply zmul_r; [|apply pow_zero; [lia|auto]]. apply (add_upto 0); [lia|apply (mul_upto 0 0); try lia; assumption|apply (mul_upto 0 0); try lia; assumption].
  - rewrite Eg. cbn [bind]. eexists. split; [reflexivity|]. split; [|split; [exact Ew|exact Ed]].
    split; [exact Hl|]. split; [cbn [c_count]; unfold zlen; rewrite app_length; cbn [length]; lia|]. split; [apply le_n|]. split; [exact Zg|]. cbn [c_mean].
    replace (match h ++ [cst] with [] => 0 | _ => B2R cst end) with (B2R cst) by (destruct h; reflexivity).
    destruct (Z.eq_dec (zlen h) 0) as [Z|Z].
    + assert (h = []) by (destruct h; [reflexivity|unfold zlen in Z; cbn [length] in Z; lia]). subst h. destruct (zero_add (c_mean c) (fmul dc delta) (conj Fm Em) FQ) as [G1 G2]. split; [exact G1|]. rewrite G2. apply HQ1. exact Z.
    + destruct h as [|y h']; [contradiction|]. destruct (add_zero (c_mean c) (fmul dc delta) Fm (HQ2 Z)) as [G1 G2]. split; [exact G1|]. rewrite G2. exact Em.
Qed.
Lemma decay_run d ops : is_finite d = true -> 0 < B2R d < 1 -> (forall x, In (OPush x) ops -> x = cst) -> (length ops <= bound)%nat ->
  exists c, core_run FN (mkCore (fz 0) L (fun _ => fz 0) 0 0 (Some d) (ring_new 0)) ops = Ok c /\ dinv d (hist ops) c.
Proof.
  intros Fd Hd Hops Hlen. unfold core_run.
  assert (H : exists c, run (c_push FN) (c_clear FN) ops (mkCore (fz 0) L (fun _ => fz 0) 0 0 (Some d) (ring_new 0)) = Ok c /\ dinv d (hist ops) c /\ (length (hist ops) <= length ops)%nat).
  { induction ops as [|o ops IH] using rev_ind.
    - eexists. split; [reflexivity|]. split; [|apply le_n]. split; [apply cinv_nil; reflexivity|split; reflexivity].
    - destruct IH as (c & Ec & I & HLn). { intros x Hx. apply Hops, in_or_app. left. exact Hx. } { rewrite app_length in Hlen. cbn [length] in Hlen. lia. }
      rewrite app_length in Hlen |- *. cbn [length] in Hlen |- *. rewrite run_app, Ec. cbn [bind]. destruct o as [x|]; cbn [run].
      + assert (x = cst) by (apply Hops, in_or_app; right; left; reflexivity). subst x. destruct (dinv_push d (hist ops) c Fd Hd ltac:(lia) I) as (c' & E' & I'). rewrite E'. cbn [bind]. exists c'. rewrite hist_push.
        split; [reflexivity|]. split; [exact I'|]. rewrite app_length. cbn [length]. lia.
      + rewrite hist_clear. destruct I as ((Hl & _) & Hw & Hdd). eexists. split; [reflexivity|]. split; [|apply Nat.le_0_l]. split; [apply cinv_nil; try reflexivity; exact Hl|]. split; [exact Hw|exact Hdd]. }
  destruct H as (c & Ec & I & _). exists c. auto.
Qed.
End Const.
