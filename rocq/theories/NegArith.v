(** float64 arithmetic under a change of sign. Nothing here models repository code. *)
From Coq Require Import ZArith Lia Bool List Reals.
From Coq Require Import Floats.SpecFloat.
From Flocq Require Import Core BinarySingleNaN.
From Verif Require Import Base F64 FloatR NumModel SelfArith JointErr.
Import ListNotations.
Local Open Scope Z_scope.

(** [sev s a b]: b is a with its sign changed if s, up to the signs of zeros. *)
Definition sev (s : bool) (a b : spec_float) : Prop :=
  match a, b with
  | S754_zero _, S754_zero _ => True
  | S754_nan, S754_nan => True
  | S754_infinity x, S754_infinity y => y = xorb s x
  | S754_finite x m e, S754_finite y m' e' => y = xorb s x /\ m = m' /\ e = e'
  | _, _ => False
  end.
Definition ev (s : bool) (a b : f64) : Prop := sev s (B2SF a) (B2SF b).
Lemma sev_refl a : sev false a a.
Proof. destruct a as [?|?| |? ? ?]; cbn; auto; destruct s; auto. Qed.
Lemma ev_refl a : ev false a a. Proof. apply sev_refl. Qed.
Lemma ev_zero s x y : ev s (B754_zero x) (B754_zero y). Proof. exact I. Qed.
Lemma ev_z0 s : ev s (fz 0) (fz 0). Proof. exact I. Qed.
Lemma ev_nan s : ev s fnan fnan. Proof. exact I. Qed.

(** ** Rounding *)
Lemma round_aux_ev t s mx ex lx : sev t (binary_round_aux 53 1024 mode_NE s mx ex lx) (binary_round_aux 53 1024 mode_NE (xorb t s) mx ex lx).
Proof.
  unfold binary_round_aux. destruct (shr_fexp 53 1024 mx ex lx) as [mrs e]. cbn [choice_mode]. destruct (shr_fexp 53 1024 _ e loc_Exact) as [mrs' e'].
  destruct (shr_m mrs') as [|p|p]; cbn; auto. unfold binary_fit_aux. destruct (_ <=? _)%Z; cbn; auto.
Qed.
Lemma round_ev t s m e : sev t (binary_round 53 1024 mode_NE s m e) (binary_round 53 1024 mode_NE (xorb t s) m e).
Proof. unfold binary_round. destruct (shl_align_fexp 53 1024 m e). apply round_aux_ev. Qed.
Definition B2SF_norm : forall m e z, B2SF (binary_normalize 53 1024 eq_refl eq_refl mode_NE m e z) =
  match m with Z0 => S754_zero z | Zpos p => binary_round 53 1024 mode_NE false p e | Zneg p => binary_round 53 1024 mode_NE true p e end.
Proof. intros [|p|p] e z; cbn [binary_normalize]; [reflexivity| |]; apply B2SF_SF2B. Qed.
Lemma norm_ev m e z z' : forall t, sev t (B2SF (binary_normalize 53 1024 eq_refl eq_refl mode_NE m e z)) (B2SF (binary_normalize 53 1024 eq_refl eq_refl mode_NE (cond_Zopp t m) e z')).
Proof. intros t. rewrite !B2SF_norm. destruct m as [|p|p], t; cbn [cond_Zopp Z.opp]; try exact I; [apply (round_ev true false)|apply (round_ev false false)|apply (round_ev true true)|apply (round_ev false true)]. Qed.

(** ** The operations *)
Lemma ev_mul s t a a' b b' : ev s a a' -> ev t b b' -> ev (xorb s t) (fmul a b) (fmul a' b').
Proof.
  intros Ha Hb. unfold ev in *. destruct a as [sa|sa| |sa ma ea Pa], a' as [sa'|sa'| |sa' ma' ea' Pa']; try contradiction; destruct b as [sb|sb| |sb mb eb Pb], b' as [sb'|sb'| |sb' mb' eb' Pb']; try contradiction; cbn [B2SF sev] in Ha, Hb; try exact I.
  - cbn. subst. destruct s, t, sa, sb; reflexivity.
  - destruct Hb as (-> & -> & ->). cbn. subst. destruct s, t, sa, sb; reflexivity.
  - destruct Ha as (-> & -> & ->). cbn. subst. destruct s, t, sa, sb; reflexivity.
  - destruct Ha as (-> & -> & ->), Hb as (-> & -> & ->). unfold fmul. cbn [Bmult]. rewrite !B2SF_SF2B.
    replace (xorb (xorb s sa) (xorb t sb)) with (xorb (xorb s t) (xorb sa sb)) by (destruct s, t, sa, sb; reflexivity). apply round_aux_ev.
Qed.
Lemma ev_div s a a' b : ev s a a' -> ev s (fdiv a b) (fdiv a' b).
Proof.
  intros Ha. unfold ev in *. destruct a as [sa|sa| |sa ma ea Pa], a' as [sa'|sa'| |sa' ma' ea' Pa']; try contradiction; destruct b as [sb|sb| |sb mb eb Pb]; cbn [B2SF sev] in Ha; try exact I.
  - cbn. subst. destruct s, sa, sb; reflexivity.
  - cbn. subst. destruct s, sa, sb; reflexivity.
  - destruct Ha as (-> & -> & ->). cbn. destruct s, sa, sb; reflexivity.
  - destruct Ha as (-> & -> & ->). unfold fdiv. cbn [Bdiv]. rewrite !B2SF_SF2B. destruct (SFdiv_core_binary 53 1024 (Z.pos ma') ea' (Z.pos mb) eb) as [[mz ez] lz].
    replace (xorb (xorb s sa) sb) with (xorb s (xorb sa sb)) by (destruct s, sa, sb; reflexivity). apply round_aux_ev.
Qed.
Lemma naive_opp s sx mx ex sy my ey ez : Fplus_naive (xorb s sx) mx ex (xorb s sy) my ey ez = cond_Zopp s (Fplus_naive sx mx ex sy my ey ez).
Proof. unfold Fplus_naive. destruct s, sx, sy; cbn [xorb negb cond_Zopp]; lia. Qed.
Lemma ev_add s a a' b b' : ev s a a' -> ev s b b' -> ev s (fadd a b) (fadd a' b').
Proof.
  intros Ha Hb. unfold ev in *. destruct a as [sa|sa| |sa ma ea Pa], a' as [sa'|sa'| |sa' ma' ea' Pa']; try contradiction; destruct b as [sb|sb| |sb mb eb Pb], b' as [sb'|sb'| |sb' mb' eb' Pb']; try contradiction; cbn [B2SF sev] in Ha, Hb; try exact I; try exact Hb; try exact Ha.
  - cbn. destruct (eqb sa sb), (eqb sa' sb'); exact I.
  - subst. cbn. destruct s, sa, sb; cbn; reflexivity || exact I.
  - destruct Ha as (-> & -> & ->), Hb as (-> & -> & ->). unfold fadd. cbn [Bplus]. rewrite naive_opp. apply norm_ev.
Qed.
Lemma ev_sub s a a' b b' : ev s a a' -> ev s b b' -> ev s (fsub a b) (fsub a' b').
Proof.
  intros Ha Hb. unfold ev in *. destruct a as [sa|sa| |sa ma ea Pa], a' as [sa'|sa'| |sa' ma' ea' Pa']; try contradiction; destruct b as [sb|sb| |sb mb eb Pb], b' as [sb'|sb'| |sb' mb' eb' Pb']; try contradiction; cbn [B2SF sev] in Ha, Hb; try exact I; try exact Hb; try exact Ha.
  - cbn. destruct (eqb sa (negb sb)), (eqb sa' (negb sb')); exact I.
  - subst. cbn. destruct s, sb; reflexivity.
  - destruct Hb as (-> & -> & ->). cbn. destruct s, sb; auto.
  - subst. cbn. destruct s, sa, sb; cbn; reflexivity || exact I.
  - subst. cbn. destruct s, sb; reflexivity.
  - destruct Ha as (-> & -> & ->), Hb as (-> & -> & ->). unfold fsub. cbn [Bminus].
    replace (negb (xorb s sb)) with (xorb s (negb sb)) by (destruct s, sb; reflexivity). rewrite naive_opp. apply norm_ev.
Qed.
(** A number of the same sign is the same number, or both are zeros. *)
Lemma ev_same a b : ev false a b -> a = b \/ (exists s, a = B754_zero s) /\ (exists s, b = B754_zero s).
Proof.
  unfold ev. destruct a as [sa|sa| |sa ma ea Pa], b as [sb|sb| |sb mb eb Pb]; cbn [B2SF sev]; try contradiction; auto; intros H.
  - right. eauto.
  - subst. destruct sa; left; reflexivity.
  - left. destruct H as (-> & -> & ->). apply B2SF_inj. cbn. destruct sa; reflexivity.
Qed.
Lemma ev_sqrt a b : ev false a b -> ev false (fsqrt a) (fsqrt b).
Proof. intros H. destruct (ev_same a b H) as [->|((s & ->) & (s' & ->))]; [apply ev_refl|exact I]. Qed.
Lemma ev_lt a b c : ev false a b -> flt a c = flt b c.
Proof. intros H. destruct (ev_same a b H) as [->|((s & ->) & (s' & ->))]; [reflexivity|]. destruct c as [?|?| |? ? ? ?]; reflexivity. Qed.
Lemma ev_opp_self a : ev true a (Bopp a).
Proof. unfold ev. destruct a as [s|s| |s m e P]; cbn; auto; destruct s; auto. Qed.

(** ** math.Pow *)
Lemma xorb_and_odd sa sx (i : nat) : xorb (if Nat.odd i then xorb sa sx else sa) false = xorb sa (sx && Nat.odd i).
Proof. destruct (Nat.odd i), sa, sx; reflexivity. Qed.
Lemma loop_ev fuel : forall i a a' ae x x' xe sa sx, ev sa a a' -> ev sx x x' -> (i <= fuel)%nat ->
  let r := pow_loop fuel a ae x xe i in let r' := pow_loop fuel a' ae x' xe i in snd r = snd r' /\ ((xe <? -4096) || (4096 <? xe) = false -> ev (xorb sa (sx && Nat.odd i)) (fst r) (fst r')) /\
  (sx = false -> ev sa (fst r) (fst r')).
Proof.
  induction fuel as [|f IH]; intros i a a' ae x x' xe sa sx Ha Hx Hi; cbn [pow_loop].
  - assert (i = 0%nat) by lia. subst. rewrite andb_false_r, xorb_false_r. cbn. auto.
  - destruct i as [|i]; [rewrite andb_false_r, xorb_false_r; cbn; auto|]. destruct ((xe <? -4096) || (4096 <? xe)) eqn:Eo; [cbn; split; [reflexivity|split; [discriminate|auto]]|].
    set (j := S i) in *. pose proof (ev_mul _ _ _ _ _ _ Hx Hx) as H2. rewrite xorb_nilpotent in H2.
    assert (Hd : (Nat.div2 j <= f)%nat) by (subst j; pose proof (Nat.lt_div2 (S i)); lia).
    assert (Hm : exists b b' ae', (if Nat.odd j then (fmul a x, ae + xe) else (a, ae)) = (b, ae') /\ (if Nat.odd j then (fmul a' x', ae + xe) else (a', ae)) = (b', ae') /\ ev (if Nat.odd j then xorb sa sx else sa) b b').
    { destruct (Nat.odd j); eexists _, _, _; (split; [reflexivity|]); (split; [reflexivity|]); [apply ev_mul; assumption|exact Ha]. }
    destruct Hm as (b & b' & ae' & -> & -> & Hb). cbv zeta. rewrite (ev_lt _ _ (fdy 1 (-1)) H2).
    assert (K : forall y y' ye, ev false y y' -> let r := pow_loop f b ae' y ye (Nat.div2 j) in let r' := pow_loop f b' ae' y' ye (Nat.div2 j) in
      snd r = snd r' /\ (false = false -> ev (xorb sa (sx && Nat.odd j)) (fst r) (fst r')) /\ (sx = false -> ev sa (fst r) (fst r'))).
    { intros y y' ye Hy. destruct (IH (Nat.div2 j) b b' ae' y y' ye _ false Hb Hy Hd) as (H1 & _ & H3). specialize (H3 eq_refl). rewrite <- xorb_and_odd, xorb_false_r. cbv zeta. split; [exact H1|]. split; [intros _; exact H3|].
      intros ->. destruct (Nat.odd j); [rewrite xorb_false_r in H3|]; exact H3. }
    destruct (flt (fmul x' x') (fdy 1 (-1))); [|apply K; exact H2]. apply K. apply (ev_add false); assumption.
Qed.
Lemma ldexp_ev s a a' e : ev s a a' -> ev s (Bldexp mode_NE a e) (Bldexp mode_NE a' e).
Proof.
  unfold ev. destruct a as [sa|sa| |sa ma ea Pa], a' as [sa'|sa'| |sa' ma' ea' Pa']; try contradiction; cbn [Bldexp]; auto. intros (-> & -> & ->). rewrite !B2SF_SF2B. apply round_ev.
Qed.
Lemma frexp_ev s (a : f64) a' : ev s a a' -> is_finite a = true -> ev s (fst (Bfrexp a)) (fst (Bfrexp a')) /\ snd (Bfrexp a) = snd (Bfrexp a').
Proof.
  unfold ev. destruct a as [sa|sa| |sa ma ea Pa], a' as [sa'|sa'| |sa' ma' ea' Pa']; try contradiction; intros H F; try discriminate F; [split; [exact I|reflexivity]|].
  destruct H as (-> & -> & ->). cbn [Bfrexp fst snd]. rewrite !B2SF_SF2B. unfold Ffrexp_core_binary. destruct (Zlt_bool _ _); [cbn; auto|]. destruct (_ <=? _)%positive; cbn; auto.
Qed.
(** The exponents of float64 are small. *)
Lemma frexp_small (a : f64) : is_finite a = true -> (snd (Bfrexp a) <? -4096) || (4096 <? snd (Bfrexp a)) = false.
Proof.
  destruct a as [sa|sa| |sa ma ea Pa]; intros F; try discriminate F; [reflexivity|]. cbn [Bfrexp snd].
  assert (H : -1074 <= ea <= 971 /\ Z.pos (SpecFloat.digits2_pos ma) <= 53).
  { pose proof Pa as P. unfold bounded in P. apply andb_prop in P as [P1 P2]. apply Zeq_bool_eq in P1. apply Zle_bool_imp_le in P2. unfold SpecFloat.fexp, SpecFloat.emin in P1. lia. }
  unfold Ffrexp_core_binary. replace (Zlt_bool (- (53)) (emin 53 1024)) with false by reflexivity.
  destruct (_ <=? _)%positive; cbn [snd]; apply orb_false_iff; split; apply Z.ltb_ge; lia.
Qed.
(** What Pow computes without the test for 1 *)
Definition pow_raw (x : f64) (k : nat) : f64 := let '(x1, xe) := Bfrexp x in let '(a, ae) := pow_loop k (fz 1) 0 x1 xe k in Bldexp mode_NE a ae.
Lemma raw_ev s x x' k : is_finite x = true -> ev s x x' -> ev (s && Nat.odd k) (pow_raw x k) (pow_raw x' k).
Proof.
  intros F H. unfold pow_raw. destruct (frexp_ev s x x' H F) as [H1 H2]. pose proof (frexp_small x F) as H3. destruct (Bfrexp x) as [x1 xe], (Bfrexp x') as [x1' xe']. cbn [fst snd] in *. subst xe'.
  destruct (loop_ev k k (fz 1) (fz 1) 0 x1 x1' xe false s (ev_refl _) H1 (le_n k)) as (E & K & _). cbv zeta in E, K. specialize (K H3). rewrite xorb_false_l in K.
  destruct (pow_loop k (fz 1) 0 x1 xe k) as [a ae], (pow_loop k (fz 1) 0 x1' xe k) as [a' ae']. cbn [fst snd] in *. subst ae'. apply ldexp_ev, K.
Qed.
Definition is1 (s : spec_float) : bool := match s with S754_finite false m e => (m =? 4503599627370496)%positive && (e =? -52) | _ => false end.
Lemma is1_eq a : is1 (B2SF a) = true -> a = fz 1.
Proof.
  intros H. apply B2SF_inj. change (B2SF (fz 1)) with (B2SF (fz 1)). destruct (B2SF a) as [?|?| |[|] m e]; try discriminate H. cbn [is1] in H. apply andb_prop in H as [H1 H2].
  apply Pos.eqb_eq in H1. apply Z.eqb_eq in H2. subst. vm_compute. reflexivity.
Qed.
Lemma raw_one k : (k <= 200)%nat -> pow_raw (fz 1) k = fz 1.
Proof.
  intros Hk. apply is1_eq. assert (H : forallb (fun k => is1 (B2SF (pow_raw (fz 1) k))) (seq 0 201) = true) by (vm_compute; reflexivity).
  rewrite forallb_forall in H. apply H. apply in_seq. lia.
Qed.
Lemma feq_one (x : f64) : feq x (fz 1) = true -> x = fz 1.
Proof.
  intros H. destruct (is_finite x) eqn:F; [|destruct x as [?|[|]| |? ? ? ?]; discriminate]. apply feq_R in H; [|exact F|reflexivity]. symmetry. apply pos_inj; [reflexivity|exact F| |symmetry; exact H].
  rewrite (proj2 (JointErr.fin_1 0%nat)). apply Rlt_0_1.
Qed.
Lemma pow_is_raw (x : f64) k : is_finite x = true -> (forall s, x <> B754_zero s) -> (2 <= k <= 200)%nat -> fpow x k = pow_raw x k.
Proof.
  intros F Hz Hk. unfold fpow. destruct k as [|[|k]]; [lia|lia|]. destruct (feq x (fz 1)) eqn:E; [apply feq_one in E; subst x; symmetry; apply raw_one; lia|].
  destruct x as [s|s| |s m e P]; try discriminate F; [destruct (Hz s); reflexivity|reflexivity].
Qed.
Lemma ev_pow s x x' k : (k <= 200)%nat -> ev s x x' -> ev (s && Nat.odd k) (fpow x k) (fpow x' k).
Proof.
  intros Hk H. destruct k as [|[|k]]; [rewrite andb_false_r; apply ev_refl|rewrite andb_true_r; exact H|].
  destruct x as [sx|sx| |sx m e P] eqn:Ex; destruct x' as [sx'|sx'| |sx' m' e' P'] eqn:Ex'; try contradiction H.
  - assert (Z : forall t, fpow (B754_zero t) (S (S k)) = B754_zero (t && Nat.odd (S (S k)))).
    { intros t. unfold fpow. replace (feq (B754_zero t) (fz 1)) with false by (destruct t; reflexivity). destruct (Nat.odd (S (S k))), t; reflexivity. }
    rewrite !Z. exact I.
  - assert (Z : forall t, fpow (B754_infinity t) (S (S k)) = B754_infinity (t && Nat.odd (S (S k)))).
    { intros t. unfold fpow. replace (feq (B754_infinity t) (fz 1)) with false by (destruct t; reflexivity). destruct (Nat.odd (S (S k))), t; reflexivity. }
    rewrite !Z. unfold ev in *. cbn [B2SF sev] in *. subst sx'. destruct s, sx, (Nat.odd (S (S k))); reflexivity.
  - apply ev_nan.
  - rewrite <- Ex, <- Ex' in *. rewrite !pow_is_raw; try lia; try (subst; reflexivity || discriminate). apply raw_ev; [subst; reflexivity|exact H].
Qed.
(** Pow(x, 2) and Pow(x, 1.5) of a number are the same for both zeros. *)
Lemma pow2_eq x x' : ev false x x' -> fpow x 2 = fpow x' 2.
Proof. intros H. destruct (ev_same x x' H) as [->|((s & ->) & (s' & ->))]; [reflexivity|]. destruct s, s'; reflexivity. Qed.
Lemma pow32_eq x x' : ev false x x' -> fpow32 x = fpow32 x'.
Proof. intros H. destruct (ev_same x x' H) as [->|((s & ->) & (s' & ->))]; [reflexivity|]. destruct s, s'; reflexivity. Qed.
