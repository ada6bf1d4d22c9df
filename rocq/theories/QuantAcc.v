(** Accuracy of the linear mode (C85): the computed position, then the interpolation. *)
From Coq Require Import Reals List Permutation Lia Lra.
From Flocq Require Import Core BinarySingleNaN.
From Verif Require Import Base F64 FloatR OrderSpec SortLib StdFloat FloatMean FloatErr QuantileSpec QuantileProof QuantOrder.
Local Open Scope R_scope.

(** The values in order, interpolated linearly: [v] is the value at position [t], in real arithmetic *)
Definition at_position (b : list f64) (t v : R) : Prop :=
  exists k lo, is_kth b k lo /\ INR k <= t < INR k + 1 /\
    (t = INR k /\ v = B2R lo \/ exists hi, is_kth b (S k) hi /\ v = (1 - (t - INR k)) * B2R lo + (t - INR k) * B2R hi).

Lemma sorted_keys l : exists s, sortedz s /\ Permutation s (keys l).
Proof. induction l as [|x l (s & Hs & Hp)]; [exists []; split; [apply sortedz_nil|apply perm_nil]|]. exists (insz (fk x) s). split; [apply insz_sorted, Hs|]. cbn [keys map]. eapply Permutation_trans; [apply insz_perm|]. apply perm_skip, Hp. Qed.
Lemma kth_exists l k : Forall nonnan l -> (k < length l)%nat -> exists v, is_kth l k v.
Proof.
  intros Hl Hk. destruct (sorted_keys l) as (s & Hs & Hp). assert (L : length s = length l) by (rewrite (Permutation_length Hp); apply map_length).
  destruct (nth_error s k) as [z|] eqn:E; [|apply nth_error_None in E; lia]. assert (Hz : In z (keys l)) by (eapply Permutation_in; [exact Hp|]; eapply nth_error_In; exact E).
  unfold keys in Hz. apply in_map_iff in Hz as (v & <- & Hv). exists v. apply (kth_of_sorted l s); auto. rewrite Forall_forall in Hl. apply Hl, Hv.
Qed.

(** The position, computed in float64, lies between the same two integers and is off by n * 2^-53. *)
Lemma position phi n : nonnan phi -> fle phi (fz 0) || fge phi (fz 1) = false -> (1 <= n <= 2 ^ 53)%Z ->
  let t := B2R phi * IZR (n - 1) in let t' := B2R (fmul phi (fz (n - 1))) in
  0 <= t <= IZR (n - 1) /\ (1 < IZR n -> t < IZR (n - 1)) /\ (forall k : Z, IZR k <= t < IZR k + 1 -> IZR k <= t' <= IZR k + 1) /\ Rabs (t' - t) <= eps * IZR n.
Proof.
  intros Hn Hr Hz t t'. destruct (phi_range phi Hn Hr) as [Fp Rp]. destruct (fz_exact (n - 1) ltac:(lia)) as [Fn Rn].
  assert (HN : 0 <= IZR (n - 1)) by (apply IZR_le; lia). assert (Ht : 0 <= t <= IZR (n - 1)) by (unfold t; nra).
  destruct (fmul_fin phi (fz (n - 1)) (n - 1) Fp Fn) as [Fr Rr]; [rewrite Rn; fold t; rewrite Rabs_pos_eq; lra|lia|]. rewrite Rn in Rr. fold t t' in Rr.
  split; [exact Ht|]. split; [|split].
  - intros H1. assert (0 < IZR (n - 1)) by (rewrite minus_IZR; lra). unfold t. nra.
  - intros k [H1 H2]. assert (Hk : (0 <= k <= n - 1)%Z).
    { assert (-1 < k)%Z by (apply lt_IZR; change (IZR (-1)) with (-(1)); lra). assert (k <= n - 1)%Z by (apply le_IZR; lra). lia. }
    rewrite Rr. split; [apply rnd_above; [apply fmt_IZR; lia|exact H1]|]. change 1 with (IZR 1). rewrite <- plus_IZR. apply rnd_below; [apply fmt_IZR; lia|rewrite plus_IZR; cbn; lra].
  - rewrite Rr. eapply Rle_trans; [apply rnd_err|]. rewrite Rabs_pos_eq by lra. destruct eta_eps as [E0 E1]. fold eta. rewrite minus_IZR in Ht. assert (0 < eps) by lra. cbn in Ht. nra.
Qed.

Lemma linear_acc b phi r M D : Forall nonnan b -> Forall (fun x => is_finite x = true /\ Rabs (B2R x) <= M) b -> M <= bpow radix2 1020 ->
  (forall x y, In x b -> In y b -> B2R x - B2R y <= D) -> b <> [] -> (zlen b <= 2 ^ 53)%Z -> nonnan phi -> fle phi (fz 0) || fge phi (fz 1) = false -> quantile_result 0 b phi r ->
  is_finite r = true /\ (exists v, at_position b (B2R phi * IZR (zlen b - 1)) v) /\
  forall v, at_position b (B2R phi * IZR (zlen b - 1)) v -> Rabs (B2R r - v) <= slack M + eps * IZR (zlen b) * D.
Proof.
  intros Hn Hs HM HD Hb Hz Np Hr Q. assert (Hz1 : (1 <= zlen b <= 2 ^ 53)%Z) by (split; [|exact Hz]; destruct b; [congruence|unfold zlen; cbn [length]; lia]).
  destruct (position phi (zlen b) Np Hr Hz1) as (Ht & Ht1 & Hcell & Herr). set (t := B2R phi * IZR (zlen b - 1)) in *. set (t' := B2R (fmul phi (fz (zlen b - 1)))) in *.
  assert (H22 : Forall in22 b).
  { eapply Forall_impl; [|exact Hs]. intros x [Fx Bx]. split; [exact Fx|]. eapply Rle_trans; [exact Bx|]. eapply Rle_trans; [exact HM|]. apply bpow_le. lia. }
  assert (HMb : forall u k, is_kth b k u -> is_finite u = true /\ Rabs (B2R u) <= M /\ (exists a, In a b /\ B2R a <= B2R u) /\ exists c, In c b /\ B2R u <= B2R c).
  { intros u k Hk. destruct (kth_in22 b k u Hn H22 Hk) as [Fu _]. destruct (kth_between b k u Hn Hk) as ((a & Ia & La) & c & Ic & Lc). rewrite Forall_forall in Hs.
    destruct (Hs _ Ia) as [Fa Ba]. destruct (Hs _ Ic) as [Fc Bc]. rewrite fle_R in La, Lc by assumption. split; [exact Fu|]. split; [|split; [exists a; auto|exists c; auto]].
    apply Rabs_le. apply Rabs_le_inv in Ba, Bc. lra. }
  assert (Hgap : forall k u v, is_kth b k u -> is_kth b (S k) v -> 0 <= B2R v - B2R u <= D).
  { intros k u v Hu Hv. destruct (HMb u _ Hu) as (Fu & _ & (a & Ia & La) & _). destruct (HMb v _ Hv) as (Fv & _ & _ & (c & Ic & Lc)). pose proof (HD c a Ic Ia).
    pose proof (kth_mono b k (S k) u v Hn ltac:(lia) Hu Hv) as Hk. apply key_fin_le in Hk; auto. lra. }
  assert (Huniq : forall k u v, is_kth b k u -> is_kth b k v -> B2R u = B2R v).
  { intros k u v Hu Hv. pose proof (kth_mono b k k u v Hn ltac:(lia) Hu Hv) as H1. pose proof (kth_mono b k k v u Hn ltac:(lia) Hv Hu) as H2. destruct (HMb u _ Hu) as (Fu & _). destruct (HMb v _ Hv) as (Fv & _).
    apply Rle_antisym; apply key_fin_le; auto. }
  assert (HM0 : 0 <= M). { destruct b as [|x b]; [congruence|]. destruct (Forall_inv Hs) as [_ Bx]. eapply Rle_trans; [apply Rabs_pos|exact Bx]. }
  assert (S0 : 0 <= slack M) by (destruct eta_eps; unfold slack; nra).
  assert (D0 : 0 <= D). { destruct b as [|x b]; [congruence|]. pose proof (HD x x (or_introl eq_refl) (or_introl eq_refl)). lra. }
  assert (E0 : 0 <= eps * IZR (zlen b)). { destruct eta_eps. apply Rmult_le_pos; [lra|apply IZR_le; lia]. }
  assert (Herr' : forall g, 0 <= g <= D -> Rabs ((t' - t) * g) <= eps * IZR (zlen b) * D).
  { intros g Hg. rewrite Rabs_mult, (Rabs_pos_eq g) by lra. apply Rmult_le_compat; auto using Rabs_pos; lra. }
  assert (Fr : is_finite r = true) by (exact (proj1 (linear_within b phi r M Hn Hs HM Q))). split; [exact Fr|]. split.
  - pose proof (Zfloor_lb t) as L1. pose proof (Zfloor_ub t) as L2. assert (Hk0 : (0 <= Zfloor t)%Z) by (apply Zfloor_lub; lra). set (k := Z.to_nat (Zfloor t)).
    assert (EK : INR k = IZR (Zfloor t)) by (unfold k; rewrite INR_IZR_INZ, Z2Nat.id by lia; reflexivity). assert (Hkn : (Zfloor t <= zlen b - 1)%Z) by (apply le_IZR; lra).
    destruct (kth_exists b k Hn) as [lo Hlo]; [unfold zlen in Hkn; unfold k; lia|]. destruct (Req_dec t (INR k)) as [E|N].
    + exists (B2R lo), k, lo. split; [exact Hlo|]. split; [lra|]. left. split; [exact E|reflexivity].
    + destruct (kth_exists b (S k) Hn) as [hi Hhi].
      { assert (Zfloor t < zlen b - 1)%Z; [|unfold zlen, k in *; lia]. apply lt_IZR. destruct (Req_dec (IZR (Zfloor t)) (IZR (zlen b - 1))) as [E|NE]; [|lra]. exfalso. apply N. lra. }
      exists ((1 - (t - INR k)) * B2R lo + (t - INR k) * B2R hi), k, lo. split; [exact Hlo|]. split; [lra|]. right. exists hi. split; [exact Hhi|reflexivity].
  - intros v (k & lo & Hlo & Hk & Hv). specialize (Hcell (Z.of_nat k)). rewrite <- INR_IZR_INZ in Hcell. specialize (Hcell Hk). destruct Q as (i & Hi & Q). fold t' in Hi, Q.
    assert (Ci : i = k \/ i = S k /\ t' = INR (S k)).
    { destruct (Nat.lt_trichotomy i k) as [L|[E|L]]; [|left; exact E|].
      - exfalso. assert (INR (S i) <= INR k) by (apply le_INR; lia). rewrite S_INR in H. lra.
      - right. assert (H : INR (S k) <= INR i) by (apply le_INR; lia). rewrite S_INR in *. assert (i = S k) by (apply INR_eq; rewrite S_INR; lra). split; [assumption|lra]. }
    destruct Ci as [->|[-> Et]].
    + destruct Q as [[Er Hkr]|(Hne & lo' & hi' & d & Hlo' & Hhi' & Fd & Ed & Hm)].
      * destruct Hv as [[E ->]|(hi & Hhi & ->)].
        -- rewrite (Huniq k r lo Hkr Hlo), Rminus_diag_eq, Rabs_R0 by reflexivity. nra.
        -- pose proof (Hgap k lo hi Hlo Hhi) as G. pose proof (Herr' _ G) as H. rewrite (Huniq k r lo Hkr Hlo). rewrite Er in H.
           replace (B2R lo - ((1 - (t - INR k)) * B2R lo + (t - INR k) * B2R hi)) with ((INR k - t) * (B2R hi - B2R lo)) by ring. lra.
      * destruct Hm as [[_ ->]|[[? _]|[[? _]|[[? _]|[? _]]]]]; try discriminate. destruct (HMb lo' _ Hlo') as (Fl & Bl & _). destruct (HMb hi' _ Hhi') as (Fh & Bh & _).
        destruct (linear_err lo' hi' d M Fl Fh Fd ltac:(rewrite Ed; lra) Bl Bh HM) as [_ Er]. fold (slack M) in Er. rewrite Ed in Er. pose proof (Hgap k lo' hi' Hlo' Hhi') as G. pose proof (Herr' _ G) as H.
        assert (Ev : v = (1 - (t - INR k)) * B2R lo' + (t - INR k) * B2R hi').
        { destruct Hv as [[E ->]|(hi & Hhi & ->)]; [rewrite (Huniq k lo lo' Hlo Hlo'), E; ring|rewrite (Huniq k lo lo' Hlo Hlo'), (Huniq (S k) hi hi' Hhi Hhi'); reflexivity]. }
        rewrite Ev. clear Ev Hv. apply Rabs_le. apply Rabs_le_inv in Er, H. set (x := B2R (fadd _ _)) in *. lra.
    + destruct Q as [[Er Hkr]|(Hne & _)]; [|congruence]. assert (Ev : v = (1 - (t - INR k)) * B2R lo + (t - INR k) * B2R r).
      { destruct Hv as [[E ->]|(hi & Hhi & ->)]; [rewrite E; ring|rewrite (Huniq (S k) hi r Hhi Hkr); reflexivity]. }
      rewrite Ev. pose proof (Hgap k lo r Hlo Hkr) as G. pose proof (Herr' _ G) as H. rewrite Et, S_INR in H. replace (B2R r - ((1 - (t - INR k)) * B2R lo + (t - INR k) * B2R r)) with ((INR k + 1 - t) * (B2R r - B2R lo)) by ring. lra.
Qed.

(** The other modes choose as documented where the rounding of the position cannot matter. *)
Lemma choice_acc mode b phi r k : b <> [] -> (zlen b <= 2 ^ 53)%Z -> nonnan phi -> fle phi (fz 0) || fge phi (fz 1) = false -> quantile_result mode b phi r ->
  let t := B2R phi * IZR (zlen b - 1) in let g := eps * IZR (zlen b) in
  INR k + g < t < INR k + 1 - g ->
  (mode = 1%Z -> is_kth b k r) /\ (mode = 2%Z -> is_kth b (S k) r) /\ (mode = 3%Z -> (t < INR k + / 2 - g -> is_kth b k r) /\ (INR k + / 2 + g < t -> is_kth b (S k) r)).
Proof.
  intros Hb Hz Np Hr Q t g Hk. assert (Hz1 : (1 <= zlen b <= 2 ^ 53)%Z) by (split; [|exact Hz]; destruct b; [congruence|unfold zlen; cbn [length]; lia]).
  destruct (position phi (zlen b) Np Hr Hz1) as (_ & _ & _ & Herr). fold t g in Herr. destruct Q as (i & Hi & Q). set (t' := B2R (fmul phi (fz (zlen b - 1)))) in *. apply Rabs_le_inv in Herr.
  assert (i = k).
  { destruct (Nat.lt_trichotomy i k) as [L|[E|L]]; [|exact E|]; exfalso; apply le_INR in L; rewrite S_INR in L; lra. }
  subst i. destruct Q as [[E _]|(Hne & lo & hi & d & Hlo & Hhi & _ & _ & Hm)]; [lra|].
  destruct Hm as [[-> ->]|[[-> ->]|[[-> ->]|[(-> & H1 & H2 & _)|[-> ->]]]]]; split; try discriminate; try (intros _; assumption); split; try discriminate; try (intros _; assumption).
  intros _. split; intros H; [rewrite H1 by lra; exact Hlo|rewrite H2 by lra; exact Hhi].
Qed.
