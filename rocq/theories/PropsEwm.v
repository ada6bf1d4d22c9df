(** Accuracy of the exponentially weighted metrics in float64 arithmetic: C76. *)
From Coq Require Import ZArith Lia Bool Reals Lra Psatz List.
From Flocq Require Import Core BinarySingleNaN.
From Verif Require Import Base F64 FloatR HistSpec RingModel MathModel NumModel MomentModel MomentSpec MomentProof MetricProof FloatMean StdFloat FloatErr EwmErr PropsFloat.
Import ListNotations.

(** The decay is one that NewEWMA and the others accept *)
Definition decay_ok (d : f64) : Prop := flt (fz 0) d = true /\ flt d (fz 1) = true.
Lemma decay_real d : decay_ok d -> is_finite d = true /\ (0 < B2R d < 1)%R.
Proof.
  intros [Hd0 Hd1]. assert (Fd : is_finite d = true) by (destruct d as [?|[|]| |? ? ? ?]; try reflexivity; discriminate). split; [exact Fd|].
  destruct (fz_real 0 ltac:(lia)) as [F0 E0']. destruct (fz_real 1 ltac:(lia)) as [F1 E1].
  apply flt_R in Hd0; [|exact F0|exact Fd]. apply flt_R in Hd1; [|exact Fd|exact F1]. rewrite E0' in Hd0. rewrite E1 in Hd1. lra.
Qed.
Lemma new_core_ewm (k : @kind f64) d s : decay_ok d -> kconfig k = mkCfg s (Some 0%Z) (Some d) -> (s = None \/ s = Some [2%Z]) ->
  new_core FN (kconfig k) = Ok (mkCore (fz 0) (match s with None => 0 | _ => 3 end) (fun _ => fz 0) 0 0 (Some d) (ring_new 0)).
Proof.
  intros Hd Ek Hs. destruct (decay_real d Hd) as [Fd Rd]. rewrite Ek. unfold new_core. cbv zeta. unfold validate.
  assert (H1 : fle d (fz 0) = false). { destruct (fz_real 0 ltac:(lia)) as [F0 E0']. destruct (fle d (fz 0)) eqn:H1; [apply fle_R in H1; [lra|exact Fd|exact F0]|reflexivity]. }
  assert (H2 : fle (fz 1) d = false). { destruct (fz_real 1 ltac:(lia)) as [F1 E1]. destruct (fle (fz 1) d) eqn:H2; [apply fle_R in H2; [lra|exact F1|exact Fd]|reflexivity]. }
  destruct Hs as [-> | ->]; cbn [set_defaults cf_window cf_decay cf_sums sums_of existsb nle nz FN]; change (0 <? 0)%Z with false; cbv iota; rewrite H1, H2; reflexivity.
Qed.

(** After any history of any length on values of magnitude at most B, EWMA.Value is an error
    exactly if nothing was pushed since the last Clear, and otherwise within 16 2^-53 B / d of
    the exponentially weighted average of the values pushed since: the error does not grow with
    the length of the stream. *)
Theorem C76_ewma_error B d ops : (bpow radix2 (-400) <= B <= bpow radix2 400)%R -> decay_ok d -> bounded B ops ->
  exists m, m_run FN (KEwma d) ops = Ok m /\
    match hist ops with
    | [] => m_value FN m = Err ENoValues
    | l => exists v, m_value FN m = Ok v /\ isfin v = true /\
        (Rabs (B2R v - ewma (B2R d) (reals l)) <= 16 * (bpow radix2 (-53) * B) / B2R d)%R
    end.
Proof.
  intros HB Hd Hops. destruct (decay_real d Hd) as [Fd Rd].
  destruct (Em_run B HB d Fd Rd 0 ops ltac:(lia) Hops) as (c & E & (_ & _ & _ & Hc & _ & [Fm _] & _ & Hm)).
  exists (mkM (KEwma d) (Some c)). split.
  - rewrite m_run_eq, (new_core_ewm (KEwma d) d None Hd eq_refl (or_introl eq_refl)). cbn [bind]. rewrite E. reflexivity.
  - unfold m_value. cbn [m_core m_kind kvalue]. destruct (hist ops) as [|y l] eqn:El.
    + unfold c_get_mean. rewrite Hc. reflexivity.
    + exists (c_mean c). split; [apply (get_mean_zlen c (y :: l) Hc); discriminate|]. split; [exact Fm|].
      apply Rmult_le_reg_l with (B2R d); [lra|]. unfold Rdiv. rewrite (Rmult_comm _ (/ B2R d)), <- Rmult_assoc, Rinv_r, Rmult_1_l by lra. exact Hm.
Qed.
Print Assumptions C76_ewma_error.

Lemma ewm_sum2 B d ops (HB : (bpow radix2 (-400) <= B <= bpow radix2 400)%R) (k : @kind f64) : decay_ok d -> (bpow radix2 (-40) <= B2R d)%R -> bounded B ops ->
  kconfig k = mkCfg (Some [2%Z]) (Some 0%Z) (Some d) ->
  exists c, m_run FN k ops = Ok (mkM k (Some c)) /\ E2 B d (hist ops) c /\ c_get_sum c 2 = match hist ops with [] => Err ENoValues | _ => Ok (c_sums c 2) end.
Proof.
  intros Hd Hd40 Hops Ek. destruct (decay_real d Hd) as [Fd Rd]. destruct (E2_run B HB d Fd Rd Hd40 ops Hops) as (c & E & HE). exists c. split.
  - rewrite m_run_eq, (new_core_ewm k d (Some [2%Z]) Hd Ek (or_intror eq_refl)). cbn [bind]. rewrite E. reflexivity.
  - split; [exact HE|]. destruct HE as ((_ & _ & _ & Hc & _) & Hl & _). unfold c_get_sum. rewrite Hc, Hl. destruct (hist ops) as [|y l]; [reflexivity|].
    destruct (Z.eqb_spec (zlen (y :: l)) 0) as [X|_]; [unfold zlen in X; cbn [length] in X; lia|]. reflexivity.
Qed.
(** If d is at least 2^-40, the same for the exponentially weighted variance, EWMMoment(2),
    with an error of at most 1000 2^-53 B^2 / d, and it is never negative ... *)
Theorem C76_variance_error B d ops : (bpow radix2 (-400) <= B <= bpow radix2 400)%R -> decay_ok d -> (bpow radix2 (-40) <= B2R d)%R -> bounded B ops ->
  exists m, m_run FN (KEwmMoment 2 d) ops = Ok m /\
    match hist ops with
    | [] => m_value FN m = Err ENoValues
    | l => exists v, m_value FN m = Ok v /\ isfin v = true /\ (0 <= B2R v)%R /\
        (Rabs (B2R v - ewmoment (B2R d) 2 (reals l)) <= 1000 * (bpow radix2 (-53) * B ^ 2) / B2R d)%R
    end.
Proof.
  intros HB Hd Hd40 Hops. destruct (decay_real d Hd) as [Fd Rd]. destruct (ewm_sum2 B d ops HB (KEwmMoment 2 d) Hd Hd40 Hops eq_refl) as (c & E & HE & Ev).
  eexists. split; [exact E|]. unfold m_value. cbn [m_core m_kind kvalue]. rewrite Ev. destruct HE as (_ & _ & Fs & Ps & Hs).
  destruct (hist ops) as [|y l]; [reflexivity|]. exists (c_sums c 2). split; [reflexivity|]. split; [exact Fs|]. split; [exact Ps|].
  apply Rmult_le_reg_l with (B2R d); [lra|]. unfold Rdiv. rewrite (Rmult_comm _ (/ B2R d)), <- Rmult_assoc, Rinv_r, Rmult_1_l by lra.
  replace (B ^ 2)%R with (B * B)%R by ring. exact Hs.
Qed.
Print Assumptions C76_variance_error.
(** ... and for EWMStd, which is never NaN and whose square is off by at most 1100 2^-53 B^2 / d. *)
Theorem C76_std_error B d ops : (bpow radix2 (-400) <= B <= bpow radix2 400)%R -> decay_ok d -> (bpow radix2 (-40) <= B2R d)%R -> bounded B ops ->
  exists m, m_run FN (KEwmStd d) ops = Ok m /\
    match hist ops with
    | [] => m_value FN m = Err ENoValues
    | l => exists v, m_value FN m = Ok v /\ isfin v = true /\ (0 <= B2R v)%R /\
        (Rabs (B2R v ^ 2 - ewmoment (B2R d) 2 (reals l)) <= 1100 * (bpow radix2 (-53) * B ^ 2) / B2R d)%R
    end.
Proof.
  intros HB Hd Hd40 Hops. destruct (decay_real d Hd) as [Fd Rd]. destruct (ewm_sum2 B d ops HB (KEwmStd d) Hd Hd40 Hops eq_refl) as (c & E & HE & Ev).
  eexists. split; [exact E|]. unfold m_value. cbn [m_core m_kind kvalue]. rewrite Ev. destruct (E2_sqrt B HB d Rd Hd40 _ _ HE) as (Fs & Ps & Hs).
  destruct (hist ops) as [|y l]; [reflexivity|]. exists (fsqrt (c_sums c 2)). split; [reflexivity|]. split; [exact Fs|]. split; [exact Ps|].
  apply Rmult_le_reg_l with (B2R d); [lra|]. unfold Rdiv. rewrite (Rmult_comm _ (/ B2R d)), <- Rmult_assoc, Rinv_r, Rmult_1_l by lra.
  replace (B ^ 2)%R with (B * B)%R by ring. replace (B2R (fsqrt (c_sums c 2)) ^ 2)%R with (B2R (fsqrt (c_sums c 2)) * B2R (fsqrt (c_sums c 2)))%R by ring. exact Hs.
Qed.
Print Assumptions C76_std_error.

(** The hypotheses are met by 8, 4, 2 with d = 1/4, after a Clear. *)
Example C76_case : let d := fdy 1 (-2) in let ops := OPush (fz 7) :: OClear :: map OPush (map fz [8; 4; 2]%Z) in
  (bpow radix2 (-400) <= 8 <= bpow radix2 400)%R /\ decay_ok d /\ (bpow radix2 (-40) <= B2R d)%R /\ bounded 8 ops /\ length (hist ops) = 3.
Proof.
  cbv zeta. split; [change 8%R with (bpow radix2 3); split; apply bpow_le; lia|]. split; [split; vm_compute; reflexivity|]. split.
  { destruct (fdy_exact 1 (-2) ltac:(lia) ltac:(lia)) as (_ & E & _). rewrite E. unfold F2R. cbn [Fnum Fexp]. rewrite Rmult_1_l. apply bpow_le. lia. }
  split; [|reflexivity]. intros x Hx.
  assert (H : exists n, (0 <= n <= 8)%Z /\ x = fz n).
  { destruct Hx as [H|[H|H]]; [injection H as <-; exists 7%Z; split; [lia|reflexivity]|discriminate H|].
    apply in_map_iff in H. destruct H as (y & E & Hy). injection E as ->. apply in_map_iff in Hy. destruct Hy as (n & <- & Hn). exists n. cbn [In] in Hn. split; [lia|reflexivity]. }
  destruct H as (n & Hn & ->). destruct (fz_real n ltac:(lia)) as [F E]. split; [exact F|]. rewrite E.
  assert (0 <= IZR n <= 8)%R by (split; apply IZR_le; lia). apply Rabs_le. lra.
Qed.
