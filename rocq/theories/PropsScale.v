(** C84: the metrics of a stream multiplied by a power of two, in float64. *)
From Coq Require Import Reals Lra Lia Bool.
From Flocq Require Import Core BinarySingleNaN.
From Verif Require Import Base F64 FloatR HistSpec RingModel NumModel MomentModel MetricProof CoreInv StdFloat FloatErr PropsConst PropsQuantile PropsFloat PropsNeg ScaleArith ScaleStep ScaleRun TwoCores.
Local Open Scope nat_scope.
Local Open Scope list_scope.

(** ** Specification *)
(** The calls of a user who pushes x * 2^s for x *)
Definition rescaled (s : Z) (ops : list (op f64)) : list (op f64) := map (fun o => match o with OPush x => OPush (fmul x (fdy 1 s)) | OClear => OClear end) ops.
(** Zero, or between 2^-100 and 2^100 in magnitude *)
Definition plain (x : f64) : Prop := isfin x = true /\ (B2R x = 0 \/ bpow radix2 (-100) <= Rabs (B2R x) <= bpow radix2 100)%R.
(** [v'] is 2^k times [v], without any error; NaN and infinities stay what they are. *)
Definition times (k : Z) (v v' : f64) : Prop := isfin v = true /\ isfin v' = true /\ B2R v' = (B2R v * bpow radix2 k)%R \/ isfin v = false /\ v' = v.

Lemma plain_okv x : plain x -> okv x.
Proof. intros [F [Z|[L U]]]; split; try exact F; split; [left; exact Z|rewrite Z, Rabs_R0; apply bpow_ge_0|right; exact L|exact U]. Qed.
Lemma sc_times k a b : sc k a b -> times k a b.
Proof. intros H. left. exact H. Qed.
Lemma rescaled_mapped s ops : rescaled s ops = mapped (gs s) ops. Proof. reflexivity. Qed.

(** The mean does not depend on the sums that are kept. *)
Lemma mean_indep w ops : (0 <= w)%Z -> exists c d, core_run FN (mkCore (fz 0) 0 (fun _ => fz 0) 0 w None (ring_new w)) ops = Ok c /\
  core_run FN (mkCore (fz 0) 3 (fun _ => fz 0) 0 w None (ring_new w)) ops = Ok d /\ c_mean c = c_mean d /\ c_count c = c_count d.
Proof.
  intros Hw. set (P := fun (n : nat) (l : list f64) (c d : @core f64) => c_len c <= 66 /\ c_len d <= 66 /\ c_mean c = c_mean d /\ c_count c = c_count d).
  assert (I : mapped (fun x => x) ops = ops) by (unfold mapped; rewrite <- (map_id ops) at 2; apply map_ext; intros [x|]; reflexivity).
  destruct (core_run_winv2 FN (fun x => x) (fun _ => True) (length ops) (fun l => l <= 66) P P) with (w := w) (ops := ops) (c0 := mkCore (fz 0) 0 (fun _ : nat => fz 0) 0 w None (ring_new w)) (d0 := mkCore (fz 0) 3 (fun _ : nat => fz 0) 0 w None (ring_new w)) as (c & d & E & E' & ((_ & _ & M & C) & _)).
  - intros ? ? ? ? (A & B & _). split; assumption.
  - intros ? ? ? ? ? ? ? ? ? ? H. exact H.
  - intros ? ? ? ? ? ? ? ? ? ? H. exact H.
  - intros ? ? ? ? _ H. exact H.
  - intros n y l c d _ _ (A & B & M & C). destruct (c_remove_any FN c y A) as (c' & E & S & Cc & Mc). destruct (c_remove_any FN d y B) as (d' & E' & S' & Cd & Md). exists c', d'. do 2 (split; [assumption|]). split; [|split; assumption].
    unfold P. destruct S as (-> & _), S' as (-> & _). rewrite Cc, Cd, Mc, Md, C, M. repeat split; assumption.
  - intros n l x c d _ _ _ (A & B & M & C). destruct (c_add_any FN c x A) as (c' & E & S & Cc & Mc). destruct (c_add_any FN d x B) as (d' & E' & S' & Cd & Md). exists c', d'. do 2 (split; [assumption|]). split; [|split; assumption].
    unfold P. destruct S as (-> & _), S' as (-> & _). rewrite Cc, Cd, Mc, Md, C, M. repeat split; assumption.
  - intros c d A B M _ C M' _ C'. unfold P. rewrite M, M', C, C'. repeat split; assumption.
  - exact Hw.
  - split; [unfold P; cbn; repeat split; lia|]. rewrite live_nil. split; repeat split.
  - trivial.
  - apply le_n.
  - rewrite I in E'. exists c, d. auto.
Qed.
Lemma new_core_mean w : (0 <= w)%Z -> new_core FN (kconfig (KMean w)) = Ok (mkCore (fz 0) 0 (fun _ => fz 0) 0 w None (ring_new w)).
Proof. intros H. unfold new_core. cbv zeta. unfold validate. cbn [set_defaults kconfig cf_window cf_decay cf_sums sums_of existsb]. destruct (Z.ltb_spec w 0); [lia|]. reflexivity. Qed.

Section Claims.
Variables (s w : Z) (ops : list (op f64)).
Hypothesis Hs : (-100 <= s <= 100)%Z.
Hypothesis Hw : (0 <= w)%Z.
Hypothesis Hops : forall x, In (OPush x) ops -> plain x.
Hypothesis Hlen : (zlen ops <= 2 ^ 40)%Z.
Lemma both_runs : exists c d, core_run FN (mkCore (fz 0) 3 (fun _ => fz 0) 0 w None (ring_new w)) ops = Ok c /\ core_run FN (mkCore (fz 0) 3 (fun _ => fz 0) 0 w None (ring_new w)) (rescaled s ops) = Ok d /\
  QQ s (length (hist ops)) (live w (hist ops)) c d.
Proof. apply (scaled_run s Hs (length ops) Hlen w ops Hw); [|apply le_n]. intros x Hx. apply plain_okv, Hops, Hx. Qed.
Lemma mean_claim : outcomes (times s) (m <- m_run FN (KMean w) ops ;; m_value FN m) (m <- m_run FN (KMean w) (rescaled s ops) ;; m_value FN m).
Proof.
  destruct both_runs as (c & d & E & E' & (_ & (_ & C & Sm & _))). destruct (mean_indep w ops Hw) as (c1 & c2 & E1 & E2 & M1 & C1). destruct (mean_indep w (rescaled s ops) Hw) as (d1 & d2 & F1 & F2 & M2 & C2).
  rewrite E in E2. injection E2 as <-. rewrite E' in F2. injection F2 as <-. rewrite !m_run_eq, (new_core_mean w Hw). cbn [bind]. rewrite E1, F1. cbn [bind rmap]. unfold m_value. cbn [m_core m_kind kvalue]. unfold c_get_mean. rewrite C1, C2, C, M1, M2.
  destruct (_ =? 0)%Z; [right; split; [reflexivity|discriminate]|left]. do 2 eexists. split; [reflexivity|]. split; [reflexivity|]. apply sc_times, Sm.
Qed.
Lemma hist_short : (Z.of_nat (length (live w (hist ops))) <= 2 ^ 40)%Z.
Proof. pose proof (hist_le ops). pose proof (live_le w ops Hw). unfold zlen in Hlen. lia. Qed.
Lemma var_claim c d : QQ s (length (hist ops)) (live w (hist ops)) c d ->
  (moment_value FN c 2 = Err ENoValues /\ moment_value FN d 2 = Err ENoValues) \/
  (exists v v', moment_value FN c 2 = Ok v /\ moment_value FN d 2 = Ok v' /\ (sc (2 * s) v v' /\ mid (B2R v) \/ isfin v = false /\ v' = v)).
Proof.
  intros [HQ (L & C & _ & Ss & Gs & _)]. pose proof HQ as HQ0. destruct HQ as ((L66 & Hln & Hc & _ & Hf & _) & L3 & _). unfold moment_value, c_get_sum, c_get_count. rewrite C, L, Hc.
  destruct (Z.eqb_spec (zlen (live w (hist ops))) 0) as [Z0|N0]; [left; split; reflexivity|right]. destruct (Z.geb_spec 2 (Z.of_nat (c_len c))) as [?|_]; [lia|]. cbn [Z.leb Z.compare orb bind]. do 2 eexists. split; [reflexivity|]. split; [reflexivity|].
  change (Z.to_nat 2) with 2. cbn [FN ndiv nsub nz]. set (n := zlen (live w (hist ops))) in *. pose proof hist_short as Hsh. assert (Hn : (1 <= n <= 2 ^ 40)%Z) by (unfold n, zlen in *; lia).
  destruct (sub1_real 0 n ltac:(lia)) as [Fa Ea]. destruct (Z.eq_dec n 1) as [E1|N1].
  - right. clear Ea. assert (Ez : fsub (fz n) (fz 1) = B754_zero false) by (rewrite E1; vm_compute; reflexivity). rewrite Ez. destruct Ss as (F & F' & E).
    destruct (c_sums c 2) as [sa|?| |sa ma ea Pa], (c_sums d 2) as [sb|?| |sb mb eb Pb]; try discriminate F; try discriminate F'; cbn [B2R] in E.
    + split; reflexivity.
    + exfalso. rewrite Rmult_0_l in E. apply eq_0_F2R in E. destruct sb; discriminate E.
    + exfalso. symmetry in E. apply Rmult_integral in E as [E|E]; [apply eq_0_F2R in E; destruct sa; discriminate E|]. pose proof (bpow_gt_0 radix2 (2 * s)). lra.
    + assert (Es : sb = sa).
      { pose proof (bpow_gt_0 radix2 (2 * s)) as P. destruct sa, sb; try reflexivity; exfalso; cbn [cond_Zopp] in E.
        - assert (0 < F2R (Float radix2 (Z.pos mb) eb))%R by (apply F2R_gt_0; reflexivity). assert (F2R (Float radix2 (Z.neg ma) ea) < 0)%R by (apply F2R_lt_0; reflexivity). cbn [Z.opp] in E. nra.
        - assert (F2R (Float radix2 (Z.neg mb) eb) < 0)%R by (apply F2R_lt_0; reflexivity). assert (0 < F2R (Float radix2 (Z.pos ma) ea))%R by (apply F2R_gt_0; reflexivity). cbn [Z.opp] in E. nra. }
      subst sb. destruct sa; split; reflexivity.
  - left. rewrite minus_IZR in Ea. assert (Hk : (1 <= IZR n - 1 <= bpow radix2 40)%R).
    { rewrite <- minus_IZR. split; [apply (IZR_le 1); lia|]. change (bpow radix2 40) with (IZR (2 ^ 40)). apply IZR_le. lia. }
    assert (M : mid (B2R (c_sums c 2) / (IZR n - 1))%R).
    { assert (Us : (Rabs (B2R (c_sums c 2)) <= bpow radix2 300)%R).
      { apply (R2_up (length ops) Hlen (length (hist ops)) (live w (hist ops)) c); [apply hist_le| |apply (Q2_R2 B0 (HB0 0) (length ops)); [exact Hlen|apply hist_le|exact HQ0]].
        apply Forall_forall. intros x Hx. apply live_incl in Hx. apply plain_okv, Hops. apply hist_In, Hx. }
      split; [apply (low_le (-640 - 40)); [lia|]; apply low_div; [apply grid_low, Gs|lra]|]. unfold Rdiv. rewrite Rabs_mult, (Rabs_pos_eq (/ _)) by (left; apply Rinv_0_lt_compat; lra).
      assert (0 < / (IZR n - 1) <= 1)%R by (split; [apply Rinv_0_lt_compat; lra|rewrite <- Rinv_1; apply Rinv_le; lra]). pose proof (Rabs_pos (B2R (c_sums c 2))). assert (bpow radix2 300 <= bpow radix2 800)%R by (apply bpow_le; lia). nra. }
    destruct (sc_div (2 * s) ltac:(lia) _ _ (fsub (fz n) (fz 1)) Ss Fa ltac:(rewrite Ea; lra)) as [Sv Ev]; [rewrite Ea; exact M|]. split; [exact Sv|]. rewrite Ev, Ea. destruct M as [M1 M2]. split; [apply low_rnd; [lia|exact M1]|apply PowFloat.rnd_abs_bpow; [lia|exact M2]].
Qed.
Lemma variance_claim : outcomes (times (2 * s)) (m <- m_run FN (KMoment 2 w) ops ;; m_value FN m) (m <- m_run FN (KMoment 2 w) (rescaled s ops) ;; m_value FN m).
Proof.
  destruct both_runs as (c & d & E & E' & HQ). rewrite !m_run_eq, (new_core_2 (KMoment 2 w) w Hw eq_refl). cbn [bind]. rewrite E, E'. cbn [bind rmap]. unfold m_value. cbn [m_core m_kind kvalue].
  destruct (var_claim c d HQ) as [[-> ->]|(v & v' & -> & -> & H)]; [right; split; [reflexivity|discriminate]|left]. do 2 eexists. split; [reflexivity|]. split; [reflexivity|]. destruct H as [[H _]|H]; [apply sc_times, H|right; exact H].
Qed.
Lemma std_claim : outcomes (times s) (m <- m_run FN (KStd w) ops ;; m_value FN m) (m <- m_run FN (KStd w) (rescaled s ops) ;; m_value FN m).
Proof.
  destruct both_runs as (c & d & E & E' & HQ). rewrite !m_run_eq, (new_core_2 (KStd w) w Hw eq_refl). cbn [bind]. rewrite E, E'. cbn [bind rmap]. unfold m_value. cbn [m_core m_kind kvalue].
  destruct (var_claim c d HQ) as [[-> ->]|(v & v' & -> & -> & H)]; [right; split; [reflexivity|discriminate]|left]. cbn [bind nsqrt FN]. do 2 eexists. split; [reflexivity|]. split; [reflexivity|]. destruct H as [[H M]|[H ->]].
  - destruct (sc_sqrt s v v' ltac:(lia) H M) as [H1 H2]. destruct (Rlt_le_dec (B2R v) 0) as [Ng|Ps]; [|apply sc_times, H2, Ps]. destruct (H1 Ng) as [-> ->]. right. split; reflexivity.
  - right. split; [|reflexivity]. destruct v as [?|[|]| |? ? ? ?]; try discriminate H; reflexivity.
Qed.
End Claims.

(** A number that a user may write down *)
Lemma plain_int n : (Z.abs n <= 2 ^ 53)%Z -> plain (fz n).
Proof.
  intros H. destruct (fz_exact n H) as [F E]. split; [exact F|]. rewrite E. destruct (Z.eq_dec n 0) as [->|Hn]; [left; reflexivity|right]. rewrite <- abs_IZR. split.
  - apply Rle_trans with 1%R; [change 1%R with (bpow radix2 0); apply bpow_le; lia|apply (IZR_le 1); lia].
  - apply Rle_trans with (bpow radix2 53); [change (bpow radix2 53) with (IZR (2 ^ 53)); apply IZR_le, H|apply bpow_le; lia].
Qed.

Lemma plain_ints l : Forall (fun n => Z.abs n <= 2 ^ 53)%Z l -> forall x, In (OPush x) (pushes l) -> plain x.
Proof. intros H x Hx. unfold pushes in Hx. apply in_map_iff in Hx as (n & E & Hn). injection E as <-. apply plain_int. exact (proj1 (Forall_forall _ _) H n Hn). Qed.

(** ** Theorems *)
(** Mean and Std follow a change of unit by a power of two without any error, the variance its square: for every window and
    history of up to 2^40 calls on such values. *)
Theorem C84_mean s w ops : (-100 <= s <= 100)%Z -> (0 <= w)%Z -> (forall x, In (OPush x) ops -> plain x) -> (zlen ops <= 2 ^ 40)%Z ->
  outcomes (times s) (m <- m_run FN (KMean w) ops ;; m_value FN m) (m <- m_run FN (KMean w) (rescaled s ops) ;; m_value FN m).
Proof. exact (mean_claim s w ops). Qed.
Print Assumptions C84_mean.
Theorem C84_variance s w ops : (-100 <= s <= 100)%Z -> (0 <= w)%Z -> (forall x, In (OPush x) ops -> plain x) -> (zlen ops <= 2 ^ 40)%Z ->
  outcomes (times (2 * s)) (m <- m_run FN (KMoment 2 w) ops ;; m_value FN m) (m <- m_run FN (KMoment 2 w) (rescaled s ops) ;; m_value FN m).
Proof. exact (variance_claim s w ops). Qed.
Print Assumptions C84_variance.
Theorem C84_std s w ops : (-100 <= s <= 100)%Z -> (0 <= w)%Z -> (forall x, In (OPush x) ops -> plain x) -> (zlen ops <= 2 ^ 40)%Z ->
  outcomes (times s) (m <- m_run FN (KStd w) ops ;; m_value FN m) (m <- m_run FN (KStd w) (rescaled s ops) ;; m_value FN m).
Proof. exact (std_claim s w ops). Qed.
Print Assumptions C84_std.
(** The limits on the unit cannot be dropped: by a factor of 2^-600 the spread of 1, 2 vanishes, though 2^-600 and 2^-599 are different values. *)
Theorem C84_unlimited_refuted : exists s w ops, (0 <= w)%Z /\ (forall x, In (OPush x) ops -> plain x) /\ (zlen ops <= 2 ^ 40)%Z /\
  (forall x, In (OPush x) ops -> isfin (fmul x (fdy 1 s)) = true) /\
  ~ outcomes (times s) (m <- m_run FN (KStd w) ops ;; m_value FN m) (m <- m_run FN (KStd w) (rescaled s ops) ;; m_value FN m).
Proof.
  exists (-600)%Z, 0%Z, (pushes [1; 2]%Z). split; [lia|]. split; [|split; [vm_compute; discriminate|split]].
  - apply plain_ints. repeat constructor; intros E; discriminate E.
  - intros x [Hx|[Hx|[]]]; injection Hx as <-; vm_compute; reflexivity.
  - assert (E : rmap fbits (m <- m_run FN (KStd 0) (rescaled (-600) (pushes [1; 2]%Z)) ;; m_value FN m) = Ok (fbits (fz 0))) by concrete.
    assert (E' : exists b, rmap fbits (m <- m_run FN (KStd 0) (pushes [1; 2]%Z) ;; m_value FN m) = Ok b /\ b <> fbits (fz 0) /\ b <> fbits (Bopp (fz 0))) by (eexists; split; [vm_compute; reflexivity|split; vm_compute; discriminate]).
    destruct E' as (b & E' & N1 & N2). intros [(v & v' & Ev & Ev' & H)|[Ev _]].
    + rewrite Ev' in E. rewrite Ev in E'. cbn [rmap] in E, E'. injection E as E. injection E' as E'. 
      assert (Z' : B2R v' = 0%R) by (destruct v' as [?|[|]| |[|] m e P]; try reflexivity; vm_compute in E; discriminate E).
      destruct H as [(F & F' & H)|(F & ->)].
      * rewrite Z' in H. symmetry in H. apply Rmult_integral in H as [H|H]; [|pose proof (bpow_gt_0 radix2 (-600)); lra]. destruct v as [[|]|?| |[|] m e P]; try discriminate F.
        -- apply N2. rewrite <- E'. vm_compute. reflexivity.
        -- apply N1. rewrite <- E'. vm_compute. reflexivity.
        -- cbn in H. apply eq_0_F2R in H. discriminate H.
        -- cbn in H. apply eq_0_F2R in H. discriminate H.
      * apply N1. rewrite <- E', E. reflexivity.
    + rewrite Ev in E'. rewrite E in E'. injection E' as E'. apply N1. symmetry. exact E'.
Qed.
Print Assumptions C84_unlimited_refuted.

Example C84_case : let ops := pushes [5; 1; -3; 4; 7]%Z in (forall x, In (OPush x) ops -> plain x) /\ (zlen ops <= 2 ^ 40)%Z /\ rescaled (-5) ops <> ops /\
  rmap fbits (m <- m_run FN (KMean 3) ops ;; m_value FN m) <> Ok (fbits (fz 0)) /\
  rmap fbits (m <- m_run FN (KMean 3) (rescaled (-5) ops) ;; m_value FN m) = rmap (fun v => fbits (fmul v (fdy 1 (-5)))) (m <- m_run FN (KMean 3) ops ;; m_value FN m) /\
  rmap fbits (m <- m_run FN (KMoment 2 3) (rescaled (-5) ops) ;; m_value FN m) = rmap (fun v => fbits (fmul v (fdy 1 (-10)))) (m <- m_run FN (KMoment 2 3) ops ;; m_value FN m) /\
  rmap fbits (m <- m_run FN (KStd 3) (rescaled (-5) ops) ;; m_value FN m) = rmap (fun v => fbits (fmul v (fdy 1 (-5)))) (m <- m_run FN (KStd 3) ops ;; m_value FN m).
Proof.
  cbv zeta. split; [|split; [vm_compute; discriminate|split; [|split; [vm_compute; discriminate|]]]].
  - apply plain_ints. repeat constructor; intros E; discriminate E.
  - intros E. apply (f_equal (map (fun o => match o with OPush x => Some (fbits x) | OClear => None end))) in E. vm_compute in E. discriminate E.
  - repeat split; concrete.
Qed.
