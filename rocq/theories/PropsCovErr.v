(** Accuracy of the joint metrics in float64 arithmetic: C77, C78, C79. *)
From Coq Require Import ZArith Lia Bool Reals Lra Psatz List.
From Flocq Require Import Core BinarySingleNaN.
From Verif Require Import Base F64 FloatR HistSpec RingModel NumModel MomentSpec JointModel JointSpec StdFloat FloatErr JointErr JointAcc JointEwm PropsFloat PropsEwm.
Import ListNotations.

(** Every point pushed is a pair of finite floats of magnitude at most [B]. *)
Definition bounded2 (B : R) (ops : list (op (list f64))) : Prop :=
  forall p, In (OPush p) ops -> exists x y, p = [x; y] /\ isfin x = true /\ isfin y = true /\ (Rabs (B2R x) <= B)%R /\ (Rabs (B2R y) <= B)%R.
Lemma bounded2_okp B ops : bounded2 B ops -> forall p, In (OPush p) ops -> okp B p.
Proof. intros H p Hp. destruct (H p Hp) as (x & y & -> & Fx & Fy & Bx & By). repeat split; assumption. Qed.
(** The bound on the errors of the sums, for [n] points of magnitude at most [B] *)
Definition serr (n : nat) (B : R) : R := (800 * INR n ^ 2 * (bpow radix2 (-53) * B ^ 2))%R.

(** After any history, window or not, on points of magnitude at most B: the covariance of two or
    more live points is finite and off by at most 1000 n^2 2^-53 B^2, where n is the number of
    points pushed since the last Clear. *)
Theorem C77_cov_error B w ops : (bpow radix2 (-400) <= B <= bpow radix2 400)%R -> (0 <= w)%Z -> bounded2 B ops -> (zlen ops <= 2 ^ 40)%Z ->
  exists m, jm_run FN (JCov w) ops = Ok m /\
    (2 <= length (live w (hist ops)) -> exists v, jm_value FN m = Ok v /\ isfin v = true /\
      (Rabs (B2R v - sample_cov (rpairs (live w (hist ops)))) <= 1000 * INR (length (hist ops)) ^ 2 * (bpow radix2 (-53) * B ^ 2))%R).
Proof.
  intros HB Hw Hops Hlen. replace (INR (length (hist ops)) ^ 2)%R with (INR (length (hist ops)) * INR (length (hist ops)))%R by ring. replace (B ^ 2)%R with (B * B)%R by ring.
  exact (cov_acc B w ops Hw (bounded2_okp B ops Hops) Hlen HB).
Qed.
Print Assumptions C77_cov_error.
(** The same for Autocov and the pairs (x_t, x_{t-lag}). *)
Theorem C77_autocov_error B lag w ops : (bpow radix2 (-400) <= B <= bpow radix2 400)%R -> (0 <= w)%Z -> bounded B ops -> (zlen ops <= 2 ^ 40)%Z ->
  2 <= length (live w (lagged lag (hist ops))) ->
  exists v, (a <- auto_run FN ACov (Z.of_nat lag) w ops ;; auto_value FN a) = Ok v /\ isfin v = true /\
    (Rabs (B2R v - sample_cov (lag_pairs lag w ops)) <= 1000 * INR (length (lagged lag (hist ops))) ^ 2 * (bpow radix2 (-53) * B ^ 2))%R.
Proof.
  intros HB Hw Hops Hlen Hl. replace (INR (length (lagged lag (hist ops))) ^ 2)%R with (INR (length (lagged lag (hist ops))) * INR (length (lagged lag (hist ops))))%R by ring. replace (B ^ 2)%R with (B * B)%R by ring.
  exact (autocov_acc B lag w ops Hw Hops Hlen HB Hl).
Qed.
Print Assumptions C77_autocov_error.

(** The correlation: with d = 800 n^2 2^-53 B^2, if the sums of squared deviations X and Y of the
    two coordinates are at least 10 d, the value is finite and within 3/2 d (1/X + 1/Y) of
    Pearson's coefficient. *)
Theorem C78_corr_error B w ops : (bpow radix2 (-200) <= B <= bpow radix2 200)%R -> (0 <= w)%Z -> bounded2 B ops -> (zlen ops <= 2 ^ 40)%Z ->
  exists m, jm_run FN (JCorr w) ops = Ok m /\
    let l := rpairs (live w (hist ops)) in let X := csum 2 (map fst l) in let Y := csum 2 (map snd l) in let d := serr (length (hist ops)) B in
    (1 <= length l -> (10 * d <= X)%R -> (10 * d <= Y)%R -> exists v, jm_value FN m = Ok v /\ isfin v = true /\
      (Rabs (B2R v - pearson l) <= 3 / 2 * (d * (/ X + / Y)))%R).
Proof.
  intros HB Hw Hops Hlen. destruct (corr_acc B w ops Hw (bounded2_okp B ops Hops) Hlen HB) as (m & E & H). exists m. split; [exact E|]. cbv zeta. unfold serr.
  replace (INR (length (hist ops)) ^ 2)%R with (INR (length (hist ops)) * INR (length (hist ops)))%R by ring. replace (B ^ 2)%R with (B * B)%R by ring.
  intros Hl. apply H. unfold rpairs in Hl. rewrite map_length in Hl. exact Hl.
Qed.
Print Assumptions C78_corr_error.
Theorem C78_autocorr_error B lag w ops : (bpow radix2 (-200) <= B <= bpow radix2 200)%R -> (0 <= w)%Z -> bounded B ops -> (zlen ops <= 2 ^ 40)%Z ->
  let l := lag_pairs lag w ops in let X := csum 2 (map fst l) in let Y := csum 2 (map snd l) in let d := serr (length (lagged lag (hist ops))) B in
  1 <= length l -> (10 * d <= X)%R -> (10 * d <= Y)%R ->
  exists v, (a <- auto_run FN ACorr (Z.of_nat lag) w ops ;; auto_value FN a) = Ok v /\ isfin v = true /\
    (Rabs (B2R v - pearson l) <= 3 / 2 * (d * (/ X + / Y)))%R.
Proof.
  intros HB Hw Hops Hlen. cbv zeta. unfold serr. replace (INR (length (lagged lag (hist ops))) ^ 2)%R with (INR (length (lagged lag (hist ops))) * INR (length (lagged lag (hist ops))))%R by ring.
  replace (B ^ 2)%R with (B * B)%R by ring. intros Hl. apply (autocorr_acc B lag w ops Hw Hops Hlen HB). unfold lag_pairs in Hl. rewrite map_length in Hl. exact Hl.
Qed.
Print Assumptions C78_autocorr_error.

(** The hypotheses are met by (1,2), (5,3), (2,8), (7,1) in a window of 3, and by 1, 5, 2, 7 with lag 1. *)
Example C78_case : let ops := map OPush (map (map fz) [[1; 2]; [5; 3]; [2; 8]; [7; 1]]%Z) in let l := rpairs (live 3 (hist ops)) in
  (bpow radix2 (-200) <= 8 <= bpow radix2 200)%R /\ bounded2 8 ops /\ 2 <= length (live 3 (hist ops)) /\
  (10 * serr (length (hist ops)) 8 <= csum 2 (map fst l))%R /\ (10 * serr (length (hist ops)) 8 <= csum 2 (map snd l))%R.
Proof.
  cbv zeta. split.
  { change 8%R with (bpow radix2 3). split; apply bpow_le; lia. }
  split.
  { intros x Hx. apply in_map_iff in Hx. destruct Hx as (y & E & Hy). injection E as ->. apply in_map_iff in Hy. destruct Hy as (p & <- & Hp).
    assert (exists a b, p = [a; b] /\ (0 <= a <= 8)%Z /\ (0 <= b <= 8)%Z) as (a & b & -> & Ha & Hb).
    { cbn [In] in Hp. destruct Hp as [<-|[<-|[<-|[<-|[]]]]]; do 2 eexists; (split; [reflexivity|lia]). }
    exists (fz a), (fz b). split; [reflexivity|]. destruct (fz_real a ltac:(lia)) as [Fa Ea], (fz_real b ltac:(lia)) as [Fb Eb]. split; [exact Fa|]. split; [exact Fb|]. rewrite Ea, Eb.
    split; apply Rabs_le; [assert (0 <= IZR a <= 8)%R by (split; apply IZR_le; lia)|assert (0 <= IZR b <= 8)%R by (split; apply IZR_le; lia)]; lra. }
  change (live 3 (hist (map OPush (map (map fz) [[1; 2]; [5; 3]; [2; 8]; [7; 1]]%Z)))) with (map (map fz) [[5; 3]; [2; 8]; [7; 1]]%Z). split; [cbn; lia|].
  change (length (hist (map OPush (map (map fz) [[1; 2]; [5; 3]; [2; 8]; [7; 1]]%Z)))) with 4. unfold serr. cbn [map rpairs nth fst snd].
  rewrite !(fun n H => proj2 (fz_real n H)) by lia.
  change (bpow radix2 (-53)) with (/ 9007199254740992)%R. unfold csum, rmean, rsum, rlen, zlen. cbn [map fold_right length Z.of_nat Pos.of_succ_nat Pos.succ]. cbn [INR]. split; lra.
Qed.
Example C78_auto_case : let ops := map OPush (map fz [1; 5; 2; 7]%Z) in let l := lag_pairs 1 0 ops in
  (bpow radix2 (-200) <= 8 <= bpow radix2 200)%R /\ bounded 8 ops /\ 2 <= length (live 0 (lagged 1 (hist ops))) /\
  (10 * serr (length (lagged 1 (hist ops))) 8 <= csum 2 (map fst l))%R /\ (10 * serr (length (lagged 1 (hist ops))) 8 <= csum 2 (map snd l))%R.
Proof.
  cbv zeta. split.
  { change 8%R with (bpow radix2 3). split; apply bpow_le; lia. }
  split; [apply C50_case|]. unfold lag_pairs.
  change (hist (map OPush (map fz [1; 5; 2; 7]%Z))) with (map fz [1; 5; 2; 7]%Z). unfold lagged, live. cbn [map skipn combine Z.eqb length fst snd]. split; [lia|]. unfold serr.
  rewrite !(fun n H => proj2 (fz_real n H)) by lia.
  change (bpow radix2 (-53)) with (/ 9007199254740992)%R. unfold csum, rmean, rsum, rlen, zlen. cbn [map fold_right length Z.of_nat Pos.of_succ_nat Pos.succ]. cbn [INR]. split; lra.
Qed.

(** EWMCov: an error exactly if nothing was pushed since the last Clear, and otherwise a finite
    value within 1000 2^-53 B^2 / d of the exponentially weighted covariance, for a history of any
    length. *)
Theorem C79_ewmcov_error B d ops : (bpow radix2 (-400) <= B <= bpow radix2 400)%R -> decay_ok d -> (bpow radix2 (-40) <= B2R d)%R -> bounded2 B ops ->
  exists m, jm_run FN (JEwmCov d) ops = Ok m /\
    match hist ops with
    | [] => jm_value FN m = Err ENoValues
    | l => exists v, jm_value FN m = Ok v /\ isfin v = true /\
        (Rabs (B2R v - ewcov (B2R d) (rpairs l)) <= 1000 * (bpow radix2 (-53) * B ^ 2) / B2R d)%R
    end.
Proof.
  intros HB Hd H40 Hops. destruct (decay_real d Hd) as [Fd Rd]. destruct (ewcov_acc B d ops (bounded2_okp B ops Hops) Fd Rd H40 HB) as (m & E & H). exists m. split; [exact E|].
  destruct (hist ops) as [|p l]; [exact H|]. destruct H as (v & Ev & Fv & Bv). exists v. split; [exact Ev|]. split; [exact Fv|].
  apply Rmult_le_reg_l with (B2R d); [lra|]. eapply Rle_trans; [exact Bv|]. replace (B ^ 2)%R with (B * B)%R by ring. apply Req_le. unfold eps. field. lra.
Qed.
Print Assumptions C79_ewmcov_error.
(** EWMCorr: with g = 1000 2^-53 B^2 / d, if the exponentially weighted variances X and Y of the
    two coordinates are at least 10 g, the value is finite and within 3/2 g (1/X + 1/Y) of the
    exponentially weighted correlation, for a history of any length. *)
Theorem C79_ewmcorr_error B d ops : (bpow radix2 (-200) <= B <= bpow radix2 200)%R -> decay_ok d -> (bpow radix2 (-40) <= B2R d)%R -> bounded2 B ops ->
  exists m, jm_run FN (JEwmCorr d) ops = Ok m /\
    let l := rpairs (hist ops) in let X := ewmoment (B2R d) 2 (map fst l) in let Y := ewmoment (B2R d) 2 (map snd l) in
    let g := (1000 * (bpow radix2 (-53) * B ^ 2) / B2R d)%R in
    (hist ops <> [] -> (10 * g <= X)%R -> (10 * g <= Y)%R -> exists v, jm_value FN m = Ok v /\ isfin v = true /\
      (Rabs (B2R v - ewcorr (B2R d) l) <= 3 / 2 * (g * (/ X + / Y)))%R).
Proof.
  intros HB Hd H40 Hops. destruct (decay_real d Hd) as [Fd Rd]. destruct (ewcorr_acc B d ops (bounded2_okp B ops Hops) Fd Rd H40 HB) as (m & E & H). exists m. split; [exact E|].
  cbv zeta. replace (B ^ 2)%R with (B * B)%R by ring. exact H.
Qed.
Print Assumptions C79_ewmcorr_error.
(** The hypotheses are met by decay 1/2 and the points (1,2), (5,3), (2,8), (7,1). *)
Example C79_case : let ops := map OPush (map (map fz) [[1; 2]; [5; 3]; [2; 8]; [7; 1]]%Z) in let d := fdy 1 (-1) in let l := rpairs (hist ops) in
  let g := (1000 * (bpow radix2 (-53) * 8 ^ 2) / B2R d)%R in
  decay_ok d /\ (bpow radix2 (-40) <= B2R d)%R /\ bounded2 8 ops /\ hist ops <> [] /\
  (10 * g <= ewmoment (B2R d) 2 (map fst l))%R /\ (10 * g <= ewmoment (B2R d) 2 (map snd l))%R.
Proof.
  cbv zeta. assert (Ed : B2R (fdy 1 (-1)) = (/ 2)%R) by (unfold B2R, fdy; cbn; unfold F2R; cbn; lra).
  split; [split; reflexivity|]. rewrite Ed. split; [change (bpow radix2 (-40)) with (/ 1099511627776)%R; lra|]. split; [apply C78_case|].
  change (hist (map OPush (map (map fz) [[1; 2]; [5; 3]; [2; 8]; [7; 1]]%Z))) with (map (map fz) [[1; 2]; [5; 3]; [2; 8]; [7; 1]]%Z). split; [discriminate|].
  cbn [map rpairs nth fst snd]. rewrite !(fun n H => proj2 (fz_real n H)) by lia. change (bpow radix2 (-53)) with (/ 9007199254740992)%R.
  unfold ewmoment, ewma, wsum, eweights, eweight, rsum. cbn [length seq map combine fst snd fold_right Nat.eqb Nat.sub]. split; lra.
Qed.
