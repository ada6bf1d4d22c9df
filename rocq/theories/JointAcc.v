(** Histories of calls to Cov, Corr, Autocov and Autocorr in float64, and the accuracy of their values. *)
From Coq Require Import ZArith Lia Bool Reals Lra Psatz List.
From Flocq Require Import Core Relative BinarySingleNaN.
From Verif Require Import Base F64 FloatR HistSpec RingModel MathModel NumModel MomentModel MomentSpec RealLib MomentProof PowFloat StdFloat CoreInv FloatErr JointModel JointMetric JointSpec JointValue JointShare JointErr JointRun JointVal LagProof.
Import ListNotations.
Local Open Scope R_scope.

(** The points of a history as pairs of reals *)
Definition rpairs (l : list (list f64)) : list (R * R) := map (fun p => (B2R (nth 0 p (fz 0)), B2R (nth 1 p (fz 0)))) l.
Lemma rpairs_cs l : cs (rl (map px l)) (rl (map py l)) = sxy (rpairs l).
Proof. unfold cs. f_equal. induction l as [|p l IH]; [reflexivity|]. cbn [map rl combine]. unfold rl in IH. unfold rl. cbn [map combine rpairs]. f_equal. exact IH. Qed.
Lemma rpairs_fst l : map fst (rpairs l) = rl (map px l).
Proof. unfold rpairs, rl. rewrite !map_map. reflexivity. Qed.
Lemma rpairs_snd l : map snd (rpairs l) = rl (map py l).
Proof. unfold rpairs, rl. rewrite !map_map. reflexivity. Qed.
Lemma okp_all B l : Forall (okp B) l -> Forall (inB B) (map px l) /\ Forall (inB B) (map py l).
Proof. induction 1 as [|p l (_ & H1 & H2) _ (I1 & I2)]; cbn [map]; split; constructor; assumption. Qed.
Lemma okp_len B (ops : list (op (list f64))) : (forall x, In (OPush x) ops -> okp B x) -> forall x, In (OPush x) ops -> length x = 2%nat.
Proof. intros H x Hx. apply H, Hx. Qed.

Lemma hist_len {A} (o : list (op A)) : (length (hist o) <= length o)%nat.
Proof.
  induction o as [|x o IH] using rev_ind; [apply le_n|]. rewrite app_length. cbn [length]. destruct x; [rewrite hist_push, app_length; cbn [length]; lia|rewrite hist_clear; cbn [length]; lia].
Qed.

Section Acc.
Variables (B : R) (w : Z) (ops : list (op (list f64))).
Hypothesis Hw : (0 <= w)%Z.
Hypothesis Hops : forall x, In (OPush x) ops -> okp B x.
Hypothesis Hlen : (zlen ops <= 2 ^ 40)%Z.
Let l := live w (hist ops).
Let n := length (hist ops).
Lemma live_n : (length l <= n)%nat.
Proof. unfold l, n, live. destruct (w =? 0)%Z; [apply le_n|]. rewrite lastn_length. lia. Qed.
Lemma corr_core : bpow radix2 (-400) <= B <= bpow radix2 400 -> exists c, jcore_run FN (core0 FN corr_sums w None) ops = Ok c /\ JQ B n l c.
Proof.
  intros HB. destruct (jcore_run_winv B HB (length ops) Hlen w (core0 FN corr_sums w None) ops Hw (core0_win B HB w) Hops (le_n _)) as (c & E & HQ & _). exists c. auto.
Qed.
Lemma n_le : (Z.of_nat n <= 2 ^ 40)%Z.
Proof. pose proof (hist_len ops). unfold zlen in Hlen. unfold n. lia. Qed.
Lemma cov_acc : bpow radix2 (-400) <= B <= bpow radix2 400 -> exists m, jm_run FN (JCov w) ops = Ok m /\
  ((2 <= length l)%nat -> exists v, jm_value FN m = Ok v /\ is_finite v = true /\ Rabs (B2R v - sample_cov (rpairs l)) <= 1000 * (INR n * INR n) * (eps * (B * B))).
Proof.
  intros HB. destruct (corr_core HB) as (d & Ed & HQ). destruct (jrel_run ops _ _ d (core0_rel w None (or_intror eq_refl)) Ed) as (c & Ec & Hrel).
  exists (mkJM (JCov w) (Some c)). split.
  - unfold jm_run, jm_init, new_jmetric. cbn [jm_kind]. rewrite new_cov by exact Hw. cbn [bind]. rewrite (jm_lift FN _ ops (okp_len B ops Hops)), Ec. reflexivity.
  - intros Hl. destruct Hrel as (_ & _ & _ & _ & HS & HC & _).
    destruct HQ as (_ & Hk & Hf & _ & _ & _ & _ & mx & my & sxy & sxx & syy & _ & _ & _ & E1 & _ & _ & (F1 & B1) & _).
    assert (E2 : j_sums c 32%Z = Some sxy) by (unfold v4 in HS; injection HS; intros; congruence). pose proof live_n as Hn. pose proof n_le as Hn2.
    exists (fdiv sxy (fsub (fz (zlen l)) (fz 1))).
    assert (Hz : (2 <= zlen l)%Z) by (unfold zlen; lia).
    split.
    { unfold jm_value. cbn [jm_core jm_kind]. unfold jvalue, j_get_sum, j_get_count. rewrite HC, Hk. destruct (Z.eqb_spec (zlen l) 0) as [?|_]; [lia|].
      change (t_hash [1; 1]%Z) with 32%Z. rewrite E2. reflexivity. }
    destruct (okp_all B _ Hf) as [Hx Hy].
    assert (HBd := cs_bound B HB (map px l) (map py l)). rewrite !map_length in HBd. specialize (HBd eq_refl Hx Hy).
    unfold sample_cov. rewrite <- rpairs_cs. replace (zlen (rpairs l)) with (zlen l) by (unfold zlen, rpairs; rewrite map_length; reflexivity).
    apply (cov_div B HB); try assumption; [unfold zlen in *; lia|]. unfold zlen. rewrite <- INR_IZR_INZ. exact HBd.
Qed.
Lemma corr_acc : bpow radix2 (-200) <= B <= bpow radix2 200 -> 
  let d := 800 * (INR n * INR n) * (eps * (B * B)) in let X := csum 2 (map fst (rpairs l)) in let Y := csum 2 (map snd (rpairs l)) in
  exists m, jm_run FN (JCorr w) ops = Ok m /\
  ((1 <= length l)%nat -> 10 * d <= X -> 10 * d <= Y -> exists v, jm_value FN m = Ok v /\ is_finite v = true /\ Rabs (B2R v - pearson (rpairs l)) <= 3 / 2 * (d * (/ X + / Y))).
Proof.
  intros HB d X Y. assert (HB4 : bpow radix2 (-400) <= B <= bpow radix2 400).
  { split; [eapply Rle_trans; [|apply HB]|eapply Rle_trans; [apply HB|]]; apply bpow_le; lia. }
  destruct (corr_core HB4) as (c & Ed & HQ).
  exists (mkJM (JCorr w) (Some c)). split.
  - unfold jm_run, jm_init, new_jmetric. cbn [jm_kind]. rewrite new_corr by exact Hw. cbn [bind]. rewrite (jm_lift FN _ ops (okp_len B ops Hops)), Ed. reflexivity.
  - intros Hl DX DY.
    destruct HQ as (_ & Hk & Hf & _ & _ & _ & _ & mx & my & a & x & y & _ & _ & _ & E1 & E2 & E3 & (F1 & B1) & (F2 & B2) & F3 & B3).
    pose proof live_n as Hn. pose proof n_le as Hn2. exists (fdiv a (fsqrt (fmul x y))).
    assert (Hz : (1 <= zlen l)%Z) by (unfold zlen; lia).
    split.
    { unfold jm_value. cbn [jm_core jm_kind]. unfold jvalue, corr_value, j_get_sum. rewrite Hk. destruct (Z.eqb_spec (zlen l) 0) as [?|_]; [lia|].
      change (t_hash [1; 1]%Z) with 32%Z. change (t_hash [2; 0]%Z) with 62%Z. change (t_hash [0; 2]%Z) with 2%Z. rewrite E1, E2, E3. reflexivity. }
    destruct (okp_all B _ Hf) as [Hx Hy]. pose proof (B_pos B HB4) as H0.
    destruct (csum2_bound B HB4 _ Hx) as [X1 X2]. destruct (csum2_bound B HB4 _ Hy) as [Y1 Y2]. rewrite map_length in X2, Y2.
    assert (Hnl : 4 * INR (length l) * (B * B) <= 4 * INR n * (B * B)) by (apply Rmult_le_compat_r; [nra|]; apply le_INR in Hn; lra).
    unfold pearson. pose proof (sxy_cauchy (rpairs l)) as HC. fold X Y in HC. fold X Y. rewrite !cs_same in *. rewrite <- rpairs_fst in B2, X2. rewrite <- rpairs_snd in B3, Y2. rewrite rpairs_cs in B1.
    apply (corr_quot B HB a x y (sxy (rpairs l)) X Y n); try assumption; [lia| |]; unfold X, Y; lra.
Qed.
End Acc.

Section Auto.
Variables (B : R) (lag : nat) (w : Z) (ops : list (op f64)).
Hypothesis Hw : (0 <= w)%Z.
Hypothesis Hops : forall x, In (OPush x) ops -> inB B x.
Hypothesis Hlen : (zlen ops <= 2 ^ 40)%Z.
Lemma lag_calls_ok (o : list (op f64)) : forall h, Forall (inB B) h -> (forall x, In (OPush x) o -> inB B x) -> forall p, In (OPush p) (lag_calls lag h o) -> okp B p.
Proof.
  induction o as [|[x|] o IH]; intros h Hh Ho p Hp; cbn [lag_calls] in Hp; [destruct Hp| |].
  - assert (Hx : inB B x) by (apply Ho; left; reflexivity). assert (Hhx : Forall (inB B) (h ++ [x])) by (apply Forall_app; split; [exact Hh|constructor; [exact Hx|constructor]]).
    apply in_app_or in Hp. destruct Hp as [Hp|Hp].
    + destruct (lag <=? length h)%nat; [|destruct Hp]. destruct Hp as [E|[]]. injection E as <-. split; [reflexivity|]. split; [exact Hx|].
      unfold py. cbn [nth]. destruct (nth_in_or_default (length h - lag) (h ++ [x]) x) as [Hi| ->]; [|exact Hx]. rewrite Forall_forall in Hhx. apply Hhx, Hi.
    + apply (IH (h ++ [x])); [exact Hhx| |exact Hp]. intros y Hy. apply Ho. right. exact Hy.
  - destruct Hp as [E|Hp]; [discriminate E|]. apply (IH []); [constructor| |exact Hp]. intros y Hy. apply Ho. right. exact Hy.
Qed.
Lemma lag_calls_len (o : list (op f64)) : forall h, (length (lag_calls lag h o) <= length o)%nat.
Proof.
  induction o as [|[x|] o IH]; intros h; cbn [lag_calls length]; [apply le_n| |]; [|specialize (IH []); lia].
  rewrite app_length. specialize (IH (h ++ [x])). destruct (lag <=? length h)%nat; cbn [length]; lia.
Qed.
Definition lag_pairs : list (R * R) := map (fun p => (B2R (fst p), B2R (snd p))) (live w (lagged lag (hist ops))).
Lemma lag_pairs_eq : rpairs (live w (hist (lag_calls lag [] ops))) = lag_pairs.
Proof. rewrite lag_calls_hist, live_map. unfold rpairs, lag_pairs. rewrite map_map. reflexivity. Qed.
Lemma lag_len : length (live w (hist (lag_calls lag [] ops))) = length (live w (lagged lag (hist ops))).
Proof. rewrite lag_calls_hist, live_map, map_length. reflexivity. Qed.
Lemma lag_hist_len : length (hist (lag_calls lag [] ops)) = length (lagged lag (hist ops)).
Proof. rewrite lag_calls_hist, map_length. reflexivity. Qed.
Lemma lag_zlen : (zlen (lag_calls lag [] ops) <= 2 ^ 40)%Z.
Proof. pose proof (lag_calls_len ops []). unfold zlen in *. lia. Qed.
Lemma live_nonnil {A} (l : list A) : (1 <= length (live w l))%nat -> l <> [].
Proof. intros H ->. rewrite live_nil in H. cbn in H. lia. Qed.
Lemma autocov_acc : bpow radix2 (-400) <= B <= bpow radix2 400 -> let n := length (lagged lag (hist ops)) in
  (2 <= length (live w (lagged lag (hist ops))))%nat ->
  exists v, (a <- auto_run FN ACov (Z.of_nat lag) w ops ;; auto_value FN a) = Ok v /\ is_finite v = true /\
    Rabs (B2R v - sample_cov lag_pairs) <= 1000 * (INR n * INR n) * (eps * (B * B)).
Proof.
  intros HB n Hl. destruct (cov_acc B w (lag_calls lag [] ops) Hw (lag_calls_ok ops [] ltac:(constructor) Hops) lag_zlen HB) as (m & Em & Hv).
  rewrite lag_len, lag_hist_len, lag_pairs_eq in Hv. destruct (Hv Hl) as (v & Ev & Fv & Bv). exists v. split; [|split; [exact Fv|exact Bv]].
  rewrite auto_lag_value. cbn [akind_of]. rewrite Em. cbn [bind]. pose proof (live_nonnil (lagged lag (hist ops)) ltac:(lia)) as Hne. destruct (lagged lag (hist ops)); [congruence|exact Ev].
Qed.
Lemma autocorr_acc : bpow radix2 (-200) <= B <= bpow radix2 200 -> let n := length (lagged lag (hist ops)) in
  let d := 800 * (INR n * INR n) * (eps * (B * B)) in let X := csum 2 (map fst lag_pairs) in let Y := csum 2 (map snd lag_pairs) in
  (1 <= length (live w (lagged lag (hist ops))))%nat -> 10 * d <= X -> 10 * d <= Y ->
  exists v, (a <- auto_run FN ACorr (Z.of_nat lag) w ops ;; auto_value FN a) = Ok v /\ is_finite v = true /\ Rabs (B2R v - pearson lag_pairs) <= 3 / 2 * (d * (/ X + / Y)).
Proof.
  intros HB n d X Y Hl DX DY. destruct (corr_acc B w (lag_calls lag [] ops) Hw (lag_calls_ok ops [] ltac:(constructor) Hops) lag_zlen HB) as (m & Em & Hv).
  rewrite lag_len, lag_hist_len, lag_pairs_eq in Hv. destruct (Hv Hl DX DY) as (v & Ev & Fv & Bv). exists v. split; [|split; [exact Fv|exact Bv]].
  rewrite auto_lag_value. cbn [akind_of]. rewrite Em. cbn [bind]. pose proof (live_nonnil (lagged lag (hist ops)) ltac:(lia)) as Hne. destruct (lagged lag (hist ops)); [congruence|exact Ev].
Qed.
End Auto.
