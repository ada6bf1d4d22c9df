(** C83: the metrics of a negated stream, in float64. *)
From Coq Require Import Reals Lra Lia Bool.
From Flocq Require Import Core BinarySingleNaN.
From Verif Require Import Base F64 HistSpec OrderSpec RingModel MinMaxModel MinMaxProof NumModel MomentModel JointModel JointMetric JointSpec PropsJoint PropsConst PropsQuantile LagProof JointSym NegArith NegCore NegJoint.
Local Open Scope nat_scope.
Local Open Scope list_scope.

(** ** Specification *)
(** The calls of a user who pushes -x for x *)
Definition negated (ops : list (op f64)) : list (op f64) := map (fun o => match o with OPush x => OPush (Bopp x) | OClear => OClear end) ops.
(** Two numbers are opposite if one is the other with its sign changed (NaN has none), or if both are zeros;
    they are the same if they are equal, or if both are zeros. *)
Definition zero_f (x : f64) : Prop := exists s, x = B754_zero s.
Definition opposite (v v' : f64) : Prop := v' = Bopp v \/ zero_f v /\ zero_f v'.
Definition same (v v' : f64) : Prop := v' = v \/ zero_f v /\ zero_f v'.
(** Two outcomes: both are values in the relation [P], or both are the same error, or both panic, ... *)
Definition outcomes (P : f64 -> f64 -> Prop) (r r' : res f64) : Prop :=
  (exists v v', r = Ok v /\ r' = Ok v' /\ P v v') \/ (r = r' /\ forall v, r <> Ok v).

Lemma ev_opposite a b : ev true a b -> opposite a b.
Proof.
  unfold ev, opposite. destruct a as [sa|sa| |sa ma ea Pa], b as [sb|sb| |sb mb eb Pb]; cbn [B2SF sev]; try contradiction; intros H.
  - right. split; eexists; reflexivity.
  - left. subst. destruct sa; reflexivity.
  - left. reflexivity.
  - left. destruct H as (-> & -> & ->). apply B2SF_inj. reflexivity.
Qed.
Lemma ev_same' a b : ev false a b -> same a b.
Proof. intros H. destruct (ev_same a b H) as [->|H']; [left; reflexivity|right; exact H']. Qed.
Lemma both_outcomes (P Q : f64 -> f64 -> Prop) r r' : (forall a b, P a b -> Q a b) -> both P r r' -> outcomes Q r r'.
Proof.
  intros H K. destruct r as [v|e| | |], r' as [v'|e'| | |]; cbn [both] in K; try contradiction; [left; eauto 10| | | |]; right; (split; [congruence|discriminate]).
Qed.

(** ** One variable *)
(** The metrics that change sign: Mean, EWMA, Skewness, and the moments of odd order. The order of Moment and
    EWMMoment is at most 199. *)
Definition odd_metric (k : @kind f64) : Prop :=
  match k with KMean _ | KSkew _ | KEwma _ => True | KMoment p _ | KEwmMoment p _ => (p <= 199)%Z /\ Z.Odd p | _ => False end.
(** The metrics that do not: Std, EWMStd, Kurtosis, and the moments of even order. *)
Definition even_metric (k : @kind f64) : Prop :=
  match k with KStd _ | KKurt _ | KEwmStd _ => True | KMoment p _ | KEwmMoment p _ => (p <= 199)%Z /\ Z.Even p | _ => False end.
(** For every window or decay (also invalid ones), every history and all values, NaN and infinities included,
    and not only up to rounding: the results are opposite, bit for bit but for the sign of a zero. *)
Theorem C83_odd k ops : odd_metric k ->
  outcomes opposite (m <- m_run FN k ops ;; m_value FN m) (m <- m_run FN k (negated ops) ;; m_value FN m).
Proof.
  intros H. apply (both_outcomes (ev true)); [exact ev_opposite|]. assert (E : kodd k = true /\ (kmax k <= 199)%Z).
  { destruct k; cbn [odd_metric kodd kmax] in *; try contradiction; (split; [|lia]); try reflexivity; apply Z.odd_spec, H. }
  destruct E as [E L]. pose proof (neg_run k ops L) as R. rewrite E in R. exact R.
Qed.
Print Assumptions C83_odd.
Theorem C83_even k ops : even_metric k ->
  outcomes same (m <- m_run FN k ops ;; m_value FN m) (m <- m_run FN k (negated ops) ;; m_value FN m).
Proof.
  intros H. apply (both_outcomes (ev false)); [exact ev_same'|]. assert (E : kodd k = false /\ (kmax k <= 199)%Z).
  { destruct k; cbn [even_metric kodd kmax] in *; try contradiction; (split; [|lia]); try reflexivity; rewrite <- Z.negb_even; apply negb_false_iff, Z.even_spec, H. }
  destruct E as [E L]. pose proof (neg_run k ops L) as R. rewrite E in R. exact R.
Qed.
Print Assumptions C83_even.
Example C83_case : let ops := pushes [5; 1; -3; 4; 0]%Z in
  negated ops <> ops /\ odd_metric (KSkew 3) /\ odd_metric (KMoment 3 2) /\ even_metric (KMoment 4 2) /\
  rmap fbits (m <- m_run FN (KMean 3) ops ;; m_value FN m) <> Ok (fbits (fz 0)) /\
  rmap fbits (m <- m_run FN (KMean 3) (negated ops) ;; m_value FN m) = rmap (fun v => fbits (Bopp v)) (m <- m_run FN (KMean 3) ops ;; m_value FN m) /\
  rmap fbits (m <- m_run FN (KSkew 3) (negated ops) ;; m_value FN m) = rmap (fun v => fbits (Bopp v)) (m <- m_run FN (KSkew 3) ops ;; m_value FN m) /\
  rmap fbits (m <- m_run FN (KKurt 4) (negated ops) ;; m_value FN m) = rmap fbits (m <- m_run FN (KKurt 4) ops ;; m_value FN m).
Proof.
  cbv zeta. split; [|split; [exact I|split; [split; [lia|exists 1%Z; reflexivity]|split; [split; [lia|exists 2%Z; reflexivity]|]]]].
  - intros E. apply (f_equal (map (fun o => match o with OPush x => Some (fbits x) | OClear => None end))) in E. vm_compute in E. discriminate E.
  - split; [vm_compute; discriminate|]. repeat split; concrete.
Qed.

(** ** Two variables *)
(** Negating one variable, here the first or the second, negates Cov, Corr, EWMCov and EWMCorr. *)
Definition neg_first (ops : list (op (list f64))) : list (op (list f64)) := map (fun o => match o with OPush [x; y] => OPush [Bopp x; y] | o => o end) ops.
Definition neg_second (ops : list (op (list f64))) : list (op (list f64)) := map (fun o => match o with OPush [x; y] => OPush [x; Bopp y] | o => o end) ops.
Definition pairs_only (ops : list (op (list f64))) : Prop := forall p, In (OPush p) ops -> length p = 2.
Lemma first_eq ops : pairs_only ops -> neg_first ops = map neg1_op ops.
Proof. intros H. apply map_ext_in. intros [p|] Hp; [|reflexivity]. specialize (H p Hp). destruct p as [|x [|y [|z t]]]; try discriminate H. reflexivity. Qed.
Lemma second_eq ops : pairs_only ops -> map swap_op (neg_second ops) = map neg1_op (map swap_op ops).
Proof.
  intros H. unfold neg_second. rewrite !map_map. apply map_ext_in. intros [p|] Hp; [|reflexivity]. specialize (H p Hp). destruct p as [|x [|y [|z t]]]; try discriminate H. reflexivity.
Qed.
Lemma second_ev k ops : pairs_only ops -> both (ev true) (m <- jm_run FN k ops ;; jm_value FN m) (m <- jm_run FN k (neg_second ops) ;; jm_value FN m).
Proof.
  intros H. rewrite (sw_all k ops), (sw_all k (neg_second ops)), (second_eq ops H). apply jn_pairs. intros p Hp. exact (swap_len ops p Hp H).
Qed.
Theorem C83_joint k ops : pairs_only ops ->
  outcomes opposite (m <- jm_run FN k ops ;; jm_value FN m) (m <- jm_run FN k (neg_first ops) ;; jm_value FN m) /\
  outcomes opposite (m <- jm_run FN k ops ;; jm_value FN m) (m <- jm_run FN k (neg_second ops) ;; jm_value FN m) /\
  outcomes same (m <- jm_run FN k ops ;; jm_value FN m) (m <- jm_run FN k (neg_first (neg_second ops)) ;; jm_value FN m).
Proof.
  intros H. assert (H2 : pairs_only (neg_second ops)).
  { intros p Hp. apply in_map_iff in Hp as ([q|] & E & Hq); [|discriminate E]. specialize (H q Hq). destruct q as [|x [|y [|z t]]]; try discriminate H. injection E as <-. reflexivity. }
  rewrite (first_eq ops H), (first_eq _ H2). split; [|split].
  - apply (both_outcomes (ev true)); [exact ev_opposite|]. apply jn_pairs, H.
  - apply (both_outcomes (ev true)); [exact ev_opposite|]. apply second_ev, H.
  - apply (both_outcomes (ev false)); [exact ev_same'|]. apply (both_trans (ev true) (ev true) (ev false) _ (m <- jm_run FN k (neg_second ops) ;; jm_value FN m)); [exact (ev_trans true true)|apply second_ev, H|apply jn_pairs, H2].
Qed.
Print Assumptions C83_joint.

(** Autocov and Autocorr of the negated stream are those of the stream. *)
Lemma fold_neg (ops : list (op f64)) : forall h, fold_left (fun h o => match o with OPush x => h ++ [x] | OClear => [] end) (negated ops) (map (@Bopp 53 1024) h) =
  map (@Bopp 53 1024) (fold_left (fun h o => match o with OPush x => h ++ [x] | OClear => [] end) ops h).
Proof. induction ops as [|[x|] ops IH]; intros h; cbn [negated map fold_left]; [reflexivity| |]; [rewrite <- IH, map_app; reflexivity|apply (IH [])]. Qed.
Lemma hist_neg ops : hist (negated ops) = map (@Bopp 53 1024) (hist ops).
Proof. exact (fold_neg ops []). Qed.
Definition neg2 (p : list f64) : list f64 := map (@Bopp 53 1024) p.
Lemma lag_neg lag ops : forall h, lag_calls lag (map (@Bopp 53 1024) h) (negated ops) = map (fun o => match o with OPush p => OPush (neg2 p) | OClear => OClear end) (lag_calls lag h ops).
Proof.
  induction ops as [|[x|] ops IH]; intros h; cbn [negated map lag_calls]; [reflexivity| |f_equal; apply (IH [])].
  rewrite map_length, map_app. f_equal.
  - destruct (lag <=? length h); [|reflexivity]. cbn [map neg2]. do 4 f_equal. rewrite <- (map_nth (@Bopp 53 1024)), map_app. reflexivity.
  - specialize (IH (h ++ [x])). rewrite map_app in IH. exact IH.
Qed.
Lemma lag_pairs_only {T} lag (ops : list (op T)) : forall h p, In (OPush p) (lag_calls lag h ops) -> length p = 2.
Proof.
  induction ops as [|[x|] ops IH]; intros h p Hp; cbn [lag_calls] in Hp; [destruct Hp| |].
  - apply in_app_iff in Hp as [Hp|Hp]; [|eauto]. destruct (_ <=? _); [|destruct Hp]. destruct Hp as [Hp|[]]. injection Hp as <-. reflexivity.
  - destruct Hp as [Hp|Hp]; [discriminate|eauto].
Qed.
Theorem C83_auto k lag w ops :
  outcomes same (a <- auto_run FN k (Z.of_nat lag) w ops ;; auto_value FN a) (a <- auto_run FN k (Z.of_nat lag) w (negated ops) ;; auto_value FN a).
Proof.
  rewrite !auto_lag_value. set (calls := lag_calls lag [] ops).
  assert (Hc : pairs_only calls) by (intros p Hp; exact (lag_pairs_only lag ops [] p Hp)).
  assert (E : lag_calls lag [] (negated ops) = neg_first (neg_second calls)).
  { transitivity (map (fun o => match o with OPush p => OPush (neg2 p) | OClear => OClear end) calls); [exact (lag_neg lag ops [])|]. unfold neg_first, neg_second. rewrite map_map. apply map_ext_in. intros [p|] Hp; [|reflexivity]. specialize (Hc p Hp).
    destruct p as [|a [|b [|c t]]]; try discriminate Hc. reflexivity. }
  rewrite E. pose proof (lag_calls_hist lag ops) as H1. fold calls in H1. pose proof (lag_calls_hist lag (negated ops)) as H2. rewrite E in H2.
  assert (L : length (lagged lag (hist (negated ops))) = length (lagged lag (hist ops))) by (unfold lagged; rewrite hist_neg, !combine_length, !skipn_length, ?firstn_length, !map_length; reflexivity).
  destruct (C83_joint (akind_of k w) calls Hc) as (_ & _ & J).
  destruct (lagged lag (hist ops)) as [|p t], (lagged lag (hist (negated ops))) as [|p' t']; try discriminate L; [|exact J].
  set (jk := akind_of k w) in *. destruct (jnew_core FN (A := list f64) (jkconfig jk)) as [c0| | | |] eqn:E0.
  2-5: right; unfold jm_run, jm_init, new_jmetric; cbn [jm_kind]; rewrite E0; split; [reflexivity|discriminate].
  assert (Hn : pairs_only (neg_first (neg_second calls))) by (rewrite <- E; intros q Hq; exact (lag_pairs_only lag (negated ops) [] q Hq)).
  destruct (TotalProof.jm_run_total FN jk calls (ex_intro _ c0 E0) Hc) as (m & -> & _). destruct (TotalProof.jm_run_total FN jk _ (ex_intro _ c0 E0) Hn) as (m' & -> & _).
  right. split; [reflexivity|discriminate].
Qed.
Print Assumptions C83_auto.
Example C83_joint_case : let ops := [OPush [fz 1; fz 2]; OPush [fz 3; fz 1]; OPush [fz 4; fz 7]; OPush [fz 6; fz 5]] in
  pairs_only ops /\ rmap fbits (m <- jm_run FN (JCorr 3) ops ;; jm_value FN m) <> Ok (fbits (fz 0)) /\
  rmap fbits (m <- jm_run FN (JCorr 3) (neg_second ops) ;; jm_value FN m) = rmap (fun v => fbits (Bopp v)) (m <- jm_run FN (JCorr 3) ops ;; jm_value FN m) /\
  rmap fbits (a <- auto_run FN ACov 1 3 (pushes [5; 1; -3; 4; 0]%Z) ;; auto_value FN a) <> Ok (fbits (fz 0)) /\
  rmap fbits (a <- auto_run FN ACov 1 3 (negated (pushes [5; 1; -3; 4; 0]%Z)) ;; auto_value FN a) = rmap fbits (a <- auto_run FN ACov 1 3 (pushes [5; 1; -3; 4; 0]%Z) ;; auto_value FN a).
Proof.
  cbv zeta. split.
  - intros p Hp. repeat (destruct Hp as [Hp|Hp]; [injection Hp as <-; reflexivity|]). destruct Hp.
  - split; [vm_compute; discriminate|]. split; [concrete|]. split; [vm_compute; discriminate|concrete].
Qed.

(** ** Min and Max *)
Lemma fval_opp x : fval (Bopp x) = option_map Z.opp (fval x).
Proof. destruct x as [?|s| |s m e P]; cbn [fval Bopp option_map]; try reflexivity; destruct s; cbn [negb cond_Zopp]; rewrite ?Z.opp_involutive; reflexivity. Qed.
Lemma fle_opp x y : fle (Bopp x) (Bopp y) = fle y x.
Proof. unfold fle, fcmp. rewrite !fval_opp. destruct (fval x) as [a|], (fval y) as [b|]; cbn [option_map]; try reflexivity. rewrite Z.compare_opp. reflexivity. Qed.
Lemma live_neg w l : live w (map (@Bopp 53 1024) l) = map (@Bopp 53 1024) (live w l).
Proof. unfold live. destruct (w =? 0)%Z; [reflexivity|]. unfold lastn. rewrite map_length, skipn_map. reflexivity. Qed.
Lemma min_max_neg l v v' : is_max l v -> is_min (map (@Bopp 53 1024) l) v' -> feq v' (Bopp v) = true.
Proof.
  intros [H1 H2] [H3 H4]. apply in_map_iff in H3 as (y & <- & Hy). specialize (H2 y Hy). specialize (H4 (Bopp v) (in_map _ _ _ H1)). unfold fge in H4. rewrite fle_opp in H4.
  revert H2 H4. unfold fge, fle, feq, fcmp. rewrite !fval_opp. destruct (fval v) as [a|], (fval y) as [b|]; cbn [option_map]; try (intros; discriminate). rewrite Z.compare_opp.
  destruct (Z.compare_spec b a), (Z.compare_spec a b); intros Q1 Q2; try discriminate Q1; try discriminate Q2; try reflexivity; lia.
Qed.
Lemma max_min_neg l v v' : is_min l v -> is_max (map (@Bopp 53 1024) l) v' -> feq v' (Bopp v) = true.
Proof.
  intros [H1 H2] [H3 H4]. apply in_map_iff in H3 as (y & <- & Hy). specialize (H2 y Hy). specialize (H4 (Bopp v) (in_map _ _ _ H1)). unfold fge in H4. rewrite fle_opp in H4.
  revert H2 H4. unfold fge, fle, feq, fcmp. rewrite !fval_opp. destruct (fval v) as [a|], (fval y) as [b|]; cbn [option_map]; try (intros; discriminate). rewrite Z.compare_opp.
  destruct (Z.compare_spec b a), (Z.compare_spec a b); intros Q1 Q2; try discriminate Q1; try discriminate Q2; try reflexivity; lia.
Qed.
(** Min of the negated stream is == to minus Max of the stream, and the other way round. *)
Theorem C83_minmax w ops : (0 <= w)%Z -> Forall nonnan (hist ops) -> hist ops <> [] -> exists mn mx nn nx a b a' b',
  min_run w ops = Ok mn /\ min_value mn = Ok a /\ max_run w ops = Ok mx /\ max_value mx = Ok b /\
  min_run w (negated ops) = Ok nn /\ min_value nn = Ok b' /\ max_run w (negated ops) = Ok nx /\ max_value nx = Ok a' /\
  feq b' (Bopp b) = true /\ feq a' (Bopp a) = true.
Proof.
  intros Hw Hn Hh. assert (Hn' : Forall nonnan (hist (negated ops))).
  { rewrite hist_neg. apply Forall_forall. intros x Hx. apply in_map_iff in Hx as (y & <- & Hy). rewrite Forall_forall in Hn. specialize (Hn y Hy). destruct y; try reflexivity; exact Hn. }
  assert (Hh' : hist (negated ops) <> []) by (rewrite hist_neg; destruct (hist ops); [congruence|discriminate]).
  destruct (min_value_correct w ops Hw Hn) as (mn & E1 & _ & V1). destruct (V1 Hh) as (a & A & Ia). destruct (max_value_correct w ops Hw Hn) as (mx & E2 & _ & V2). destruct (V2 Hh) as (b & B & Ib).
  destruct (min_value_correct w _ Hw Hn') as (nn & E3 & _ & V3). destruct (V3 Hh') as (b' & B' & Ib'). destruct (max_value_correct w _ Hw Hn') as (nx & E4 & _ & V4). destruct (V4 Hh') as (a' & A' & Ia').
  rewrite hist_neg, live_neg in Ib', Ia'. exists mn, mx, nn, nx, a, b, a', b'. repeat (split; [assumption|]). split; [exact (min_max_neg _ _ _ Ib Ib')|exact (max_min_neg _ _ _ Ia Ia')].
Qed.
Print Assumptions C83_minmax.
Example C83_minmax_case : let ops := pushes [5; 1; -3; 4; 0]%Z in Forall nonnan (hist ops) /\
  rmap fbits (m <- min_run 2 (negated ops) ;; min_value m) = Ok (fbits (fz (-4))) /\ rmap fbits (m <- max_run 2 ops ;; max_value m) = Ok (fbits (fz 4)).
Proof. cbv zeta. split; [|split; concrete]. repeat constructor. Qed.
