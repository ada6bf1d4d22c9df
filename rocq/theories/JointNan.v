(** What a NaN or an infinity does to the joint metrics in float64 arithmetic. Nothing here models repository code. *)
From Coq Require Import ZArith Lia Bool Reals Lra List.
From Flocq Require Import Core BinarySingleNaN.
From Verif Require Import Base F64 FloatR HistSpec RingModel MathModel NumModel MomentModel CoreInv NanCore StdFloat PowFloat JointModel JointMetric JointConf TotalProof JointShare JointErr JointRun JointEwm JointSym JointSpec LagProof.
Import ListNotations.
Local Open Scope Z_scope.
Local Notation vc := (@jcore f64 (list f64)).

(** How bad the state is: 1: the first mean is not finite, 2: it is NaN, 3: and so is the mixed sum. *)
Definition jbad (d : nat) (c : vc) : Prop :=
  (exists mx my, j_means c = [mx; my] /\ ((1 <= d)%nat -> isfin mx = false) /\ ((2 <= d)%nat -> mx = fnan)) /\
  ((3 <= d)%nat -> j_sums c 32 = Some fnan /\ exists u v, j_sums c 62 = Some u /\ j_sums c 2 = Some v).
Lemma pw_nan dy : pw FN fnan dy 1 1 = fnan.
Proof. unfold pw. cbn [nmul npow nz FN]. change (fpow fnan 1) with (fnan). rewrite fmul_nan_r, fmul_nan_l. reflexivity. Qed.
Lemma add_bad (c c' : vc) x y d : j_tuples c = corr_sums -> 0 <= j_count c -> j_add FN c [x; y] = Ok c' -> 
  (exists mx my, j_means c = [mx; my] /\ ((1 <= d)%nat -> isfin mx = false) /\ ((2 <= d)%nat -> mx = fnan)) -> (d = 0%nat -> isfin x = false) -> jbad (S d) c'.
Proof.
  intros Et Hc E (mx & my & Em & H1 & H2) Hx. unfold j_add in E. cbv zeta in E. rewrite Et, Em in E.
  change (deltas FN [x; y] [mx; my]) with [fsub x mx; fsub y my] in E.
  destruct (add6 FN (nz FN (j_count c + 1)) (fsub x mx) (fsub y my) (j_sums c) (j_new c)) as (m & Eu & _ & _ & _ & K32 & K62 & K2 & _ & _).
  rewrite Eu in E. cbn [bind] in E. injection E as <-. split; cbn [j_means j_sums].
  - unfold add_means. cbn [combine map fst snd]. exists (add_mean FN mx x (j_count c + 1)), (add_mean FN my y (j_count c + 1)). split; [reflexivity|]. split; intros Hd.
    + destruct d as [|d]; [apply add_mean_inf; auto|]. rewrite add_mean_nan; [reflexivity|apply H1; lia|lia].
    + apply add_mean_nan; [apply H1; lia|lia].
  - intros Hd. rewrite K32, K62, K2. split; [|eauto]. f_equal. rewrite (H2 ltac:(lia)), fsub_nan_r, pw_nan. unfold sq. cbn [nmul nadd FN]. rewrite fmul_nan_r. apply fadd_nan_r.
Qed.
Lemma jbad_push w h (c c' : vc) x y d : w <> 1 -> 0 <= w -> jtot 2 corr_sums w None h c -> jpush FN c [x; y] = Ok c' -> jbad d c -> (d = 0%nat -> isfin x = false) -> jbad (S d) c'.
Proof.
  intros Hw1 Hw (Hp & Ec & Rc & Rq & Fh) E ((mx & my & Em & B1 & B2) & _) Hx. pose proof Hp as (Lm & Et & Ew & Ed).
  unfold jpush, j_push in E. rewrite Em, Ew in E. cbn [length Nat.eqb negb] in E. rewrite <- Em in E.
  pose proof (live_zlen_nonneg (live w h)) as Hz.
  destruct (Z.eqb_spec w 0) as [->|Hw0]; cbn [negb] in E.
  - cbn [bind] in E. rewrite Ed in E. apply (add_bad c c' x y d Et ltac:(lia) E); eauto.
  - destruct (win_step w h [x; y] (j_queue c) ltac:(lia) Rc (Rq Hw0)) as [(Ef & z & l & q' & G & Elv & P & L)|(Ef & P & L)]; rewrite Ef in E.
    + rewrite G in E. cbn [bind] in E.
      assert (Ly : length z = 2%nat) by (rewrite Forall_forall in Fh; apply Fh; apply (live_incl w); rewrite Elv; left; reflexivity).
      destruct (two z Ly) as (zx & zy & ->). clear Ly.
      apply Z.eqb_eq in Ef. unfold ring_len in Ef. rewrite (Rq Hw0) in Ef. rewrite <- Ec in Ef, Hz.
      apply bind_ok in E as (c1 & E1 & E). apply bind_ok in E1 as (c0 & E0 & E1). apply bind_ok in E1 as (q & _ & E1). injection E1 as <-.
      unfold j_remove in E0. cbn [j_means j_tuples j_sums j_new j_count j_window j_decay j_queue] in E0. destruct (Z.gtb_spec (j_count c - 1) 0) as [Hp1|?]; [|lia].
      apply bind_ok in E0 as ((s & m) & _ & E0). injection E0 as <-. cbn [j_means j_tuples j_sums j_new j_count j_window j_decay j_queue] in E. rewrite Ed in E.
      refine (add_bad _ c' x y d _ _ E _ Hx); cbn [j_means j_tuples j_sums j_new j_count j_window j_decay j_queue]; [exact Et|lia|].
      rewrite Em. cbn [combine map fst snd]. exists (rem_mean FN mx zx (j_count c - 1)), (rem_mean FN my zy (j_count c - 1)). split; [reflexivity|].
      split; intros Hd; [apply rem_mean_inf; [auto|lia]|]. rewrite (B2 Hd). apply rem_mean_nan.
    + cbn [bind] in E. rewrite P in E. cbn [bind j_decay] in E. rewrite Ed in E.
      refine (add_bad _ c' x y d _ _ E _ Hx); cbn [j_means j_tuples j_sums j_new j_count j_window j_decay j_queue]; [exact Et|lia|eauto].
Qed.
Lemma corr_small : Forall (small 2) corr_sums.
Proof. repeat constructor; lia. Qed.
Lemma jbad_pushes w ys : (forall p, In p ys -> length p = 2%nat) -> forall h (c : vc) d, w <> 1 -> 0 <= w -> jtot 2 corr_sums w None h c -> jbad d c -> (1 <= d)%nat ->
  exists c', jcore_run FN c (map OPush ys) = Ok c' /\ jtot 2 corr_sums w None (h ++ ys) c' /\ jbad (d + length ys) c'.
Proof.
  induction ys as [|y ys IH]; intros Hy h c d Hw1 Hw0 I Hb Hd.
  - exists c. rewrite app_nil_r, Nat.add_0_r. auto.
  - destruct (jtot_push FN 2 corr_sums w None h c y corr_small Hw0 (Hy y (or_introl eq_refl)) I) as (c1 & E & I1). unfold jcore_run in *. cbn [map run]. rewrite E. cbn [bind].
    destruct (two y (Hy y (or_introl eq_refl))) as (a & b & ->).
    destruct (IH (fun p Hp => Hy p (or_intror Hp)) (h ++ [[a; b]]) c1 (S d) Hw1 Hw0 I1) as (c' & E' & I' & B'); [apply (jbad_push w h c c1 a b d); auto; lia|lia|].
    exists c'. split; [exact E'|]. rewrite <- app_assoc in I'. split; [exact I'|]. cbn [length]. rewrite Nat.add_succ_r. exact B'.
Qed.
Definition wjkind (w : Z) (k : @jkind f64) : Prop := k = JCov w \/ k = JCorr w.
Lemma jbad_run_x w k ops x y ps : w <> 1 -> 0 <= w -> wjkind w k -> isfin x = false -> (2 <= length ps)%nat ->
  (forall p, In (OPush p) ops -> length p = 2%nat) -> (forall p, In p ps -> length p = 2%nat) ->
  (m <- jm_run FN k (ops ++ OPush [x; y] :: map OPush ps) ;; jm_value FN m) = Ok fnan.
Proof.
  intros Hw1 Hw0 Hk Hx Hps Hops Hp.
  destruct (jcore_total FN (jkconfig (JCorr w)) (core0 FN corr_sums w None) ops (new_corr FN w Hw0)) as (c & E & w' & Ew & I); [repeat constructor; lia|exact Hops|].
  cbn [jkconfig jf_window jf_decay] in Ew, I. injection Ew as <-. change (jtot 2 corr_sums w None (hist ops) c) in I.
  destruct (jtot_push FN 2 corr_sums w None (hist ops) c [x; y] corr_small Hw0 eq_refl I) as (c1 & E1 & I1).
  assert (B0 : jbad 0 c). { destruct I as ((Lm & _) & _). destruct (two (j_means c) Lm) as (a & b & Em). split; [exists a, b; split; [exact Em|split; intros; lia]|intros; lia]. }
  assert (B1 : jbad 1 c1) by (apply (jbad_push w (hist ops) c c1 x y 0 Hw1 Hw0 I E1 B0); auto).
  destruct (jbad_pushes w ps Hp (hist ops ++ [[x; y]]) c1 1 Hw1 Hw0 I1 B1 (le_n 1)) as (c2 & E2 & I2 & _ & B2).
  destruct B2 as (S32 & u & v & S62 & S2); [lia|].
  assert (Er : jcore_run FN (core0 FN corr_sums w None) (ops ++ OPush [x; y] :: map OPush ps) = Ok c2).
  { unfold jcore_run in *. rewrite run_app, E. cbn [bind run]. rewrite E1. cbn [bind]. exact E2. }
  assert (Hall : forall p, In (OPush p) (ops ++ OPush [x; y] :: map OPush ps) -> length p = 2%nat).
  { intros p Hi. apply in_app_iff in Hi as [Hi|[Hi|Hi]]; [auto|injection Hi as <-; reflexivity|]. apply in_map_iff in Hi as (q & Eq & Hq). injection Eq as <-. auto. }
  assert (Hc : j_count c2 <> 0).
  { destruct I2 as (_ & C2 & _). rewrite C2. intros Hz. destruct (live w _) as [|a l] eqn:El in Hz; [|unfold zlen in Hz; cbn [length] in Hz; lia]. apply live_empty in El; [|exact Hw0]. destruct (hist ops); discriminate El. }
  destruct Hk as [->| ->]; unfold jm_run, jm_init, new_jmetric; cbn [jm_kind].
  - rewrite new_cov by exact Hw0. cbn [bind]. rewrite (jm_lift FN _ _ Hall). destruct (jrel_run _ _ _ c2 (core0_rel w None (or_intror eq_refl)) Er) as (c' & Ec' & Rc). rewrite Ec'. cbn [rmap bind].
    unfold jm_value. cbn [jm_core jm_kind]. rewrite (jrel_value (JCov w) _ _ Rc eq_refl). cbn [jvalue]. unfold j_get_sum. destruct (Z.eqb_spec (j_count c2) 0); [contradiction|].
    change (t_hash [1; 1]) with 32. rewrite S32. cbn [bind ndiv FN]. rewrite fdiv_nan_l. reflexivity.
  - rewrite new_corr by exact Hw0. cbn [bind]. rewrite (jm_lift FN _ _ Hall), Er. cbn [rmap bind]. unfold jm_value. cbn [jm_core jm_kind jvalue]. unfold corr_value, j_get_sum.
    destruct (Z.eqb_spec (j_count c2) 0); [contradiction|]. change (t_hash [1; 1]) with 32. change (t_hash [2; 0]) with 62. change (t_hash [0; 2]) with 2. rewrite S32, S62, S2.
    cbn [bind ndiv FN]. rewrite fdiv_nan_l. reflexivity.
Qed.
Theorem jbad_run w k ops p ps : 2 <= w \/ w = 0 -> wjkind w k -> length p = 2%nat -> (exists x, In x p /\ isfin x = false) -> (2 <= length ps)%nat ->
  (forall p, In (OPush p) ops -> length p = 2%nat) -> (forall p, In p ps -> length p = 2%nat) ->
  (m <- jm_run FN k (ops ++ OPush p :: map OPush ps) ;; jm_value FN m) = Ok fnan.
Proof.
  intros Hw Hk Lp (z & Hz & Fz) Hps Hops Hp. destruct (two p Lp) as (x & y & ->). destruct Hz as [->|[->|[]]]; [apply (jbad_run_x w); auto; lia|].
  rewrite (sw_all k), map_app. cbn [map swap_op]. change (rev [x; z]) with [z; x]. rewrite map_map, <- (map_map (@rev f64) OPush). apply (jbad_run_x w); auto; try lia.
  - rewrite map_length. exact Hps.
  - intros q Hq. apply (swap_len ops q Hq Hops).
  - intros q Hq. apply in_map_iff in Hq as (r & <- & Hr). rewrite rev_length. auto.
Qed.
Lemma pairs_run w k ops : 0 <= w -> wjkind w k -> (forall p, In (OPush p) ops -> length p = 2%nat) -> exists m, jm_run FN k ops = Ok m.
Proof.
  intros Hw Hk H. assert (E : exists ts, jnew_core FN (jkconfig k) = Ok (core0 FN ts w None)) by (destruct Hk as [->| ->]; [rewrite new_cov by exact Hw|rewrite new_corr by exact Hw]; eauto). destruct E as (ts & E).
  destruct (jcore_total FN (jkconfig k) _ ops E) as (c & Ec & _); [destruct Hk as [->| ->]; repeat constructor; lia|exact H|].
  unfold jm_run, jm_init, new_jmetric. cbn [jm_kind]. rewrite E. cbn [bind]. rewrite (jm_lift FN k ops H), Ec. eexists. reflexivity.
Qed.

(** ** Autocov and Autocorr *)
Lemma lag_calls_push {T} lag (ys : list T) : forall h, (lag <= length h)%nat -> exists ps, lag_calls lag h (map OPush ys) = map OPush ps /\ length ps = length ys /\ forall p, In p ps -> length p = 2%nat.
Proof.
  induction ys as [|y ys IH]; intros h Hh; cbn [map lag_calls]; [exists []; repeat split; intros ? []|].
  destruct (Nat.leb_spec lag (length h)); [|lia]. destruct (IH (h ++ [y])) as (ps & E & L & H'); [rewrite app_length; lia|]. rewrite E. eexists (_ :: ps). split; [reflexivity|]. cbn [length]. split; [lia|].
  intros p [<-|Hp]; [reflexivity|auto].
Qed.
Lemma lag_calls_two {T} lag (ops : list (op T)) : forall h p, In (OPush p) (lag_calls lag h ops) -> length p = 2%nat.
Proof.
  induction ops as [|[x|] ops IH]; intros h p Hp; cbn [lag_calls] in Hp; [destruct Hp| |].
  - apply in_app_iff in Hp as [Hp|Hp]; [|eauto]. destruct (_ <=? _)%nat; [|destruct Hp]. destruct Hp as [Hp|[]]. injection Hp as <-. reflexivity.
  - destruct Hp as [Hp|Hp]; [discriminate|eauto].
Qed.
(** The pair in which [x] is the older value *)
Lemma lag_calls_bad {T} lag (ops : list (op T)) x ys : (lag + 2 <= length ys)%nat -> exists ops' p ps,
  lag_calls lag [] (ops ++ OPush x :: map OPush ys) = ops' ++ OPush p :: map OPush ps /\ length p = 2%nat /\ In x p /\ (2 <= length ps)%nat /\
  (forall p, In (OPush p) ops' -> length p = 2%nat) /\ (forall p, In p ps -> length p = 2%nat).
Proof.
  intros Hy. rewrite lag_calls_app. fold (hist ops). cbn [lag_calls].
  set (h := hist ops). destruct lag as [|lag].
  - cbn [Nat.leb]. rewrite Nat.sub_0_r, app_nth2, Nat.sub_diag by lia. cbn [nth app]. destruct (lag_calls_push 0 ys (h ++ [x]) ltac:(lia)) as (ps & E & L & H). rewrite E.
    exists (lag_calls 0 [] ops), [x; x], ps. split; [reflexivity|]. split; [reflexivity|]. split; [left; reflexivity|]. split; [lia|]. split; [apply lag_calls_two|exact H].
  - assert (Hz : exists a z b, ys = a ++ z :: b /\ length a = lag /\ (2 <= length b)%nat).
    { exists (firstn lag ys). destruct (skipn lag ys) as [|z b] eqn:Es; [apply (f_equal (@length T)) in Es; rewrite skipn_length in Es; cbn in Es; lia|].
      exists z, b. split; [rewrite <- Es; symmetry; apply firstn_skipn|]. split; [rewrite firstn_length; lia|]. apply (f_equal (@length T)) in Es. rewrite skipn_length in Es. cbn [length] in Es. lia. }
    destruct Hz as (a & z & b & -> & La & Lb). rewrite map_app, lag_calls_app. cbn [map lag_calls].
    assert (Ef : forall g, fold_left (fun h o => match o with OPush x => h ++ [x] | OClear => [] end) (map OPush a) g = g ++ a).
    { clear. induction a as [|u a IH]; intros g; cbn [map fold_left]; [symmetry; apply app_nil_r|]. rewrite IH, <- app_assoc. reflexivity. }
    rewrite Ef. assert (Ll : length ((h ++ [x]) ++ a) = (length h + S lag)%nat) by (rewrite !app_length; cbn [length]; lia). rewrite !Ll.
    destruct (Nat.leb_spec (S lag) (length h + S lag)); [|lia].
    assert (En : nth (length h + S lag - S lag) (((h ++ [x]) ++ a) ++ [z]) z = x).
    { replace (length h + S lag - S lag)%nat with (length h) by lia. rewrite <- !app_assoc. rewrite app_nth2 by lia. rewrite Nat.sub_diag. reflexivity. }
    rewrite En. destruct (lag_calls_push (S lag) b (((h ++ [x]) ++ a) ++ [z])) as (ps & E & L & H'); [rewrite app_length, Ll; lia|]. rewrite E.
    eexists _, [z; x], ps. split; [rewrite !app_assoc, <- (app_assoc _ [OPush [z; x]]); reflexivity|]. split; [reflexivity|]. split; [right; left; reflexivity|]. split; [lia|]. split; [|exact H'].
    intros p Hp. apply in_app_iff in Hp as [Hp|Hp]; [|apply lag_calls_two in Hp; exact Hp]. apply in_app_iff in Hp as [Hp|Hp]; [apply lag_calls_two in Hp; exact Hp|].
    destruct (_ <=? _)%nat; [|destruct Hp]. destruct Hp as [Hp|[]]. injection Hp as <-. reflexivity.
Qed.
Theorem jbad_auto w k lag ops x ys : 2 <= w \/ w = 0 -> isfin x = false -> (lag + 2 <= length ys)%nat ->
  (a <- auto_run FN k (Z.of_nat lag) w (ops ++ OPush x :: map OPush ys) ;; auto_value FN a) = Ok fnan.
Proof.
  intros Hw Hx Hy. rewrite auto_lag_value. pose proof (lag_calls_hist lag (ops ++ OPush x :: map OPush ys)) as Hh. destruct (lag_calls_bad lag ops x ys Hy) as (ops' & p & ps & E & Lp & Hp & L & H1 & H2).
  destruct (lagged lag (hist (ops ++ OPush x :: map OPush ys))) as [|q t].
  - exfalso. rewrite E in Hh. destruct ps as [|r ps] using rev_ind; [cbn in L; lia|]. rewrite map_app in Hh. cbn [map] in Hh. rewrite app_comm_cons, app_assoc, hist_push in Hh. destruct (hist (ops' ++ OPush p :: map OPush ps)); discriminate Hh.
  - rewrite E. change (fun m => jm_value FN m) with (jm_value FN). apply (jbad_run w); auto; [destruct k; [left|right]; reflexivity|eauto].
Qed.
