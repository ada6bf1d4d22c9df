(** Expected number of steps of a Quantile kept in a skip list. *)
From Coq Require Import Permutation.
From Verif Require Import Base F64 HistSpec RingModel OrderSpec MultisetSpec SortLib AvlProof SkipModel SkipProof NumModel QuantileModel QuantileSpec QuantileProof.
From Verif Require Import CostModel CostErase CostTree CostQuant SkipCost SkipCost2 SkipProb SkipExp.
From Coq Require Import Reals Lra.
Local Open Scope nat_scope.

(** the options of a Quantile kept in a skip list *)
Definition skip_os (interp mx : Z) (p : f64) (rnd : nat -> f64) : list qopt := [QImpl 2 [OMaxLevel mx; OProb p; ORand rnd]; QInterp interp].
Definition skip_probs (e : env) (p : f64) (i : nat) : f64 := e_pow e p (fz (Z.of_nat i)).
Lemma skip_os_run e w interp mx p rnd ops : (0 <= w)%Z -> (1 <= mx <= 64)%Z -> fle p (fz 0) = false -> fge p (fz 1) = false -> interp_valid interp = true ->
  q_run e w (skip_os interp mx p rnd) ops =
    (s <- skip_run (Z.to_nat mx) (skip_probs e p) rnd (qops w ops) ;;
     Ok (mkQ w interp (mkRing (round_up w) (if (w =? 0)%Z then [] else live w (hist ops))) (StSkip s))).
Proof.
  intros Hw Hm H1 H2 Hi. unfold q_run, new_quantile, skip_os. destruct (Z.ltb_spec w 0); [lia|]. cbn [qopts_apply qopt_apply impl_init impl_valid Z.eqb orb negb bind].
  unfold skip_create. cbn [sopts_apply sopt_apply]. destruct (Z.ltb_spec mx 1); [lia|]. destruct (Z.gtb_spec mx 64); [lia|]. cbn [orb bind sp_max sp_p sp_rnd].
  rewrite H1, H2. cbn [orb bind sp_max sp_p sp_rnd rmap]. rewrite Hi. cbn [negb bind q_window q_interp q_queue q_stat].
  change (fun i : nat => e_pow e p (fz (Z.of_nat i))) with (skip_probs e p).
  change (negb (impl_valid 2)) with false. cbn [Pos.eqb bind q_window q_interp q_queue q_stat]. rewrite ?Hi. cbn [negb bind q_window q_interp q_queue q_stat].
  rewrite q_run_stat by exact Hw. unfold stat_run. rewrite (srun_rmap StSkip skip_add skip_remove skip_clear) by reflexivity.
  unfold skip_run. destruct (srun _ _ _ _ _); reflexivity.
Qed.

(** the average over the draws of f of the Quantile after ops *)
Definition q_after (e : env) (w interp mx : Z) (p : f64) (ops : list (op f64)) (f : quant -> nat) (rnd : nat -> f64) : R :=
  match q_run e w (skip_os interp mx p rnd) ops with Ok q => INR (f q) | _ => 0%R end.

Lemma adds_app l1 l2 : adds (l1 ++ l2) = adds l1 + adds l2.
Proof. induction l1 as [|o l1 IH]; [reflexivity|]. cbn [app adds]. destruct o; rewrite IH; lia. Qed.
Lemma qops_adds w ops : adds (qops w ops) <= length ops.
Proof.
  induction ops as [|o ops IH] using rev_ind; [cbn; lia|]. rewrite qops_snoc, adds_app, app_length. cbn [length].
  enough (adds (qstep w (hist ops) o) <= 1) by lia. destruct o as [x|]; cbn [qstep]; [|cbn; lia]. rewrite adds_app. cbn [adds].
  destruct (w =? 0)%Z; [cbn; lia|]. destruct (_ =? w)%Z; [|cbn; lia]. destruct (live w (hist ops)); cbn; lia.
Qed.

Section Q.
Local Open Scope R_scope.
Context (U : list f64) (HU : U <> []) (e : env) (w interp mx : Z) (p : f64) (ops : list (op f64)).
Context (Hw : (0 <= w)%Z) (Hm : (1 <= mx <= 64)%Z) (H0 : fle p (fz 0) = false) (H1 : fge p (fz 1) = false) (Hi : interp_valid interp = true) (Hp : pushes_nonnan ops).
Context (D : nat) (HD : (length ops <= D)%nat) (rho : nat -> f64).
Notation M := (Z.to_nat mx).
Notation pr := (skip_probs e p).
Notation h := (height M pr).
Notation G := (ratios U h (M - 1) 1).
Notation T := (top U h M).
Notation n := (length (live w (hist ops))).
Context (Hq : forall i, (i < M)%nat -> 0 < above U h i).
Lemma G_nonneg : 0 <= G.
Proof. apply (ratios_nonneg U HU h M Hq). lia. Qed.
Lemma T_nonneg : 0 <= T.
Proof. unfold top, prob. apply Rle_trans with (mean U (fun _ => 0)); [rewrite mean_const by exact HU; lra|]. apply mean_le; [exact HU|]. intros u _. destruct (h u =? M)%nat; lra. Qed.
Lemma q_run_ok rnd : exists s, skip_run M pr rnd (qops w ops) = Ok s /\
  q_run e w (skip_os interp mx p rnd) ops = Ok (mkQ w interp (mkRing (round_up w) (if (w =? 0)%Z then [] else live w (hist ops))) (StSkip s)).
Proof using Hw Hm H0 H1 Hi Hp.
  clear Hq HD D.
  destruct (skip_reach M pr rnd (qops w ops) ltac:(lia) (qops_nonnan w ops Hp)) as (s & E & _). exists s. split; [exact E|].
  rewrite skip_os_run by assumption. rewrite E. reflexivity.
Qed.
Lemma q_push_exp x : nonnan x -> expect U D (q_after e w interp mx p ops (fun q => fst (q_push_c q x))) rho <= 8 * INR M + 3 * G + 2 * INR n * T.
Proof.
  intros Hx. pose proof G_nonneg as HG. pose proof T_nonneg as HT. pose proof (qops_nonnan w ops Hp) as Hqn. pose proof (qops_adds w ops) as Ha. pose proof (pos_INR M) as HM. pose proof (pos_INR n) as Hn0.
  assert (Hb : length (bag (qops w ops)) = n) by (apply CostQuant.bag_len; assumption).
  assert (EX : forall rnd, exists s, skip_run M pr rnd (qops w ops) = Ok s /\
    q_after e w interp mx p ops (fun q => fst (q_push_c q x)) rnd = INR (fst (stat_ops_c (qstep w (hist ops) (OPush x)) (StSkip s)))).
  { intros rnd. destruct (q_run_ok rnd) as (s & E1 & E2). exists s. split; [exact E1|]. unfold q_after. rewrite E2, q_push_ops by exact Hw. reflexivity. }
  assert (EA : forall s, fst (stat_ops_c [SAdd x] (StSkip s)) = fst (skip_add_c s x)).
  { intros s. cbn [stat_ops_c stat_add_c]. rewrite (cbind_ok_fst _ (fun a => a)). unfold cmap. rewrite (cbind_ok_fst _ StSkip). reflexivity. }
  assert (B0 : expect U D (after M pr (qops w ops) (fun s => fst (skip_add_c s x))) rho <= 6 * INR M + 2 * G + INR n * T).
  { rewrite <- Hb. apply exp_add; auto; lia. }
  assert (ADD : qstep w (hist ops) (OPush x) = [SAdd x] -> expect U D (q_after e w interp mx p ops (fun q => fst (q_push_c q x))) rho <= 8 * INR M + 3 * G + 2 * INR n * T).
  { intros EQ. apply Rle_trans with (expect U D (after M pr (qops w ops) (fun s => fst (skip_add_c s x))) rho); [|nra].
    apply expect_le; [exact HU|]. intros rnd. destruct (EX rnd) as (s & E1 & E2). rewrite E2, EQ, EA. unfold after. rewrite E1. apply Rle_refl. }
  cbn [qstep] in *. destruct (Z.eqb_spec w 0) as [Hw0|Hw0]; [apply ADD; reflexivity|].
  destruct (Z.eqb_spec (zlen (live w (hist ops))) w) as [Hf|Hf]; [|apply ADD; reflexivity].
  destruct (live w (hist ops)) as [|y t] eqn:El; [apply ADD; reflexivity|]. clear ADD B0. cbn [app] in EX.
  assert (Hy : nonnan y) by (pose proof (pushes_live w ops Hp) as L; rewrite El in L; apply (Forall_inv L)).
  assert (Hqn' : Forall sop_nonnan (qops w ops ++ [SRemove y])) by (apply Forall_app; split; [exact Hqn|constructor; [exact Hy|constructor]]).
  apply Rle_trans with (expect U D (fun rnd => after M pr (qops w ops) (fun s => fst (skip_remove_c s y)) rnd + after M pr (qops w ops ++ [SRemove y]) (fun s => fst (skip_add_c s x)) rnd) rho).
  - apply expect_le; [exact HU|]. intros rnd. destruct (EX rnd) as (s & E1 & E2). rewrite E2. cbn [stat_ops_c stat_remove_c].
    destruct (skip_reach M pr rnd _ ltac:(lia) Hqn') as (s' & E' & _). unfold skip_run in E1, E'. rewrite srun_snoc, E1 in E'. cbn [bind srun] in E'.
    assert (Er : skip_remove s y = Ok s') by (destruct (skip_remove s y); cbn [bind] in E'; congruence).
    unfold after, skip_run. rewrite srun_snoc, E1. cbn [bind srun]. rewrite Er. cbn [bind].
    rewrite (cbind_eq _ _ (StSkip s')) by (unfold cmap; rewrite cbind_snd, skip_remove_erase, Er; reflexivity).
    fold (stat_ops_c [SAdd x] (StSkip s')). rewrite EA. unfold cmap. rewrite (cbind_ok_fst _ StSkip), plus_INR. apply Rle_refl.
  - rewrite expect_plus.
    assert (B1 : expect U D (after M pr (qops w ops) (fun s => fst (skip_remove_c s y))) rho <= 2 * INR M + G + INR (length (lows y (snd (slots (qops w ops))))) * T).
    { apply exp_remove; auto; lia. }
    assert (B2 : expect U D (after M pr (qops w ops ++ [SRemove y]) (fun s => fst (skip_add_c s x))) rho <= 6 * INR M + 2 * G + INR (length (bag (qops w ops ++ [SRemove y]))) * T).
    { apply exp_add; auto; [lia|]. rewrite adds_app. cbn [adds]. lia. }
    assert (L1 : INR (length (lows y (snd (slots (qops w ops))))) <= INR (length (y :: t))).
    { apply le_INR. pose proof (low_high y (snd (slots (qops w ops)))) as LH. pose proof (SkipExp.bag_len M ltac:(lia) pr (qops w ops) Hqn rho) as BL. rewrite Hb in BL. lia. }
    assert (L2 : INR (length (bag (qops w ops ++ [SRemove y]))) <= INR (length (y :: t))).
    { apply le_INR. rewrite bag_app. cbn [fold_left bag_step]. pose proof (remove_one_le y (bag (qops w ops))). lia. }
    nra.
Qed.
Lemma q_select_exp k : distinct_adds (qops w ops) -> expect U D (after M pr (qops w ops) (fun s => fst (skip_select_c s k))) rho <= INR M + G + INR n * T.
Proof.
  intros Hd. pose proof G_nonneg as HG. pose proof T_nonneg as HT. pose proof (qops_nonnan w ops Hp) as Hqn. pose proof (qops_adds w ops) as Ha. pose proof (pos_INR M) as HM. pose proof (pos_INR n) as Hn0.
  assert (Hb : length (bag (qops w ops)) = n) by (apply CostQuant.bag_len; assumption).
  destruct (Z_lt_le_dec k 0) as [Hk|Hk]; [|destruct (Z_lt_le_dec k (Z.of_nat n)) as [Hk'|Hk']].
  2:{ eapply Rle_trans; [apply (exp_select U HU M ltac:(lia) pr (qops w ops) Hqn D ltac:(lia) rho Hq k (or_introl Hd)); lia|].
      assert (IZR (k + 1) <= INR n) by (rewrite INR_IZR_INZ; apply IZR_le; lia). nra. }
  all: apply Rle_trans with (expect U D (fun _ => 0) rho); [|rewrite expect_const by exact HU; nra]; apply expect_le; [exact HU|]; intros rnd; unfold after;
    destruct (skip_reach M pr rnd (qops w ops) ltac:(lia) Hqn) as (s & E & Em & L & I & Hk0); rewrite E; unfold skip_select_c; rewrite (li_len _ _ I);
    assert (EL : zlen L = Z.of_nat n) by (apply (f_equal (@length Z)) in Hk0; unfold skeys, keys, vals in Hk0; rewrite !map_length, (Permutation_length (sortz_perm _)), map_length in Hk0; unfold zlen; lia).
  - destruct (Z.ltb_spec k 0); [|lia]. cbn. lra.
  - destruct (Z.geb_spec k (zlen L)); [|lia]. rewrite orb_true_r. cbn. lra.
Qed.
Lemma q_value_exp phi : distinct_windows w ops -> expect U D (q_after e w interp mx p ops (fun q => fst (q_value_c e q phi))) rho <= 2 * (INR M + G + INR n * T).
Proof.
  intros Hd. pose proof (distinct_windows_adds w ops Hw Hp Hd) as Hd'. set (idx := f2int e (ftrunc (fmul phi (fz (Z.of_nat n - 1))))).
  apply Rle_trans with (expect U D (fun rnd => after M pr (qops w ops) (fun s => fst (skip_select_c s idx)) rnd + after M pr (qops w ops) (fun s => fst (skip_select_c s (idx + 1))) rnd) rho).
  - apply expect_le; [exact HU|]. intros rnd. destruct (q_run_ok rnd) as (s & E1 & E2). unfold q_after, after. rewrite E1, E2, <- plus_INR. apply le_INR.
    assert (EL : stat_size (StSkip s) = Z.of_nat n).
    { destruct (skip_reach M pr rnd (qops w ops) ltac:(lia) (qops_nonnan w ops Hp)) as (s' & E & Em & L & I & Hk0). assert (s' = s) by congruence. subst s'.
      cbn [stat_size]. unfold skip_size. rewrite (li_len _ _ I). apply (f_equal (@length Z)) in Hk0. unfold skeys, keys, vals in Hk0. rewrite !map_length, (Permutation_length (sortz_perm _)), map_length in Hk0.
      assert (Hb : length (bag (qops w ops)) = n) by (apply CostQuant.bag_len; assumption). unfold zlen. lia. }
    unfold q_value_c. cbn [q_stat q_interp]. rewrite EL. fold idx.
    assert (Hs : forall k, (fst (sel_c (StSkip s) k) <= fst (skip_select_c s k))%nat).
    { intros k. unfold sel_c. cbn [stat_select_c]. eapply Nat.le_trans; [apply (cbind_le _ _ 0); intros [v|] _; reflexivity|]. lia. }
    pose proof (Hs idx) as S1. pose proof (Hs (idx + 1)%Z) as S2.
    assert (H2 : forall B (g : f64 -> f64 -> B), (fst (lo <~ sel_c (StSkip s) idx ;; hi <~ sel_c (StSkip s) (idx + 1) ;; lift (Ok (g lo hi))) <= fst (skip_select_c s idx) + fst (skip_select_c s (idx + 1)))%nat).
    { intros B g. eapply Nat.le_trans; [apply (cbind_le _ _ (fst (skip_select_c s (idx + 1)))); intros lo _; rewrite cbind_ok_fst; apply Hs|]. lia. }
    repeat match goal with |- context [if ?b then _ else _] => destruct b end; auto; cbn [lift fst]; lia.
  - rewrite expect_plus. pose proof (q_select_exp idx Hd'). pose proof (q_select_exp (idx + 1) Hd'). lra.
Qed.
End Q.
