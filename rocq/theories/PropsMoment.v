(** Moments: C19 - C25. *)
From Coq Require Import Reals Lra QArith Qreals.
From Verif Require Import Base F64 MathModel MathProof HistSpec RingModel NumModel MomentModel MomentSpec RealLib MomentProof EwmProof MetricProof NumRel.
Local Close Scope Q_scope.
Local Open Scope nat_scope.

(** K is the largest power tracked, 0 if none is. *)
Definition tracked (sums : list Z) (K : Z) : Prop :=
  (forall k, In k sums -> (0 < k <= K)%Z) /\ (In K sums \/ (sums = [] /\ K = 0%Z)).
(** What Sum(k) must be on the values [l]. *)
Definition sum_of (K : Z) (l : list R) (k : Z) : res xr :=
  match l with
  | [] => Err ENoValues
  | _ => if ((1 <=? k) && (k <=? K))%Z then Ok (Fin (csum (Z.to_nat k) l)) else Err ENotTracked
  end.

Lemma tracked_len sums K : tracked sums K -> forall k, (1 <= k)%Z -> ((k < Z.of_nat (Z.to_nat (max_sum sums + 1)))%Z <-> (k <= K)%Z).
Proof.
  intros [H1 H2] k Hk. destruct H2 as [H2|[-> ->]].
  - specialize (H1 K H2) as H3. rewrite (max_sum_is sums K H2); [|intros j Hj; specialize (H1 j Hj); lia|lia]. rewrite Z2Nat.id by lia. lia.
  - change (max_sum [] + 1)%Z with 0%Z. cbn. lia.
Qed.
Lemma tracked_max sums K B : tracked sums K -> (K <= B)%Z -> (0 <= B)%Z -> (max_sum sums <= B)%Z.
Proof.
  intros [H1 H2] HB H0. destruct H2 as [H2|[-> ->]]; [|cbn; lia].
  specialize (H1 K H2) as H3. rewrite (max_sum_is sums K H2); [lia|intros j Hj; specialize (H1 j Hj); lia|lia].
Qed.
Lemma plain_valid {T} (N : Num T) (cfg : config) w K : cf_window cfg = Some w -> (0 <= w)%Z -> cf_decay cfg = None -> tracked (sums_of cfg) K -> cfg_valid N cfg.
Proof.
  intros Hw H0 Hd [H1 _]. split; [|intros k Hk; specialize (H1 k Hk); lia].
  exists w. split; [exact Hw|]. split; [exact H0|]. rewrite Hd. discriminate.
Qed.

(** The first clause of C23 without the bound 20 on what is claimed of the sums. *)
Lemma core_claim cfg w K ops : cf_window cfg = Some w -> (0 <= w)%Z -> cf_decay cfg = None -> tracked (sums_of cfg) K -> (K <= 65)%Z ->
  exists c0 c, new_core XN cfg = Ok c0 /\ core_run XN c0 (fops ops) = Ok c /\
    let l := live w (hist ops) in
    c_get_count c = zlen l /\ c_get_mean c = mean_of l /\ forall k, (k <= 20 \/ K < k)%Z -> c_get_sum c k = sum_of K l k.
Proof.
  intros Hw H0 Hd HT HK. destruct (core_reach cfg w ops) as (c0 & c & E0 & E & I & L); [eapply plain_valid; eassumption|exact Hw|exact Hd|eapply tracked_max; [exact HT|exact HK|lia]|].
  exists c0, c. split; [exact E0|]. split; [exact E|]. cbv zeta. destruct I as (Hst & _). split; [apply Hst|]. split; [apply get_mean_ok; exact Hst|].
  intros k Hk. unfold sum_of. destruct (Z.leb_spec 1 k) as [H1|H1]; cbn [andb].
  - pose proof (tracked_len _ _ HT k H1) as HL. destruct (Z.leb_spec k K) as [H2|H2].
    + rewrite <- (Z2Nat.id k) at 1 by lia. apply (get_sum_ok _ c); [exact Hst|]. split; [|lia]. rewrite L. lia.
    + apply (get_sum_untracked _ c); [exact Hst|]. right. rewrite L. lia.
  - apply (get_sum_untracked _ c); [exact Hst|]. left. lia.
Qed.

(** C19. A core without decay, tracking powers up to K <= 20, in exact arithmetic. *)
Theorem C19_moment_core cfg w K ops :
  cf_window cfg = Some w -> (0 <= w)%Z -> cf_decay cfg = None -> tracked (sums_of cfg) K -> (K <= 20)%Z ->
  exists c0 c, new_core XN cfg = Ok c0 /\ core_run XN c0 (fops ops) = Ok c /\
    let l := live w (hist ops) in
    c_get_count c = zlen l /\ c_get_mean c = mean_of l /\ forall k, c_get_sum c k = sum_of K l k.
Proof.
  intros Hw H0 Hd HT HK. destruct (core_claim cfg w K ops Hw H0 Hd HT) as (c0 & c & E0 & E & H1 & H2 & H3); [lia|].
  exists c0, c. repeat split; auto. intros k. apply H3. lia.
Qed.
Print Assumptions C19_moment_core.

(** Executions in rational arithmetic. *)
Definition qpush (l : list Z) : list (op Q) := map (fun z => OPush (inject_Z z)) l.
Definition qcore (cfg : config) (ops : list (op Q)) : res (@core (option Q)) := c <- new_core QN cfg ;; core_run QN c (qops ops).

Example C19_case : tracked (sums_of (@mkCfg xr (Some [2; 4]%Z) (Some 3%Z) None)) 4 /\
  (* the window holds 4, 6, 11 with mean 7; the deviations are -3, -1, 4 *)
  (c <- qcore (mkCfg (Some [2; 4]%Z) (Some 3%Z) None) (qpush [9; 1; 4; 6; 11]%Z) ;;
   Ok (c_get_count c, c_get_mean c, map (c_get_sum c) [0; 1; 2; 3; 4; 5]%Z))
  = Ok (3%Z, Ok (Some (7 # 1)%Q), [Err ENotTracked; Ok (Some (0 # 1)%Q); Ok (Some (26 # 1)%Q); Ok (Some (36 # 1)%Q); Ok (Some (338 # 1)%Q); Err ENotTracked]).
Proof. split; [|vm_compute; reflexivity]. split; [intros k [<-|[<-|[]]]; lia|left; right; left; reflexivity]. Qed.

(** C20. *)
Definition mval (m : @kind xr) (ops : list (op R)) : res xr := m <- m_run XN m (fops ops) ;; m_value XN m.

Lemma mval_eq m ops c0 c : new_core XN (kconfig m) = Ok c0 -> core_run XN c0 (fops ops) = Ok c -> mval m ops = kvalue XN m c.
Proof. intros E0 E. unfold mval. rewrite m_run_eq, E0. cbn [bind]. rewrite E. reflexivity. Qed.

Lemma shared_value cfg w ops : cfg_valid XN cfg -> cf_window cfg = Some w -> cf_decay cfg = None -> (max_sum (sums_of cfg) <= 65)%Z ->
  exists c0 c, new_core XN cfg = Ok c0 /\ core_run XN c0 (fops ops) = Ok c /\ let K := max_sum (sums_of cfg) in let l := live w (hist ops) in
    kvalue XN (KMean w) c = mean_of l /\
    (forall k, (1 <= k <= 20)%Z -> (k <= K)%Z -> kvalue XN (KMoment k w) c = moment_of (Z.to_nat k) l) /\
    ((2 <= K)%Z -> kvalue XN (KStd w) c = std_of l) /\
    ((3 <= K)%Z -> kvalue XN (KSkew w) c = skew_of l) /\
    ((4 <= K)%Z -> kvalue XN (KKurt w) c = kurt_of l).
Proof.
  intros Hv Hw Hd HK. destruct (core_reach cfg w ops Hv Hw Hd HK) as (c0 & c & E0 & E & I & L).
  exists c0, c. split; [exact E0|]. split; [exact E|]. cbv zeta. destruct I as (Hst & _). unfold tracks in *.
  split; [apply get_mean_ok; exact Hst|]. split.
  { intros k H1 H2. cbn [kvalue]. rewrite <- (Z2Nat.id k) at 1 by lia. apply moment_value_ok; [exact Hst|]. split; [rewrite L|]; lia. }
  split; [intros H; apply std_ok; [exact Hst|]; split; [rewrite L|]; lia|].
  split; intros H; [apply skew_ok|apply kurt_ok]; try exact Hst; split; try rewrite L; lia.
Qed.

(** The five metrics over their own cores, in exact arithmetic. *)
Theorem C20_moment_metrics w ops : (0 <= w)%Z -> let l := live w (hist ops) in
  mval (KMean w) ops = mean_of l /\
  (forall k, (1 <= k <= 20)%Z -> mval (KMoment k w) ops = moment_of (Z.to_nat k) l) /\
  mval (KStd w) ops = std_of l /\ mval (KSkew w) ops = skew_of l /\ mval (KKurt w) ops = kurt_of l.
Proof.
  intros H0 l.
  assert (Hm : forall m : @kind xr, cf_window (kconfig m) = Some w -> cf_decay (kconfig m) = None -> (forall k, In k (sums_of (kconfig m)) -> (0 < k)%Z) ->
            (max_sum (sums_of (kconfig m)) <= 65)%Z -> exists c, mval m ops = kvalue XN m c /\ stats l c /\ c_len c = Z.to_nat (max_sum (sums_of (kconfig m)) + 1)).
  { intros m Hw Hd Hs HK. destruct (core_reach (kconfig m) w ops) as (c0 & c & E0 & E & I & L); try assumption.
    - split; [|exact Hs]. exists w. rewrite Hd. repeat split; auto; discriminate.
    - exists c. split; [apply (mval_eq m ops c0); assumption|]. split; [apply I|exact L]. }
  repeat split.
  - destruct (Hm (KMean w)) as (c & -> & Hst & L); [reflexivity|reflexivity|intros k []|cbn; lia|]. apply get_mean_ok. exact Hst.
  - intros k Hk. assert (EM : max_sum [k] = k) by (apply max_sum_is; [left; reflexivity|intros j [<-|[]]; lia|lia]).
    destruct (Hm (KMoment k w)) as (c & -> & Hst & L); try reflexivity; cbn [kconfig sums_of cf_sums] in *; try (rewrite EM; lia).
    { intros j [<-|[]]. lia. }
    cbn [kvalue]. rewrite <- (Z2Nat.id k) at 1 by lia. apply moment_value_ok; [exact Hst|]. split; [rewrite L, EM|]; lia.
  - destruct (Hm (KStd w)) as (c & -> & Hst & L); try reflexivity; [intros j [<-|[]]; lia|cbn; lia|].
    apply std_ok; [exact Hst|]. split; [rewrite L; cbn|]; lia.
  - destruct (Hm (KSkew w)) as (c & -> & Hst & L); try reflexivity; [intros j [<-|[<-|[]]]; lia|cbn; lia|].
    apply skew_ok; [exact Hst| |]; (split; [rewrite L; cbn|]; lia).
  - destruct (Hm (KKurt w)) as (c & -> & Hst & L); try reflexivity; [intros j [<-|[<-|[]]]; lia|cbn; lia|].
    apply kurt_ok; [exact Hst| |]; (split; [rewrite L; cbn|]; lia).
Qed.
Print Assumptions C20_moment_metrics.

(** The same when the metric is given another core that covers its configuration,
    whatever else that core tracks. *)
Theorem C20_shared_core cfg w ops : cfg_valid XN cfg -> cf_window cfg = Some w -> cf_decay cfg = None -> (max_sum (sums_of cfg) <= 65)%Z ->
  exists c0 c, new_core XN cfg = Ok c0 /\ core_run XN c0 (fops ops) = Ok c /\ let K := max_sum (sums_of cfg) in let l := live w (hist ops) in
    kvalue XN (KMean w) c = mean_of l /\
    (forall k, (1 <= k <= 20)%Z -> (k <= K)%Z -> kvalue XN (KMoment k w) c = moment_of (Z.to_nat k) l) /\
    ((2 <= K)%Z -> kvalue XN (KStd w) c = std_of l) /\
    ((3 <= K)%Z -> kvalue XN (KSkew w) c = skew_of l) /\
    ((4 <= K)%Z -> kvalue XN (KKurt w) c = kurt_of l).
Proof. exact (shared_value cfg w ops). Qed.
Print Assumptions C20_shared_core.

(** Without a core, in any arithmetic. *)
Theorem C20_no_core {T} (N : Num T) k x : m_value N (new_metric k) = Err ECoreNotSet /\ m_push N (new_metric k) x = Err ECoreNotSet /\ m_clear N (new_metric k) = Ok (new_metric k).
Proof. repeat split. Qed.
Print Assumptions C20_no_core.

Example C20_values : (* window 3: the values 4, 6, 11 *)
  (m <- m_run QN (KMoment 3 3) (qops (qpush [9; 1; 4; 6; 11]%Z)) ;; m_value QN m) = Ok (Some (18 # 1)%Q) /\
  rmap fbits (m <- m_run FN (KStd 0) (map (fun z => OPush (fz z)) [1; 3; 5]%Z) ;; m_value FN m) = Ok (fbits (fz 2)) /\
  (m <- m_run QN (KKurt 0) (qops (qpush [1; 3; 5]%Z)) ;; m_value QN m) = Ok (Some (-3 # 2)%Q).
Proof. split; [vm_compute; reflexivity|]. split; [concrete|vm_compute; reflexivity]. Qed.
(** On one value, and on equal values: NaN and no error. *)
Example C20_undefined : rmap fbits (m <- m_run FN (KStd 0) [OPush (fz 4)] ;; m_value FN m) = Ok (fbits fnan) /\
  rmap fbits (m <- m_run FN (KKurt 0) [OPush (fz 4); OPush (fz 4); OPush (fz 4)] ;; m_value FN m) = Ok (fbits fnan) /\
  rmap fbits (m <- m_run FN (KStd 0) [] ;; m_value FN m) = Err ENoValues.
Proof. repeat split; concrete. Qed.

(** C21. *)
Theorem C21_ewm d ops : (0 < d < 1)%R -> let l := hist ops in
  mval (KEwma (Fin d)) ops = ewma_of d l /\
  (forall k, (1 <= k <= 20)%Z -> mval (KEwmMoment k (Fin d)) ops = ewmoment_of d (Z.to_nat k) l) /\
  mval (KEwmStd (Fin d)) ops = ewmstd_of d l.
Proof.
  intros Hd0 l.
  assert (Hm : forall m : @kind xr, cf_window (kconfig m) = Some 0%Z -> cf_decay (kconfig m) = Some (Fin d) -> (forall k, In k (sums_of (kconfig m)) -> (0 < k)%Z) ->
            (max_sum (sums_of (kconfig m)) <= 65)%Z -> exists c, mval m ops = kvalue XN m c /\ einv d l c /\ c_len c = Z.to_nat (max_sum (sums_of (kconfig m)) + 1)).
  { intros m Hw Hd Hs HK. destruct (ewm_reach (kconfig m) d ops) as (c0 & c & E0 & E & I & L); try assumption.
    - split; [|exact Hs]. exists 0%Z. split; [exact Hw|]. split; [lia|]. rewrite Hd. intros d' Hd'. injection Hd' as <-.
      cbn. destruct (Rle_dec d 0); [lra|]. destruct (Rle_dec 1 d); [lra|]. auto.
    - exists c. split; [apply (mval_eq m ops c0); assumption|]. split; [apply I|exact L]. }
  repeat split.
  - destruct (Hm (KEwma (Fin d))) as (c & -> & Hst & L); [reflexivity|reflexivity|intros k []|cbn; lia|]. apply ewm_mean_ok. exact Hst.
  - intros k Hk. assert (EM : max_sum [k] = k) by (apply max_sum_is; [left; reflexivity|intros j [<-|[]]; lia|lia]).
    destruct (Hm (KEwmMoment k (Fin d))) as (c & -> & Hst & L); try reflexivity; cbn [kconfig sums_of cf_sums] in *; try (rewrite EM; lia).
    { intros j [<-|[]]. lia. }
    cbn [kvalue]. rewrite <- (Z2Nat.id k) at 1 by lia. apply ewm_sum_ok; [exact Hst|]. split; [rewrite L, EM|]; lia.
  - destruct (Hm (KEwmStd (Fin d))) as (c & -> & Hst & L); try reflexivity; [intros j [<-|[]]; lia|cbn; lia|].
    apply ewm_std_ok; [lra|exact Hst|]. split; [rewrite L; cbn|]; lia.
Qed.
Print Assumptions C21_ewm.

(** d = 1/2, values 8, 4, 2 with weights 1/4, 1/4, 1/2: average 4, variance 6. *)
Example C21_values : (m <- m_run QN (KEwma (Some (1 # 2)%Q)) (qops (qpush [8; 4; 2]%Z)) ;; m_value QN m) = Ok (Some (4 # 1)%Q) /\
  (m <- m_run QN (KEwmMoment 2 (Some (1 # 2)%Q)) (qops (qpush [7]%Z ++ OClear :: qpush [8; 4; 2]%Z)) ;; m_value QN m) = Ok (Some (6 # 1)%Q).
Proof. split; vm_compute; reflexivity. Qed.

(** C22 is false from n = 21 on, where 21! no longer fits in an int64. *)
Theorem C22_binom_refuted : exists v, binom 21 1 = Ok v /\ v <> zbin 21 1.
Proof. exists (-1)%Z. split; [vm_compute; reflexivity|vm_compute; discriminate]. Qed.
Print Assumptions C22_binom_refuted.
(** ... and division by zero panics for every n >= 66. *)
Theorem C22_binom_panics_refuted n : 66 <= n -> binom (Z.of_nat n) 2 = Panic.
Proof. exact (binom_66 n). Qed.
Print Assumptions C22_binom_panics_refuted.
(** Exact up to n = 20; no panic up to n = 65. Missing: larger n. *)
Theorem C22_binom_partial n k : k <= n -> (n <= 20 -> binom (Z.of_nat n) (Z.of_nat k) = Ok (zbin n k)) /\ (n <= 65 -> exists v, binom (Z.of_nat n) (Z.of_nat k) = Ok v).
Proof. intros H. split; intros Hn; [apply binom_20; lia|apply binom_65; lia]. Qed.
Print Assumptions C22_binom_partial.
Example C22_values : binom 20 10 = Ok 184756%Z /\ binom 5 2 = Ok 10%Z /\ zbin 20 10 = 184756%Z.
Proof. vm_compute. auto. Qed.

(** The package-level table of factorials grows with use but never changes what
    Binom returns: after any sequence of calls the answer is that of a fresh table. *)
Fixpoint binoms (c : list Z) (calls : list (Z * Z)) : res (list Z) :=
  match calls with
  | [] => Ok c
  | (n, k) :: t => match binom_c c n k with Ok (c', _) => binoms c' t | Panic => binoms c t | _ => Hang end
  end.
Theorem C22_cache_unobservable calls n k : exists c, binoms factorials0 calls = Ok c /\ rmap snd (binom_c c n k) = rmap snd (binom_c factorials0 n k).
Proof.
  assert (H : forall c, cache_ok c -> exists c', binoms c calls = Ok c' /\ cache_ok c').
  { induction calls as [|[a b] t IH]; intros c Hc; [exists c; auto|]. cbn [binoms]. pose proof (binom_c_ok c a b Hc) as B.
    destruct (binom a b); try (rewrite B; apply IH; exact Hc). destruct B as (c' & -> & Hc'). apply IH. exact Hc'. }
  destruct (H factorials0 cache0_ok) as (c & E & Hc). exists c. split; [exact E|].
  pose proof (binom_c_ok c n k Hc) as B1. pose proof (binom_c_ok factorials0 n k cache0_ok) as B2.
  destruct (binom n k); try (rewrite B1, B2; reflexivity). destruct B1 as (c1 & -> & _). destruct B2 as (c2 & -> & _). reflexivity.
Qed.
Print Assumptions C22_cache_unobservable.
Example C22_cache : rmap (fun c => zlen c) (binoms factorials0 [(12, 3); (5, 9); (19, 2)]%Z) = Ok 20%Z.
Proof. vm_compute. reflexivity. Qed.

(** C23 is false: a moment of any order from 66 on is accepted, and its first Push
    panics, whatever the value pushed and the arithmetic. *)
Lemma binom_no_err n k : match binom n k with Ok _ | Panic => True | _ => False end.
Proof.
  pose proof (binom_c_ok factorials0 n k cache0_ok) as B. unfold binom, factorial, idiv in *.
  repeat match goal with |- context [if ?b then _ else _] => destruct b end; cbn [bind]; auto.
  all: repeat match goal with |- context [if ?b then _ else _] => destruct b end; cbn [bind]; auto.
Qed.
Lemma inner_panic {T} (N : Num T) op t k m s : 66 <= k -> 2 <= m -> inner N op t k (seq 1 m) s = Panic.
Proof.
  intros Hk Hm. destruct m as [|[|m]]; [lia|lia|]. cbn [seq inner]. unfold coef at 1.
  pose proof (binom_no_err (Z.of_nat k) (Z.of_nat 1)) as B. destruct (binom (Z.of_nat k) (Z.of_nat 1)); cbn [bind]; try contradiction; auto.
  unfold coef at 1. change (Z.of_nat 2) with 2%Z. rewrite (binom_66 k Hk). reflexivity.
Qed.
Theorem C23_high_order_refuted {T} (N : Num T) k w x : (66 <= k)%Z -> (0 <= w)%Z ->
  (exists m, m_init N (new_metric (KMoment k w)) = Ok m) /\ m_run N (KMoment k w) [OPush x] = Panic.
Proof.
  intros Hk Hw. assert (EM : max_sum [k] = k) by (apply max_sum_is; [left; reflexivity|intros j [<-|[]]; lia|lia]).
  assert (Hv : cfg_valid N (kconfig (KMoment k w))).
  { split; [|intros j [<-|[]]; lia]. exists w. repeat split; auto; discriminate. }
  destruct (proj1 (new_core_spec N _) Hv) as (w' & Ew & E). injection Ew as <-.
  split; [unfold m_init, new_metric; cbn [m_kind]; rewrite E; eexists; reflexivity|].
  rewrite m_run_eq, E. cbn [bind kconfig sums_of cf_sums cf_decay]. rewrite EM. unfold core_run. cbn [run].
  assert (HP : forall c, c_len c = Z.to_nat (k + 1) -> c_add N c x = Panic).
  { intros c Hl. unfold c_add. cbv zeta. rewrite Hl. unfold ks_up.
    replace (Z.to_nat (k + 1) - 2) with (S (Z.to_nat k - 2)) by lia. rewrite seq_S, rev_app_distr. cbn [rev app outer].
    rewrite inner_panic by lia. reflexivity. }
  unfold c_push, fresh_core. cbn [c_window c_queue c_mean c_len c_sums c_count c_decay].
  destruct (Z.eqb_spec w 0) as [->|Hw0]; cbn [negb bind c_decay]; [rewrite HP by reflexivity; reflexivity|].
  change (ring_len (ring_new w)) with 0%Z. destruct (Z.eqb_spec 0 w); [lia|]. cbn [bind c_queue].
  rewrite (ring_put_ok _ x w) by (try reflexivity; cbn; lia). cbn [bind c_decay]. rewrite HP by reflexivity. reflexivity.
Qed.
Print Assumptions C23_high_order_refuted.

(** From order 21 on the value can be wrong: for 0, 0, 1, 0 in exact arithmetic. *)
Local Notation run21 := (rmap (fun c => c_get_sum c 21) (core_run QN (fresh_core QN 22 0 None) (qops (qpush [0; 0; 1; 0]%Z)))).
Definition true21 : Q := (qpow (3 # 4) 21 - (3 # 1) * qpow (1 # 4) 21)%Q.
Lemma run21_wrong : exists q, run21 = Ok (Ok (Some q)) /\ ~ (q == true21)%Q.
Proof.
  assert (D : match run21 with Ok (Ok (Some q)) => negb (Qeq_bool q true21) | _ => false end = true) by (vm_compute; reflexivity).
  revert D. generalize run21. intros r D. destruct r as [[[q|]|e| | |]|e| | |]; try discriminate D. exists q. split; [reflexivity|]. intros E.
  apply Qeq_bool_iff in E. rewrite E in D. discriminate D.
Qed.
Lemma true21_csum : csum 21 [0; 0; 1; 0]%R = Q2R true21.
Proof.
  assert (E : csum 21 [0; 0; 1; 0]%R = ((3 / 4) ^ 21 - 3 * (1 / 4) ^ 21)%R).
  { unfold csum, rmean, rlen, zlen, rsum. cbn [fold_right map length]. replace (IZR (Z.of_nat 4)) with 4%R by (cbn; ring).
    replace (1 - (0 + (0 + (1 + (0 + 0)))) / 4)%R with (3 / 4)%R by field.
    replace (0 - (0 + (0 + (1 + (0 + 0)))) / 4)%R with (- (1 / 4))%R by field.
    replace ((- (1 / 4)) ^ 21)%R with (- (1 / 4) ^ 21)%R by ring. ring. }
  rewrite E. unfold true21. rewrite Q2R_minus, Q2R_mult.
  assert (P : forall a n, Q2R (qpow a n) = (Q2R a ^ n)%R).
  { intros a n. pose proof (qrel_pow (Some a) (Fin (Q2R a)) n eq_refl) as H. cbn [qrel npow QN XN option_map xpow] in H. congruence. }
  rewrite (P _ 21), (P _ 21). unfold Q2R. cbn [Qnum Qden]. f_equal.
  replace (3 * / 1)%R with 3%R by field. reflexivity.
Qed.
Lemma get_sum_rel cq c k q : crel cq c -> c_get_sum cq k = Ok (Some q) -> c_get_sum c k = Ok (Fin (Q2R q)).
Proof.
  intros (_ & Hl & Hs & Hn & _). unfold c_get_sum. rewrite <- Hl, <- Hn. destruct (c_count cq =? 0)%Z; [discriminate|]. destruct (_ || _); [discriminate|].
  specialize (Hs (Z.to_nat k)). intros Es. apply (f_equal (fun r => match r with Ok v => v | _ => None end)) in Es. cbv beta iota in Es.
  rewrite Es in Hs. cbn [qrel] in Hs. rewrite Hs. reflexivity.
Qed.
Lemma fresh_rel n w : crel (fresh_core QN n w None) (fresh_core XN n w None).
Proof. repeat split; cbn [c_mean c_sums c_decay orel c_queue ritems ring_new]; try (intros k); try apply qrel_nz; constructor. Qed.
(** A sum computed in rational arithmetic is the one computed in real arithmetic. *)
Lemma transfer_sum n ops k q : rmap (fun c => c_get_sum c k) (core_run QN (fresh_core QN n 0 None) (qops ops)) = Ok (Ok (Some q)) ->
  exists c, core_run XN (fresh_core XN n 0 None) (fops (rops ops)) = Ok c /\ c_get_sum c k = Ok (Fin (Q2R q)).
Proof.
  intros Eq. apply rmap_ok in Eq. destruct Eq as (cq & Eq & Es).
  pose proof (core_run_rel ops _ _ (fresh_rel n 0)) as H. rewrite Eq in H.
  destruct (core_run XN (fresh_core XN n 0 None) (fops (rops ops))) as [c|e| | |] eqn:E; cbn [rrel] in H; try contradiction.
  exists c. split; [reflexivity|]. apply (get_sum_rel cq); assumption.
Qed.
Theorem C23_order_21_refuted : exists cfg c0 c v, new_core XN cfg = Ok c0 /\ cfg_valid XN cfg /\
  core_run XN c0 (fops (rops (qpush [0; 0; 1; 0]%Z))) = Ok c /\ c_get_sum c 21 = Ok (Fin v) /\ v <> csum 21 [0; 0; 1; 0]%R.
Proof.
  set (cfg := @mkCfg xr (Some [21]%Z) (Some 0%Z) None).
  assert (Hv : cfg_valid XN cfg). { split; [exists 0%Z; repeat split; auto; try lia; discriminate|intros j [<-|[]]; lia]. }
  destruct (proj1 (new_core_spec XN cfg) Hv) as (w & Ew & E0). injection Ew as <-.
  destruct run21_wrong as (q & Eq & Hne). destruct (transfer_sum 22 (qpush [0; 0; 1; 0]%Z) 21 q Eq) as (c & E & Es).
  exists cfg, (fresh_core XN 22 0 None), c, (Q2R q). split; [exact E0|]. split; [exact Hv|]. split; [exact E|]. split; [exact Es|].
  rewrite true21_csum. intros Hq. apply Hne. apply eqR_Qeq. exact Hq.
Qed.
Print Assumptions C23_order_21_refuted.

(** For orders up to 65 nothing fails and the sums of order up to 20 are right.
    Missing: the sums of order 21 to 65, and all orders from 66 on. *)
Theorem C23_any_order_partial cfg w K ops :
  cf_window cfg = Some w -> (0 <= w)%Z -> cf_decay cfg = None -> tracked (sums_of cfg) K -> (K <= 65)%Z ->
  exists c0 c, new_core XN cfg = Ok c0 /\ core_run XN c0 (fops ops) = Ok c /\
    let l := live w (hist ops) in
    c_get_count c = zlen l /\ c_get_mean c = mean_of l /\ forall k, (k <= 20 \/ K < k)%Z -> c_get_sum c k = sum_of K l k.
Proof. exact (core_claim cfg w K ops). Qed.
Print Assumptions C23_any_order_partial.
Example C23_case : tracked [2; 30]%Z 30 /\
  (c <- qcore (mkCfg (Some [2; 30]%Z) (Some 3%Z) None) (qpush [9; 1; 4; 6; 11]%Z) ;; c_get_sum c 4) = Ok (Some (338 # 1)%Q).
Proof. split; [|vm_compute; reflexivity]. split; [intros k [<-|[<-|[]]]; lia|left; right; left; reflexivity]. Qed.

(** C24. What a configuration must be like, for float64 decays that are numbers. *)
Definition decay_ok (d : f64) : Prop := flt (fz 0) d = true /\ flt d (fz 1) = true.
Definition config_ok (c : @config f64) : Prop :=
  exists w, cf_window c = Some w /\ (0 <= w)%Z /\ (forall d, cf_decay c = Some d -> decay_ok d /\ w = 0%Z) /\ (forall k, In k (sums_of c) -> (0 < k)%Z).
Definition decay_number (c : @config f64) : Prop := forall d, cf_decay c = Some d -> isnan d = false.
(** What the merged configuration must be like. *)
Definition same_windows {T} (cs : list (@config T)) : Prop := forall c1 c2 w1 w2, In c1 cs -> In c2 cs -> cf_window c1 = Some w1 -> cf_window c2 = Some w2 -> w1 = w2.
Definition same_decays (cs : list (@config f64)) : Prop := forall c1 c2 d1 d2, In c1 cs -> In c2 cs -> cf_decay c1 = Some d1 -> cf_decay c2 = Some d2 -> feq d1 d2 = true.
Definition merged (cs : list (@config f64)) (m : @config f64) : Prop :=
  (forall k, In k (sums_of m) <-> exists c, In c cs /\ In k (sums_of c)) /\
  (forall w, cf_window m = Some w <-> exists c, In c cs /\ cf_window c = Some w) /\
  match cf_decay m with
  | None => forall c, In c cs -> cf_decay c = None
  | Some d => (exists c, In c cs /\ cf_decay c = Some d) /\ forall c d', In c cs -> cf_decay c = Some d' -> feq d d' = true
  end.

Lemma isnan0 : isnan (fz 0) = false. Proof. reflexivity. Qed.
Lemma isnan1 : isnan (fz 1) = false. Proof. vm_compute. reflexivity. Qed.
Lemma fn_valid c : decay_number c -> (cfg_valid FN c <-> config_ok c).
Proof.
  intros Hnum. unfold cfg_valid, config_ok, decay_ok. split.
  - intros ((w & Hw & H0 & Hd) & Hs). exists w. repeat split; auto; specialize (Hd d H); specialize (Hnum d H); destruct Hd as (Hd1 & Hd2 & Hd3); cbn [nle FN nz] in *; auto.
    + rewrite (fle_key _ _ Hnum isnan0) in Hd1. rewrite (flt_key _ _ isnan0 Hnum). apply Z.leb_gt in Hd1. apply Z.ltb_lt. lia.
    + rewrite (fle_key _ _ isnan1 Hnum) in Hd2. rewrite (flt_key _ _ Hnum isnan1). apply Z.leb_gt in Hd2. apply Z.ltb_lt. lia.
  - intros (w & Hw & H0 & Hd & Hs). split; [|exact Hs]. exists w. split; [exact Hw|]. split; [exact H0|]. intros d H. specialize (Hnum d H). destruct (Hd d H) as ((Hd1 & Hd2) & Hd3).
    cbn [nle FN nz]. rewrite (fle_key _ _ Hnum isnan0), (fle_key _ _ isnan1 Hnum). rewrite (flt_key _ _ isnan0 Hnum) in Hd1. rewrite (flt_key _ _ Hnum isnan1) in Hd2.
    apply Z.ltb_lt in Hd1, Hd2. repeat split; [apply Z.leb_gt; lia|apply Z.leb_gt; lia|exact Hd3].
Qed.

Lemma in_windows {T} (cs : list (@config T)) w : In w (windows cs) <-> exists c, In c cs /\ cf_window c = Some w.
Proof.
  unfold windows. rewrite in_flat_map. split; intros (c & Hc & H); exists c; (split; [exact Hc|]).
  - destruct (cf_window c) as [w'|]; [|destruct H]. destruct H as [->|[]]. reflexivity.
  - rewrite H. left. reflexivity.
Qed.
Lemma in_decays {T} (cs : list (@config T)) d : In d (decays cs) <-> exists c, In c cs /\ cf_decay c = Some d.
Proof.
  unfold decays. rewrite in_flat_map. split; intros (c & Hc & H); exists c; (split; [exact Hc|]).
  - destruct (cf_decay c) as [w'|]; [|destruct H]. destruct H as [->|[]]. reflexivity.
  - rewrite H. left. reflexivity.
Qed.
Lemma agree_all {A} (e : A -> A -> bool) (P : A -> Prop) l :
  (forall x, P x -> e x x = true) -> (forall x y z, P x -> P y -> P z -> e x y = true -> e x z = true -> e y z = true) ->
  (forall x, In x l -> P x) -> (agree e l <-> forall x y, In x l -> In y l -> e x y = true).
Proof.
  intros Hr Ht HP. destruct l as [|a l]; cbn [agree]; [split; [intros _ x y []|auto]|]. rewrite Forall_forall. split.
  - intros H. assert (H' : forall x, In x (a :: l) -> e a x = true) by (intros x [<-|Hx]; [apply Hr, HP; left; reflexivity|apply H; exact Hx]).
    intros x y Hx Hy. apply (Ht a); auto; apply HP; left; reflexivity.
  - intros H x Hx. apply H; [left; reflexivity|right; exact Hx].
Qed.

Lemma merge_claim cs : Forall decay_number cs ->
  match cs with
  | [] => merge_configs FN cs = Err ENoConfigs
  | _ => (same_windows cs /\ same_decays cs -> exists m, merge_configs FN cs = Ok m /\ merged cs m) /\
         (~ (same_windows cs /\ same_decays cs) -> exists e, merge_configs FN cs = Err e)
  end.
Proof.
  intros Hnum. rewrite Forall_forall in Hnum. destruct cs as [|c [|c' cs]]; [reflexivity| |].
  - assert (Hsame : same_windows [c] /\ same_decays [c]).
    { split; intros c1 c2 d1 d2 [<-|[]] [<-|[]] E1 E2; [congruence|]. rewrite E1 in E2. injection E2 as <-.
      specialize (Hnum c (or_introl eq_refl) d1 E1). rewrite feq_key by assumption. apply Z.eqb_refl. }
    split; [|contradiction]. intros _. exists c. split; [reflexivity|]. split; [|split].
    + intros k. split; [intros H; exists c; split; [left; reflexivity|exact H]|]. intros (c1 & [<-|[]] & H). exact H.
    + intros w. split; [intros H; exists c; split; [left; reflexivity|exact H]|]. intros (c1 & [<-|[]] & H). exact H.
    + destruct (cf_decay c) as [d|] eqn:E; [|intros c1 [<-|[]]; exact E]. split; [exists c; split; [left; reflexivity|exact E]|].
      intros c1 d' [<-|[]] E1. destruct Hsame as [_ Hd]. apply (Hd c c); try (left; reflexivity); assumption.
  - set (l := c :: c' :: cs) in *. change (merge_configs FN l) with (merge_loop FN l [] None None).
    destruct (merge_loop_spec FN l [] None None) as [H1 H2]. cbn [opt_list app] in H1, H2.
    assert (Aw : agree Z.eqb (windows l) <-> same_windows l).
    { rewrite (agree_all Z.eqb (fun _ => True)); [|intros; apply Z.eqb_refl|intros x y z _ _ _ E1 E2; apply Z.eqb_eq in E1, E2; apply Z.eqb_eq; congruence|auto]. split.
      - intros H c1 c2 w1 w2 I1 I2 E1 E2. apply Z.eqb_eq. apply H; apply in_windows; eauto.
      - intros H x y Hx Hy. apply in_windows in Hx, Hy. destruct Hx as (c1 & I1 & E1), Hy as (c2 & I2 & E2). apply Z.eqb_eq. exact (H c1 c2 x y I1 I2 E1 E2). }
    assert (Hdn : forall d, In d (decays l) -> isnan d = false) by (intros d Hd; apply in_decays in Hd; destruct Hd as (c1 & I1 & E1); exact (Hnum c1 I1 d E1)).
    assert (Ad : agree (neqb FN) (decays l) <-> same_decays l).
    { rewrite (agree_all (neqb FN) (fun d => isnan d = false)); [| | |exact Hdn].
      - split.
        + intros H c1 c2 w1 w2 I1 I2 E1 E2. apply (H w1 w2); apply in_decays; eauto.
        + intros H x y Hx Hy. apply in_decays in Hx, Hy. destruct Hx as (c1 & I1 & E1), Hy as (c2 & I2 & E2). exact (H c1 c2 x y I1 I2 E1 E2).
      - intros x Hx. cbn [neqb FN]. rewrite feq_key by assumption. apply Z.eqb_refl.
      - intros x y z Hx Hy Hz. cbn [neqb FN]. rewrite !feq_key by assumption. rewrite !Z.eqb_eq. congruence. }
    rewrite Aw, Ad in H1. rewrite Aw, Ad in H2. split; [|intros H; destruct (H2 H); eauto].
    intros Hsame. destruct (H1 Hsame) as (s & E & Hk). eexists. split; [exact E|]. unfold merged. cbn [sums_of cf_sums cf_window cf_decay]. split; [|split].
    + intros k. rewrite Hk. split; [intros [[]|H]; exact H|auto].
    + destruct Hsame as [Hsw _]. intros w. split.
      * intros H. apply in_windows. destruct (windows l) as [|w0 t]; [discriminate|]. injection H as <-. left. reflexivity.
      * intros H. pose proof H as H'. apply in_windows in H'. destruct (windows l) as [|w0 t] eqn:Ew; [destruct H'|]. cbn [hd_error]. f_equal.
        assert (I0 : In w0 (windows l)) by (rewrite Ew; left; reflexivity). apply in_windows in I0. destruct I0 as (c1 & I1 & E1), H as (c2 & I2 & E2). exact (Hsw c1 c2 w0 w I1 I2 E1 E2).
    + destruct Hsame as [_ Hsd]. destruct (decays l) as [|d0 t] eqn:Ed; cbn [hd_error].
      * intros c1 I1. destruct (cf_decay c1) as [d|] eqn:E1; [|reflexivity]. assert (I0 : In d (decays l)) by (apply in_decays; eauto). rewrite Ed in I0. destruct I0.
      * assert (I0 : In d0 (decays l)) by (rewrite Ed; left; reflexivity). apply in_decays in I0. split; [exact I0|]. destruct I0 as (c1 & I1 & E1).
        intros c2 d' I2 E2. exact (Hsd c1 c2 d0 d' I1 I2 E1 E2).
Qed.

(** C24 is false: NaN passes for a decay, *)
Theorem C24_nan_decay_refuted : exists cfg c, new_core FN cfg = Ok c /\ ~ config_ok cfg /\ cf_decay cfg = Some fnan.
Proof.
  set (cfg := mkCfg None (Some 0%Z) (Some fnan)). assert (Hv : cfg_valid FN cfg).
  { split; [|intros k []]. exists 0%Z. split; [reflexivity|]. split; [lia|]. intros d H. injection H as <-. repeat split. }
  destruct (proj1 (new_core_spec FN cfg) Hv) as (w & _ & E). eexists cfg, _. split; [exact E|]. split; [|reflexivity].
  intros (w' & _ & _ & H & _). destruct (H fnan eq_refl) as ((H1 & _) & _). rewrite flt_nan_r in H1. discriminate.
Qed.
Print Assumptions C24_nan_decay_refuted.
(** and two copies of one accepted configuration with such a decay do not merge. *)
Theorem C24_nan_merge_refuted : exists cfg c, new_core FN cfg = Ok c /\ merge_configs FN [cfg; cfg] = Err EDiffDecay.
Proof.
  set (cfg := mkCfg None (Some 0%Z) (Some fnan)). assert (Hv : cfg_valid FN cfg).
  { split; [|intros k []]. exists 0%Z. split; [reflexivity|]. split; [lia|]. intros d H. injection H as <-. repeat split. }
  destruct (proj1 (new_core_spec FN cfg) Hv) as (w & _ & E). eexists cfg, _. split; [exact E|]. reflexivity.
Qed.
Print Assumptions C24_nan_merge_refuted.

(** With decays that are numbers: acceptance and merging are as stated. Missing: NaN. *)
Theorem C24_config_partial : (forall c, decay_number c -> (config_ok c -> exists m, new_core FN c = Ok m) /\ (~ config_ok c -> exists e, new_core FN c = Err e)) /\
  (forall cs, Forall decay_number cs ->
     match cs with
     | [] => merge_configs FN cs = Err ENoConfigs
     | _ => (same_windows cs /\ same_decays cs -> exists m, merge_configs FN cs = Ok m /\ merged cs m) /\
            (~ (same_windows cs /\ same_decays cs) -> exists e, merge_configs FN cs = Err e)
     end).
Proof.
  split; [|exact merge_claim]. intros c Hc. rewrite <- (fn_valid c Hc). destruct (new_core_spec FN c) as [H1 H2]. split; [|exact H2].
  intros H. destruct (H1 H) as (w & _ & E). eauto.
Qed.
Print Assumptions C24_config_partial.
Example C24_merge : rmap (fun c => (cf_sums c, cf_window c, option_map fbits (cf_decay c)))
    (merge_configs FN [mkCfg (Some [2]%Z) (Some 3%Z) None; mkCfg None None None; mkCfg (Some [4; 2]%Z) (Some 3%Z) None])
  = Ok (Some [2; 4]%Z, Some 3%Z, None) /\
  rmap (fun c => (cf_sums c, cf_window c, option_map fbits (cf_decay c))) (merge_configs FN [mkCfg (Some [2]%Z) (Some 3%Z) None; mkCfg None (Some 4%Z) None]) = Err EDiffWindow.
Proof. split; vm_compute; reflexivity. Qed.
Example C24_ok : config_ok (mkCfg (Some [2; 3]%Z) (Some 0%Z) (Some (fdy 1 (-1)))) /\ ~ config_ok (mkCfg (Some [2; 3]%Z) (Some 1%Z) (Some (fdy 1 (-1)))).
Proof.
  split.
  - exists 0%Z. split; [reflexivity|]. split; [lia|]. split; [|intros k [<-|[<-|[]]]; lia]. intros d H. cbn [cf_decay] in H.
    apply (f_equal (fun o => match o with Some x => x | None => fnan end)) in H. subst d. split; [split; vm_compute; reflexivity|reflexivity].
  - intros (w & E & _ & H & _). injection E as <-. destruct (H _ eq_refl) as [_ H1]. discriminate.
Qed.

(** C25 is false: window 3, values 5, 4, 4, 4. Only 4, 4, 4 are live, yet rounding
    when 5 left made their variance negative. *)
Theorem C25_std_nan_refuted : exists w (xs : list f64) m, Forall (fun x => isfin x = true) xs /\
  m_run FN (KStd w) (map OPush xs) = Ok m /\ length (live w xs) = 3 /\ rmap isnan (m_value FN m) = Ok true.
Proof.
  exists 3%Z, (map fz [5; 4; 4; 4]%Z).
  assert (D : rmap isnan (m <- m_run FN (KStd 3) (map OPush (map fz [5; 4; 4; 4]%Z)) ;; m_value FN m) = Ok true) by concrete.
  apply rmap_ok in D. destruct D as (v & D & Hv). apply bind_ok in D. destruct D as (m & D1 & D2). exists m.
  split; [repeat constructor|]. split; [exact D1|]. split; [reflexivity|]. rewrite D2. cbn [rmap bind]. rewrite Hv. reflexivity.
Qed.
Print Assumptions C25_std_nan_refuted.
