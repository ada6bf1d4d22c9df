(** C93: a new value moves a metric of location towards itself and not past itself. *)
From Coq Require Import ZArith Lia Bool Reals Lra List.
From Flocq Require Import Core BinarySingleNaN.
From Verif Require JointAcc.
From Verif Require Import Base F64 FloatR FloatMean HistSpec RingModel MathModel NumModel OrderSpec MinMaxModel MomentModel NanCore CoreInv StdFloat MetricProof QuantileSpec QuantileModel QuantileProof QuantOrder HeapModel PropsMinMax PropsQuantile PropsQuantOrder PropsHeap PropsFloat PropsMono PropsRobust PropsEwm.
Import ListNotations.
Local Open Scope Z_scope.

(** [r'] lies between [r] and [x]. *)
Definition towards (r x r' : f64) : Prop := (fle r x = true -> fle r r' = true /\ fle r' x = true) /\ (fle x r = true -> fle x r' = true /\ fle r' r = true).

(** ** Medians *)
Lemma count_lt_snoc v l x : count_lt v (l ++ [x]) = (count_lt v l + if flt x v then 1 else 0)%nat.
Proof. unfold count_lt. rewrite filter_app, app_length. cbn [filter]. destruct (flt x v); reflexivity. Qed.
Lemma count_le_snoc v l x : count_le v (l ++ [x]) = (count_le v l + if fle x v then 1 else 0)%nat.
Proof. unfold count_le. rewrite filter_app, app_length. cbn [filter]. destruct (fle x v); reflexivity. Qed.
Lemma count_lt_le u v l : Forall nonnan l -> nonnan u -> nonnan v -> fk u <= fk v -> (count_lt u l <= count_lt v l)%nat.
Proof. intros H Nu Nv L. unfold count_lt. induction H as [|x l Nx _ IH]; cbn [filter length]; [lia|]. rewrite !flt_key by assumption. destruct (Z.ltb_spec (fk x) (fk u)); destruct (Z.ltb_spec (fk x) (fk v)); cbn [length]; lia. Qed.
Lemma count_le_le u v l : Forall nonnan l -> nonnan u -> nonnan v -> fk u <= fk v -> (count_le u l <= count_le v l)%nat.
Proof. intros H Nu Nv L. unfold count_le. induction H as [|x l Nx _ IH]; cbn [filter length]; [lia|]. rewrite !fle_key by assumption. destruct (Z.leb_spec (fk x) (fk u)); destruct (Z.leb_spec (fk x) (fk v)); cbn [length]; lia. Qed.
Lemma kth_le l j k u v : Forall nonnan l -> is_kth l j u -> is_kth l k v -> (j <= k)%nat -> fk u <= fk v.
Proof.
  intros H (Nu & U1 & U2) (Nv & V1 & V2) L. destruct (Z.le_gt_cases (fk u) (fk v)) as [X|X]; [exact X|]. pose proof (count_le_lt u v l H Nu Nv X). lia.
Qed.
Lemma mid_key a b : in22 a -> in22 b -> fk a <= fk b -> nonnan (fdiv (fadd a b) (fz 2)) /\ fk a <= fk (fdiv (fadd a b) (fz 2)) <= fk b.
Proof.
  intros Sa Sb H. destruct (mid_between a b Sa Sb) as [F [L1 L2]]; [apply key_fin_le; [apply Sa|apply Sb|exact H]|]. split; [apply fin_nonnan; exact F|].
  split; apply fle_fin_key; auto; (apply Sa || apply Sb).
Qed.
Lemma median_towards l x r r' : Forall nonnan l -> Forall in22 l -> in22 x -> l <> [] -> median_result l r -> median_result (l ++ [x]) r' -> towards r x r'.
Proof.
  intros N S22 Sx Hl [O E] [O' E']. pose proof (fin_nonnan x (proj1 Sx)) as Nx. assert (N' : Forall nonnan (l ++ [x])) by (apply Forall_app; auto). assert (S' : Forall in22 (l ++ [x])) by (apply Forall_app; auto).
  assert (Len : length (l ++ [x]) = S (length l)) by (rewrite app_length; cbn [length]; lia). rewrite Len in O', E'.
  assert (G : nonnan r /\ nonnan r' /\ (fk r <= fk x -> fk r <= fk r' <= fk x) /\ (fk x <= fk r -> fk x <= fk r' <= fk r)).
  { destruct (Nat.Even_or_Odd (length l)) as [P|P].
    - destruct (E P) as (lo & hi & Klo & Khi & Er). destruct P as [k Ek]. assert (D : Nat.div2 (length l) = k) by (rewrite Ek; apply Nat.div2_double). rewrite D in Klo, Khi.
      assert (Hk : (1 <= k)%nat) by (destruct l; [congruence|cbn [length] in Ek; lia]).
      assert (K' : is_kth (l ++ [x]) k r') by (assert (D' : Nat.div2 (S (length l)) = k) by (rewrite Ek; apply Nat.div2_succ_double); rewrite D' in O'; apply O'; exists k; lia).
      destruct (mid_key lo hi (kth_in22 l _ lo N S22 Klo) (kth_in22 l _ hi N S22 Khi) (kth_le l _ _ lo hi N Klo Khi ltac:(lia))) as [Nr Br]. rewrite <- Er in Nr, Br.
      destruct Klo as (Nlo & Lo1 & Lo2). destruct Khi as (Nhi & Hi1 & Hi2). destruct K' as (Nr' & R1 & R2). rewrite count_lt_snoc, flt_key in R1 by assumption. rewrite count_le_snoc, fle_key in R2 by assumption.
      split; [exact Nr|]. split; [exact Nr'|]. split; intros H; split.
      + destruct (Z.le_gt_cases (fk r) (fk r')) as [X|X]; [exact X|]. destruct (Z.leb_spec (fk x) (fk r')); [lia|]. pose proof (count_le_lt hi r' l N Nhi Nr' ltac:(lia)). lia.
      + destruct (Z.le_gt_cases (fk r') (fk x)) as [X|X]; [exact X|]. destruct (Z.ltb_spec (fk x) (fk r')); [|lia]. pose proof (count_le_lt r' lo l N Nr' Nlo ltac:(lia)). lia.
      + destruct (Z.le_gt_cases (fk x) (fk r')) as [X|X]; [exact X|]. destruct (Z.leb_spec (fk x) (fk r')); [lia|]. pose proof (count_le_lt hi r' l N Nhi Nr' ltac:(lia)). lia.
      + destruct (Z.le_gt_cases (fk r') (fk r)) as [X|X]; [exact X|]. destruct (Z.ltb_spec (fk x) (fk r')); [|lia]. pose proof (count_le_lt r' lo l N Nr' Nlo ltac:(lia)). lia.
    - pose proof (O P) as K. destruct P as [k Ek]. assert (D : Nat.div2 (length l) = k) by (rewrite Ek, Nat.add_1_r; apply Nat.div2_succ_double). rewrite D in K.
      assert (D' : Nat.div2 (S (length l)) = S k) by (rewrite Ek; replace (S (2 * k + 1)) with (2 * S k)%nat by lia; apply Nat.div2_double). rewrite D' in E'. destruct E' as (lo & hi & Klo & Khi & Er); [exists (S k); lia|]. replace (S k - 1)%nat with k in Klo by lia.
      destruct (mid_key lo hi (kth_in22 _ _ lo N' S' Klo) (kth_in22 _ _ hi N' S' Khi) (kth_le _ _ _ lo hi N' Klo Khi ltac:(lia))) as [Nr' Br']. rewrite <- Er in Nr', Br'.
      destruct K as (Nr & R1 & R2). split; [exact Nr|]. split; [exact Nr'|]. split; intros H.
      + assert (K : is_kth (l ++ [x]) k r) by (split; [exact Nr|]; rewrite count_lt_snoc, count_le_snoc, flt_key by assumption; destruct (Z.ltb_spec (fk x) (fk r)); lia).
        pose proof (kth_le _ _ _ r lo N' K Klo ltac:(lia)) as L1. split; [lia|]. destruct Khi as (Nhi & Hi1 & Hi2). destruct (Z.le_gt_cases (fk hi) (fk x)) as [X|X]; [lia|]. rewrite count_lt_snoc, flt_key in Hi1 by assumption. destruct (Z.ltb_spec (fk x) (fk hi)); [|lia].
        pose proof (count_le_lt hi r l N Nhi Nr ltac:(lia)). lia.
      + assert (K : is_kth (l ++ [x]) (S k) r) by (split; [exact Nr|]; rewrite count_lt_snoc, count_le_snoc, fle_key by assumption; destruct (Z.leb_spec (fk x) (fk r)); [destruct (flt x r); lia|lia]).
        pose proof (kth_le _ _ _ hi r N' Khi K ltac:(lia)) as L1. split; [|lia]. destruct Klo as (Nlo & Lo1 & Lo2). destruct (Z.le_gt_cases (fk x) (fk lo)) as [X|X]; [lia|]. rewrite count_le_snoc, fle_key in Lo2 by assumption. destruct (Z.leb_spec (fk x) (fk lo)); [lia|].
        pose proof (count_le_lt r lo l N Nr Nlo ltac:(lia)). lia. }
  destruct G as (Nr & Nr' & G1 & G2). unfold towards. rewrite !fle_key by assumption. rewrite !Z.leb_le. auto.
Qed.
(** Median, under the storage conditions of C11, and HeapMedian, both without a window. *)
Theorem C93_median_partial : forall e os ops x, Forall qopt_num os -> Forall qopt_valid os -> pushes_nonnan (ops ++ [OPush x]) -> impl_cond (chosen_impl os) 0 (ops ++ [OPush x]) -> impl_cond (chosen_impl os) 0 ops ->
  hist ops <> [] -> zlen (hist ops) < 2 ^ 53 -> Forall in22 (hist (ops ++ [OPush x])) ->
  exists q q' r r', median_run e 0 os ops = Ok q /\ median_run e 0 os (ops ++ [OPush x]) = Ok q' /\ median_value e q = Ok r /\ median_value e q' = Ok r' /\ towards r x r'.
Proof.
  intros e os ops x Hn Hv Hp Hi' Hi Hl Hz S. assert (Hp0 : pushes_nonnan ops) by (intros y Hy; apply Hp, in_or_app; left; exact Hy).
  destruct (C13_median_partial e 0 os ops ltac:(lia) Hn Hv Hp0 Hi) as (q & E & _ & V). destruct (C13_median_partial e 0 os (ops ++ [OPush x]) ltac:(lia) Hn Hv Hp Hi') as (q' & E' & _ & V').
  change (live 0 (hist ops)) with (hist ops) in V. change (live 0 (hist (ops ++ [OPush x]))) with (hist (ops ++ [OPush x])) in V'. rewrite hist_push in V', S. apply Forall_app in S as [S0 Sx]. inversion Sx as [|? ? Sx1 _]. subst.
  destruct (V Hl ltac:(lia)) as (r & Er & R). destruct V' as (r' & Er' & R'); [destruct (hist ops); discriminate|unfold zlen in *; rewrite app_length; cbn [length]; lia|].
  exists q, q', r, r'. do 4 (split; [assumption|]). exact (median_towards _ x r r' (pushes_hist ops Hp0) S0 Sx1 Hl R R').
Qed.
Print Assumptions C93_median_partial.
Theorem C93_heap_median_partial : forall ops x, pushes_nonnan (ops ++ [OPush x]) -> hist ops <> [] -> Forall in22 (hist (ops ++ [OPush x])) ->
  exists h h' r r', hm_run 0 ops = Ok h /\ hm_run 0 (ops ++ [OPush x]) = Ok h' /\ hm_value h = Ok r /\ hm_value h' = Ok r' /\ towards r x r'.
Proof.
  intros ops x Hp Hl S. assert (Hp0 : pushes_nonnan ops) by (intros y Hy; apply Hp, in_or_app; left; exact Hy).
  destruct (C17_global_heap_median ops Hp0) as (h & E & V). destruct (C17_global_heap_median (ops ++ [OPush x]) Hp) as (h' & E' & V'). rewrite hist_push in V', S. apply Forall_app in S as [S0 Sx]. inversion Sx as [|? ? Sx1 _]. subst.
  assert (R : exists r, hm_value h = Ok r /\ median_result (hist ops) r) by (destruct (hist ops); [congruence|exact V]). assert (R' : exists r, hm_value h' = Ok r /\ median_result (hist ops ++ [x]) r) by (destruct (hist ops ++ [x]) eqn:X; [destruct (hist ops); discriminate X|exact V']).
  destruct R as (r & Er & R). destruct R' as (r' & Er' & R'). exists h, h', r, r'. do 4 (split; [assumption|]). exact (median_towards _ x r r' (pushes_hist ops Hp0) S0 Sx1 Hl R R').
Qed.
Print Assumptions C93_heap_median_partial.

(** ** Mean and EWMA in float64, without a window *)
Lemma between_towards m x m' : in22 m -> in22 x -> between m x m' -> towards m x m'.
Proof.
  intros [Fm _] [Fx _] [[Fm' _] H]. unfold towards. rewrite !fle_R by assumption. unfold Rmin, Rmax in H. destruct (Rle_dec (B2R m) (B2R x)); split; intros; lra.
Qed.
Lemma push_towards d h c x : good_decay d -> ginv d h c -> h <> [] -> zlen h < 2 ^ 53 -> in22 x -> exists c', c_push FN c x = Ok c' /\ c_count c' = zlen h + 1 /\ towards (c_mean c) x (c_mean c').
Proof.
  intros Hd ((Hl & Hc & Hm) & Ew & Ed) Hh Hn Hx. unfold c_push. rewrite Ew. cbn [Z.eqb negb bind]. rewrite Ed.
  assert (Hne : 1 <= zlen h) by (destruct h; [congruence|unfold zlen; cbn [length]; lia]). assert (Sm : in22 (c_mean c)) by (destruct h; [congruence|apply Hm]).
  destruct d as [d|].
  - destruct (c_add_decay_any FN c d x Hl) as (c' & E & _ & Ec & Em). exists c'. split; [exact E|]. split; [rewrite Ec, Hc; reflexivity|]. rewrite Em. apply between_towards; [exact Sm|exact Hx|]. rewrite Hc. destruct (Z.eqb_spec (zlen h + 1) 1) as [Hq|_]; [lia|]. apply ewma_between; auto; apply Hd.
  - destruct (c_add_any FN c x Hl) as (c' & E & _ & Ec & Em). exists c'. split; [exact E|]. split; [rewrite Ec, Hc; reflexivity|]. rewrite Em. apply between_towards; [exact Sm|exact Hx|]. unfold add_mean. rewrite Hc. apply mean_between; auto. lia.
Qed.
Lemma core_towards (k : @kind f64) d c0 ops x : k = KMean 0 /\ d = None \/ (exists a, k = KEwma a /\ d = Some a) -> new_core FN (kconfig k) = Ok c0 -> good_decay d -> ginv d [] c0 ->
  (forall y, In (OPush y) (ops ++ [OPush x]) -> in22 y) -> zlen ops < 2 ^ 53 -> hist ops <> [] ->
  exists v v', (m <- m_run FN k ops ;; m_value FN m) = Ok v /\ (m <- m_run FN k (ops ++ [OPush x]) ;; m_value FN m) = Ok v' /\ towards v x v'.
Proof.
  intros Hk Hn Hd I0 Hs Hz Hh. destruct (ginv_run d c0 ops Hd I0) as (c & E & I); [intros y Hy; apply Hs, in_or_app; left; exact Hy|lia|].
  assert (Hzh : zlen (hist ops) <= zlen ops) by (unfold zlen; pose proof (JointAcc.hist_len ops); lia).
  destruct (push_towards d (hist ops) c x Hd I Hh ltac:(lia)) as (c' & E' & Ec & T); [apply Hs, last_in|]. exists (c_mean c), (c_mean c'). split; [|split; [|exact T]].
  - rewrite m_run_eq, Hn. cbn [bind]. rewrite E. cbn [bind rmap]. destruct I as ((_ & Hc & _) & _). destruct Hk as [[-> _]|(a & -> & _)]; unfold m_value; cbn [m_core m_kind kvalue]; exact (get_mean_zlen c _ Hc Hh).
  - rewrite m_run_eq, Hn. cbn [bind]. unfold core_run in *. rewrite run_app, E. cbn [bind run]. rewrite E'. cbn [bind rmap].
    assert (G : c_get_mean c' = Ok (c_mean c')) by (apply (get_mean_zlen c' (hist ops ++ [x])); [rewrite Ec; unfold zlen; rewrite app_length; cbn [length]; lia|destruct (hist ops); discriminate]).
    destruct Hk as [[-> _]|(a & -> & _)]; unfold m_value; cbn [m_core m_kind kvalue]; exact G.
Qed.
Theorem C93_mean_partial : forall ops x, (forall y, In (OPush y) (ops ++ [OPush x]) -> in22 y) -> zlen ops < 2 ^ 53 -> hist ops <> [] ->
  exists v v', (m <- m_run FN (KMean 0) ops ;; m_value FN m) = Ok v /\ (m <- m_run FN (KMean 0) (ops ++ [OPush x]) ;; m_value FN m) = Ok v' /\ towards v x v'.
Proof.
  intros ops x Hs Hz Hh. apply (core_towards (KMean 0) None (mkCore (fz 0) 0 (fun _ => fz 0) 0 0 None (ring_new 0))); auto; [exact Logic.I|]. apply ginv_nil; try reflexivity. cbn [c_len]. lia.
Qed.
Print Assumptions C93_mean_partial.
Theorem C93_ewma : forall d ops x, decay_ok d -> (forall y, In (OPush y) (ops ++ [OPush x]) -> in22 y) -> zlen ops < 2 ^ 53 -> hist ops <> [] ->
  exists v v', (m <- m_run FN (KEwma d) ops ;; m_value FN m) = Ok v /\ (m <- m_run FN (KEwma d) (ops ++ [OPush x]) ;; m_value FN m) = Ok v' /\ towards v x v'.
Proof.
  intros d ops x Hd Hs Hz Hh. destruct (decay_real d Hd) as [Fd Rd]. apply (core_towards (KEwma d) (Some d) (mkCore (fz 0) 0 (fun _ => fz 0) 0 0 (Some d) (ring_new 0))); auto.
  - right. exists d. auto.
  - unfold new_core. cbv zeta. unfold validate. cbn [set_defaults kconfig cf_window cf_decay cf_sums sums_of existsb nle nz FN]. change (0 <? 0)%Z with false. cbv iota.
    destruct (fz_real 0 ltac:(lia)) as [F0 E0']. destruct (fz_real 1 ltac:(lia)) as [F1 E1].
    destruct (fle d (fz 0)) eqn:H1; [apply fle_R in H1; [lra|exact Fd|exact F0]|].
    destruct (fle (fz 1) d) eqn:H2; [apply fle_R in H2; [lra|exact F1|exact Fd]|]. reflexivity.
  - split; assumption.
  - apply ginv_nil; try reflexivity. cbn [c_len]. lia.
Qed.
Print Assumptions C93_ewma.

Definition awayb (r x r' : f64) : bool := fle r x && negb (fle r r' && fle r' x) || fle x r && negb (fle x r' && fle r' r).
Lemma both_away x (a b : res f64) : (match a, b with Ok r, Ok r' => awayb r x r' | _, _ => false end) = true -> exists r r', a = Ok r /\ b = Ok r' /\ ~ towards r x r'.
Proof.
  destruct a as [r| | | |]; try discriminate. destruct b as [r'| | | |]; try discriminate. intros H. exists r, r'. split; [reflexivity|]. split; [reflexivity|]. intros [T1 T2]. unfold awayb in H. apply orb_prop in H. destruct H as [H|H]; apply andb_prop in H as [H1 H2]; [destruct (T1 H1) as [A B]|destruct (T2 H1) as [A B]]; rewrite A, B in H2; discriminate H2.
Qed.
(** With a window Mean and Median need not move towards the new value, as another leaves: window 2, values 0, 10, then 1 gives 5, then 5.5. *)
Theorem C93_window_refuted : exists ops x, Forall in22 (hist (ops ++ [OPush x])) /\
  (exists v v', (m <- m_run FN (KMean 2) ops ;; m_value FN m) = Ok v /\ (m <- m_run FN (KMean 2) (ops ++ [OPush x]) ;; m_value FN m) = Ok v' /\ ~ towards v x v') /\
  forall e, exists r r', (q <- median_run e 2 [] ops ;; median_value e q) = Ok r /\ (q <- median_run e 2 [] (ops ++ [OPush x]) ;; median_value e q) = Ok r' /\ ~ towards r x r'.
Proof.
  exists (hm_ops [0; 10]), (fz 1). split; [apply Forall_in22b; vm_compute; reflexivity|]. split; [apply both_away; vm_compute; reflexivity|]. intros e. apply both_away. vm_compute. reflexivity.
Qed.
Print Assumptions C93_window_refuted.
(** Other quantiles can move past it: the 3/4-quantile of 0, 10 is 7.5; after 8 it is 9. *)
Theorem C93_quantile_refuted : exists ops x phi, Forall in22 (hist (ops ++ [OPush x])) /\ in_range phi = true /\
  forall e, exists r r', (q <- q_run e 0 [] ops ;; q_value e q phi) = Ok r /\ (q <- q_run e 0 [] (ops ++ [OPush x]) ;; q_value e q phi) = Ok r' /\ ~ towards r x r'.
Proof.
  exists (hm_ops [0; 10]), (fz 8), (fdy 3 (-2)). split; [apply Forall_in22b; vm_compute; reflexivity|]. split; [vm_compute; reflexivity|]. intros e. apply both_away. vm_compute. reflexivity.
Qed.
Print Assumptions C93_quantile_refuted.
(** Values 5 1 4 2, then 8: Mean 3 and 4, EWMA (decay 1/2) 2.75 and 5.375, Median and HeapMedian 3 and 4. *)
Example C93_case : Forall in22 (hist (hm_ops [5; 1; 4; 2; 8])) /\ impl_cond (chosen_impl []) 0 (hm_ops [5; 1; 4; 2; 8]) /\ decay_ok (fdy 1 (-1)) /\
  map (fun l => rmap fbits (m <- m_run FN (KMean 0) (hm_ops l) ;; m_value FN m)) [[5; 1; 4; 2]; [5; 1; 4; 2; 8]] = [Ok (fbits (fz 3)); Ok (fbits (fz 4))] /\
  map (fun l => rmap fbits (m <- m_run FN (KEwma (fdy 1 (-1))) (hm_ops l) ;; m_value FN m)) [[5; 1; 4; 2]; [5; 1; 4; 2; 8]] = [Ok (fbits (fdy 11 (-2))); Ok (fbits (fdy 43 (-3)))] /\
  map (fun l => rmap fbits (q <- median_run env0 0 [] (hm_ops l) ;; median_value env0 q)) [[5; 1; 4; 2]; [5; 1; 4; 2; 8]] = [Ok (fbits (fz 3)); Ok (fbits (fz 4))] /\
  map (fun l => rmap fbits (m <- hm_run 0 (hm_ops l) ;; hm_value m)) [[5; 1; 4; 2]; [5; 1; 4; 2; 8]] = [Ok (fbits (fz 3)); Ok (fbits (fz 4))].
Proof. split; [apply Forall_in22b; vm_compute; reflexivity|]. split; [left; reflexivity|]. split; [split; vm_compute; reflexivity|]. repeat split; vm_compute; reflexivity. Qed.
