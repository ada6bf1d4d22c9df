(** Bounds on the steps of the order statistics and of Quantile (CostModel.v). *)
From Coq Require Import Permutation.
From Verif Require Import Base F64 HistSpec OrderSpec MultisetSpec SortLib RingModel AvlModel AvlProof RbModel RbProof SkipModel QuantileModel QuantileProof
  CostModel CostErase CostTree.
Local Open Scope nat_scope.

(** The steps of the container operations one call causes. *)
Fixpoint stat_ops_c (l : list sop) (st : stat) : cost stat :=
  match l with
  | [] => lift (Ok st)
  | SAdd x :: q => st' <~ stat_add_c st x ;; stat_ops_c q st'
  | SRemove x :: q => st' <~ stat_remove_c st x ;; stat_ops_c q st'
  | SClear :: q => st' <~ lift (stat_clear st) ;; stat_ops_c q st'
  end.

Lemma cbind_fst {A B C} (m : cost A) (k1 : A -> cost B) (k2 : A -> cost C) :
  (forall a, fst (k1 a) = fst (k2 a)) -> fst (cbind m k1) = fst (cbind m k2).
Proof. destruct m as [n [a|e| | |]]; cbn; auto. intros H. specialize (H a). destruct (k1 a), (k2 a). cbn in *. lia. Qed.
Lemma cbind_ok_fst {A B} (m : cost A) (f : A -> B) : fst (cbind m (fun a => lift (Ok (f a)))) = fst m.
Proof. destruct m as [n [a|e| | |]]; cbn; lia. Qed.

Lemma q_push_ops w interp ops st x : (0 <= w)%Z ->
  fst (q_push_c (mkQ w interp (mkRing (round_up w) (if (w =? 0)%Z then [] else live w (hist ops))) st) x) =
  fst (stat_ops_c (qstep w (hist ops) (OPush x)) st).
Proof.
  intros Hw. unfold q_push_c. cbn [q_window q_queue q_stat q_interp qstep].
  destruct (Z.eqb_spec w 0) as [->|Hw0].
  - cbn [negb]. rewrite (cbind_lift _ _ _ eq_refl). cbn [q_window q_queue q_stat q_interp app stat_ops_c].
    apply cbind_fst. reflexivity.
  - cbn [negb]. unfold ring_len at 1. cbn [ritems].
    destruct (Z.eqb_spec (zlen (live w (hist ops))) w) as [Hfull|Hnf].
    + destruct (live w (hist ops)) as [|y t] eqn:El; [unfold zlen in Hfull; cbn in Hfull; lia|].
      cbn [ring_get ritems rcap app stat_ops_c]. rewrite (cbind_lift _ _ _ eq_refl).
      destruct (stat_remove_c st y) as [n [st1|e| | |]]; try reflexivity.
      cbn [cbind fst snd lift q_queue q_window q_interp q_stat].
      rewrite (ring_put_ok _ x w) by (reflexivity || (unfold ring_len, zlen in *; cbn [ritems length] in *; lia)).
      cbn [cbind fst snd lift q_queue q_window q_interp q_stat].
      destruct (stat_add_c st1 x) as [n' [st2|e| | |]]; cbn; lia.
    + rewrite (cbind_lift (Ok _) _ _ eq_refl). cbn [q_queue q_window q_interp q_stat app].
      pose proof (live_zlen_le w (hist ops) ltac:(lia)).
      rewrite (ring_put_ok _ x w) by (reflexivity || (unfold ring_len; cbn [ritems]; lia)).
      cbn [cbind fst snd lift q_queue q_window q_interp q_stat app stat_ops_c].
      destruct (stat_add_c st x) as [n' [st2|e| | |]]; cbn; lia.
Qed.

(** *** The containers *)
Definition lg (n : nat) : nat := Nat.log2 (n + 1).
Lemma lg_mono n m : n <= m -> lg n <= lg m.
Proof. intros H. apply Nat.log2_le_mono. lia. Qed.

Definition tree_fit (n : nat) (st : stat) : Prop :=
  match st with
  | StAvl t => wfa t /\ length (aelems t) <= n
  | StRb t => rroot t /\ length (relems t) <= n
  | StSkip _ => False
  end.
Lemma fit_add n st x : tree_fit n st -> fst (stat_add_c st x) <= 2 * lg n + 1.
Proof.
  destruct st as [t|t|s]; cbn [tree_fit stat_add_c]; [| |tauto]; intros [H Hl]; rewrite cmap_fst; pose proof (lg_mono _ _ Hl); unfold lg in *.
  - pose proof (avl_add_cost t x). pose proof (adepth_log t (wfa_balanced t H)). lia.
  - pose proof (rb_add_cost t x). pose proof (rdepth_log t H). lia.
Qed.
Lemma fit_sel n st k : tree_fit n st -> fst (sel_c st k) <= 2 * lg n + 1.
Proof.
  intros H. unfold sel_c. eapply Nat.le_trans; [apply (cbind_le _ _ 0); intros [v|] _; reflexivity|]. rewrite Nat.add_0_r.
  destruct st as [t|t|s]; cbn [tree_fit stat_select_c] in *; [| |tauto]; destruct H as [H Hl]; pose proof (lg_mono _ _ Hl); unfold lg in *.
  - pose proof (avl_select_cost t k). pose proof (adepth_log t (wfa_balanced t H)). lia.
  - pose proof (rb_select_cost t k). pose proof (rdepth_log t H). lia.
Qed.
Lemma fit_value n e q phi : tree_fit n (q_stat q) -> fst (q_value_c e q phi) <= 4 * lg n + 2.
Proof.
  intros H. unfold q_value_c.
  pose proof (fun k => fit_sel n _ k H) as Hs.
  assert (H1 : forall k, fst (sel_c (q_stat q) k) <= 4 * lg n + 2) by (intros k; specialize (Hs k); lia).
  assert (H2 : forall B k1 k2 (g : f64 -> f64 -> B),
    fst (lo <~ sel_c (q_stat q) k1 ;; hi <~ sel_c (q_stat q) k2 ;; lift (Ok (g lo hi))) <= 4 * lg n + 2).
  { intros B k1 k2 g. eapply Nat.le_trans.
    - apply (cbind_le _ _ (2 * lg n + 1)). intros lo _. rewrite cbind_ok_fst. apply Hs.
    - specialize (Hs k1). lia. }
  repeat match goal with |- context [if ?b then _ else _] => destruct b end; auto; cbn; lia.
Qed.

(** *** The state after a history *)
Lemma remove_one_le v l : length (remove_one v l) <= length l.
Proof. induction l as [|y l IH]; cbn; [lia|]. destruct (feq y v); cbn; lia. Qed.
Lemma bag_len w ops : (0 <= w)%Z -> pushes_nonnan ops -> length (bag (qops w ops)) = length (live w (hist ops)).
Proof.
  intros Hw Hp. pose proof (Permutation_length (qops_bag w ops Hw Hp)) as H. rewrite !keys_length in H. exact H.
Qed.
Lemma ainv_len b t : AInv (sortz (keys b)) t -> length (aelems t) = length b.
Proof.
  intros [_ Hk _]. rewrite <- (keys_length (aelems t)). change (keys (aelems t)) with (akeys t).
  rewrite Hk, (Permutation_length (sortz_perm _)), keys_length. reflexivity.
Qed.

(** The containers reached, for the two trees. *)
Definition tree_ops (i : Z) (l : list sop) : Prop := i = 0%Z \/ (i = 1%Z /\ single_removes l).
Definition empty_tree (i : Z) : stat := if (i =? 0)%Z then StAvl ALeaf else StRb RLeaf.
Lemma tree_reach i l : tree_ops i l -> Forall sop_nonnan l ->
  exists st, stat_run l (empty_tree i) = Ok st /\ tree_fit (length (bag l)) st /\
    match st with
    | StAvl t => i = 0%Z /\ avl_run l = Ok t
    | StRb t => i = 1%Z /\ rb_run l = Ok t /\ RInv (sortz (keys (bag l))) t
    | StSkip _ => False end.
Proof.
  intros Ho Hn. destruct Ho as [->|[-> H1]]; unfold empty_tree; cbn [Z.eqb].
  - destruct (avl_reach l Hn) as [t [E HI]]. exists (StAvl t). split; [|split].
    + rewrite (srun_rmap StAvl avl_add avl_remove avl_clear); try reflexivity. unfold avl_run in E. rewrite E. reflexivity.
    + cbn. pose proof (ainv_len _ _ HI). destruct HI. split; [assumption|lia].
    + auto.
  - destruct (rb_reach l Hn H1) as [t [E HI]]. exists (StRb t). split; [|split].
    + rewrite (srun_rmap StRb rb_add rb_tree_remove rb_clear); try reflexivity. unfold rb_run in E. rewrite E. reflexivity.
    + cbn. pose proof (rinv_len _ _ HI). destruct HI. split; [assumption|lia].
    + auto.
Qed.
Lemma tree_ops_prefix i l1 l2 : tree_ops i (l1 ++ l2) -> tree_ops i l1.
Proof.
  intros [H|[H H1]]; [left; exact H|right; split; [exact H|]]. intros p v q E. apply (H1 p v (q ++ l2)).
  rewrite E, <- app_assoc. reflexivity.
Qed.

Definition remove_bound (i : Z) (n : nat) : nat :=
  if (i =? 0)%Z then 4 * lg n + 1 else (2 * lg n + 2) * (2 * lg n + 2) + (2 * lg n + 1).

(** One removal and one insertion after a history of container operations. *)
Lemma tree_remove_cost i l st y : tree_ops i (l ++ [SRemove y]) -> Forall sop_nonnan (l ++ [SRemove y]) ->
  stat_run l (empty_tree i) = Ok st ->
  fst (stat_remove_c st y) <= remove_bound i (length (bag l)) /\
  exists st', stat_remove st y = Ok st' /\ tree_fit (length (bag l)) st'.
Proof.
  intros Ho Hn E. destruct (tree_reach i _ Ho Hn) as [st' [E' [Hf' Hs']]].
  unfold stat_run in E'. rewrite srun_app in E'. unfold stat_run in E. rewrite E in E'. cbn [bind srun] in E'.
  assert (Er : stat_remove st y = Ok st') by (destruct (stat_remove st y); cbn [bind] in E'; congruence).
  assert (Hlen : length (bag (l ++ [SRemove y])) <= length (bag l)).
  { rewrite bag_app. cbn [fold_left bag_step]. apply remove_one_le. }
  split.
  - pose proof (tree_ops_prefix _ _ _ Ho) as Ho0. apply Forall_app in Hn. destruct Hn as [Hn Hy]. apply Forall_inv in Hy. cbn in Hy.
    destruct (tree_reach i l Ho0 Hn) as [st0 [E0 [Hf Hs]]]. unfold stat_run in E0. assert (st0 = st) by congruence. subst st0.
    unfold remove_bound. destruct st as [t|t|s]; [| |destruct Hs].
    + destruct Hs as [-> _]. cbn [Z.eqb stat_remove_c]. rewrite cmap_fst. cbn in Hf. destruct Hf as [Hw Hl].
      pose proof (avl_remove_cost t y). pose proof (adepth_log t (wfa_balanced t Hw)). pose proof (lg_mono _ _ Hl). unfold lg in *. lia.
    + destruct Hs as [-> [_ HI]]. cbn [Z.eqb stat_remove_c]. rewrite cmap_fst.
      pose proof (rinv_len _ _ HI) as Hl. destruct HI as [Hr Hsz Hk Hnn].
      destruct Ho as [Ho|[_ Ho]]; [discriminate|]. specialize (Ho l y [] eq_refl).
      assert (Hc : ceqz (fk y) (keys (relems t)) <= 1).
      { rewrite Hk. unfold ceqz. rewrite (Permutation_length (filter_perm _ _ _ (sortz_perm _))).
        rewrite count_eq_keys in Ho by auto using bag_nonnan. exact Ho. }
      pose proof (rb_tree_remove_cost t y Hr Hsz Hy Hnn ltac:(rewrite Hk; apply sortz_sorted) Hc) as Hb.
      pose proof (rdepth_log t Hr) as Hd. rewrite Hl in *. fold (lg (length (bag l))) in *.
      set (L := lg (length (bag l))) in *. nia.
  - exists st'. split; [exact Er|]. destruct st' as [t|t|s]; cbn in Hf' |- *; [| |tauto]; destruct Hf'; split; auto; lia.
Qed.

(** *** Push *)
Lemma fresh_tree i st : (i = 0 \/ i = 1)%Z -> fresh_stat i st -> st = empty_tree i.
Proof. intros [-> | ->] [[H ->]|[[H ->]|[H _]]]; try discriminate; reflexivity. Qed.

Definition push_bound (i : Z) (n : nat) : nat := remove_bound i n + (2 * lg n + 1).

Lemma evict_single_snoc w ops o : evict_single w (ops ++ [o]) -> evict_single w ops.
Proof.
  intros H p x q y t E. apply (H p x (q ++ [o])). rewrite E, <- app_assoc. reflexivity.
Qed.

Lemma q_push_cost e w os ops x : (0 <= w)%Z -> Forall qopt_num os -> Forall qopt_valid os ->
  pushes_nonnan (ops ++ [OPush x]) ->
  chosen_impl os = 0%Z \/ (chosen_impl os = 1%Z /\ evict_single w (ops ++ [OPush x])) ->
  exists q, q_run e w os ops = Ok q /\
    tree_fit (length (live w (hist ops))) (q_stat q) /\
    fst (q_push_c q x) <= push_bound (chosen_impl os) (length (live w (hist ops))) /\
    (w = 0%Z \/ (zlen (live w (hist ops)) < w)%Z -> fst (q_push_c q x) <= 2 * lg (length (live w (hist ops))) + 1).
Proof.
  intros Hw Hn Hv Hp Hc.
  destruct (new_quantile_spec e w os Hn) as [[_ [_ [st0 [E Hf]]]]|[H _]]; [|tauto].
  assert (Hi : (chosen_impl os = 0 \/ chosen_impl os = 1)%Z) by tauto.
  apply fresh_tree in Hf; [|exact Hi]. subst st0.
  set (i := chosen_impl os) in *.
  assert (Ho : tree_ops i (qops w (ops ++ [OPush x]))).
  { destruct Hc as [Hc|[Hc H1]]; [left; exact Hc|right; split; [exact Hc|]]. apply evict_single_removes; auto. }
  pose proof (qops_nonnan w _ Hp) as Hqn. rewrite qops_snoc in Ho, Hqn.
  pose proof (tree_ops_prefix _ _ _ Ho) as Ho0. pose proof (proj1 (proj1 (Forall_app _ _ _) Hqn)) as Hqn0.
  destruct (tree_reach i _ Ho0 Hqn0) as [st [Es [Hfit Hst]]].
  unfold q_run. rewrite E. cbn [bind]. rewrite q_run_stat by exact Hw. rewrite Es. cbn [bind].
  eexists. split; [reflexivity|]. cbn [q_stat].
  apply pushes_app in Hp. destruct Hp as [Hp _].
  rewrite <- (bag_len w ops Hw Hp). split; [exact Hfit|].
  rewrite q_push_ops by exact Hw. set (n := length (bag (qops w ops))) in *.
  assert (Hadd : fst (stat_ops_c [SAdd x] st) <= 2 * lg n + 1).
  { cbn [stat_ops_c]. rewrite (cbind_ok_fst _ (fun a => a)). apply fit_add. exact Hfit. }
  cbn [qstep] in *.
  destruct (Z.eqb_spec w 0) as [Hw0|Hw0].
  { cbn [app]. split; [|auto]. unfold push_bound. lia. }
  destruct (Z.eqb_spec (zlen (live w (hist ops))) w) as [Hfull|Hnf].
  2:{ cbn [app]. split; [|auto]. unfold push_bound. lia. }
  destruct (live w (hist ops)) as [|y t] eqn:El.
  { cbn [app]. split; [|auto]. unfold push_bound. lia. }
  split; [|lia]. cbn [app] in *.
  assert (Hsplit : qops w ops ++ [SRemove y; SAdd x] = (qops w ops ++ [SRemove y]) ++ [SAdd x]) by (rewrite <- app_assoc; reflexivity).
  rewrite Hsplit in Ho, Hqn.
  destruct (tree_remove_cost i (qops w ops) st y) as [Hr [st' [Er Hf']]]; auto.
  { exact (tree_ops_prefix _ _ _ Ho). }
  { apply Forall_app in Hqn. apply Hqn. }
  cbn [stat_ops_c].
  rewrite (cbind_eq _ _ st') by (rewrite stat_remove_erase; exact Er).
  rewrite (cbind_ok_fst _ (fun a => a)). pose proof (fit_add _ _ x Hf') as Ha. fold n in Hr, Ha. unfold push_bound. lia.
Qed.

(** *** The lower bound for red black trees *)
Lemma lowest_of x l ks : Permutation (keys l) (fk x :: ks) -> sortedz (keys l) -> Forall (fun z => fk x < z)%Z ks -> lowest x l.
Proof.
  intros HP Hs Hk. destruct l as [|y l]; [apply Permutation_nil in HP; discriminate|]. cbn [keys map] in *. fold (keys l) in *.
  assert (Hmin : forall z, In z (keys l) -> (fk y <= z)%Z).
  { intros z Hz. apply (sorted_parts [] (fk y) (keys l)) in Hs. destruct Hs as [_ [_ [_ Hs]]].
    apply Hs. exact Hz. }
  assert (Hxy : fk y = fk x).
  { assert (Hin : In (fk x) (fk y :: keys l)) by (rewrite HP; left; reflexivity).
    assert (Hin2 : In (fk y) (fk x :: ks)) by (rewrite <- HP; left; reflexivity).
    destruct Hin as [Hin|Hin]; [exact Hin|]. destruct Hin2 as [Hin2|Hin2]; [symmetry; exact Hin2|].
    apply Hmin in Hin. rewrite Forall_forall in Hk. apply Hk in Hin2. lia. }
  exists y, l. split; [reflexivity|]. split; [exact Hxy|].
  rewrite Hxy in HP. apply Permutation_cons_inv in HP.
  rewrite Forall_forall in Hk |- *. intros z Hz. apply Hk. rewrite <- HP. apply in_map. exact Hz.
Qed.

Lemma q_push_lower e w os ops x y t : (0 < w)%Z -> Forall qopt_num os -> Forall qopt_valid os ->
  pushes_nonnan ops -> chosen_impl os = 1%Z -> evict_single w ops ->
  zlen (live w (hist ops)) = w -> live w (hist ops) = y :: t -> Forall (fun z => flt y z = true) t ->
  exists q, q_run e w os ops = Ok q /\ lg (length (live w (hist ops))) ^ 2 <= 8 * fst (q_push_c q x) + 1.
Proof.
  intros Hw Hn Hv Hp Hi Hev Hfull El Hmin.
  destruct (new_quantile_spec e w os Hn) as [[_ [_ [st0 [E Hf]]]]|[H _]]; [|exfalso; apply H; split; [lia|assumption]].
  rewrite Hi in Hf. apply fresh_tree in Hf; [|auto]. subst st0.
  assert (Ho : tree_ops 1 (qops w ops)) by (right; split; [reflexivity|apply evict_single_removes; auto; lia]).
  pose proof (qops_nonnan w _ Hp) as Hqn.
  destruct (tree_reach 1 _ Ho Hqn) as [st [Es [Hfit Hst]]].
  unfold q_run. rewrite E. cbn [bind]. rewrite q_run_stat by lia. rewrite Es. cbn [bind].
  eexists. split; [reflexivity|]. rewrite q_push_ops by lia. cbn [qstep].
  destruct (Z.eqb_spec w 0) as [?|_]; [lia|]. rewrite <- (bag_len w ops) by (auto; lia).
  pose proof (qops_bag w ops ltac:(lia) Hp) as HP. pose proof (pushes_live w ops Hp) as Hnl.
  rewrite Hfull, Z.eqb_refl. rewrite El in *. cbn [app stat_ops_c].
  destruct st as [tr|tr|s]; [destruct Hst; discriminate| |destruct Hst].
  destruct Hst as [_ [_ HI]]. pose proof (rinv_len _ _ HI) as Hl. destruct HI as [Hr Hsz Hk Hnn].
  eapply Nat.le_trans.
  - unfold lg. rewrite <- Hl. apply (rb_tree_remove_lower tr y); auto.
    + apply (Forall_inv Hnl).
    + rewrite Hk. apply sortz_sorted.
    + apply (lowest_of y _ (keys t)).
      * rewrite Hk, sortz_perm. exact HP.
      * rewrite Hk. apply sortz_sorted.
      * apply Forall_forall. intros z Hz. apply in_map_iff in Hz. destruct Hz as [u [<- Hu]].
        rewrite Forall_forall in Hmin. specialize (Hmin u Hu). rewrite flt_key in Hmin; [apply Z.ltb_lt; exact Hmin| |].
        -- apply (Forall_inv Hnl).
        -- pose proof (Forall_inv_tail Hnl) as Ht. rewrite Forall_forall in Ht. apply Ht. exact Hu.
  - pose proof (cbind_ge (stat_remove_c (StRb tr) y) (fun st' => st'0 <~ stat_add_c st' x ;; lift (Ok st'0))) as Hge.
    cbn [stat_remove_c] in Hge. rewrite cmap_fst in Hge. cbn [stat_remove_c]. lia.
Qed.
