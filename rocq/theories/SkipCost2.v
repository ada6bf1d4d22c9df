(** Steps of Rank and Select, and the heights of the nodes after any history as a function of the random draws. *)
From Coq Require Import Permutation.
From Verif Require Import Base F64 OrderSpec MultisetSpec SortLib AvlProof SkipModel SkipProof CostModel CostErase CostTree SkipCost.
Local Open Scope nat_scope.

(** ** Rank *)
Lemma rank_walk_sim st i v : forall fuel c r p, walk_prev fuel st i v c = Ok p ->
  (exists r', rank_walk fuel st i v c r = Ok (p, r')) /\ fst (rank_walk_c fuel st i v c r) = fst (walk_prev_c fuel st i v c).
Proof.
  induction fuel as [|f IH]; intros c r p E; [discriminate|]. cbn [walk_prev rank_walk rank_walk_c walk_prev_c] in *.
  unfold get_next in *. destruct (Nat.ltb_spec i (n_lvl (st c))) as [H|H]; [|discriminate]. cbn [bind] in *.
  rewrite !(cbind_lift (Ok _) _ _ eq_refl). destruct (n_next (st c) i) as [b|]; [|injection E as <-; split; [eauto|reflexivity]].
  destruct (flt (n_val (st b)) v); [|injection E as <-; split; [eauto|reflexivity]].
  rewrite get_width_ok by exact H. cbn [bind]. rewrite (cbind_lift (Ok _) _ _ eq_refl).
  destruct (IH b (r + n_width (st c) i)%Z p E) as [E1 E2]. split; [exact E1|]. cbn [tick fst]. rewrite E2. reflexivity.
Qed.
Lemma rank_levels_sim fuel st v : forall i c r ps, get_prevs fuel st i v c = Ok ps ->
  fst (rank_levels_c fuel st i v c r) = fst (get_prevs_c fuel st i v c).
Proof.
  induction i as [|i IH]; intros c r ps E; [reflexivity|]. cbn [get_prevs rank_levels_c get_prevs_c] in *.
  apply bind_ok in E. destruct E as (p & Ep & E). apply bind_ok in E. destruct E as (rest & Er & E).
  destruct (rank_walk_sim st i v fuel c r p Ep) as [(r' & Ew) Ec].
  rewrite (cbind_eq _ _ (p, r')) by (rewrite tick_snd, rank_walk_erase; exact Ew). cbn [fst snd].
  rewrite (cbind_eq _ _ p) by (rewrite tick_snd, walk_prev_erase; exact Ep).
  rewrite (cbind_eq _ _ rest) by (rewrite get_prevs_erase; exact Er). rewrite (IH p r' rest Er). cbn [tick lift fst]. rewrite Ec. lia.
Qed.
Lemma skip_rank_cost s A B v : LInv s (A ++ B) ->
  (forall a, In a A -> flt (n_val (sk_store s a)) v = true) -> (forall b, In b B -> flt (n_val (sk_store s b)) v = false) ->
  fst (skip_rank_c s v) = sk_max s + recs 0 (rev (heights (sk_store s) A)).
Proof.
  intros I HA HB. destruct (linv_prevs s A B v I HA HB) as [prevs [Eprev _]]. unfold skip_rank_c. rewrite (rank_levels_sim _ _ _ _ _ _ _ Eprev).
  apply (linv_prevs_cost s A B v I HA HB).
Qed.

(** ** Select *)
Lemma select_walk_cost st M B i k : links st (M ++ B) -> widths st (M ++ B) -> (zlen M = k + 1)%Z ->
  forall fuel P a Q, M = P ++ a :: Q -> i < lvs st a -> length Q < fuel -> (forall b, In b Q -> lvs st b <= S i) ->
  exists P' p Q', select_walk fuel st i k (Some a) (zlen P) = Ok (Some p, zlen P') /\ M = P' ++ p :: Q' /\ i < lvs st p /\ (forall b, In b Q' -> lvs st b <= i) /\
    recs 0 (rev (heights st Q)) = fst (select_walk_c fuel st i k (Some a) (zlen P)) + recs 0 (rev (heights st Q')).
Proof.
  intros HL HW Hk. induction fuel as [|fuel IH]; [lia|]. intros P a Q E Ha Hf Hq.
  cbn [select_walk select_walk_c].
  assert (EM : M ++ B = P ++ a :: (Q ++ B)) by (rewrite E, <- app_assoc; reflexivity).
  assert (Hlen : (zlen P + zlen Q = k)%Z) by (rewrite E in Hk; unfold zlen in *; rewrite app_length in Hk; cbn [length] in Hk; lia).
  rewrite get_width_ok by exact Ha. cbn [bind]. rewrite (cbind_lift (Ok _) _ _ eq_refl). rewrite (HW _ _ _ EM i Ha).
  rewrite get_next_ok by exact Ha. cbn [bind]. rewrite (HL _ _ _ EM i Ha).
  destruct (nexti (lvs st) i Q) as [b|] eqn:EQ.
  - rewrite (dist_app_some _ _ _ _ _ EQ), (nexti_app_some _ _ _ _ _ EQ).
    destruct (nexti_some _ _ _ _ EQ) as [Q1 [Q2 [-> [Hb Hn]]]]. rewrite dist_hit by assumption.
    destruct (Z.leb_spec (zlen P + (zlen Q1 + 1)) k) as [_|H]; [|unfold zlen in *; rewrite app_length in Hlen; cbn [length] in Hlen; lia].
    rewrite (cbind_lift (Ok _) _ _ eq_refl).
    replace (zlen P + (zlen Q1 + 1))%Z with (zlen (P ++ a :: Q1)) by (unfold zlen; rewrite app_length; cbn [length]; lia).
    destruct (IH (P ++ a :: Q1) b Q2) as (P' & p & Q' & E1 & E2 & E3 & E4 & E5).
    + rewrite E, <- app_assoc. reflexivity.
    + exact Hb.
    + rewrite app_length in Hf. cbn [length] in Hf. lia.
    + intros c Hc. apply Hq, in_or_app. right. right. exact Hc.
    + exists P', p, Q'. split; [exact E1|]. split; [exact E2|]. split; [exact E3|]. split; [exact E4|].
      cbn [tick fst]. enough (HH : recs 0 (rev (heights st (Q1 ++ b :: Q2))) = S (recs 0 (rev (heights st Q2)))) by lia. clear E5.
      assert (Hbi : lvs st b = S i) by (specialize (Hq b ltac:(apply in_or_app; right; left; reflexivity)); lia).
      unfold heights. rewrite map_app, rev_app_distr. cbn [map rev]. rewrite <- app_assoc. cbn [app].
      rewrite recs_app; [|lia|].
      2:{ intros z Hz. rewrite Hbi. apply in_rev, in_map_iff in Hz. destruct Hz as (c & <- & Hc). apply Hq, in_or_app. right. right. exact Hc. }
      rewrite Hbi, (recs_top (S i)).
      * unfold cnt. rewrite (proj1 (count_occ_not_In Nat.eq_dec _ (S i))); [lia|].
        intros Hz. apply in_rev, in_map_iff in Hz. destruct Hz as (c & Ec & Hc). pose proof (nexti_none _ _ _ Hn c Hc). lia.
      * intros z Hz. apply in_rev, in_map_iff in Hz. destruct Hz as (c & <- & Hc). apply Hq, in_or_app. left. exact Hc.
  - rewrite dist_app_none by exact EQ. pose proof (dist_pos (lvs st) i B) as Hd. destruct (Z.leb_spec (zlen P + (zlen Q + dist (lvs st) i B)) k) as [H|_]; [lia|].
    exists P, a, Q. pose proof (nexti_none _ _ _ EQ) as HQ. cbn [lift fst]. repeat split; auto.
Qed.
Lemma select_levels_cost st M B k : links st (M ++ B) -> widths st (M ++ B) -> (zlen M = k + 1)%Z -> (forall b, In b (tl M) -> 1 <= lvs st b) ->
  forall i fuel P a Q, M = P ++ a :: Q -> i <= lvs st a -> length M <= fuel -> (forall b, In b Q -> lvs st b <= i) ->
  fst (select_levels_c fuel st i k (Some a) (zlen P)) = i + recs 0 (rev (heights st Q)).
Proof.
  intros HL HW Hk H1.
  assert (Htl : forall P a Q b, M = P ++ a :: Q -> In b Q -> In b (tl M)).
  { intros P a Q b -> Hb. destruct P; cbn [app tl]; [exact Hb|]. apply in_or_app. right. right. exact Hb. }
  induction i as [|i IH]; intros fuel P a Q E Ha Hf Hq.
  - destruct Q as [|b Q]; [reflexivity|]. specialize (Hq b (or_introl eq_refl)). specialize (H1 b (Htl _ _ _ _ E (or_introl eq_refl))). lia.
  - cbn [select_levels_c].
    destruct (select_walk_cost st M B i k HL HW Hk fuel P a Q E ltac:(lia)) as (P' & p & Q' & Ep & E' & Hp & Hn & Hr).
    { rewrite E, app_length in Hf. cbn [length] in Hf. lia. }
    { intros b Hb. apply Hq, Hb. }
    rewrite (cbind_eq _ _ (Some p, zlen P')) by (rewrite tick_snd, select_walk_erase; exact Ep). cbn [tick fst snd].
    rewrite (IH fuel P' p Q' E' ltac:(lia) Hf Hn), Hr. lia.
Qed.
Lemma skip_select_cost s L k : LInv s L -> widths (sk_store s) (0 :: L) -> (0 <= k < zlen L)%Z ->
  fst (skip_select_c s k) = sk_max s + recs 0 (rev (firstn (Z.to_nat (k + 1)) (heights (sk_store s) L))).
Proof.
  intros I HW Hk. unfold skip_select_c. rewrite (li_len _ _ I).
  destruct (Z.ltb_spec k 0) as [H|_]; [lia|]. destruct (Z.geb_spec k (zlen L)) as [H|_]; [lia|]. cbn [orb].
  set (K := Z.to_nat (k + 1)). rewrite <- (firstn_skipn K L) in I, HW. set (A := firstn K L) in *. set (B := skipn K L) in *.
  assert (HA : zlen A = (k + 1)%Z) by (unfold zlen, A, K in *; rewrite firstn_length; lia).
  assert (EC : fst (select_levels_c (sfuel s) (sk_store s) (sk_max s) (k + 1) (Some 0) 0) = sk_max s + recs 0 (rev (heights (sk_store s) A))).
  { change 0%Z with (zlen (@nil nat)). apply (select_levels_cost (sk_store s) (0 :: A) B (k + 1) (li_links _ _ I) HW).
    - unfold zlen in *. cbn [length]. lia.
    - intros b Hb. apply (li_lv _ _ I). apply in_or_app. left. exact Hb.
    - reflexivity.
    - rewrite (li_head _ _ I). lia.
    - pose proof (linv_fuel _ _ I) as H. unfold sfuel. cbn [length] in *. rewrite app_length in H. lia.
    - intros b Hb. apply (li_lv _ _ I). apply in_or_app. left. exact Hb. }
  unfold heights. rewrite firstn_map. fold A. change (map (lvs (sk_store s)) A) with (heights (sk_store s) A).
  destruct (snd (select_levels_c (sfuel s) (sk_store s) (sk_max s) (k + 1) (Some 0) 0)) as [r| | | |] eqn:Er.
  1: rewrite (cbind_eq _ _ r Er), EC; destruct r; cbn [lift fst]; lia.
  all: unfold cbind; destruct (select_levels_c _ _ _ _ _ _) as [n0 r0]; cbn [fst snd] in *; subst r0; exact EC.
Qed.

(** ** The heights after any history *)
(** Specification: the values the list holds in order, each with the index of the random number its node's height was drawn from.
    Add takes the next random number and puts the value before the first value that is not smaller; Remove drops the first equal value. *)
Fixpoint place (v : f64) (i : nat) (l : list (f64 * nat)) : list (f64 * nat) :=
  match l with [] => [(v, i)] | e :: t => if flt (fst e) v then e :: place v i t else (v, i) :: l end.
Fixpoint drop (v : f64) (l : list (f64 * nat)) : list (f64 * nat) :=
  match l with [] => [] | e :: t => if feq (fst e) v then t else e :: drop v t end.
Definition slot_step (p : nat * list (f64 * nat)) (o : sop) : nat * list (f64 * nat) :=
  match o with SAdd v => (S (fst p), place v (fst p) (snd p)) | SRemove v => (fst p, drop v (snd p)) | SClear => (fst p, []) end.
Definition slots (ops : list sop) : nat * list (f64 * nat) := fold_left slot_step ops (0, []).
Lemma slots_snoc ops o : slots (ops ++ [o]) = slot_step (slots ops) o.
Proof. unfold slots. rewrite fold_left_app. reflexivity. Qed.

Lemma place_app v i l1 l2 : (forall e, In e l1 -> flt (fst e) v = true) -> (forall e, In e l2 -> flt (fst e) v = false) -> place v i (l1 ++ l2) = l1 ++ (v, i) :: l2.
Proof.
  intros H1 H2. induction l1 as [|e l1 IH]; cbn [app place].
  - destruct l2 as [|e l2]; [reflexivity|]. cbn [place]. rewrite H2 by (left; reflexivity). reflexivity.
  - rewrite H1 by (left; reflexivity). rewrite IH; [reflexivity|]. intros f Hf. apply H1. right. exact Hf.
Qed.
Lemma drop_app v l1 e l2 : (forall e, In e l1 -> feq (fst e) v = false) -> feq (fst e) v = true -> drop v (l1 ++ e :: l2) = l1 ++ l2.
Proof.
  intros H1 H2. induction l1 as [|f l1 IH]; cbn [app drop]; [rewrite H2; reflexivity|].
  rewrite H1 by (left; reflexivity). rewrite IH; [reflexivity|]. intros g Hg. apply H1. right. exact Hg.
Qed.
Lemma drop_none v l : (forall e, In e l -> feq (fst e) v = false) -> drop v l = l.
Proof. induction l as [|f l IH]; intros H; [reflexivity|]. cbn [drop]. rewrite H by (left; reflexivity). rewrite IH; [reflexivity|]. intros g Hg. apply H. right. exact Hg. Qed.

(** indices are those of past draws, all different *)
Lemma place_idx v i l : Permutation (map snd (place v i l)) (i :: map snd l).
Proof.
  induction l as [|e l IH]; [reflexivity|]. cbn [place]. destruct (flt (fst e) v); [|reflexivity]. cbn [map]. rewrite IH. apply perm_swap.
Qed.
Lemma drop_in v l e : In e (drop v l) -> In e l.
Proof. induction l as [|f l IH]; [intros []|]. cbn [drop]. destruct (feq (fst f) v); [intros H; right; exact H|]. intros [->|H]; [left; reflexivity|right; apply IH, H]. Qed.
Lemma drop_nodup v l : NoDup (map snd l) -> NoDup (map snd (drop v l)).
Proof.
  induction l as [|f l IH]; intros H; [exact H|]. cbn [drop map] in *. inversion H as [|? ? H1 H2]; subst. destruct (feq (fst f) v); [exact H2|]. cbn [map]. constructor; [|apply IH, H2].
  intros Hi. apply H1. apply in_map_iff in Hi. destruct Hi as (e & <- & He). apply in_map. eapply drop_in. exact He.
Qed.
Lemma slots_idx ops : NoDup (map snd (snd (slots ops))) /\ (forall i, In i (map snd (snd (slots ops))) -> i < fst (slots ops)).
Proof.
  induction ops as [|o ops IH] using rev_ind; [split; [constructor|intros i []]|]. rewrite slots_snoc. destruct IH as [N H]. destruct o as [v|v|]; cbn [slot_step fst snd].
  - split.
    + apply (Permutation_NoDup (Permutation_sym (place_idx v (fst (slots ops)) (snd (slots ops))))). constructor; [|exact N]. intros Hi. specialize (H _ Hi). lia.
    + intros i Hi. apply (Permutation_in _ (place_idx _ _ _)) in Hi. destruct Hi as [<-|Hi]; [lia|]. specialize (H _ Hi). lia.
  - split; [apply drop_nodup, N|]. intros i Hi. apply H. apply in_map_iff in Hi. destruct Hi as (e & <- & He). apply in_map. eapply drop_in. exact He.
  - split; [constructor|intros i []].
Qed.

Definition height (mx : nat) (probs : nat -> f64) (u : f64) : nat := rand_level probs u 1 (mx - 1).
Definition slot_nodes (mx : nat) (probs rnd : nat -> f64) (l : list (f64 * nat)) : list (f64 * nat) := map (fun e => (fst e, height mx probs (rnd (snd e)))) l.
Definition nodes (st : nat -> snode) (L : list nat) : list (f64 * nat) := map (fun a => (n_val (st a), lvs st a)) L.
Lemma nodes_same st st' L : same_shape st st' -> nodes st' L = nodes st L.
Proof. intros H. unfold nodes. apply map_ext. intros a. destruct (H a) as [E1 E2]. unfold lvs. rewrite E1, E2. reflexivity. Qed.
Lemma nodes_app st A B : nodes st (A ++ B) = nodes st A ++ nodes st B.
Proof. apply map_app. Qed.
Lemma heights_nodes st L : heights st L = map snd (nodes st L).
Proof. unfold heights, nodes. rewrite map_map. reflexivity. Qed.
Lemma split_in {X Y} (f : X -> Y) (A : list X) (B C : list Y) : map f A = B ++ C -> exists A1 A2, A = A1 ++ A2 /\ map f A1 = B /\ map f A2 = C.
Proof.
  revert A. induction B as [|b B IH]; intros A E; [exists [], A; auto|]. destruct A as [|a A]; [discriminate|]. cbn [map app] in E. injection E as E1 E2.
  destruct (IH _ E2) as (A1 & A2 & -> & <- & <-). exists (a :: A1), A2. cbn. rewrite E1. auto.
Qed.
Lemma in_skeys s L a : In a L -> In (fk (n_val (sk_store s a))) (skeys s L).
Proof. intros H. unfold skeys, keys, vals. rewrite map_map. apply in_map_iff. eauto. Qed.
Lemma nodes_fst_in s A l (P : f64 -> Prop) mx probs rnd : nodes (sk_store s) A = slot_nodes mx probs rnd l -> (forall a, In a A -> P (n_val (sk_store s a))) -> forall e, In e l -> P (fst e).
Proof.
  intros E H e He. apply (in_map (fun e => (fst e, height mx probs (rnd (snd e))))) in He. fold (slot_nodes mx probs rnd l) in He. rewrite <- E in He.
  apply in_map_iff in He. destruct He as (a & Ea & Ha). injection Ea as <- _. apply H, Ha.
Qed.

Definition SlotInv (mx : nat) (probs rnd : nat -> f64) (ops : list sop) (s : skip) (L : list nat) : Prop :=
  LInv s L /\ (sk_max s = mx /\ sk_probs s = probs /\ sk_rnd s = rnd) /\ sk_draws s = fst (slots ops) /\ skeys s L = sortz (keys (bag ops)) /\
  nodes (sk_store s) L = slot_nodes mx probs rnd (snd (slots ops)) /\
  (distinct_adds ops \/ mx = 1 -> widths (sk_store s) (0 :: L) /\ (NoDup (sortz (keys (bag ops))) \/ mx = 1)).

Lemma skip_slots mx probs rnd ops : 1 <= mx -> Forall sop_nonnan ops ->
  exists s L, skip_run mx probs rnd ops = Ok s /\ SlotInv mx probs rnd ops s L.
Proof.
  intros Hm. induction ops as [|o ops IH] using rev_ind; intros Hn.
  - exists (skip_new mx probs rnd), []. split; [reflexivity|]. destruct (skip_empty_inv (skip_new mx probs rnd)) as [I W]; cbn; auto.
    split; [exact I|]. split; [repeat split|]. split; [reflexivity|]. split; [reflexivity|]. split; [reflexivity|]. intros _. split; [exact W|left; constructor].
  - apply Forall_app in Hn. destruct Hn as [Hn Ho]. apply Forall_inv in Ho.
    destruct (IH Hn) as (s & L & Hs & I & (Em & Ep & Er) & Ed & Hk & EN & HW). unfold skip_run in *. rewrite srun_snoc, Hs. cbn [bind].
    assert (HD : distinct_adds (ops ++ [o]) -> distinct_adds ops).
    { intros H1 p v q E. apply (H1 p v (q ++ [o])). rewrite E, <- app_assoc. reflexivity. }
    destruct o as [v|v|]; cbn [srun]; try (assert (Hv : nonnan v) by exact Ho).
    + destruct (skip_add_full s L v I Ho) as (s' & L' & (E & I' & Em' & Hk' & HW') & Had). rewrite E. cbn [bind]. exists s', L'. split; [reflexivity|].
      destruct (skip_add_shape s v s' E) as (Sh & (P1 & P2 & P3) & Ed'). unfold SlotInv. rewrite slots_snoc, bag_snoc. cbn [slot_step fst snd bag_step].
      split; [exact I'|]. split; [repeat split; congruence|]. split; [congruence|]. split; [cbn [keys map]; rewrite sortz_ins; fold (keys (bag ops)); congruence|]. split.
      * destruct Had as (A & B & _ & _ & _ & EL & EL' & HA & HB & _ & Hx & _). subst L L'.
        rewrite (nodes_same _ _ _ Sh). unfold nodes at 1. rewrite map_app. cbn [map].
        set (st0 := upd _ _ _) in *.
        assert (Ho' : forall c, c <> sk_fresh s -> st0 c = sk_store s c).
        { intros c Hc. unfold st0, upd. destruct (Nat.eqb_spec c (sk_fresh s)); [contradiction|reflexivity]. }
        assert (EX : st0 (sk_fresh s) = SNode (skip_rand_level s) (fun _ => None) (fun _ => 0%Z) v).
        { unfold st0, upd. rewrite Nat.eqb_refl. reflexivity. }
        assert (EQ : forall X, (forall c, In c X -> In c ((0 :: A) ++ B)) -> map (fun a => (n_val (st0 a), lvs st0 a)) X = nodes (sk_store s) X).
        { intros X HX. apply map_ext_in. intros c Hc. unfold lvs. rewrite Ho'; [reflexivity|]. intros ->. apply Hx, HX, Hc. }
        rewrite !EQ by (intros c Hc; cbn [app]; right; apply in_or_app; auto). unfold lvs. rewrite EX. cbn [n_val n_lvl].
        rewrite nodes_app in EN. unfold slot_nodes in EN. symmetry in EN. apply split_in in EN. destruct EN as (l1 & l2 & E12 & E1 & E2). rewrite E12.
        assert (NN : forall c, In c (A ++ B) -> nonnan (n_val (sk_store s c))) by (intros c Hc; apply (li_nn _ _ I); right; exact Hc).
        rewrite place_app.
        -- unfold slot_nodes. rewrite map_app. cbn [map fst snd]. rewrite E1, E2. f_equal. f_equal. f_equal. unfold skip_rand_level, height. rewrite Em, Ep, Er, Ed. reflexivity.
        -- apply (nodes_fst_in s A l1 (fun x => flt x v = true) mx probs rnd (eq_sym E1)). intros a Ha. rewrite flt_key by (auto; apply NN, in_or_app; auto). apply Z.ltb_lt, HA, in_skeys, Ha.
        -- apply (nodes_fst_in s B l2 (fun x => flt x v = false) mx probs rnd (eq_sym E2)). intros a Ha. rewrite flt_key by (auto; apply NN, in_or_app; auto). apply Z.ltb_ge, HB, in_skeys, Ha.
      * intros H1. assert (H1' : distinct_adds ops \/ mx = 1) by (destruct H1; auto). destruct (HW H1') as [W Hnd].
        assert (Hnd' : NoDup (insz (fk v) (skeys s L)) \/ mx = 1).
        { destruct H1 as [H1|H1]; [|auto]. destruct Hnd as [Hnd|]; [left|auto].
          apply (Permutation_NoDup (Permutation_sym (insz_perm (fk v) (skeys s L)))). rewrite Hk. constructor; [|exact Hnd].
          intros Hi. specialize (H1 ops v [] eq_refl). rewrite count_eq_keys in H1 by (auto using bag_nonnan).
          apply length_zero_iff_nil in H1.
          apply (Permutation_in _ (sortz_perm _)) in Hi.
          assert (Hf : In (fk v) (filter (fun z => z =? fk v)%Z (keys (bag ops)))).
          { apply filter_In. split; [exact Hi|apply Z.eqb_refl]. }
          rewrite H1 in Hf. destruct Hf. }
        split; [apply HW'; [exact W|rewrite Em; exact Hnd']|]. cbn [keys map]. rewrite sortz_ins. fold (keys (bag ops)). rewrite <- Hk. exact Hnd'.
    + destruct (skip_remove_full s L v I Ho) as (s' & L' & (E & I' & Em' & Hk' & HW') & Hrm). rewrite E. cbn [bind]. exists s', L'. split; [reflexivity|].
      destruct (skip_remove_shape s v s' E) as (Sh & (P1 & P2 & P3) & Ed'). unfold SlotInv. rewrite slots_snoc, bag_snoc. cbn [slot_step fst snd bag_step].
      assert (EK : skeys s' L' = sortz (keys (remove_one v (bag ops)))) by (rewrite remove_one_keys, sortz_rem by (auto using bag_nonnan); congruence).
      split; [exact I'|]. split; [repeat split; congruence|]. split; [congruence|]. split; [exact EK|].
      assert (NN : forall c, In c L -> nonnan (n_val (sk_store s c))) by (intros c Hc; apply (li_nn _ _ I); right; exact Hc). split.
      * rewrite (nodes_same _ _ _ Sh). destruct Hrm as [[E1 E2]|(A & x & B & _ & EL & EL' & HA & Hx & _)].
        -- subst s' L'. rewrite EN. rewrite drop_none; [reflexivity|]. apply (nodes_fst_in s L _ (fun x => feq x v = false) mx probs rnd EN). intros a Ha.
           rewrite feq_key by (first [exact Hv | apply NN, Ha]). apply Z.eqb_neq. intros EF. apply (in_skeys s) in Ha. rewrite EF in Ha.
           assert (LN : length (skeys s L) = length (remz (fk v) (skeys s L))) by (rewrite <- Hk'; reflexivity).
           pose proof (remz_length (fk v) (skeys s L) Ha). lia.
        -- subst L L'. rewrite nodes_app in EN. unfold slot_nodes in EN. symmetry in EN. apply split_in in EN. destruct EN as (l1 & l2 & E12 & E1 & E2).
           destruct l2 as [|e l2]; [discriminate|]. cbn [map nodes] in E2. injection E2 as Ee1 Ee2 E2. rewrite E12, drop_app.
           ++ unfold slot_nodes. rewrite map_app, E1, E2, nodes_app. reflexivity.
           ++ apply (nodes_fst_in s A l1 (fun x => feq x v = false) mx probs rnd (eq_sym E1)). intros a Ha. rewrite feq_key by (auto; apply NN, in_or_app; auto).
              apply Z.eqb_neq. intros EF. specialize (HA _ (in_skeys s A a Ha)). lia.
           ++ rewrite Ee1, feq_key by (auto; apply NN, in_mid). apply Z.eqb_eq, Hx.
      * intros H1. assert (H1' : distinct_adds ops \/ mx = 1) by (destruct H1; auto). destruct (HW H1') as [W Hnd]. split; [apply HW', W|].
        rewrite <- EK, Hk', Hk. destruct Hnd; [left; apply remz_nodup; assumption|auto].
    + eexists _, []. split; [reflexivity|]. unfold SlotInv. rewrite slots_snoc, bag_snoc. cbn [slot_step fst snd bag_step].
      destruct (skip_empty_inv (Skip (sk_max s) (upd (sk_store s) 0 (empty_head (sk_max s))) (sk_fresh s) 0
           (sk_probs s) (sk_rnd s) (sk_draws s))) as [I' W']; cbn [sk_max sk_store sk_fresh sk_len upd]; auto.
      * apply I.
      * apply (li_fresh _ _ I). left. reflexivity.
      * split; [exact I'|]. split; [repeat split; assumption|]. split; [exact Ed|]. split; [reflexivity|]. split; [reflexivity|]. intros _. split; [exact W'|left; constructor].
Qed.
