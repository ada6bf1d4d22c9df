(** Bounds on the steps of the heaps and of HeapMedian (CostModel.v). *)
From Coq Require Import Permutation.
From Verif Require Import Base F64 HistSpec OrderSpec RingModel HeapModel HeapProof HeapMedProof CostModel CostErase CostTree CostQuant.
Local Open Scope nat_scope.

Lemma swap_len st l i j st' l' : h_swap st l i j = Ok (st', l') -> length l' = length l.
Proof.
  unfold h_swap. intros H. apply bind_ok in H. destruct H as [a [_ H]]. apply bind_ok in H. destruct H as [b [_ H]].
  injection H as _ <-. rewrite !lset_length. reflexivity.
Qed.
Lemma less_range cmp st l i j b : h_less cmp st l i j = Ok b -> i < length l.
Proof.
  unfold h_less, hget. intros H. apply bind_ok in H. destruct H as [a [Ha _]].
  destruct (nth_error l i) eqn:E; [|discriminate]. apply nth_error_Some. congruence.
Qed.

Lemma up_cost f : forall cmp st l j, fst (h_up_c f cmp st l j) <= Nat.log2 (j + 1) + 1.
Proof.
  induction f as [|f IH]; intros cmp st l j; [cbn; lia|]. cbn [h_up_c]. rewrite tick_fst.
  destruct (Nat.eqb_spec (Nat.div2 (j - 1)) j) as [E|E]; [cbn; lia|].
  assert (Hj : 0 < j) by (destruct j; [cbn in E; congruence|lia]).
  assert (Hl : Nat.log2 (Nat.div2 (j - 1) + 1) + 1 <= Nat.log2 (j + 1)).
  { rewrite Nat.add_1_r, <- Nat.log2_double by lia. apply Nat.log2_le_mono.
    pose proof (Nat.div2_odd (j - 1)). destruct (Nat.odd (j - 1)); cbn [Nat.b2n] in *; lia. }
  apply le_n_S in Hl. eapply Nat.le_trans; [apply le_n_S|rewrite Nat.add_1_r; exact Hl].
  eapply Nat.le_trans; [apply (cbind_lift_le _ _ (Nat.log2 (Nat.div2 (j - 1) + 1) + 1))|lia].
  intros [|] _; [|cbn; lia]. apply cbind_lift_le. intros [st' l'] _. apply IH.
Qed.
Lemma up_cost_len f cmp st l j : fst (h_up_c f cmp st l j) <= lg (length l) + 1.
Proof.
  destruct f as [|f]; [cbn; lia|]. destruct (Nat.lt_ge_cases j (length l)) as [H|H].
  - eapply Nat.le_trans; [apply up_cost|]. pose proof (lg_mono j (length l) ltac:(lia)). unfold lg in *. lia.
  - cbn [h_up_c]. rewrite tick_fst. destruct (Nat.div2 (j - 1) =? j); [cbn; lia|].
    assert (Hz : fst (b <~ lift (h_less cmp st l j (Nat.div2 (j - 1))) ;;
      (if b : bool then '(st', l') <~ lift (h_swap st l (Nat.div2 (j - 1)) j) ;; h_up_c f cmp st' l' (Nat.div2 (j - 1))
       else lift (Ok (st, l)))) <= 0).
    { apply cbind_lift_le. intros b Hb. apply less_range in Hb. lia. }
    lia.
Qed.
Lemma up_len f : forall cmp st l j st' l', h_up f cmp st l j = Ok (st', l') -> length l' = length l.
Proof.
  induction f as [|f IH]; intros cmp st l j st' l'; cbn [h_up]; [discriminate|].
  destruct (Nat.div2 (j - 1) =? j); [intros H; injection H as _ <-; reflexivity|].
  intros H. apply bind_ok in H. destruct H as [[|] [_ H]]; [|injection H as _ <-; reflexivity].
  apply bind_ok in H. destruct H as [[st1 l1] [H1 H]]. apply swap_len in H1. apply IH in H. congruence.
Qed.

Lemma down_cost f : forall cmp st l i n, fst (h_down_c f cmp st l i n) <= (lg n - Nat.log2 (i + 1)) + 1.
Proof.
  induction f as [|f IH]; intros cmp st l i n; [cbn; lia|]. cbn [h_down_c]. rewrite tick_fst.
  destruct (Nat.leb_spec n (2 * i + 1)) as [H|H]; [cbn; lia|].
  rewrite (Nat.add_1_r (_ - _)). apply le_n_S. apply cbind_lift_le. intros j Hj.
  assert (Hj' : 2 * i + 1 <= j < n).
  { destruct (Nat.ltb_spec (S (2 * i + 1)) n); [|injection Hj as <-; lia].
    apply bind_ok in Hj. destruct Hj as [[|] [_ Hj]]; injection Hj as <-; lia. }
  assert (Hl : Nat.log2 (i + 1) + 1 <= Nat.log2 (j + 1) <= lg n).
  { split; [|apply Nat.log2_le_mono; lia]. rewrite Nat.add_1_r, <- Nat.log2_double by lia. apply Nat.log2_le_mono. lia. }
  apply cbind_lift_le. intros [|] _; [|cbn; lia]. apply cbind_lift_le. intros [st' l'] _.
  eapply Nat.le_trans; [apply IH|]. lia.
Qed.
Lemma down_len f : forall cmp st l i n st' l' k, h_down f cmp st l i n = Ok (st', l', k) -> length l' = length l.
Proof.
  induction f as [|f IH]; intros cmp st l i n st' l' k; cbn [h_down]; [discriminate|].
  destruct (n <=? 2 * i + 1); [intros H; injection H as _ <- _; reflexivity|].
  intros H. apply bind_ok in H. destruct H as [j [_ H]].
  apply bind_ok in H. destruct H as [[|] [_ H]]; [|injection H as _ <- _; reflexivity].
  apply bind_ok in H. destruct H as [[st1 l1] [H1 H]]. apply swap_len in H1. apply IH in H. congruence.
Qed.

Ltac cstep n := eapply Nat.le_trans; [apply (cbind_le _ _ n)|].

Lemma push_cost st h a : fst (h_push_c st h a) <= lg (h_len h) + 1.
Proof.
  unfold h_push_c. cstep 0; [intros [st2 l2] _; cbn; lia|]. rewrite Nat.add_0_r.
  eapply Nat.le_trans; [apply up_cost|]. rewrite app_length. cbn [length]. unfold lg, h_len.
  replace (length (h_items h) + 1 - 1 + 1) with (length (h_items h) + 1) by lia. lia.
Qed.
Lemma push_len st h a st' h' : h_push st h a = Ok (st', h') -> h_len h' = S (h_len h).
Proof.
  unfold h_push. intros H. apply bind_ok in H. destruct H as [[st2 l2] [H1 H]]. injection H as _ <-. apply up_len in H1.
  rewrite app_length in H1. cbn [length] in H1. unfold h_len. cbn [h_items]. lia.
Qed.
Lemma pop_last_len st l st' l' a : h_pop_last st l = Ok (st', l', a) -> length l = S (length l').
Proof.
  unfold h_pop_last. destruct (rev l) as [|b r] eqn:E; [discriminate|]. intros H. injection H as _ <- _.
  rewrite rev_length. apply (f_equal (@length nat)) in E. rewrite rev_length in E. exact E.
Qed.
Lemma pop_cost st h : fst (h_pop_c st h) <= lg (h_len h) + 1.
Proof.
  unfold h_pop_c. destruct (h_items h) eqn:El; [cbn; lia|]. rewrite <- El. apply cbind_lift_le. intros [st1 l1] _.
  cstep 0; [intros [[st2 l2] k] _; apply cbind_lift_le; intros [[st3 l3] b] _; cbn; lia|].
  eapply Nat.le_trans; [apply Nat.add_le_mono_r, down_cost|]. pose proof (lg_mono (h_len h - 1) (h_len h) ltac:(lia)). lia.
Qed.
Lemma pop_len st h st' h' a : h_pop st h = Ok (st', h', a) -> h_len h = S (h_len h').
Proof.
  unfold h_pop. destruct (h_items h) eqn:El; [discriminate|]. rewrite <- El. intros H.
  apply bind_ok in H. destruct H as [[st1 l1] [H1 H]]. apply bind_ok in H. destruct H as [[[st2 l2] k] [H2 H]].
  apply bind_ok in H. destruct H as [[[st3 l3] b] [H3 H]]. injection H as _ <- _.
  apply swap_len in H1. apply down_len in H2. apply pop_last_len in H3. unfold h_len. cbn [h_items]. congruence.
Qed.
Lemma fix_cost cmp st l k n : n <= length l -> fst (h_fix_c cmp st l k n) <= 2 * lg (length l) + 2.
Proof.
  intros Hn. unfold h_fix_c. cstep (lg (length l) + 1).
  - intros [[st1 l1] k'] H1. rewrite h_down_erase in H1. apply down_len in H1. destruct (k <? k'); [cbn; lia|].
    rewrite <- H1. apply up_cost_len.
  - pose proof (down_cost (S (length l)) cmp st l k n). pose proof (lg_mono n (length l) Hn). lia.
Qed.
Lemma fix_len cmp st l k n st' l' : h_fix cmp st l k n = Ok (st', l') -> length l' = length l.
Proof.
  unfold h_fix. intros H. apply bind_ok in H. destruct H as [[[st1 l1] k'] [H1 H]]. apply down_len in H1.
  destruct (k <? k'); [injection H as _ <-; exact H1|]. apply up_len in H. congruence.
Qed.
Lemma update_cost st h a v : fst (h_update_c st h a v) <= 2 * lg (h_len h) + 2.
Proof.
  unfold h_update_c. match goal with |- context [(?a <? 0)%Z] => destruct (a <? 0)%Z end; [cbn; lia|].
  cstep 0; [intros [st2 l2] _; cbn; lia|]. rewrite Nat.add_0_r. apply fix_cost. reflexivity.
Qed.
Lemma update_len st h a v st' h' : h_update st h a v = Ok (st', h') -> h_len h' = h_len h.
Proof.
  unfold h_update. match goal with |- context [(?a <? 0)%Z] => destruct (a <? 0)%Z end; [intros H; injection H as _ <-; reflexivity|].
  intros H. apply bind_ok in H. destruct H as [[st2 l2] [H1 H]]. injection H as _ <-. apply fix_len in H1. exact H1.
Qed.
Lemma remove_cost st h a : fst (h_remove_c st h a) <= 2 * lg (h_len h) + 2.
Proof.
  unfold h_remove_c. destruct (it_index (st a) <? 0)%Z; [cbn; lia|]. destruct (h_items h) eqn:El; [cbn; lia|]. rewrite <- El.
  cstep 0; [intros [st2 l2] _; apply cbind_lift_le; intros [[st3 l3] b] _; cbn; lia|]. rewrite Nat.add_0_r.
  destruct (negb _); [|cbn; lia]. apply cbind_lift_le. intros [st1 l1] H1. apply swap_len in H1.
  unfold h_len in *. rewrite <- H1. apply fix_cost. lia.
Qed.
Lemma remove_len st h a st' h' : h_remove st h a = Ok (st', h') -> h_len h = S (h_len h').
Proof.
  unfold h_remove. destruct (it_index (st a) <? 0)%Z; [discriminate|]. destruct (h_items h) eqn:El; [discriminate|]. rewrite <- El.
  intros H. apply bind_ok in H. destruct H as [[st2 l2] [H1 H]]. apply bind_ok in H. destruct H as [[[st3 l3] b] [H3 H]].
  injection H as _ <-. apply pop_last_len in H3. unfold h_len at 2. cbn [h_items].
  assert (length l2 = h_len h); [|congruence]. unfold h_len.
  destruct (negb _); [|injection H1 as _ <-; reflexivity].
  apply bind_ok in H1. destruct H1 as [[st1 l1] [H0 H1]]. apply swap_len in H0. apply fix_len in H1. congruence.
Qed.

Lemma rebalance_cost st lo hi a n : h_len lo + h_len hi <= n -> fst (hm_rebalance_c st lo hi a) <= 2 * lg n + 2.
Proof.
  intros Hn. unfold hm_rebalance_c.
  pose proof (lg_mono (h_len lo) n ltac:(lia)). pose proof (lg_mono (h_len hi) n ltac:(lia)).
  destruct (h_len lo + 1 <? h_len hi); [|destruct (h_len hi + 1 <? h_len lo); [|cbn; lia]].
  - cstep (lg n + 1).
    + intros [[st1 hi1] b] _. cstep 0; [intros [st2 lo1] _; cbn; lia|]. pose proof (push_cost st1 lo b). lia.
    + pose proof (pop_cost st hi). lia.
  - cstep (lg n + 1).
    + intros [[st1 lo1] b] _. cstep 0; [intros [st2 hi1] _; cbn; lia|]. pose proof (push_cost st1 hi b). lia.
    + pose proof (pop_cost st lo). lia.
Qed.

Lemma lg_succ n : lg (S n) <= lg n + 1.
Proof.
  unfold lg. rewrite Nat.add_1_r with (n := Nat.log2 _), <- Nat.log2_double by lia. apply Nat.log2_le_mono. lia.
Qed.

(** A counted computation takes at most b steps and its result, if any, satisfies P. *)
Definition cl {A} (m : cost A) (b : nat) (P : A -> Prop) : Prop := fst m <= b /\ forall a, snd m = Ok a -> P a.
Lemma cl_bind {A B} (m : cost A) (k : A -> cost B) b1 b2 b (P : A -> Prop) (Q : B -> Prop) :
  cl m b1 P -> (forall a, P a -> cl (k a) b2 Q) -> b1 + b2 <= b -> cl (cbind m k) b Q.
Proof.
  intros [H1 H2] Hk Hb. split.
  - eapply Nat.le_trans; [apply (cbind_le _ _ b2)|lia]. intros a Ha. apply Hk. auto.
  - intros a Ha. rewrite cbind_snd in Ha. apply bind_ok in Ha. destruct Ha as [a0 [H0 Ha]]. apply (Hk a0 (H2 a0 H0)). exact Ha.
Qed.
Lemma cl_lift {A} (r : res A) b (P : A -> Prop) : (forall a, r = Ok a -> P a) -> cl (lift r) b P.
Proof. intros H. split; [cbn; lia|]. exact H. Qed.
Lemma cl_ok {A} (a : A) b (P : A -> Prop) : P a -> cl (lift (Ok a)) b P.
Proof. intros H. apply cl_lift. intros a0 E. injection E as <-. exact H. Qed.
Lemma cl_any {A} (r : res A) : cl (lift r) 0 (fun _ => True).
Proof. apply cl_lift. auto. Qed.

Lemma cl_push st h a n : h_len h <= n -> cl (h_push_c st h a) (lg n + 1) (fun r => h_len (snd r) = S (h_len h)).
Proof.
  intros Hn. split; [pose proof (push_cost st h a); pose proof (lg_mono _ _ Hn); lia|].
  intros [st' h'] E. rewrite h_push_erase in E. apply push_len in E. exact E.
Qed.
Lemma cl_update st h a v n : h_len h <= n -> cl (h_update_c st h a v) (2 * lg n + 2) (fun r => h_len (snd r) = h_len h).
Proof.
  intros Hn. split; [pose proof (update_cost st h a v); pose proof (lg_mono _ _ Hn); lia|].
  intros [st' h'] E. rewrite h_update_erase in E. apply update_len in E. exact E.
Qed.
Lemma cl_remove st h a n : h_len h <= n -> cl (h_remove_c st h a) (2 * lg n + 2) (fun r => h_len h = S (h_len (snd r))).
Proof.
  intros Hn. split; [pose proof (remove_cost st h a); pose proof (lg_mono _ _ Hn); lia|].
  intros [st' h'] E. rewrite h_remove_erase in E. apply remove_len in E. exact E.
Qed.
Lemma cl_rebalance st lo hi a n : h_len lo + h_len hi <= n -> cl (hm_rebalance_c st lo hi a) (2 * lg n + 2) (fun _ => True).
Proof. intros Hn. split; [apply rebalance_cost; exact Hn|auto]. Qed.

(** Push of any state: the steps are logarithmic in the number of items held. *)
Lemma hm_push_state_cost m x : fst (hm_push_c m x) <= 5 * lg (h_len (hm_low m) + h_len (hm_high m)) + 6.
Proof.
  set (n := h_len (hm_low m) + h_len (hm_high m)).
  assert (HL : h_len (hm_low m) <= n) by (unfold n; lia). assert (HH : h_len (hm_high m) <= n) by (unfold n; lia).
  assert (Hn : h_len (hm_low m) + h_len (hm_high m) = n) by reflexivity. clearbody n.
  pose proof (lg_succ n) as HS.
  assert (G : cl (hm_push_c m x) (5 * lg n + 6) (fun _ => True)); [|apply G].
  unfold hm_push_c. eapply (cl_bind _ _ (5 * lg n + 6) 0); [| |lia].
  2:{ intros [[[[[st lo] hi] a] q] nx] _. eapply (cl_bind _ _ 0 0); [apply cl_any| |lia]. intros q' _. apply cl_any. }
  destruct (_ && _).
  - eapply (cl_bind _ _ 0 (5 * lg n + 6)); [apply cl_any| |lia]. intros [a q] _. cbv zeta.
    eapply (cl_bind _ _ 0 (5 * lg n + 6)); [apply cl_any| |lia]. intros p _.
    set (low := String.eqb _ _).
    eapply (cl_bind _ _ (3 * lg n + 4) (2 * lg n + 2) _ (fun r => h_len (snd (fst r)) + h_len (snd r) = n)); [| |lia].
    + destruct (low && fle x p); [|destruct (negb low && fgt x p); [|destruct (low && fgt x p)]].
      * eapply cl_bind; [apply (cl_update _ _ _ _ n HL)| |]; [|instantiate (1 := 0); lia].
        intros [st1 lo1] H1. cbn [snd] in H1. apply cl_ok. cbn [fst snd]. lia.
      * eapply cl_bind; [apply (cl_update _ _ _ _ n HH)| |]; [|instantiate (1 := 0); lia].
        intros [st1 hi1] H1. cbn [snd] in H1. apply cl_ok. cbn [fst snd]. lia.
      * eapply cl_bind; [apply (cl_remove _ _ _ n HL)| |]; [|instantiate (1 := lg n + 1); lia].
        intros [st1 lo1] H1. cbn [snd] in H1. eapply cl_bind; [apply (cl_push _ _ _ n HH)| |]; [|instantiate (1 := 0); lia].
        intros [st2 hi1] H2. cbn [snd] in H2. apply cl_ok. cbn [fst snd]. lia.
      * eapply cl_bind; [apply (cl_remove _ _ _ n HH)| |]; [|instantiate (1 := lg n + 1); lia].
        intros [st1 hi1] H1. cbn [snd] in H1. eapply cl_bind; [apply (cl_push _ _ _ n HL)| |]; [|instantiate (1 := 0); lia].
        intros [st2 lo1] H2. cbn [snd] in H2. apply cl_ok. cbn [fst snd]. lia.
    + intros [[st1 lo1] hi1] H1. cbn [fst snd] in H1.
      eapply cl_bind; [apply (cl_rebalance _ _ _ _ n); lia| |]; [|instantiate (1 := 0); lia].
      intros [[[st2 lo2] hi2] b] _. apply cl_any.
  - cbv zeta. eapply (cl_bind _ _ 0 (5 * lg n + 6)); [apply cl_any| |lia]. intros toLow _.
    eapply (cl_bind _ _ (lg n + 1) (2 * lg (S n) + 2) _ (fun r => h_len (snd (fst r)) + h_len (snd r) = S n)); [| |lia].
    + destruct toLow.
      * eapply cl_bind; [apply (cl_push _ _ _ n HL)| |]; [|instantiate (1 := 0); lia].
        intros [st1 lo1] H1. cbn [snd] in H1. apply cl_ok. cbn [fst snd]. lia.
      * eapply cl_bind; [apply (cl_push _ _ _ n HH)| |]; [|instantiate (1 := 0); lia].
        intros [st1 hi1] H1. cbn [snd] in H1. apply cl_ok. cbn [fst snd]. lia.
    + intros [[st1 lo1] hi1] H1. cbn [fst snd] in H1.
      eapply cl_bind; [apply (cl_rebalance _ _ _ _ (S n)); lia| |]; [|instantiate (1 := 0); lia].
      intros [[[st2 lo2] hi2] b] _. apply cl_any.
Qed.

(** The items held are as many as the values tracked, whatever they are. *)
Lemma rebalance_len st lo hi a st' lo' hi' b : hm_rebalance st lo hi a = Ok (st', lo', hi', b) ->
  h_len lo' + h_len hi' = h_len lo + h_len hi.
Proof.
  unfold hm_rebalance. destruct (h_len lo + 1 <? h_len hi); [|destruct (h_len hi + 1 <? h_len lo); [|intros H; injection H as _ <- <- _; reflexivity]];
    intros H; apply bind_ok in H as ([[st1 h1] c] & H1 & H); apply bind_ok in H as ([st2 h2] & H2 & H); injection H as _ <- <- _;
    apply pop_len in H1; apply push_len in H2; lia.
Qed.
Definition held (w : Z) (h : list f64) (m : hmed) : Prop :=
  hm_window m = w /\ h_len (hm_low m) + h_len (hm_high m) = length (live w h) /\
  length (ritems (hm_queue m)) = (if (w =? 0)%Z then 0 else length (live w h)).
Lemma live_len_push (w : Z) (h : list f64) x : (0 <= w)%Z ->
  length (live w (h ++ [x])) = if (w =? 0)%Z then S (length (live w h)) else if (zlen (live w h) =? w)%Z then length (live w h) else S (length (live w h)).
Proof.
  intros Hw. unfold live, zlen. destruct (Z.eqb_spec w 0); [rewrite app_length; cbn; lia|].
  rewrite !lastn_length, app_length. cbn [length]. destruct (Z.eqb_spec (Z.of_nat (Nat.min (Z.to_nat w) (length h))) w); lia.
Qed.
Lemma held_push w h m x m' : (0 <= w)%Z -> held w h m -> hm_push m x = Ok m' -> held w (h ++ [x]) m'.
Proof.
  intros Hw (Ew & Hl & Hq) H. unfold hm_push in H. apply bind_ok in H as ([[[[[st lo] hi] a] q] nx] & H & H').
  apply bind_ok in H' as (q' & Hq' & H'). injection H' as <-. unfold held. cbn [hm_window hm_low hm_high hm_queue].
  rewrite live_len_push by exact Hw. rewrite Ew in *. unfold ring_len in H.
  assert (Hput : (w =? 0)%Z = false -> length (ritems q') = S (length (ritems q))).
  { intros E. rewrite E in Hq'. cbn [negb] in Hq'. unfold ring_put in Hq'. destruct (_ <? _)%Z; [|discriminate]. injection Hq' as <-.
    cbn. rewrite app_length. cbn. lia. }
  assert (Hkeep : (w =? 0)%Z = true -> q' = q) by (intros E; rewrite E in Hq'; cbn [negb] in Hq'; congruence).
  unfold zlen in H. rewrite Hq in H.
  assert (Hlow : forall (lo1 hi1 : heap) st1 a0, hm_rebalance st1 lo1 hi1 a0 = Ok (st, lo, hi, a) -> h_len lo + h_len hi = h_len lo1 + h_len hi1).
  { intros lo1 hi1 st1 a0 E. apply rebalance_len in E. exact E. }
  destruct (Z.eqb_spec w 0) as [Hw0|Hw0].
  - cbn [negb andb] in H. apply bind_ok in H as (tl & _ & H). apply bind_ok in H as ([[st1 lo1] hi1] & H1 & H).
    apply bind_ok in H as ([[[st2 lo2] hi2] b] & H2 & H). injection H as -> -> -> -> <- <-. apply Hlow in H2.
    assert (Hs : h_len lo1 + h_len hi1 = S (h_len (hm_low m) + h_len (hm_high m))).
    { destruct tl; apply bind_ok in H1 as ([st3 h3] & H3 & H1); injection H1 as _ <- <-; apply push_len in H3; lia. }
    split; [reflexivity|]. split; [lia|]. rewrite Hkeep by reflexivity. exact Hq.
  - cbn [negb andb] in H. fold (zlen (live w h)) in H. destruct (Z.eqb_spec (zlen (live w h)) w) as [Hf|Hf].
    + apply bind_ok in H as ([a0 q0] & Hg & H). cbv zeta in H. apply bind_ok in H as (p & _ & H).
      apply bind_ok in H as ([[st1 lo1] hi1] & H1 & H). apply bind_ok in H as ([[[st2 lo2] hi2] b] & H2 & H).
      injection H as -> -> -> -> <- <-. apply Hlow in H2.
      assert (Hg' : length (ritems (hm_queue m)) = S (length (ritems q0))).
      { unfold ring_get in Hg. destruct (ritems (hm_queue m)) as [|z l]; [discriminate|]. injection Hg as _ <-. reflexivity. }
      assert (Hs : h_len lo1 + h_len hi1 = h_len (hm_low m) + h_len (hm_high m)).
      { set (low := String.eqb _ _) in H1.
        destruct (low && fle x p); [|destruct (negb low && fgt x p); [|destruct (low && fgt x p)]].
        - apply bind_ok in H1 as ([st3 h3] & H3 & H1). injection H1 as _ <- <-. apply update_len in H3. lia.
        - apply bind_ok in H1 as ([st3 h3] & H3 & H1). injection H1 as _ <- <-. apply update_len in H3. lia.
        - apply bind_ok in H1 as ([st3 h3] & H3 & H1). apply bind_ok in H1 as ([st4 h4] & H4 & H1). injection H1 as _ <- <-.
          apply remove_len in H3. apply push_len in H4. lia.
        - apply bind_ok in H1 as ([st3 h3] & H3 & H1). apply bind_ok in H1 as ([st4 h4] & H4 & H1). injection H1 as _ <- <-.
          apply remove_len in H3. apply push_len in H4. lia. }
      split; [reflexivity|]. split; [lia|]. rewrite Hput by reflexivity. lia.
    + apply bind_ok in H as (tl & _ & H). apply bind_ok in H as ([[st1 lo1] hi1] & H1 & H).
      apply bind_ok in H as ([[[st2 lo2] hi2] b] & H2 & H). injection H as -> -> -> -> <- <-. apply Hlow in H2.
      assert (Hs : h_len lo1 + h_len hi1 = S (h_len (hm_low m) + h_len (hm_high m))).
      { destruct tl; apply bind_ok in H1 as ([st3 h3] & H3 & H1); injection H1 as _ <- <-; apply push_len in H3; lia. }
      split; [reflexivity|]. split; [lia|]. rewrite Hput by reflexivity. lia.
Qed.
Lemma held_run w ops m : hm_run w ops = Ok m -> held w (hist ops) m.
Proof.
  unfold hm_run, new_heap_median. destruct (Z.ltb_spec w 0) as [|Hw]; [discriminate|]. cbn [bind].
  revert m. induction ops as [|o ops IH] using rev_ind; intros m H.
  - cbn in H. injection H as <-. unfold held. cbn. unfold live. destruct (w =? 0)%Z; auto.
  - rewrite run_app in H. apply bind_ok in H as (m1 & H1 & H). specialize (IH _ H1).
    destruct o as [x|]; cbn [run] in H; apply bind_ok in H as (m2 & H2 & [= <-]).
    + rewrite hist_push. eapply held_push; eassumption.
    + rewrite hist_clear. destruct IH as (Ew & _). injection H2 as <-. unfold held. cbn. rewrite Ew. unfold live. destruct (w =? 0)%Z; auto.
Qed.
Lemma hm_push_cost w ops m x : hm_run w ops = Ok m -> fst (hm_push_c m x) <= 5 * lg (length (live w (hist ops))) + 6.
Proof. intros H. apply held_run in H as (_ & <- & _). apply hm_push_state_cost. Qed.
