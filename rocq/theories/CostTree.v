(** Bounds on the steps of the two trees (CostModel.v). *)
From Coq Require Import Permutation.
From Verif Require Import Base F64 OrderSpec MultisetSpec SortLib AvlModel AvlProof RbModel RbProof CostModel CostErase.
Local Open Scope nat_scope.

Lemma cbind_le {A B} (m : cost A) (k : A -> cost B) b :
  (forall a, snd m = Ok a -> fst (k a) <= b) -> fst (cbind m k) <= fst m + b.
Proof.
  destruct m as [n [a|e| | |]]; cbn; intros H; try lia. specialize (H a eq_refl). destruct (k a); cbn in *. lia.
Qed.
Lemma cbind_eq {A B} (m : cost A) (k : A -> cost B) a : snd m = Ok a -> fst (cbind m k) = fst m + fst (k a).
Proof. destruct m as [n r]. cbn. intros ->. destruct (k a). reflexivity. Qed.
Lemma cbind_lift {A B} (r : res A) (k : A -> cost B) a : r = Ok a -> cbind (lift r) k = k a.
Proof. intros ->. cbn. destruct (k a). reflexivity. Qed.
Lemma cbind_lift_le {A B} (r : res A) (k : A -> cost B) b :
  (forall a, r = Ok a -> fst (k a) <= b) -> fst (cbind (lift r) k) <= b.
Proof. intros H. pose proof (cbind_le (lift r) k b) as Hc. cbn [lift fst snd] in Hc. apply Hc. exact H. Qed.
Lemma cmap_fst {A B} (f : A -> B) (m : cost A) : fst (cmap f m) = fst m.
Proof. destruct m as [n [a|e| | |]]; cbn; lia. Qed.
Lemma tick_fst {A} (m : cost A) : fst (tick m) = S (fst m).
Proof. reflexivity. Qed.
Lemma lift_fst {A} (r : res A) : fst (lift r) = 0.
Proof. reflexivity. Qed.

(** ** AVL *)
(** Number of nodes on the longest path to nil *)
Fixpoint adepth (t : avl) : nat := match t with ALeaf => 0 | ANode l r _ _ _ => S (Nat.max (adepth l) (adepth r)) end.

Lemma adepth_height t : Z.of_nat (adepth t) = (atrue_height t + 1)%Z.
Proof. induction t as [|l IHl r IHr v h s]; cbn [adepth atrue_height]; lia. Qed.

Lemma fib_pow k : 2 ^ k <= fib (2 * k + 1).
Proof.
  induction k as [|k IH]; [cbn; lia|]. replace (2 * S k + 1) with (S (S (2 * k + 1))) by lia.
  rewrite fib_SS. pose proof (fib_mono (2 * k + 1)). cbn [Nat.pow]. lia.
Qed.
Lemma fib_log h n : fib (h + 2) <= n + 1 -> h <= 2 * Nat.log2 (n + 1).
Proof.
  intros H. assert (Hk : exists k, h = 2 * k \/ h = 2 * k + 1).
  { exists (Nat.div2 h). pose proof (Nat.div2_odd h). destruct (Nat.odd h); cbn in *; lia. }
  destruct Hk as [k Hk].
  assert (Hp : 2 ^ (h - k) <= n + 1).
  { destruct Hk as [-> | ->].
    - replace (2 * k - k) with k by lia. pose proof (fib_pow k). pose proof (fib_le (2 * k + 1) (2 * k + 2) ltac:(lia)). lia.
    - replace (2 * k + 1 - k) with (S k) by lia. pose proof (fib_pow (S k)).
      replace (2 * S k + 1) with (2 * k + 1 + 2) in H0 by lia. lia. }
  apply Nat.log2_le_mono in Hp. rewrite Nat.log2_pow2 in Hp by lia. lia.
Qed.
Lemma adepth_log t : abalanced t -> adepth t <= 2 * Nat.log2 (length (aelems t) + 1).
Proof.
  intros H. apply fib_log. pose proof (balanced_fib t H) as Hf. rewrite <- (Nat2Z.id (adepth t)).
  rewrite adepth_height. pose proof (true_height_ge t).
  replace (Z.to_nat (atrue_height t + 1) + 2) with (Z.to_nat (atrue_height t + 3)) by lia. exact Hf.
Qed.

Lemma avl_add_cost t x : fst (avl_add_c t x) <= adepth t + 1.
Proof.
  induction t as [|l IHl r IHr v h s]; [cbn; lia|]. cbn [avl_add_c adepth]. rewrite tick_fst.
  destruct (fle x v); (eapply Nat.le_trans; [apply le_n_S; apply (cbind_le _ _ 0); intros; reflexivity|]); lia.
Qed.
Lemma avl_min_cost t : fst (avl_min_c t) <= adepth t + 1.
Proof.
  induction t as [|l IHl r IHr v h s]; [cbn; lia|]. cbn [avl_min_c adepth]. rewrite tick_fst.
  destruct l; [cbn; lia|]. lia.
Qed.
Lemma avl_remove_min_cost t : fst (avl_remove_min_c t) <= adepth t + 1.
Proof.
  induction t as [|l IHl r IHr v h s]; [cbn; lia|]. cbn [avl_remove_min_c adepth]. rewrite tick_fst.
  destruct l as [|ll lr lv lh ls]; [cbn; lia|].
  eapply Nat.le_trans; [apply le_n_S; apply (cbind_le _ _ 0); intros; reflexivity|]. lia.
Qed.
Lemma avl_remove_cost t x : fst (avl_remove_c t x) <= 2 * adepth t + 1.
Proof.
  induction t as [|l IHl r IHr v h s]; [cbn; lia|]. cbn [avl_remove_c adepth]. rewrite tick_fst.
  destruct (flt x v); [|destruct (fgt x v)].
  1,2: (eapply Nat.le_trans; [apply le_n_S; apply (cbind_le _ _ 0); intros; reflexivity|]); lia.
  destruct l as [|ll lr lv lh ls]; [cbn; lia|]. destruct r as [|rl rr rv rh rs]; [cbn; lia|].
  set (r := ANode rl rr rv rh rs). pose proof (avl_min_cost r). pose proof (avl_remove_min_cost r).
  assert (fst (m <~ avl_min_c r ;; r' <~ avl_remove_min_c r ;; lift (avl_refresh (ANode ll lr lv lh ls) r' m)) <=
          fst (avl_min_c r) + fst (avl_remove_min_c r)).
  { apply cbind_le. intros m _. eapply Nat.le_trans; [apply (cbind_le _ _ 0); intros; reflexivity|]. lia. }
  assert (1 <= adepth r) by (cbn [adepth r]; lia). lia.
Qed.
Lemma avl_select_cost t : forall k, fst (avl_select_c t k) <= adepth t + 1.
Proof.
  induction t as [|l IHl r IHr v h s]; [cbn; lia|]. intros k. cbn [avl_select_c adepth]. rewrite tick_fst.
  destruct (k <? asize l)%Z; [specialize (IHl k); lia|].
  destruct (k >? asize l)%Z; [specialize (IHr (k - asize l - 1)%Z); lia|cbn; lia].
Qed.
Lemma avl_rank_cost t x : fst (avl_rank_c t x) <= adepth t + 1.
Proof.
  induction t as [|l IHl r IHr v h s]; [cbn; lia|]. cbn [avl_rank_c adepth]. rewrite tick_fst.
  destruct (flt x v); [lia|]. destruct (fgt x v); [rewrite cmap_fst; lia|cbn; lia].
Qed.

(** ** Red-black *)
Fixpoint rdepth (t : rb) : nat := match t with RLeaf => 0 | RNode l r _ _ _ => S (Nat.max (rdepth l) (rdepth r)) end.
Lemma rdepth_height t : Z.of_nat (rdepth t) = (rtrue_height t + 1)%Z.
Proof. induction t as [|l IHl r IHr v c s]; cbn [rdepth rtrue_height]; lia. Qed.
Lemma log2_nat n : Z.log2 (Z.of_nat n) = Z.of_nat (Nat.log2 n).
Proof.
  destruct n as [|n]; [reflexivity|]. apply Z.log2_unique; [lia|].
  destruct (Nat.log2_spec (S n) ltac:(lia)) as [H1 H2].
  rewrite <- Nat2Z.inj_succ. change 2%Z with (Z.of_nat 2). rewrite <- !Nat2Z.inj_pow. lia.
Qed.
Lemma rdepth_log t : rroot t -> rdepth t <= 2 * Nat.log2 (length (relems t) + 1).
Proof.
  intros H. pose proof (rroot_height t H) as Hh. rewrite <- rdepth_height in Hh. unfold zlen in Hh.
  replace (Z.of_nat (length (relems t)) + 1)%Z with (Z.of_nat (length (relems t) + 1)) in Hh by lia.
  rewrite log2_nat in Hh. lia.
Qed.

Lemma rb_add_cost t x : fst (rb_add_c t x) <= rdepth t + 1.
Proof.
  induction t as [|l IHl r IHr v c s]; [cbn; lia|]. cbn [rb_add_c rdepth]. rewrite tick_fst.
  destruct (fle x v); (eapply Nat.le_trans; [apply le_n_S; apply (cbind_le _ _ 0); intros; reflexivity|]); lia.
Qed.
Lemma rb_contains_cost t x : fst (rb_contains_c t x) <= rdepth t + 1.
Proof.
  induction t as [|l IHl r IHr v c s]; [cbn; lia|]. cbn [rb_contains_c rdepth]. rewrite tick_fst.
  destruct (feq x v); [cbn; lia|]. destruct (flt x v); lia.
Qed.
Lemma rb_min_cost t : fst (rb_min_c t) <= rdepth t + 1.
Proof.
  induction t as [|l IHl r IHr v c s]; [cbn; lia|]. cbn [rb_min_c rdepth]. rewrite tick_fst.
  destruct l; [cbn; lia|]. lia.
Qed.
Lemma rb_select_cost t : forall k, fst (rb_select_c t k) <= rdepth t + 1.
Proof.
  induction t as [|l IHl r IHr v c s]; [cbn; lia|]. intros k. cbn [rb_select_c rdepth]. rewrite tick_fst.
  destruct (k <? rsize l)%Z; [specialize (IHl k); lia|].
  destruct (k >? rsize l)%Z; [specialize (IHr (k - rsize l - 1)%Z); lia|cbn; lia].
Qed.
Lemma rb_rank_cost t x : fst (rb_rank_c t x) <= rdepth t + 1.
Proof.
  induction t as [|l IHl r IHr v c s]; [cbn; lia|]. cbn [rb_rank_c rdepth]. rewrite tick_fst.
  destruct (flt x v); [lia|]. destruct (fgt x v); [rewrite cmap_fst; lia|cbn; lia].
Qed.

(** *** An upper bound on remove *)
(** No move makes a child deeper than the node was. *)
Lemma move_left_depth n l1 r1 v1 c1 s1 : rb_move_red_left n = Ok (RNode l1 r1 v1 c1 s1) -> rdepth l1 <= rdepth n.
Proof.
  destruct n as [|l r v c s]; [discriminate|]. unfold rb_move_red_left.
  destruct l as [|ll lr lv lc ls]; [discriminate|]. destruct r as [|rl rr rv rc rs]; [discriminate|].
  cbn [rb_flip_colors rb_flip_node bind flip rleft]. destruct rl as [|zl zr zv zc zs]; cbn [rcolor is_red].
  - intros H. injection H as <- <- <- <- <-. cbn [rdepth]. lia.
  - destruct zc; cbn [is_red].
    + cbn [rb_rotate_right rb_rotate_left rb_flip_colors rb_flip_node bind flip]. intros H. injection H as <- <- <- <- <-.
      cbn [rdepth]. lia.
    + intros H. injection H as <- <- <- <- <-. cbn [rdepth]. lia.
Qed.
Lemma move_right_depth n l1 r1 v1 c1 s1 : rb_move_red_right n = Ok (RNode l1 r1 v1 c1 s1) -> rdepth r1 <= rdepth n.
Proof.
  destruct n as [|l r v c s]; [discriminate|]. unfold rb_move_red_right.
  destruct l as [|ll lr lv lc ls]; [discriminate|]. destruct r as [|rl rr rv rc rs]; [discriminate|].
  cbn [rb_flip_colors rb_flip_node bind flip rleft]. destruct ll as [|zl zr zv zc zs]; cbn [rcolor is_red].
  - intros H. injection H as <- <- <- <- <-. cbn [rdepth]. lia.
  - destruct zc; cbn [is_red].
    + cbn [rb_rotate_right rb_flip_colors rb_flip_node bind flip]. intros H. injection H as <- <- <- <- <-.
      cbn [rdepth]. lia.
    + intros H. injection H as <- <- <- <- <-. cbn [rdepth]. lia.
Qed.

Lemma rotate_right_depth n l1 r1 v1 c1 s1 : rb_rotate_right n = Ok (RNode l1 r1 v1 c1 s1) ->
  rdepth r1 <= rdepth n /\ rcolor r1 = Red.
Proof.
  destruct n as [|l r v c s]; [discriminate|]. destruct l as [|ll lr lv lc ls]; [discriminate|].
  cbn [rb_rotate_right]. intros H. injection H as <- <- <- <- <-. cbn [rdepth rcolor]. split; [lia|reflexivity].
Qed.

Lemma rb_remove_min_cost f : forall t, fst (rb_remove_min_c f t) <= f.
Proof.
  induction f as [|f IH]; [reflexivity|]. intros t. cbn [rb_remove_min_c]. rewrite tick_fst.
  destruct t as [|l r v c s]; [cbn; lia|]. destruct l as [|ll lr lv lc ls]; [cbn; lia|].
  apply le_n_S. apply cbind_lift_le. intros bb _. apply cbind_lift_le. intros [|l1 r1 v1 c1 s1] _; [cbn; lia|].
  eapply Nat.le_trans; [apply (cbind_le _ _ 0); intros; reflexivity|]. specialize (IH l1). lia.
Qed.
Lemma rb_remove_cost f D : forall t x, rdepth t <= D -> fst (rb_remove_c f t x) <= f * (D + 2) + (D + 1).
Proof.
  induction f as [|f IH]; [cbn; lia|]. intros t x HD. cbn [rb_remove_c]. rewrite tick_fst.
  pose proof (rb_contains_cost t x) as Hc.
  assert (Hk : forall b, fst (if negb b then lift (Ok t)
      else
        match t with
        | RLeaf => lift Panic
        | RNode l r v c s =>
            if flt x v then
              bb <~ lift (rb_black_black l) ;;
              n1 <~ lift (if bb : bool then rb_move_red_left t else Ok t) ;;
              match n1 with
              | RLeaf => lift Panic
              | RNode l1 r1 v1 c1 s1 =>
                  l' <~ rb_remove_c f l1 x ;; lift (rb_remove_balance (RNode l' r1 v1 c1 s1))
              end
            else
              n1 <~ lift (if is_red (rcolor l) then rb_rotate_right t else Ok t) ;;
              match n1 with
              | RLeaf => lift Panic
              | RNode l1 r1 v1 c1 s1 =>
                  if feq x v1 && match r1 with RLeaf => true | _ => false end then lift (Ok RLeaf)
                  else
                    bb <~ lift (rb_black_black r1) ;;
                    n2 <~ lift (if bb : bool then rb_move_red_right n1 else Ok n1) ;;
                    match n2 with
                    | RLeaf => lift Panic
                    | RNode l2 r2 v2 c2 s2 =>
                        if feq x v2 then
                          y <~ rb_min_c r2 ;;
                          r' <~ rb_remove_min_c f r2 ;;
                          lift (rb_remove_balance (RNode l2 r' y c2 s2))
                        else
                          r' <~ rb_remove_c f r2 x ;;
                          lift (rb_remove_balance (RNode l2 r' v2 c2 s2))
                    end
              end
        end) <= f * (D + 2) + (D + 1)).
  { intros b. destruct b; cbn [negb]; [|cbn; lia]. destruct t as [|l r v c s]; [cbn; lia|].
    assert (Hrec : forall n (B : Type) (k : rb -> res B), rdepth n <= D ->
              fst (n' <~ rb_remove_c f n x ;; lift (k n')) <= f * (D + 2) + (D + 1)).
    { intros n B k Hn. eapply Nat.le_trans; [apply (cbind_le _ _ 0); intros; reflexivity|].
      specialize (IH n x Hn). lia. }
    destruct (flt x v).
    - apply cbind_lift_le. intros bb _. apply cbind_lift_le. intros [|l1 r1 v1 c1 s1] H1; [cbn; lia|].
      apply (Hrec l1 rb (fun l' => rb_remove_balance (RNode l' r1 v1 c1 s1))).
      destruct bb; [apply move_left_depth in H1; lia|]. injection H1 as <- <- <- <- <-. cbn [rdepth] in HD. lia.
    - apply cbind_lift_le. intros [|l1 r1 v1 c1 s1] H1; [cbn; lia|].
      destruct (feq x v1 && match r1 with RLeaf => true | _ => false end); [cbn; lia|].
      apply cbind_lift_le. intros bb Hbb. apply cbind_lift_le. intros [|l2 r2 v2 c2 s2] H2; [cbn; lia|].
      assert (Hr2 : rdepth r2 <= D).
      { destruct (is_red (rcolor l)).
        - apply rotate_right_depth in H1. destruct H1 as [H1 Hcol]. unfold rb_black_black in Hbb. rewrite Hcol in Hbb.
          cbn [is_red] in Hbb. injection Hbb as <-. injection H2 as <- <- <- <- <-. lia.
        - injection H1 as <- <- <- <- <-. destruct bb; [apply move_right_depth in H2; lia|].
          injection H2 as <- <- <- <- <-. cbn [rdepth] in HD. lia. }
      destruct (feq x v2); [|apply (Hrec r2 rb (fun r' => rb_remove_balance (RNode l2 r' v2 c2 s2))); exact Hr2].
      pose proof (rb_min_cost r2). pose proof (rb_remove_min_cost f r2).
      assert (fst (y <~ rb_min_c r2 ;; r' <~ rb_remove_min_c f r2 ;; lift (rb_remove_balance (RNode l2 r' y c2 s2))) <=
              fst (rb_min_c r2) + fst (rb_remove_min_c f r2)).
      { apply cbind_le. intros m _. eapply Nat.le_trans; [apply (cbind_le _ _ 0); intros; reflexivity|]. lia. }
      assert (f <= f * (D + 2)) by lia. lia. }
  eapply Nat.le_trans; [apply le_n_S; apply cbind_le; intros b _; apply Hk|]. cbn [Nat.mul]. lia.
Qed.

(** *** More fuel changes nothing *)
Lemma cbind_inv {A B} (m : cost A) (k : A -> cost B) n b : cbind m k = (n, Ok b) ->
  exists n1 a n2, m = (n1, Ok a) /\ k a = (n2, Ok b) /\ n = n1 + n2.
Proof.
  destruct m as [n1 [a|e| | |]]; cbn; try discriminate. destruct (k a) as [n2 r] eqn:E. intros H. injection H as <- ->.
  exists n1, a, n2. auto.
Qed.
Lemma cbind_mk {A B} (m : cost A) (k : A -> cost B) n1 a n2 b :
  m = (n1, Ok a) -> k a = (n2, Ok b) -> cbind m k = (n1 + n2, Ok b).
Proof. intros -> H. cbn. rewrite H. reflexivity. Qed.
Lemma tick_inv {A} (m : cost A) n b : tick m = (n, Ok b) -> exists n', n = S n' /\ m = (n', Ok b).
Proof. destruct m as [n' r]. cbn. intros H. injection H as <- ->. eauto. Qed.

Lemma tick_mk {A} (m : cost A) n b : m = (n, Ok b) -> tick m = (S n, Ok b).
Proof. intros ->. reflexivity. Qed.
Ltac mk H := eapply cbind_mk; [exact H|].

Lemma remove_min_fuel f : forall g t n t', f <= g -> rb_remove_min_c f t = (n, Ok t') -> rb_remove_min_c g t = (n, Ok t').
Proof.
  induction f as [|f IH]; [discriminate|]. intros [|g] t n t' Hg; [lia|]. cbn [rb_remove_min_c].
  intros H. apply tick_inv in H. destruct H as [n0 [-> H]].
  destruct t as [|l r v c s]; [discriminate|]. destruct l as [|ll lr lv lc ls]; [injection H as <- <-; reflexivity|].
  apply cbind_inv in H. destruct H as [n1 [bb [n2 [H1 [H2 ->]]]]].
  apply cbind_inv in H2. destruct H2 as [n3 [m1 [n4 [H3 [H4 ->]]]]].
  destruct m1 as [|l1 r1 v1 c1 s1]; [discriminate|].
  apply cbind_inv in H4. destruct H4 as [n5 [l' [n6 [H5 [H6 ->]]]]].
  apply (IH g) in H5; [|lia].
  apply tick_mk. mk H1. mk H3. mk H5. exact H6.
Qed.
Lemma remove_fuel f : forall g t x n t', f <= g -> rb_remove_c f t x = (n, Ok t') -> rb_remove_c g t x = (n, Ok t').
Proof.
  induction f as [|f IH]; [discriminate|]. intros [|g] t x n t' Hg; [lia|]. cbn [rb_remove_c].
  intros H. apply tick_inv in H. destruct H as [n0 [-> H]].
  apply cbind_inv in H. destruct H as [n1 [b [n2 [H1 [H2 ->]]]]].
  apply tick_mk. mk H1. clear H1.
  destruct b; cbn [negb] in *; [|exact H2]. destruct t as [|l r v c s]; [exact H2|]. destruct (flt x v).
  - apply cbind_inv in H2. destruct H2 as [n3 [bb [n4 [H3 [H4 ->]]]]].
    apply cbind_inv in H4. destruct H4 as [n5 [m1 [n6 [H5 [H6 ->]]]]].
    destruct m1 as [|l1 r1 v1 c1 s1]; [discriminate|].
    apply cbind_inv in H6. destruct H6 as [n7 [l' [n8 [H7 [H8 ->]]]]].
    apply (IH g) in H7; [|lia].
    mk H3. mk H5. mk H7. exact H8.
  - apply cbind_inv in H2. destruct H2 as [n3 [m1 [n4 [H3 [H4 ->]]]]].
    destruct m1 as [|l1 r1 v1 c1 s1]; [discriminate|].
    mk H3. clear H3. cbn beta iota. destruct (feq x v1 && match r1 with RLeaf => true | _ => false end); [exact H4|].
    apply cbind_inv in H4. destruct H4 as [n5 [bb [n6 [H5 [H6 ->]]]]].
    apply cbind_inv in H6. destruct H6 as [n7 [m2 [n8 [H7 [H8 ->]]]]].
    destruct m2 as [|l2 r2 v2 c2 s2]; [discriminate|].
    mk H5. mk H7. cbn beta iota. destruct (feq x v2).
    + apply cbind_inv in H8. destruct H8 as [n9 [m [n10 [H9 [H10 ->]]]]].
      apply cbind_inv in H10. destruct H10 as [n11 [r' [n12 [H11 [H12 ->]]]]].
      apply (remove_min_fuel f g) in H11; [|lia].
      mk H9. mk H11. exact H12.
    + apply cbind_inv in H8. destruct H8 as [n9 [r' [n10 [H9 [H10 ->]]]]].
      apply (IH g) in H9; [|lia]. mk H9. exact H10.
Qed.

(** *** The colour of the root does not influence the steps *)
Lemma cbind_ext {A B} (m : cost A) (k1 k2 : A -> cost B) : (forall a, k1 a = k2 a) -> cbind m k1 = cbind m k2.
Proof. intros H. destruct m as [n [a|e| | |]]; cbn; auto. rewrite H. reflexivity. Qed.
Lemma cmap_cbind {A B C} (f : B -> C) (m : cost A) (k : A -> cost B) : cmap f (cbind m k) = cbind m (fun a => cmap f (k a)).
Proof.
  destruct m as [n [a|e| | |]]; cbn; auto; try (rewrite ?Nat.add_0_r; reflexivity).
  destruct (k a) as [n' [b|e| | |]]; cbn; auto. rewrite !Nat.add_0_r. reflexivity.
Qed.
Lemma cmap_tick {A B} (f : A -> B) (m : cost A) : cmap f (tick m) = tick (cmap f m).
Proof. destruct m as [n [a|e| | |]]; reflexivity. Qed.
Lemma cmap_lift {A B} (f : A -> B) (r : res A) : cmap f (lift r) = lift (rmap f r).
Proof. destruct r; reflexivity. Qed.
Lemma lift_rmap_bind {A B C} (f : A -> B) (r : res A) (k : B -> cost C) :
  cbind (lift (rmap f r)) k = cbind (lift r) (fun a => k (f a)).
Proof. destruct r; reflexivity. Qed.

Lemma contains_c_tog t x : rb_contains_c (tog t) x = rb_contains_c t x.
Proof. destruct t; reflexivity. Qed.
Lemma remove_c_tog f t x : rb_remove_c (S f) (tog t) x = cmap tog (rb_remove_c (S f) t x).
Proof.
  cbn [rb_remove_c]. rewrite contains_c_tog, cmap_tick. f_equal. rewrite cmap_cbind. apply cbind_ext.
  intros [|]; cbn [negb]; [|reflexivity].
  destruct t as [|l r v c s]; [reflexivity|]. cbn [tog].
  destruct (flt x v).
  - rewrite cmap_cbind. apply cbind_ext. intros bb.
    assert (H1 : (if bb then rb_move_red_left (RNode l r v (flip c) s) else Ok (RNode l r v (flip c) s)) =
                 rmap tog (if bb then rb_move_red_left (RNode l r v c s) else Ok (RNode l r v c s)))
      by (destruct bb; [apply (movel_tog (RNode l r v c s))|reflexivity]).
    rewrite H1, lift_rmap_bind, cmap_cbind. apply cbind_ext. intros [|l1 r1 v1 c1 s1]; [reflexivity|].
    cbn [tog]. rewrite cmap_cbind. apply cbind_ext. intros l'. rewrite cmap_lift. f_equal.
    apply (rembal_tog (RNode l' r1 v1 c1 s1)).
  - assert (H1 : (if is_red (rcolor l) then rb_rotate_right (RNode l r v (flip c) s) else Ok (RNode l r v (flip c) s)) =
                 rmap tog (if is_red (rcolor l) then rb_rotate_right (RNode l r v c s) else Ok (RNode l r v c s)))
      by (destruct (is_red (rcolor l)); [apply (rotr_tog (RNode l r v c s))|reflexivity]).
    rewrite H1, lift_rmap_bind, cmap_cbind. apply cbind_ext. intros [|l1 r1 v1 c1 s1]; [reflexivity|].
    cbn [tog].
    destruct (feq x v1 && match r1 with RLeaf => true | _ => false end); [reflexivity|].
    rewrite cmap_cbind. apply cbind_ext. intros bb.
    assert (H2 : (if bb then rb_move_red_right (RNode l1 r1 v1 (flip c1) s1) else Ok (RNode l1 r1 v1 (flip c1) s1)) =
                 rmap tog (if bb then rb_move_red_right (RNode l1 r1 v1 c1 s1) else Ok (RNode l1 r1 v1 c1 s1)))
      by (destruct bb; [apply (mover_tog (RNode l1 r1 v1 c1 s1))|reflexivity]).
    rewrite H2, lift_rmap_bind, cmap_cbind. apply cbind_ext. intros [|l2 r2 v2 c2 s2]; [reflexivity|].
    cbn [tog]. destruct (feq x v2).
    + rewrite cmap_cbind. apply cbind_ext. intros m. rewrite cmap_cbind. apply cbind_ext. intros r'.
      rewrite cmap_lift. f_equal. apply (rembal_tog (RNode l2 r' m c2 s2)).
    + rewrite cmap_cbind. apply cbind_ext. intros r'. rewrite cmap_lift. f_equal.
      apply (rembal_tog (RNode l2 r' v2 c2 s2)).
Qed.
Lemma rdepth_tog t : rdepth (tog t) = rdepth t.
Proof. destruct t; reflexivity. Qed.

(** A tree between calls is, up to the colour of its root, ready for a removal. *)
Lemma rroot_pre l r v c s : rroot (RNode l r v c s) ->
  exists t0 c0 h0, (RNode l r v c s = t0 \/ RNode l r v c s = tog t0) /\ rm_pre t0 c0 h0.
Proof.
  intros [cl [h [Hl Hr]]]. destruct cl.
  - exists (RNode l r v Black s), Black, (S h). split; [destruct c; [right|left]; reflexivity|].
    split; [econstructor; eassumption|]. intros _. eexists _, _, _, _, h. split; [reflexivity|]. auto.
  - exists (RNode l r v Red s), Red, h. split; [destruct c; [left|right]; reflexivity|].
    split; [constructor; assumption|discriminate].
Qed.

Lemma rb_tree_remove_cost t x : rroot t -> rsz t -> nonnan x ->
  Forall nonnan (relems t) -> sortedz (keys (relems t)) -> ceqz (fk x) (keys (relems t)) <= 1 ->
  fst (rb_tree_remove_c t x) <= (2 * Nat.log2 (length (relems t) + 1) + 2) * (rdepth t + 2) + (rdepth t + 1).
Proof.
  intros Hr Hsz Hx Hn Hs Hone. unfold rb_tree_remove_c.
  destruct (rb_contains t x) eqn:Hc.
  2:{ cbn [rb_remove_c]. rewrite tick_fst.
      rewrite (cbind_eq _ _ false) by (rewrite rb_contains_erase, Hc; reflexivity). cbn [negb lift fst].
      pose proof (rb_contains_cost t x). nia. }
  assert (Ho : once (fk x) (relems t)).
  { apply (contains_spec t x Hx Hn Hs) in Hc. unfold once.
    assert (ceqz (fk x) (keys (relems t)) <> 0); [|lia]. intros H0.
    unfold ceqz in H0. apply length_zero_iff_nil in H0.
    assert (In (fk x) (filter (fun z => z =? fk x)%Z (keys (relems t)))).
    { apply filter_In. split; [exact Hc|]. apply Z.eqb_refl. }
    rewrite H0 in H. destruct H. }
  destruct t as [|l r v c s]; [discriminate|].
  destruct (rroot_pre l r v c s Hr) as [t0 [c0 [h0 [Ht0 Hpre]]]].
  remember (RNode l r v c s) as T eqn:ET. clear ET l r v c s.
  assert (Ee : relems t0 = relems T) by (destruct Ht0 as [->| ->]; rewrite ?relems_tog; reflexivity).
  assert (S0 : rsz t0) by (destruct Ht0 as [E|E]; rewrite E in Hsz; rewrite ?rsz_tog in Hsz; exact Hsz).
  assert (D0 : rdepth t0 = rdepth T) by (destruct Ht0 as [->| ->]; rewrite ?rdepth_tog; reflexivity).
  assert (Hcost : fst (rb_remove_c (S (rb_nodes T)) T x) = fst (rb_remove_c (S (rb_nodes T)) t0 x)).
  { destruct Ht0 as [E|E]; [rewrite E; reflexivity|]. rewrite E, remove_c_tog, cmap_fst. reflexivity. }
  rewrite Hcost. clear Hcost.
  assert (Hh0 : h0 <= Nat.log2 (length (relems T) + 1)).
  { destruct Hpre as [Hll _]. apply llrb_size in Hll. rewrite Ee in Hll. apply Nat.log2_le_mono in Hll.
    rewrite Nat.log2_pow2 in Hll by lia. exact Hll. }
  set (L := Nat.log2 (length (relems T) + 1)) in *.
  destruct (rb_remove_spec (2 * h0 + 2) t0 x c0 h0) as [t' [c' [E' _]]]; rewrite ?Ee; auto.
  { right. destruct (is_red c0); lia. }
  { left. exact Hpre. }
  assert (Hb : fst (rb_remove_c (2 * h0 + 2) t0 x) <= (2 * L + 2) * (rdepth T + 2) + (rdepth T + 1)).
  { eapply Nat.le_trans; [apply (rb_remove_cost _ (rdepth T)); lia|]. nia. }
  destruct (Nat.le_gt_cases (2 * h0 + 2) (S (rb_nodes T))) as [Hle|Hgt].
  - destruct (rb_remove_c (2 * h0 + 2) t0 x) as [n rr] eqn:En.
    assert (rr = Ok t') as -> by (rewrite <- rb_remove_erase, En in E'; exact E').
    apply (remove_fuel _ (S (rb_nodes T))) in En; [|exact Hle]. rewrite En. exact Hb.
  - eapply Nat.le_trans; [apply (rb_remove_cost _ (rdepth T)); lia|]. nia.
Qed.

(** *** A lower bound on remove: the value removed is the only smallest one *)
Definition lowest (x : f64) (l : list f64) : Prop :=
  exists y e, l = y :: e /\ fk y = fk x /\ Forall (fun z => fk x < fk z)%Z e.
Lemma lowest_left x l v q : l <> [] -> lowest x (l ++ v :: q) -> lowest x l /\ (fk x < fk v)%Z.
Proof.
  intros Hl [y [e [He [Hy Hf]]]]. destruct l as [|a l]; [congruence|]. cbn in He. injection He as -> <-.
  apply Forall_app in Hf. destruct Hf as [H1 H2]. split; [exists y, l; auto|]. inversion H2; assumption.
Qed.
Lemma cbind_ge {A B} (m : cost A) (k : A -> cost B) : fst m <= fst (cbind m k).
Proof. destruct m as [n [a|e| | |]]; cbn; try lia. destruct (k a); cbn. lia. Qed.
Lemma relems_nonleaf t : t <> RLeaf -> relems t <> [].
Proof. destruct t as [|l r v c s]; [congruence|]. intros _ H. cbn in H. apply app_eq_nil in H. destruct H; discriminate. Qed.

Lemma contains_lower t : forall x c h, nonnan x -> Forall nonnan (relems t) -> llrb t c h -> lowest x (relems t) ->
  h <= fst (rb_contains_c t x).
Proof.
  induction t as [|l IHl r IHr v c s]; intros x c0 h Hx Hn Ht Hl.
  - inversion Ht; subst. lia.
  - cbn [rb_contains_c]. rewrite tick_fst. cbn [relems] in Hl, Hn.
    pose proof (nonnan_parts _ _ _ Hn) as [Hnl [Hv _]].
    assert (Hsub : exists cl hl, llrb l cl hl /\ h <= S hl).
    { inversion Ht; subst; eauto. }
    destruct Hsub as [cl [hl [Hll Hh]]].
    destruct l as [|ll lr lv lc ls].
    + inversion Hll; subst. lia.
    + apply lowest_left in Hl; [|apply relems_nonleaf; discriminate]. destruct Hl as [Hlow Hlt].
      rewrite feq_key, flt_key by assumption.
      destruct (Z.eqb_spec (fk x) (fk v)); [lia|]. destruct (Z.ltb_spec (fk x) (fk v)); [|lia].
      specialize (IHl x cl hl Hx Hnl Hll Hlow). lia.
Qed.

Lemma rb_remove_lower f : forall t x c h,
  length (relems t) < f -> rm_pre t c h -> rsz t -> nonnan x ->
  Forall nonnan (relems t) -> sortedz (keys (relems t)) -> lowest x (relems t) ->
  h * (h + 1) <= 2 * fst (rb_remove_c f t x).
Proof.
  induction f as [|f IH]; [lia|]. intros t x c h Hf [Ht Hpre] Hsz Hx Hn Hs Hlow.
  pose proof (contains_lower t x c h Hx Hn Ht Hlow) as Hcl.
  assert (Hcont : rb_contains t x = true).
  { apply contains_spec; auto. destruct Hlow as [y [e [-> [Hy _]]]]. left. exact Hy. }
  cbn [rb_remove_c]. rewrite tick_fst.
  rewrite (cbind_eq _ _ true) by (rewrite rb_contains_erase, Hcont; reflexivity). cbn [negb].
  destruct t as [|l r v c0 s]; [discriminate|].
  cbn [rsz] in Hsz. destruct Hsz as [Sl [Sr Ss]].
  cbn [relems] in Hf, Hn, Hs, Hlow. rewrite app_length in Hf. cbn [length] in Hf.
  (* it is enough that the recursive call is on a tree of black height at least h - 1 *)
  assert (Hrec : forall l2 w r2 c2 s2 cl hl,
    relems l2 ++ w :: relems r2 = relems l ++ v :: relems r -> rsz l2 -> rm_pre l2 cl hl -> l2 <> RLeaf -> h <= S hl ->
    h * (h + 1) <= 2 * S (fst (rb_contains_c (RNode l r v c0 s) x) +
      fst (l' <~ rb_remove_c f l2 x ;; lift (rb_remove_balance (RNode l' r2 w c2 s2))))).
  { intros l2 w r2 c2 s2 cl hl Hel Sl2 Hp2 Hne2 Hh.
    assert (Hlen2 : length (relems l2) < f).
    { apply (f_equal (@length f64)) in Hel. rewrite !app_length in Hel. cbn [length] in Hel. lia. }
    rewrite <- Hel in Hn, Hs, Hlow.
    pose proof (nonnan_parts _ _ _ Hn) as [Hnl2 _].
    rewrite keys_app in Hs. cbn [keys map] in Hs. pose proof (sorted_parts _ _ _ Hs) as [Hsl2 _].
    apply lowest_left in Hlow; [|apply relems_nonleaf; exact Hne2]. destruct Hlow as [Hlow2 _].
    specialize (IH l2 x cl hl Hlen2 Hp2 Sl2 Hx Hnl2 Hsl2 Hlow2).
    pose proof (cbind_ge (rb_remove_c f l2 x) (fun l' => lift (rb_remove_balance (RNode l' r2 w c2 s2)))). nia. }
  assert (Hroot : l <> RLeaf -> flt x v = true).
  { intros Hne. apply lowest_left in Hlow; [|apply relems_nonleaf; exact Hne].
    pose proof (nonnan_parts _ _ _ Hn) as [_ [Hv _]]. rewrite flt_key by assumption. apply Z.ltb_lt. apply Hlow. }
  destruct c.
  - apply llrb_red_inv in Ht. destruct Ht as [l0 [r0 [v0 [s0 [Eq [Hl Hr]]]]]]. injection Eq as <- <- <- -> <-.
    destruct h as [|h]; [lia|].
    destruct (black_black_of l h Hl) as [cll [Hbb [ll [lr [lv [ls [El [Hll Hlr]]]]]]]].
    rewrite Hroot by (subst l; discriminate). rewrite (cbind_lift _ _ _ Hbb).
    destruct cll; cbn [is_red negb].
    + rewrite (cbind_lift _ _ _ eq_refl). apply (Hrec l v r Red s Black (S h)); auto.
      * split; [exact Hl|]. intros _. subst l. eexists _, _, _, _, h. split; [reflexivity|]. auto.
      * subst l. discriminate.
    + destruct (move_red_left_spec l r v s h ll lr lv ls El Hll Hlr Hr Sl Sr)
        as [l2 [r2 [w [c2 [s2 [E2 [Hel [[p Hp] [Sl2 [Sr2 Hcase]]]]]]]]]].
      rewrite (cbind_lift _ _ _ E2).
      assert (Hne2 : l2 <> RLeaf).
      { intros ->. cbn [relems] in Hp. symmetry in Hp. apply app_eq_nil in Hp. destruct Hp as [Hp _].
        subst l. cbn [relems] in Hp. apply app_eq_nil in Hp. destruct Hp; discriminate. }
      destruct Hcase as [[-> [Hr2 [a [b [z [y [El2 [Ha Hb]]]]]]]]|[-> [Hl2 Hr2]]].
      * apply (Hrec l2 w r2 Red s2 Black (S h)); auto.
        split; [subst l2; econstructor; eassumption|]. intros _. subst l2.
        eexists _, _, _, _, h. split; [reflexivity|]. auto.
      * apply (Hrec l2 w r2 Black s2 Red h); auto. split; [exact Hl2|discriminate].
  - destruct (Hpre eq_refl) as [l0 [r0 [v0 [s0 [h' [Eq [-> Hl]]]]]]]. injection Eq as <- <- <- -> <-.
    assert (Hlne : l <> RLeaf) by (intros ->; inversion Hl).
    rewrite Hroot by exact Hlne.
    rewrite (cbind_lift (rb_black_black l) _ false) by (unfold rb_black_black; rewrite (llrb_color _ _ _ Hl); reflexivity).
    rewrite (cbind_lift _ _ _ eq_refl). apply (Hrec l v r Black s Red h'); auto. split; [exact Hl|discriminate].
Qed.

Lemma rdepth_size t : length (relems t) + 1 <= 2 ^ rdepth t.
Proof.
  induction t as [|l IHl r IHr v c s]; [cbn; lia|]. cbn [relems rdepth]. rewrite app_length. cbn [length Nat.pow].
  pose proof (Nat.pow_le_mono_r 2 (rdepth l) (Nat.max (rdepth l) (rdepth r)) ltac:(lia) ltac:(lia)).
  pose proof (Nat.pow_le_mono_r 2 (rdepth r) (Nat.max (rdepth l) (rdepth r)) ltac:(lia) ltac:(lia)). lia.
Qed.

Lemma rb_tree_remove_lower t x : rroot t -> rsz t -> nonnan x ->
  Forall nonnan (relems t) -> sortedz (keys (relems t)) -> lowest x (relems t) ->
  Nat.log2 (length (relems t) + 1) ^ 2 <= 8 * fst (rb_tree_remove_c t x) + 1.
Proof.
  intros Hr Hsz Hx Hn Hs Hlow. unfold rb_tree_remove_c.
  destruct t as [|l r v c s]; [cbn; lia|].
  destruct (rroot_pre l r v c s Hr) as [t0 [c0 [h0 [Ht0 Hpre]]]].
  remember (RNode l r v c s) as T eqn:ET. clear ET l r v c s.
  assert (Ee : relems t0 = relems T) by (destruct Ht0 as [->| ->]; rewrite ?relems_tog; reflexivity).
  assert (S0 : rsz t0) by (destruct Ht0 as [E|E]; rewrite E in Hsz; rewrite ?rsz_tog in Hsz; exact Hsz).
  assert (D0 : rdepth t0 = rdepth T) by (destruct Ht0 as [->| ->]; rewrite ?rdepth_tog; reflexivity).
  assert (Hcost : fst (rb_remove_c (S (rb_nodes T)) T x) = fst (rb_remove_c (S (rb_nodes T)) t0 x)).
  { destruct Ht0 as [E|E]; [rewrite E; reflexivity|]. rewrite E, remove_c_tog, cmap_fst. reflexivity. }
  rewrite Hcost. clear Hcost.
  pose proof (rb_remove_lower (S (rb_nodes T)) t0 x c0 h0) as Hlb. rewrite Ee in Hlb.
  specialize (Hlb ltac:(rewrite rb_nodes_elems; lia) Hpre S0 Hx Hn Hs Hlow).
  destruct Hpre as [Hll _]. apply llrb_height in Hll. rewrite <- rdepth_height, D0 in Hll.
  pose proof (rdepth_size T) as Hsize. apply Nat.log2_le_mono in Hsize. rewrite Nat.log2_pow2 in Hsize by lia.
  assert (HL : Nat.log2 (length (relems T) + 1) <= 2 * h0 + 1) by (destruct (is_red c0); lia).
  cbn [Nat.pow]. nia.
Qed.
