(** C09, C10: the skip list. *)
From Verif Require Import Base F64 OrderSpec MultisetSpec SortLib AvlProof SkipModel SkipProof.

(** C09. [probs] is the table of level probabilities and [rnd n] the n-th number
    drawn from the random source; both are arbitrary. *)
Theorem C09_skiplist_is_sorted_multiset : forall maxLevel probs rnd ops, 1 <= maxLevel -> Forall sop_nonnan ops ->
  exists s es, skip_run maxLevel probs rnd ops = Ok s /\ skip_size s = zlen (bag ops) /\
    skip_bottom s = Ok es /\
    (forall v, nonnan v -> count_eq v (bag ops) = count_eq v es) /\
    (forall i j x y, i < j -> nth_error es i = Some x -> nth_error es j = Some y -> fle x y = true).
Proof. exact skip_correct. Qed.
Print Assumptions C09_skiplist_is_sorted_multiset.

(** Level probabilities for p = 1/2 and a random source that yields the given
    levels (1, 2, or 3 and more). *)
Definition half_probs (n : nat) : f64 := fdy 1 (- Z.of_nat n).
Definition levels_src (l : list nat) (n : nat) : f64 :=
  match nth n l 1 with 1 => fdy 3 (-2) | 2 => fdy 3 (-3) | _ => fdy 3 (-4) end.

Definition skip_case : list sop :=
  [SAdd (fz 5); SClear; SAdd (fz 3); SAdd (fz 3); SAdd (fz 1); SAdd (fz 2); SAdd (fz 8); SAdd (fz 4);
   SRemove (fz 3); SRemove (fz 7); SRemove (fz 8)].
Example C09_case : Forall sop_nonnan skip_case /\
  rmap (map fbits) (s <- skip_run 12 half_probs (levels_src [1; 3; 2; 1; 3; 2]) skip_case ;; skip_bottom s) =
  Ok (map fbits [fz 1; fz 2; fz 3; fz 4]) /\
  rmap skip_size (skip_run 12 half_probs (levels_src [1; 3; 2; 1; 3; 2]) skip_case) = Ok 4%Z.
Proof. concrete. Qed.

(** C10 is false: with the levels 2, 1, 2 the adds 1, 1, 0 leave a list whose second
    smallest value is 1 and whose Select(1) returns 0. *)
Theorem C10_skiplist_select_refuted :
  exists maxLevel probs rnd ops, 1 <= maxLevel /\ Forall sop_nonnan ops /\
    exists s v, skip_run maxLevel probs rnd ops = Ok s /\ skip_select s 1 = Ok (Some v) /\
      (0 <= 1 < zlen (bag ops))%Z /\ ~ is_kth (bag ops) 1 v.
Proof.
  exists 12, half_probs, (levels_src [2; 1; 2]), [SAdd (fz 1); SAdd (fz 1); SAdd (fz 0)].
  split; [lia|]. split; [concrete|].
  destruct (rmap_ok (fun s => rmap (option_map (fun v => count_le v (bag [SAdd (fz 1); SAdd (fz 1); SAdd (fz 0)]))) (skip_select s 1))
    (skip_run 12 half_probs (levels_src [2; 1; 2]) [SAdd (fz 1); SAdd (fz 1); SAdd (fz 0)])
    (Ok (Some 1))) as [s [H1 H2]].
  { concrete. }
  apply rmap_ok in H2. destruct H2 as [[v|] [H2 H3]]; [|discriminate].
  exists s, v. split; [exact H1|]. split; [exact H2|]. split; [concrete|].
  apply (f_equal (fun o => match o with Some n => n | None => 0 end)) in H3.
  intros [_ [_ H]]. clear - H H3. cbv beta in H. cbn [option_map] in H3. rewrite H3 in H. lia.
Qed.
Print Assumptions C10_skiplist_select_refuted.

(** What holds: Select and Rank are exact if no value is stored twice at the same
    time, or if the list has a single level. Missing: duplicates on several levels
    (false, see above). *)
Theorem C10_skiplist_select_partial : forall maxLevel probs rnd ops, 1 <= maxLevel -> Forall sop_nonnan ops ->
  (forall p v q, ops = p ++ SAdd v :: q -> count_eq v (bag p) = 0) \/ maxLevel = 1 ->
  exists s, skip_run maxLevel probs rnd ops = Ok s /\
    (forall k, (0 <= k < zlen (bag ops))%Z /\ (exists v, skip_select s k = Ok (Some v) /\ is_kth (bag ops) (Z.to_nat k) v) \/
               ~ (0 <= k < zlen (bag ops))%Z /\ skip_select s k = Ok None) /\
    forall v, nonnan v -> skip_rank s v = Ok (Z.of_nat (count_lt v (bag ops))).
Proof. exact skip_select_correct. Qed.
Print Assumptions C10_skiplist_select_partial.

(** Deciding the hypothesis for the example. *)
Fixpoint distinct_addsb (b : list f64) (ops : list sop) : bool :=
  match ops with
  | [] => true
  | o :: t => match o with SAdd v => count_eq v b =? 0 | _ => true end && distinct_addsb (bag_step b o) t
  end.
Lemma distinct_addsb_ok ops : distinct_addsb [] ops = true -> distinct_adds ops.
Proof.
  intros H p v q ->. unfold bag. revert H. generalize (@nil f64).
  induction p as [|o p IH]; intros b; cbn [app distinct_addsb fold_left]; intros H;
    apply andb_prop in H; destruct H as [H1 H2].
  - apply Nat.eqb_eq. exact H1.
  - apply IH. exact H2.
Qed.

Definition skip_case2 : list sop :=
  [SAdd (fz 5); SAdd (fz 3); SAdd (fz 1); SRemove (fz 3); SAdd (fz 3); SAdd (fz 2); SAdd (fz 8); SRemove (fz 1); SRemove (fz 9)].
Example C10_case : Forall sop_nonnan skip_case2 /\ distinct_adds skip_case2 /\
  rmap (fun s => (map (fun k => rmap (option_map fbits) (skip_select s k)) [-1; 0; 1; 2; 3; 4]%Z, skip_rank s (fz 5)))
    (skip_run 12 half_probs (levels_src [2; 3; 1; 2; 3; 2]) skip_case2) =
  Ok ([Ok None; Ok (Some (fbits (fz 2))); Ok (Some (fbits (fz 3))); Ok (Some (fbits (fz 5))); Ok (Some (fbits (fz 8))); Ok None],
      Ok 2%Z).
Proof. split; [concrete|]. split; [apply distinct_addsb_ok; vm_compute; reflexivity|]. concrete. Qed.
