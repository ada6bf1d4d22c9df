(** C47: a skip list, and a Quantile over it, in the presence of equal values. *)
From Coq Require Import Reals.
From Verif Require Import Base F64 HistSpec OrderSpec RingModel MultisetSpec SkipModel SkipProof PropsSkip
  QuantileModel QuantileSpec QuantileProof PropsQuantile SkipQuant.

(** Whatever is added (equal values included), removed and cleared, and whatever the coin flips: Select
    answers every position below Size with a stored value below which at most k stored values lie (so it
    is never above the k-th smallest), answers nil elsewhere, and never panics or loops; Rank never
    panics or loops and never undercounts. *)
Theorem C47_skiplist_duplicates : forall maxLevel probs rnd ops, 1 <= maxLevel -> Forall sop_nonnan ops ->
  exists s, skip_run maxLevel probs rnd ops = Ok s /\ skip_size s = zlen (bag ops) /\
    (forall k, (0 <= k < zlen (bag ops))%Z /\
         (exists v, skip_select s k = Ok (Some v) /\ nonnan v /\ (exists y, In y (bag ops) /\ feq v y = true) /\ (Z.of_nat (count_lt v (bag ops)) <= k)%Z) \/
       ~ (0 <= k < zlen (bag ops))%Z /\ skip_select s k = Ok None) /\
    forall v, nonnan v -> exists r, skip_rank s v = Ok r /\ (Z.of_nat (count_lt v (bag ops)) <= r)%Z.
Proof. exact skip_low. Qed.
Print Assumptions C47_skiplist_duplicates.

(** The list of C10's refutation: Select(1) is 0, below the right answer 1; after one removal more,
    Rank(2) overestimates. *)
Definition dup_ops : list sop := [SAdd (fz 1); SAdd (fz 1); SAdd (fz 0)].
Example C47_case : Forall sop_nonnan dup_ops /\
  (s <- skip_run 12 half_probs (levels_src [2; 1; 2]) dup_ops ;; rmap (option_map fbits) (skip_select s 1)) = Ok (Some (fbits (fz 0))) /\
  (s <- skip_run 12 half_probs (levels_src [2; 1; 2]) dup_ops ;; rmap (option_map fbits) (skip_select s 2)) = Ok (Some (fbits (fz 1))) /\
  map (fun v => count_lt v (bag dup_ops)) [fz 0; fz 1; fz 2] = [0; 1; 3] /\
  (s <- skip_run 12 half_probs (levels_src [2; 1; 2]) dup_ops ;; skip_rank s (fz 1)) = Ok 2%Z.
Proof. concrete. Qed.

(** A Quantile over a skip list: Push never fails, and every query inside (0,1) on a nonempty window is
    answered. With Lower, Higher and Nearest interpolation the answer is a live value that is never above
    the documented quantile. (Counts above 2^53 are outside the range where float64 holds them.) *)
Theorem C47_skiplist_quantile : forall e w os ops, (0 <= w)%Z -> Forall qopt_num os -> Forall qopt_valid os ->
  pushes_nonnan ops -> chosen_impl os = 2%Z ->
  exists q, q_run e w os ops = Ok q /\ forall phi, nonnan phi ->
    (in_range phi = false -> q_value e q phi = Err EBadQuantile) /\
    (in_range phi = true -> live w (hist ops) = [] -> q_value e q phi = Err ENoValues) /\
    (in_range phi = true -> live w (hist ops) <> [] -> (zlen (live w (hist ops)) <= 2 ^ 53)%Z ->
       exists r, q_value e q phi = Ok r /\
         ((chosen_interp os = 1 \/ chosen_interp os = 2 \/ chosen_interp os = 3)%Z ->
            (exists y, In y (live w (hist ops)) /\ feq r y = true) /\
            forall y, quantile_result (chosen_interp os) (live w (hist ops)) phi y -> fle r y = true)).
Proof. exact skip_quantile_low. Qed.
Print Assumptions C47_skiplist_quantile.

(** Pushes 1 1 0 again: the Lower median is 1, the skip list says 0. *)
Definition dup_env : env :=
  mkEnv (fun _ x => if feq x (fz 1) then fdy 1 (-1) else if feq x (fz 2) then fdy 1 (-2) else fdy 1 (-3)) (levels_src [2; 1; 2]) (fun _ => 0%Z).
Definition dup_os : list qopt := [QInterp 1; QImpl 2 [OMaxLevel 12]].
Definition dup_pushes : list (op f64) := pushes [7]%Z ++ [OClear] ++ pushes [1; 1; 0]%Z.
Example C47_quantile_case : Forall qopt_num dup_os /\ Forall qopt_valid dup_os /\ pushes_nonnan dup_pushes /\ chosen_impl dup_os = 2%Z /\ chosen_interp dup_os = 1%Z /\
  rmap fbits (q <- q_run dup_env 4 dup_os (pushes [1; 1; 0]%Z) ;; q_value dup_env q (fdy 1 (-1))) = Ok (fbits (fz 0)) /\
  rmap fbits (q <- q_run dup_env 4 [QInterp 1] (pushes [1; 1; 0]%Z) ;; q_value dup_env q (fdy 1 (-1))) = Ok (fbits (fz 1)) /\
  rmap fbits (q <- q_run dup_env 4 dup_os dup_pushes ;; q_value dup_env q (fdy 1 (-1))) = Ok (fbits (fz 1)).
Proof.
  split; [repeat constructor |]. split; [unfold dup_os; apply Forall_cons; [cbn; lia |]; apply Forall_cons; [right; right; split; [reflexivity | repeat constructor; lia] | constructor] |].
  split; [apply pushes_clear; apply pushes_num; repeat constructor; vm_compute; reflexivity |]. concrete.
Qed.
