(** Heap and HeapMedian: C16, C17, C18. *)
From Coq Require Import String Permutation.
From Verif Require Import Base F64 HistSpec OrderSpec RingModel QuantileSpec QuantileProof HeapModel HeapProof HeapMedProof HeapSpec HeapReach.
Local Open Scope nat_scope.
Local Open Scope list_scope.

(** C16. In every state a heap can be brought into by New, Push, Pop, Update and
    Remove, with either comparator of HeapMedian: the items are the expected ones
    with their latest values, each records its own position and heap, none comes
    before the top, and the next operation succeeds (Pop and Peek exactly when the
    heap is not empty). *)
Theorem C16_heap cmp st h c : cmp = hm_fmin \/ cmp = hm_fmax -> hreach cmp st h c ->
  heap_spec cmp st h c /\ heap_progress cmp st h c.
Proof. intros [->| ->]; [apply (reach_spec _ fk fmin_key)|apply (reach_spec _ negk fmax_key)]. Qed.
Print Assumptions C16_heap.

(** C16, more generally: the order may be any one induced by an integer key of the values. *)
Theorem C16_heap_any_order cmp (key : f64 -> Z) st h c :
  (forall x y, nonnan x -> nonnan y -> cmp x y = (key x <? key y)%Z) -> hreach cmp st h c ->
  heap_spec cmp st h c /\ heap_progress cmp st h c.
Proof. intros H. apply (reach_spec cmp key H). Qed.
Print Assumptions C16_heap_any_order.

Definition st0 : istore := fun _ => mkItem fnan "" 0%Z.

(** New with five values, then Push, Update, Pop, Remove. *)
Definition heap_demo : res (istore * heap) :=
  '(s1, h1) <- h_new st0 0 "h" (map fz [5; 3; 8; 1; 9]%Z) hm_fmin ;;
  '(s2, h2) <- h_push (iupd s1 5 (mkItem (fz 2) "" 0%Z)) h1 5 ;;
  '(s3, h3) <- h_update s2 h2 3 (fz 7) ;;
  '(s4, h4, _) <- h_pop s3 h3 ;;
  h_remove s4 h4 2.
Example C16_demo : rmap (fun p => map (fun a => (a, fk (it_val (fst p a)), it_index (fst p a))) (h_items (snd p))) heap_demo
  = Ok [(1, fk (fz 3), 0%Z); (0, fk (fz 5), 1%Z); (3, fk (fz 7), 2%Z); (4, fk (fz 9), 3%Z)].
Proof. concrete. Qed.
Example C16_case : exists st h, heap_demo = Ok (st, h) /\
  hreach hm_fmin st h (drop_item 2 (drop_item 5 ((3, fz 7) :: drop_item 3 ((5, fz 2) :: combine (seq 0 5) (map fz [5; 3; 8; 1; 9]%Z))))).
Proof.
  pose proof C16_demo as D. apply rmap_ok in D. destruct D as ([st h] & D & _). exists st, h. split; [exact D|].
  unfold heap_demo in D. apply bind_ok in D. destruct D as ([s1 h1] & D1 & D). apply bind_ok in D. destruct D as ([s2 h2] & D2 & D).
  apply bind_ok in D. destruct D as ([s3 h3] & D3 & D). apply bind_ok in D. destruct D as ([[s4 h4] a] & D4 & D).
  assert (Ha : a = 5).
  { assert (E : rmap snd ('(s1, h1) <- h_new st0 0 "h" (map fz [5; 3; 8; 1; 9]%Z) hm_fmin ;;
  '(s2, h2) <- h_push (iupd s1 5 (mkItem (fz 2) "" 0%Z)) h1 5 ;;
  '(s3, h3) <- h_update s2 h2 3 (fz 7) ;; h_pop s3 h3) = Ok 5) by concrete.
    rewrite D1 in E. cbn [bind] in E. rewrite D2 in E. cbn [bind] in E. rewrite D3 in E. cbn [bind] in E. rewrite D4 in E.
    apply (f_equal (fun o => match o with Ok a => a | _ => 0 end)) in E. exact E. }
  subst a. eapply HR_remove; [|vm_compute; auto 10|exact D]. eapply HR_pop; [|exact D4].
  eapply HR_update; [|vm_compute; auto 10|reflexivity|exact D3].
  eapply (HR_push _ _ _ _ 5 (mkItem (fz 2) "" 0%Z)); [|cbn; lia|reflexivity|exact D2].
  apply (HR_new _ st0 0 "h" (map fz [5; 3; 8; 1; 9]%Z)); [repeat constructor|exact D1].
Qed.

(** C17. The global HeapMedian: every history of numbers is accepted; Value fails
    exactly on the empty one and otherwise is the median. *)
Theorem C17_global_heap_median ops : (forall x, In (OPush x) ops -> nonnan x) -> exists m, hm_run 0 ops = Ok m /\
  match hist ops with
  | [] => hm_value m = Err ENoValues
  | _ => exists r, hm_value m = Ok r /\ median_result (hist ops) r
  end.
Proof. exact (global_median ops). Qed.
Print Assumptions C17_global_heap_median.

Definition hm_ops (l : list Z) : list (op f64) := map (fun z => OPush (fz z)) l.
Definition hm_case (w : Z) (ops : list (op f64)) : res Z := rmap fk (m <- hm_run w ops ;; hm_value m).
Lemma hm_ops_num l : Forall nonnan (map fz l) -> forall x, In (OPush x) (hm_ops l) -> nonnan x.
Proof.
  intros H x Hx. apply in_map_iff in Hx. destruct Hx as (z & E & Hz). inversion E. subst x.
  rewrite Forall_forall in H. apply H. apply in_map. exact Hz.
Qed.

Example C17_odd : hm_case 0 (hm_ops [5; 1; 4; 2; 3]%Z) = Ok (fk (fz 3)).
Proof. concrete. Qed.
Example C17_even : hm_case 0 (hm_ops [5; 1; 4; 2]%Z) = Ok (fk (fz 3)).
Proof. concrete. Qed.
Example C17_clear : hm_case 0 (hm_ops [5; 1; 4; 2]%Z ++ OClear :: hm_ops [9; 8; 7]%Z) = Ok (fk (fz 8)).
Proof. concrete. Qed.

Lemma sim_fk x y : sim x y -> fk x = fk y.
Proof. intros [->|(s & s' & -> & ->)]; reflexivity. Qed.

(** C18 is false: with a window the code queues the item the rebalancing moved
    instead of the one just pushed, so the wrong value leaves the window. After 1..5
    with window 2 the last two values are 4 and 5, but Value is 4. *)
Theorem C18_heap_median_refuted : exists ops m r, (forall x, In (OPush x) ops -> nonnan x) /\
  hm_run 2 ops = Ok m /\ hm_value m = Ok r /\ ~ median_result (live 2 (hist ops)) r.
Proof.
  assert (D : hm_case 2 (hm_ops [1; 2; 3; 4; 5]%Z) = Ok (fk (fz 4))) by concrete.
  unfold hm_case in D. apply rmap_ok in D. destruct D as (r & D & Er). apply bind_ok in D. destruct D as (m & D1 & D2).
  exists (hm_ops [1; 2; 3; 4; 5]%Z), m, r. split; [apply hm_ops_num; repeat constructor|]. split; [exact D1|]. split; [exact D2|].
  change (live 2 (hist (hm_ops [1; 2; 3; 4; 5]%Z))) with [fz 4; fz 5]. intros [_ H].
  destruct H as (lo & hi & Hlo & Hhi & E); [exists 1; reflexivity|]. cbn [length Nat.div2 Nat.sub] in *.
  assert (P4 : is_kth [fz 4; fz 5] 0 (fz 4)) by (split; [reflexivity|]; vm_compute; lia).
  assert (P5 : is_kth [fz 4; fz 5] 1 (fz 5)) by (split; [reflexivity|]; vm_compute; lia).
  assert (Q : fk r = fk (fdiv (fadd (fz 4) (fz 5)) (fz 2))).
  { rewrite E. apply sim_fk. apply sim_fdiv, sim_fadd; eapply kth_unique; try eassumption; repeat constructor. }
  rewrite Q in Er. vm_compute in Er. discriminate.
Qed.
Print Assumptions C18_heap_median_refuted.

(** ... and with window 1 Push panics. *)
Theorem C18_heap_median_panics_refuted : exists ops, (forall x, In (OPush x) ops -> nonnan x) /\ hm_run 1 ops = Panic.
Proof.
  exists (hm_ops [1; 2; 3]%Z). split; [apply hm_ops_num; repeat constructor|].
  assert (D : rmap (fun _ => tt) (hm_run 1 (hm_ops [1; 2; 3]%Z)) = Panic) by concrete.
  destruct (hm_run 1 (hm_ops [1; 2; 3]%Z)); cbn in D; congruence.
Qed.
Print Assumptions C18_heap_median_panics_refuted.

(** What does hold for windows of at least two: no call panics, Value fails exactly
    on the empty history, and otherwise is the median of min(w, n) values that have
    all been pushed, the latest among them; until more than w values have been
    pushed these are all of them. Missing: that they are the last w, and w = 1. *)
Theorem C18_heap_median_partial w ops : (2 <= w)%Z -> (forall x, In (OPush x) ops -> nonnan x) -> exists m, hm_run w ops = Ok m /\
  match hist ops with
  | [] => hm_value m = Err ENoValues
  | _ => exists r vs, hm_value m = Ok r /\ median_result vs r /\ zlen vs = Z.min w (zlen (hist ops)) /\
           (forall v, In v vs -> In v (hist ops)) /\ In (last (hist ops) fnan) vs /\
           ((zlen (hist ops) <= w)%Z -> median_result (hist ops) r)
  end.
Proof. exact (windowed_median w ops). Qed.
Print Assumptions C18_heap_median_partial.

Example C18_filling : hm_case 4 (hm_ops [5; 1; 4; 2]%Z) = Ok (fk (fz 3)).
Proof. concrete. Qed.
Example C18_full : hm_case 3 (hm_ops [5; 1; 4; 2; 3]%Z) = Ok (fk (fz 3)).
Proof. concrete. Qed.
Example C18_negative : new_heap_median (-1) = Err ENegWindow.
Proof. reflexivity. Qed.
