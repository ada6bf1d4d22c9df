(** The loop of Min.Push and Max.Push over the deque, step by step (C01, C02). *)
From Coq Require Import ZArith List Bool.
From Verif Require Import Base F64 RingModel MinMaxModel.
Import ListNotations.

(** minmax/min.go:83-85, minmax/max.go:83-85: "for deque.Len() > 0 && cond(deque.Back()) { deque.PopBack() }",
    as the runs of the loop: [deque_loop cond d r] says that from deque [d] it ends in [r], where
    a panic of Back or PopBack ends it. *)
Inductive deque_loop (cond : f64 -> bool) : list f64 -> res (list f64) -> Prop :=
| loop_empty d : (0 <? zlen d)%Z = false -> deque_loop cond d (Ok d)
| loop_back_panic d : (0 <? zlen d)%Z = true -> dq_back d = Panic -> deque_loop cond d Panic
| loop_stop d b : (0 <? zlen d)%Z = true -> dq_back d = Ok b -> cond b = false -> deque_loop cond d (Ok d)
| loop_pop_panic d b : (0 <? zlen d)%Z = true -> dq_back d = Ok b -> cond b = true -> dq_pop_back d = Panic -> deque_loop cond d Panic
| loop_pop d b d1 r : (0 <? zlen d)%Z = true -> dq_back d = Ok b -> cond b = true -> dq_pop_back d = Ok d1 -> deque_loop cond d1 r -> deque_loop cond d r.

Lemma dq_back_last (d : list f64) b : dq_back (d ++ [b]) = Ok b.
Proof. unfold dq_back. rewrite rev_app_distr. reflexivity. Qed.
Lemma dq_pop_back_last (d : list f64) b : dq_pop_back (d ++ [b]) = Ok d.
Proof. unfold dq_pop_back. rewrite rev_app_distr. cbn. rewrite rev_involutive. reflexivity. Qed.
Lemma zlen_last (d : list f64) b : (0 <? zlen (d ++ [b]))%Z = true.
Proof. apply Z.ltb_lt. unfold zlen. rewrite app_length. cbn. rewrite Nat.add_comm. reflexivity. Qed.

(** The loop ends on every deque, never panics, and leaves exactly the deque the model computes. *)
Theorem C01_deque_loop : forall cond d r,
  deque_loop cond d r <-> r = Ok (rev (pop_while cond (rev d))).
Proof.
  intros cond d. induction d as [|b d IH] using rev_ind; intros r.
  - split.
    + intros H. inversion H; subst; try discriminate. reflexivity.
    + intros ->. apply loop_empty. reflexivity.
  - rewrite rev_app_distr. cbn [rev app pop_while]. split.
    + intros H. inversion H as [d0 E|d0 E1 E2|d0 b0 E1 E2 E3|d0 b0 E1 E2 E3 E4|d0 b0 d1 r0 E1 E2 E3 E4 E5]; subst.
      * rewrite zlen_last in E. discriminate.
      * rewrite dq_back_last in E2. discriminate.
      * rewrite dq_back_last in E2. injection E2 as <-. rewrite E3. cbn [rev]. rewrite rev_involutive. reflexivity.
      * rewrite dq_pop_back_last in E4. discriminate.
      * rewrite dq_back_last in E2. injection E2 as <-. rewrite E3. rewrite dq_pop_back_last in E4. injection E4 as <-.
        apply IH. exact E5.
    + destruct (cond b) eqn:E; intros ->.
      * eapply loop_pop; [apply zlen_last|apply dq_back_last|exact E|apply dq_pop_back_last|]. apply IH. reflexivity.
      * cbn [rev]. rewrite rev_involutive. eapply loop_stop; [apply zlen_last|apply dq_back_last|exact E].
Qed.
Print Assumptions C01_deque_loop.

(** A deque 1, 3, 5 meeting the value 2 in Min.Push: 5 and 3 are dropped. *)
Example C01_deque_loop_case : deque_loop (fun b => fgt b (fz 2)) [fz 1; fz 3; fz 5] (Ok [fz 1]).
Proof.
  apply C01_deque_loop. cbn [rev app pop_while].
  replace (fgt (fz 5) (fz 2)) with true by (vm_compute; reflexivity).
  replace (fgt (fz 3) (fz 2)) with true by (vm_compute; reflexivity).
  replace (fgt (fz 1) (fz 2)) with false by (vm_compute; reflexivity). reflexivity.
Qed.
