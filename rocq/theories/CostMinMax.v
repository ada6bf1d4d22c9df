(** Bounds on the steps of Min and Max (CostModel.v). *)
From Verif Require Import Base F64 HistSpec RingModel MinMaxModel CostModel CostErase CostTree CostQuant CostHeap.
Local Open Scope nat_scope.

(** The loop pops one value per step but the last. *)
Lemma pop_while_cl cond l : cl (pop_while_c cond l) (length l + 1) (fun d => length d <= length l) /\
  forall d, snd (pop_while_c cond l) = Ok d -> fst (pop_while_c cond l) + length d <= length l + 1.
Proof.
  assert (G : fst (pop_while_c cond l) <= length l + 1 /\ exists d, snd (pop_while_c cond l) = Ok d /\ fst (pop_while_c cond l) + length d <= length l + 1).
  { induction l as [|b t [H1 [d [H2 H3]]]]; cbn [pop_while_c].
    - cbn. split; [lia|]. exists []. auto.
    - rewrite tick_fst. destruct (cond b); cbn [length].
      + split; [lia|]. exists d. split; [exact H2|]. lia.
      + cbn. split; [lia|]. eexists. split; [reflexivity|]. cbn. lia. }
  destruct G as [H1 [d [H2 H3]]]. split; [split; [exact H1|]|]; intros d' E; assert (d' = d) by congruence; subst; [|exact H3].
  assert (1 <= fst (pop_while_c cond l)) by (destruct l; cbn [pop_while_c]; rewrite tick_fst; lia). lia.
Qed.

(** Steps plus the growth of the deque are bounded. *)
Lemma mm_push_amortised cond ext m x :
  fst (mm_push_c cond ext m x) <= length (mm_deque m) + 3 /\
  forall m', snd (mm_push_c cond ext m x) = Ok m' -> fst (mm_push_c cond ext m x) + length (mm_deque m') <= length (mm_deque m) + 3.
Proof.
  unfold mm_push_c. rewrite tick_fst, tick_snd. destruct (negb (mm_window m =? 0)%Z).
  2:{ cbn [fst snd lift]. split; [lia|]. intros m' E. injection E as <-. cbn [mm_deque]. lia. }
  set (first := if (ring_len (mm_queue m) =? mm_window m)%Z then _ else _).
  assert (Hf : forall m1, first = Ok m1 -> length (mm_deque m1) <= length (mm_deque m)).
  { unfold first. destruct (ring_len (mm_queue m) =? mm_window m)%Z.
    - intros m1 H. apply bind_ok in H. destruct H as [[v q] [_ H]]. apply bind_ok in H. destruct H as [fr [_ H]].
      apply bind_ok in H. destruct H as [d [Hd H]]. injection H as <-. cbn [mm_deque].
      destruct (feq fr v); [|injection Hd as <-; lia]. unfold dq_pop_front in Hd. destruct (mm_deque m); [discriminate|].
      injection Hd as <-. cbn. lia.
    - intros m1 H. injection H as <-. lia. }
  clearbody first. destruct first as [m1|e| | |] eqn:E1; try (cbn [cbind lift fst snd]; split; [lia|discriminate]).
  specialize (Hf m1 eq_refl). rewrite (cbind_lift _ _ _ eq_refl).
  destruct (ring_put (mm_queue m1) x) as [q|e| | |] eqn:E2; try (cbn [cbind lift fst snd]; split; [lia|discriminate]).
  rewrite (cbind_lift _ _ _ eq_refl).
  destruct (pop_while_cl (fun b => cond b x) (rev (mm_deque m1))) as [[H1 _] H2]. rewrite rev_length in *.
  destruct (pop_while_c (fun b => cond b x) (rev (mm_deque m1))) as [n [d|e| | |]] eqn:E3;
    cbn [cbind lift fst snd] in *; try (split; [lia|discriminate]).
  specialize (H2 d eq_refl). split; [lia|]. intros m' E. injection E as <-. cbn [mm_deque]. unfold dq_push_back.
  rewrite app_length, rev_length. cbn [length]. lia.
Qed.

Lemma run_c_amortised (push : mm -> f64 -> cost mm) clear :
  (forall m x, fst (push m x) <= length (mm_deque m) + 3 /\
     forall m', snd (push m x) = Ok m' -> fst (push m x) + length (mm_deque m') <= length (mm_deque m) + 3) ->
  (forall m m', clear m = Ok m' -> mm_deque m' = []) ->
  forall ops m, fst (run_c push clear ops m) <= 3 * length ops + length (mm_deque m).
Proof.
  intros Hp Hc. induction ops as [|[x|] ops IH]; intros m; cbn [run_c length].
  - cbn. lia.
  - destruct (Hp m x) as [H1 H2]. destruct (push m x) as [n [m'|e| | |]] eqn:E; cbn [fst snd] in *;
      try (cbn [cbind fst]; lia).
    rewrite (cbind_eq _ _ m') by reflexivity. specialize (H2 m' eq_refl). specialize (IH m'). cbn [fst]. lia.
  - destruct (clear m) as [m'|e| | |] eqn:E; try (cbn; lia).
    rewrite (cbind_eq _ _ m') by reflexivity. rewrite tick_fst. cbn [lift fst]. specialize (IH m'). rewrite (Hc m m' E) in IH. cbn in IH. lia.
Qed.

Lemma min_amortised w ops : fst (min_run_c w ops) <= 3 * length ops.
Proof.
  unfold min_run_c. apply cbind_lift_le. intros m E.
  assert (Hd : mm_deque m = []) by (unfold new_min in E; destruct (w <? 0)%Z; [discriminate|]; injection E as <-; reflexivity).
  eapply Nat.le_trans; [apply run_c_amortised|rewrite Hd; cbn; lia].
  - intros m0 x. apply mm_push_amortised.
  - intros m0 m' H. injection H as <-. reflexivity.
Qed.
Lemma max_amortised w ops : fst (max_run_c w ops) <= 3 * length ops.
Proof.
  unfold max_run_c. apply cbind_lift_le. intros m E.
  assert (Hd : mm_deque m = []) by (unfold new_max in E; destruct (w <? 0)%Z; [discriminate|]; injection E as <-; reflexivity).
  eapply Nat.le_trans; [apply run_c_amortised|rewrite Hd; cbn; lia].
  - intros m0 x. apply mm_push_amortised.
  - intros m0 m' H. injection H as <-. reflexivity.
Qed.
