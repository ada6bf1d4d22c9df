(** HeapMedian after Clear: its items have higher addresses than those of a fresh one; nothing else differs. *)
From Coq Require Import String.
From Verif Require Import Base F64 HistSpec RingModel HeapModel.
Local Open Scope nat_scope.
Local Open Scope list_scope.

(** Results related by R: both succeed, or both fail alike. *)
Definition rrel {A B} (R : A -> B -> Prop) (x : res A) (y : res B) : Prop :=
  match x, y with
  | Ok a, Ok b => R a b
  | Err e, Err e' => e = e'
  | Panic, Panic | Hang, Hang | NoFuel, NoFuel => True
  | _, _ => False
  end.
Lemma rrel_bind {A B C D} (R : A -> B -> Prop) (Q : C -> D -> Prop) x y f g :
  rrel R x y -> (forall a b, R a b -> rrel Q (f a) (g b)) -> rrel Q (bind x f) (bind y g).
Proof. intros H F. destruct x, y; cbn in *; auto; contradiction. Qed.
Lemma rrel_eq {A} (x y : res A) : x = y -> rrel eq x y.
Proof. intros ->. destruct y; cbn; auto. Qed.
Lemma rrel_eq_inv {A} (x y : res A) : rrel eq x y -> x = y.
Proof. destruct x, y; cbn; intros H; congruence || contradiction. Qed.

Section Shift.
Variable off : nat.
Definition sh (a : nat) : nat := a + off.
Lemma sh_inj a b : sh a = sh b -> a = b.
Proof. unfold sh. lia. Qed.
Lemma sh_eqb a b : (sh a =? sh b) = (a =? b).
Proof. unfold sh. destruct (Nat.eqb_spec a b), (Nat.eqb_spec (a + off) (b + off)); auto; lia. Qed.

(** Stores that agree on the first n items, and the item lists *)
Definition srel (n : nat) (st st' : istore) : Prop := forall a, a < n -> st (sh a) = st' a.
Definition lrel (n : nat) (l l' : list nat) : Prop := l = map sh l' /\ Forall (fun a => a < n) l'.
Definition slrel n (p : istore * list nat) (p' : istore * list nat) : Prop := srel n (fst p) (fst p') /\ lrel n (snd p) (snd p').
Definition arel n (a a' : nat) : Prop := a = sh a' /\ a' < n.

Lemma srel_upd n st st' a x : srel n st st' -> srel n (iupd st (sh a) x) (iupd st' a x).
Proof. intros H b Hb. unfold iupd. rewrite sh_eqb. destruct (b =? a); auto. Qed.
Lemma hget_rel n l l' i : lrel n l l' -> rrel (arel n) (hget l i) (hget l' i).
Proof.
  intros [-> F]. unfold hget. rewrite nth_error_map. destruct (nth_error l' i) as [a |] eqn:E; cbn; auto.
  split; auto. rewrite Forall_forall in F. apply F. eapply nth_error_In; eauto.
Qed.
Lemma lset_map l i x : lset (map sh l) i (sh x) = map sh (lset l i x).
Proof. revert i. induction l; destruct i; cbn; congruence. Qed.
Lemma lset_all n l i x : Forall (fun a => a < n) l -> x < n -> Forall (fun a => a < n) (lset l i x).
Proof. revert i. induction l; destruct i; cbn; intros F Hx; inversion F; auto. Qed.
Lemma lrel_set n l l' i a a' : lrel n l l' -> arel n a a' -> lrel n (lset l i a) (lset l' i a').
Proof. intros [-> F] [-> Ha]. split; [apply lset_map | now apply lset_all]. Qed.
Lemma lrel_len n l l' : lrel n l l' -> length l = length l'.
Proof. intros [-> _]. apply map_length. Qed.

Lemma h_less_rel n cmp st st' l l' i j : srel n st st' -> lrel n l l' -> rrel eq (h_less cmp st l i j) (h_less cmp st' l' i j).
Proof.
  intros Hs Hl. unfold h_less. eapply rrel_bind; [eapply hget_rel; eauto |]. intros a a' [-> Ha].
  eapply rrel_bind; [eapply hget_rel; eauto |]. intros b b' [-> Hb]. cbn. now rewrite !Hs.
Qed.
Lemma h_swap_rel n st st' l l' i j : srel n st st' -> lrel n l l' -> rrel (slrel n) (h_swap st l i j) (h_swap st' l' i j).
Proof.
  intros Hs Hl. unfold h_swap. eapply rrel_bind; [eapply hget_rel; eauto |]. intros a a' [-> Ha].
  eapply rrel_bind; [eapply hget_rel; eauto |]. intros b b' [-> Hb]. cbn. split; cbn [fst snd].
  - rewrite (Hs b') by auto. assert (S1 := srel_upd n st st' b' (set_index (st' b') (Z.of_nat i)) Hs). rewrite (S1 a' Ha). now apply srel_upd.
  - apply lrel_set; [apply lrel_set; auto; split; auto | split; auto].
Qed.
Lemma h_up_rel n cmp : forall fuel st st' l l' j, srel n st st' -> lrel n l l' -> rrel (slrel n) (h_up fuel cmp st l j) (h_up fuel cmp st' l' j).
Proof.
  induction fuel as [| f IH]; intros st st' l l' j Hs Hl; [exact I |]. cbn [h_up].
  destruct (_ =? _); [cbn; split; auto |].
  eapply rrel_bind; [eapply h_less_rel; eauto |]. intros b ? <-. destruct b; [| cbn; split; auto].
  eapply rrel_bind; [eapply h_swap_rel; eauto |]. intros (s1 & l1) (s2 & l2) [H1 H2]. apply IH; auto.
Qed.
Definition sl3 n {X} (p p' : istore * list nat * X) : Prop := slrel n (fst p) (fst p') /\ snd p = snd p'.
Lemma h_down_rel n cmp : forall fuel st st' l l' i k, srel n st st' -> lrel n l l' -> rrel (sl3 n) (h_down fuel cmp st l i k) (h_down fuel cmp st' l' i k).
Proof.
  induction fuel as [| f IH]; intros st st' l l' i k Hs Hl; [exact I |]. cbn [h_down].
  destruct (_ <=? _); [cbn; split; auto; split; auto |].
  eapply rrel_bind with (R := eq).
  { destruct (_ <? _); [| reflexivity]. eapply rrel_bind; [eapply h_less_rel; eauto |]. intros b ? <-. reflexivity. }
  intros j ? <-. eapply rrel_bind; [eapply h_less_rel; eauto |]. intros b ? <-. destruct b; [| cbn; split; auto; split; auto].
  eapply rrel_bind; [eapply h_swap_rel; eauto |]. intros (s1 & l1) (s2 & l2) [H1 H2]. apply IH; auto.
Qed.

(** Heaps *)
Definition hrel n (h h' : heap) : Prop := h_id h = h_id h' /\ h_cmp h = h_cmp h' /\ lrel n (h_items h) (h_items h').
Definition shrel n (p p' : istore * heap) : Prop := srel n (fst p) (fst p') /\ hrel n (snd p) (snd p').
Lemma hrel_len n h h' : hrel n h h' -> h_len h = h_len h'.
Proof. intros (_ & _ & H). now apply lrel_len in H. Qed.
Lemma h_push_rel n st st' h h' a : srel n st st' -> hrel n h h' -> a < n -> rrel (shrel n) (h_push st h (sh a)) (h_push st' h' a).
Proof.
  intros Hs (E1 & E2 & Hl) Ha. unfold h_push. rewrite (Hs a Ha), E1, E2, (lrel_len _ _ _ Hl).
  assert (Hl' : lrel n (h_items h ++ [sh a]) (h_items h' ++ [a])).
  { destruct Hl as [-> F]. split; [now rewrite map_app | apply Forall_app; auto]. }
  rewrite (lrel_len _ _ _ Hl').
  eapply rrel_bind; [eapply h_up_rel; eauto; now apply srel_upd |]. intros (s1 & l1) (s2 & l2) [H1 H2]. cbn. repeat split; auto; apply H2.
Qed.
Definition sla n (p p' : istore * list nat * nat) : Prop := slrel n (fst p) (fst p') /\ arel n (snd p) (snd p').
Lemma h_pop_last_rel n st st' l l' : srel n st st' -> lrel n l l' -> rrel (sla n) (h_pop_last st l) (h_pop_last st' l').
Proof.
  intros Hs [-> F]. unfold h_pop_last. rewrite <- map_rev. apply Forall_rev in F. destruct (rev l') as [| a r]; cbn; auto.
  inversion F; subst. rewrite (Hs a) by auto. split; cbn [fst snd]; [split; cbn [fst snd] |].
  - now apply srel_upd.
  - split; [symmetry; apply map_rev | now apply Forall_rev].
  - split; auto.
Qed.
Definition sha n (p p' : istore * heap * nat) : Prop := shrel n (fst p) (fst p') /\ arel n (snd p) (snd p').
Lemma h_pop_rel n st st' h h' : srel n st st' -> hrel n h h' -> rrel (sha n) (h_pop st h) (h_pop st' h').
Proof.
  intros Hs Hh. pose proof (hrel_len _ _ _ Hh) as EL. destruct Hh as (E1 & E2 & Hl). unfold h_pop. rewrite EL, E1, E2.
  destruct (h_items h) as [| b l] eqn:Ei, (h_items h') as [| b' l'] eqn:Ei'; try exact I; try (destruct Hl; discriminate).
  eapply rrel_bind; [eapply h_swap_rel; eauto |]. intros (s1 & l1) (s1' & l1') [H1 H2]. cbn [fst snd] in *. rewrite (lrel_len _ _ _ H2).
  eapply rrel_bind; [eapply h_down_rel; eauto |]. intros ((s2 & l2) & k) ((s2' & l2') & k') [[H3 H4] _]. cbn [fst snd] in *.
  eapply rrel_bind; [eapply h_pop_last_rel; eauto |]. intros ((s3 & l3) & a) ((s3' & l3') & a') [[H5 H6] H7]. cbn in *.
  split; cbn; auto. split; cbn; auto. repeat split; auto; apply H6.
Qed.
Lemma h_fix_rel n cmp st st' l l' i k : srel n st st' -> lrel n l l' -> rrel (slrel n) (h_fix cmp st l i k) (h_fix cmp st' l' i k).
Proof.
  intros Hs Hl. unfold h_fix. rewrite (lrel_len _ _ _ Hl).
  eapply rrel_bind; [eapply h_down_rel; eauto |]. intros ((s2 & l2) & j) ((s2' & l2') & j') [[H3 H4] E]. cbn [fst snd] in *. subst j'.
  destruct (_ <? _); [cbn; split; auto | now apply h_up_rel].
Qed.
Lemma h_update_rel n st st' h h' a v : srel n st st' -> hrel n h h' -> a < n -> rrel (shrel n) (h_update st h (sh a) v) (h_update st' h' a v).
Proof.
  intros Hs Hh Ha. pose proof (hrel_len _ _ _ Hh) as EL. pose proof Hh as (E1 & E2 & Hl). unfold h_update.
  rewrite (Hs a Ha), E1, E2, EL. assert (S1 := srel_upd n st st' a (set_val (st' a) v) Hs). rewrite (S1 a Ha).
  destruct (_ <? _)%Z; [cbn; split; auto |].
  eapply rrel_bind; [eapply h_fix_rel; eauto |]. intros (s1 & l1) (s2 & l2) [H1 H2]. cbn. repeat split; auto; apply H2.
Qed.
Lemma h_remove_rel n st st' h h' a : srel n st st' -> hrel n h h' -> a < n -> rrel (shrel n) (h_remove st h (sh a)) (h_remove st' h' a).
Proof.
  intros Hs Hh Ha. pose proof (hrel_len _ _ _ Hh) as EL. pose proof Hh as (E1 & E2 & Hl). unfold h_remove.
  rewrite (Hs a Ha), EL, E1, E2. destruct (_ <? _)%Z; [exact I |].
  destruct (h_items h) as [| b l] eqn:Ei, (h_items h') as [| b' l'] eqn:Ei'; try exact I; try (destruct Hl; discriminate).
  eapply rrel_bind with (R := slrel n).
  { destruct (negb _); [| cbn; split; auto].
    eapply rrel_bind; [eapply h_swap_rel; eauto |]. intros (s1 & l1) (s1' & l1') [H1 H2]. now apply h_fix_rel. }
  intros (s2 & l2) (s2' & l2') [H3 H4]. cbn [fst snd] in *.
  eapply rrel_bind; [eapply h_pop_last_rel; eauto |]. intros ((s3 & l3) & c) ((s3' & l3') & c') [[H5 H6] H7]. cbn in *.
  repeat split; auto; apply H6.
Qed.
Lemma h_peek_rel n st st' h h' : srel n st st' -> hrel n h h' -> rrel eq (h_peek st h) (h_peek st' h').
Proof.
  intros Hs (_ & _ & Hl). unfold h_peek. eapply rrel_bind; [eapply hget_rel; eauto |]. intros a a' [-> Ha]. cbn. now rewrite Hs.
Qed.

(** The metric *)
Definition shh n (p p' : istore * heap * heap) : Prop := srel n (fst (fst p)) (fst (fst p')) /\ hrel n (snd (fst p)) (snd (fst p')) /\ hrel n (snd p) (snd p').
Lemma hm_rebalance_rel n st st' lo lo' hi hi' a : srel n st st' -> hrel n lo lo' -> hrel n hi hi' -> a < n ->
  rrel (fun p p' => shh n (fst p) (fst p') /\ arel n (snd p) (snd p')) (hm_rebalance st lo hi (sh a)) (hm_rebalance st' lo' hi' a).
Proof.
  intros Hs H1 H2 Ha. unfold hm_rebalance. rewrite (hrel_len _ _ _ H1), (hrel_len _ _ _ H2).
  destruct (_ <? _); [| destruct (_ <? _)].
  - eapply rrel_bind; [eapply h_pop_rel; eauto |]. intros ((s1 & g1) & b) ((s1' & g1') & b') [[H3 H4] H7]. cbn [fst snd] in *. destruct H7 as [-> Hb].
    eapply rrel_bind; [eapply h_push_rel; eauto |]. intros (s2 & g2) (s2' & g2') [H5 H6]. cbn [fst snd] in *. repeat split; cbn; auto; try apply H4; apply H6.
  - eapply rrel_bind; [eapply h_pop_rel; eauto |]. intros ((s1 & g1) & b) ((s1' & g1') & b') [[H3 H4] H7]. cbn [fst snd] in *. destruct H7 as [-> Hb].
    eapply rrel_bind; [eapply h_push_rel; eauto |]. intros (s2 & g2) (s2' & g2') [H5 H6]. cbn [fst snd] in *. repeat split; cbn; auto; try apply H4; apply H6.
  - repeat split; cbn; auto; try apply H1; apply H2.
Qed.
Definition qrel n (q q' : ring nat) : Prop := rcap q = rcap q' /\ lrel n (ritems q) (ritems q').
Definition mrel (m m' : hmed) : Prop :=
  let n := hm_next m' in
  hm_window m = hm_window m' /\ hm_next m = sh n /\ srel n (hm_store m) (hm_store m') /\
  hrel n (hm_low m) (hm_low m') /\ hrel n (hm_high m) (hm_high m') /\ qrel n (hm_queue m) (hm_queue m').
Lemma lrel_le n k l l' : n <= k -> lrel n l l' -> lrel k l l'.
Proof. intros Hk [E F]. split; auto. eapply Forall_impl; [| exact F]. cbn. lia. Qed.
Lemma hrel_le n k h h' : n <= k -> hrel n h h' -> hrel k h h'.
Proof. intros Hk (A & B & C). repeat split; auto; eapply lrel_le in C; eauto; apply C. Qed.
Lemma qrel_len n q q' : qrel n q q' -> ring_len q = ring_len q'.
Proof. intros [_ H]. apply lrel_len in H. unfold ring_len, zlen. now rewrite H. Qed.
Lemma hm_push_rel m m' x : mrel m m' -> rrel mrel (hm_push m x) (hm_push m' x).
Proof.
  intros (Ew & En & Hs & Hlo & Hhi & Hq). unfold hm_push. rewrite Ew, (qrel_len _ _ _ Hq), (hrel_len _ _ _ Hlo).
  set (n := hm_next m') in *.
  eapply rrel_bind with (R := fun p p' => let '(st, lo, hi, a, q, nx) := p in let '(st', lo', hi', a', q', nx') := p' in
    shh nx' (st, lo, hi) (st', lo', hi') /\ arel nx' a a' /\ qrel nx' q q' /\ nx = sh nx').
  - destruct (negb (hm_window m' =? 0)%Z && _).
    + unfold ring_get. destruct Hq as [Hc [Hi F]]. rewrite Hi. destruct (ritems (hm_queue m')) as [| a r] eqn:Er; [exact I |].
      cbn [map bind]. inversion F; subst. set (hs := hm_store m) in *.
      rewrite (Hs a) by auto. rewrite (proj1 Hlo).
      eapply rrel_bind; [eapply h_peek_rel; eauto |]. intros p ? <-.
      eapply rrel_bind with (R := shh n).
      { destruct (String.eqb _ _), (fle x p), (fgt x p); cbn [andb negb];
          (eapply rrel_bind; [first [eapply h_update_rel | apply h_remove_rel]; eauto |]); intros (s1 & g1) (s1' & g1') [H3 H4]; cbn [fst snd] in *;
          try (split; [| split]; cbn; auto; fail);
          (rewrite (H3 a) by auto; eapply rrel_bind; [eapply h_push_rel; eauto; now apply srel_upd |]; intros (s2 & g2) (s2' & g2') [H5 H6]; cbn [fst snd] in *; split; [| split]; cbn; auto). }
      intros ((s1 & lo1) & hi1) ((s1' & lo1') & hi1') (H3 & H4 & H5). cbn [fst snd] in *.
      eapply rrel_bind; [eapply hm_rebalance_rel; eauto |]. intros (((s2 & lo2) & hi2) & b) (((s2' & lo2') & hi2') & b') [H6 H7]. cbn [fst snd] in *.
      cbn. split; auto. split; auto. split; auto. split; cbn; auto. split; auto.
    + cbn zeta. rewrite En.
      assert (Hs' : srel (S n) (iupd (hm_store m) (sh n) (mkItem x "" 0%Z)) (iupd (hm_store m') n (mkItem x "" 0%Z))).
      { intros b Hb. unfold iupd. rewrite sh_eqb. destruct (Nat.eqb_spec b n); auto. apply Hs. lia. }
      apply (hrel_le n (S n)) in Hlo; [| lia]. apply (hrel_le n (S n)) in Hhi; [| lia].
      eapply rrel_bind with (R := eq).
      { destruct (_ =? _); [reflexivity |]. eapply rrel_bind; [eapply h_peek_rel; eauto |]. intros p ? <-. reflexivity. }
      intros b ? <-. eapply rrel_bind with (R := shh (S n)).
      { destruct b; (eapply rrel_bind; [eapply h_push_rel; eauto |]; intros (s1 & g1) (s1' & g1') [H3 H4]; cbn [fst snd] in *; split; [| split]; cbn; auto). }
      intros ((s1 & lo1) & hi1) ((s1' & lo1') & hi1') (H3 & H4 & H5). cbn [fst snd] in *.
      eapply rrel_bind; [eapply hm_rebalance_rel; eauto |]. intros (((s2 & lo2) & hi2) & c) (((s2' & lo2') & hi2') & c') [H6 H7]. cbn [fst snd] in *.
      cbn. split; auto. split; auto. split; [split; [apply Hq | eapply lrel_le; [| apply Hq]; lia] |]. unfold sh. lia.
  - intros (((((st & lo) & hi) & a) & q) & nx) (((((st' & lo') & hi') & a') & q') & nx') ((H1 & H2 & H3) & [-> Ha] & [Hc [Hi F]] & ->).
    cbn [fst snd] in *. eapply rrel_bind with (R := qrel nx').
    { destruct (negb _); [| split; auto; split; auto]. unfold ring_put, ring_len, zlen. rewrite Hc, Hi, map_length.
      destruct (_ <? _)%Z; cbn; auto. split; cbn; auto. split; [now rewrite map_app | apply Forall_app; auto]. }
    intros r r' Hr. cbn. unfold mrel. cbn. repeat split; auto; try apply H2; try apply H3; apply Hr.
Qed.
End Shift.

Lemma hm_clear_rel off m m' : mrel off m m' -> rrel (mrel off) (hm_clear m) (hm_clear m').
Proof. intros (Ew & En & Hs & Hlo & Hhi & Hq). cbn. unfold mrel. cbn. rewrite Ew. repeat split; auto; constructor. Qed.
Lemma run_rel {S S' A} (R : S -> S' -> Prop) (push : S -> A -> res S) (clear : S -> res S) push' clear' :
  (forall s s' x, R s s' -> rrel R (push s x) (push' s' x)) -> (forall s s', R s s' -> rrel R (clear s) (clear' s')) ->
  forall ops s s', R s s' -> rrel R (run push clear ops s) (run push' clear' ops s').
Proof.
  intros Hp Hc. induction ops as [| o ops IH]; intros s s' H; [exact H |].
  cbn [run]. destruct o; (eapply rrel_bind; [| intros a b Hab; apply IH; exact Hab]); auto.
Qed.
Lemma hm_value_rel off m m' : mrel off m m' -> hm_value m = hm_value m'.
Proof.
  intros (Ew & En & Hs & Hlo & Hhi & Hq). apply rrel_eq_inv. unfold hm_value. rewrite (hrel_len _ _ _ _ Hlo), (hrel_len _ _ _ _ Hhi).
  destruct (_ =? _); [reflexivity |]. destruct (_ <? _); [eapply h_peek_rel; eauto |]. destruct (_ <? _); [eapply h_peek_rel; eauto |].
  eapply rrel_bind; [eapply h_peek_rel; eauto |]. intros a ? <-.
  eapply rrel_bind; [eapply h_peek_rel; eauto |]. intros b ? <-. reflexivity.
Qed.
Lemma hm_push_window m x m' : hm_push m x = Ok m' -> hm_window m' = hm_window m.
Proof. unfold hm_push. intros H. apply bind_ok in H as ((((((? & ?) & ?) & ?) & ?) & ?) & _ & H). apply bind_ok in H as (? & _ & [= <-]). reflexivity. Qed.
Lemma hm_clear_fresh w ops ops' m : hm_run w ops = Ok m ->
  rmap hm_value (hm_run w (ops ++ OClear :: ops')) = rmap hm_value (hm_run w ops').
Proof.
  unfold hm_run. intros H. apply bind_ok in H as (m0 & H0 & H). rewrite H0. cbn [bind]. rewrite run_app, H. cbn [bind run].
  assert (Ew : hm_window m = w).
  { unfold new_heap_median in H0. destruct (w <? 0)%Z; [discriminate |]. injection H0 as <-.
    enough (G : forall s, hm_window s = w -> forall m, run hm_push hm_clear ops s = Ok m -> hm_window m = w) by (eapply G; [| exact H]; reflexivity).
    clear m H. induction ops as [| o ops IH]; cbn [run]; intros s Hs m H; [now injection H as <- |].
    destruct o; apply bind_ok in H as (s1 & H1 & H); (eapply IH; [| exact H]).
    - apply hm_push_window in H1. congruence.
    - injection H1 as <-. exact Hs. }
  unfold new_heap_median in H0. destruct (w <? 0)%Z; [discriminate |]. injection H0 as <-.
  change (hm_clear m) with (Ok (mkHM (hm_window m) low_empty high_empty (ring_new (hm_window m)) (hm_store m) (hm_next m))). cbn [bind].
  set (s := mkHM (hm_window m) _ _ _ _ _). match goal with |- context [run _ _ ops' ?x] => lazymatch x with s => fail | _ => set (m0 := x) end end.
  assert (R : mrel (hm_next m) s m0).
  { unfold mrel, s, m0. cbn. rewrite Ew. repeat split; try constructor. intros a Ha. inversion Ha. }
  pose proof (run_rel (mrel (hm_next m)) hm_push hm_clear hm_push hm_clear (hm_push_rel _) (hm_clear_rel _) ops' s m0 R) as Q.
  destruct (run hm_push hm_clear ops' s), (run hm_push hm_clear ops' m0); cbn in Q; try contradiction; cbn; auto.
  - now rewrite (hm_value_rel _ _ _ Q).
  - now subst.
Qed.
