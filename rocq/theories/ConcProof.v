(** Lock discipline implies linearizability; without nested read locks there is no deadlock. *)
From Verif Require Import Base ConcModel.

Section Conc.
Context {S O R : Type}.
Notation prog := (prog S R). Notation config := (config S O R).
Variable code : O -> prog.
Variable apply : O -> S -> S * R.

(** [p] holds [n] read locks, the state being [s]; it keeps at least one until its last access
    and goes on as [p'], holding none. *)
Inductive rsec (s : S) : nat -> prog -> prog -> Prop :=
| r_end p : rsec s 0 p p
| r_get n f p : rsec s (Datatypes.S n) (f s) p -> rsec s (Datatypes.S n) (Get f) p
| r_rlock n k p : rsec s (Datatypes.S (Datatypes.S n)) k p -> rsec s (Datatypes.S n) (RLock k) p
| r_runlock n k p : rsec s n k p -> rsec s (Datatypes.S n) (RUnlock k) p.
(** [p] holds the lock, the state being [s]; it leaves [s'] and returns [r]. *)
Inductive wsec : S -> prog -> S -> R -> Prop :=
| w_get s f s' r : wsec s (f s) s' r -> wsec s (Get f) s' r
| w_put s g k s' r : wsec (g s) k s' r -> wsec s (Put g k) s' r
| w_unlock s r : wsec s (Unlock (Ret r)) s r.
(** Call [o] goes on as [p], holding no lock and not having taken effect yet: it takes effect where it
    acquires its last lock. *)
Inductive disc (o : O) : prog -> Prop :=
| d_ret r : (forall s, apply o s = (s, r)) -> disc o (Ret r)
| d_read k : (forall s, (fst (apply o s) = s /\ rsec s 1 k (Ret (snd (apply o s)))) \/ (exists p, rsec s 1 k p /\ disc o p)) -> disc o (RLock k)
| d_write k : (forall s, wsec s k (fst (apply o s)) (snd (apply o s))) -> disc o (Lock k).
Definition disciplined : Prop := forall o, disc o (code o).

Lemma upd_same {A} (f : nat -> A) i a : upd f i a i = a.
Proof. unfold upd. rewrite Nat.eqb_refl. reflexivity. Qed.
Lemma upd_other {A} (f : nat -> A) i j a : j <> i -> upd f i a j = f j.
Proof. intros H. unfold upd. destruct (Nat.eqb_spec j i); [contradiction|reflexivity]. Qed.

(** Thread [i] with phase [ph], holding [m] read locks; [w]: holds the lock; [p]: announced. *)
Definition tinv (sh a : S) (t : @thread S O R) (ph : @phase O R) (m : nat) (p w : bool) : Prop :=
  match t_cur t with
  | None => ph = Idle /\ m = 0 /\ p = false /\ w = false
  | Some (o, q) =>
      (ph = Called o /\ (exists q', rsec a m q q' /\ disc o q') /\ p = false /\ w = false) \/
      (ph = Called o /\ (exists k, disc o (Lock k) /\ q = LockW k) /\ m = 0 /\ p = true /\ w = false) \/
      (exists r, ph = Done r /\ rsec a m q (Ret r) /\ p = false /\ w = false) \/
      (exists r, ph = Done r /\ wsec sh q a r /\ m = 0 /\ p = false /\ w = true)
  end.
Definition is_id (x : option nat) (i : nat) : bool := match x with Some j => Nat.eqb i j | None => false end.
Definition inv (n : nat) (c : config) (f : nat -> phase) (a : S) : Prop :=
  (forall i, tinv (c_sh c) a (c_ths c i) (f i) (c_rd c i) (is_id (c_pend c) i) (is_id (c_wr c) i)) /\
  (c_wr c = None -> c_sh c = a) /\ (c_wr c <> None -> c_pend c = None /\ forall i, c_rd c i = 0) /\
  (forall i, n <= i -> c_rd c i = 0 /\ c_pend c <> Some i /\ c_wr c <> Some i).

Hypothesis D : disciplined.

Lemma tinv_keep sh a sh' a' t ph m p w : tinv sh a t ph m p w -> (m <> 0 -> a' = a) -> (w = true -> sh' = sh /\ a' = a) -> tinv sh' a' t ph m p w.
Proof.
  unfold tinv. destruct (t_cur t) as [(o, q)|]; [|auto].
  assert (K : forall q', rsec a m q q' -> (m <> 0 -> a' = a) -> rsec a' m q q').
  { intros q' H Ha. destruct m; [inversion H; subst; constructor|]. rewrite Ha by discriminate. exact H. }
  intros [(H1 & (q' & H2 & H3) & H4)|[H|[(r & H1 & H2 & H3 & H4)|(r & H1 & H2 & H3 & H4 & H5)]]] Ha Hw; auto.
  - left. split; [exact H1|]. split; [exists q'; auto|exact H4].
  - right. right. left. exists r. auto.
  - right. right. right. exists r. destruct (Hw H5) as [-> ->]. auto.
Qed.
Lemma is_id_same i : is_id (Some i) i = true. Proof. cbn. apply Nat.eqb_refl. Qed.
Lemma is_id_other i j : j <> i -> is_id (Some i) j = false. Proof. cbn. intros H. apply Nat.eqb_neq. exact H. Qed.

(** A step of thread i which changes neither the lock nor the state. *)
Lemma inv_local n c f a i o p q ph : inv n c f a -> i < n -> tinv (c_sh c) a (mkT (Some (o, p)) q) ph (c_rd c i) (is_id (c_pend c) i) (is_id (c_wr c) i) ->
  inv n (mkC (c_sh c) (c_rd c) (c_pend c) (c_wr c) (goto c i o p q)) (upd f i ph) a.
Proof.
  intros (H1 & H2 & H3 & H4) Hi HT. split; [|split; [exact H2|split; [exact H3|exact H4]]]. intros j. cbn [c_sh c_ths c_rd c_pend c_wr]. unfold goto. destruct (Nat.eq_dec j i) as [->|Hj].
  - rewrite !upd_same. exact HT.
  - rewrite !upd_other by exact Hj. apply H1.
Qed.
Lemma inv_start n s calls : inv n (start s calls) (fun _ => Idle) s.
Proof. split; [|split; [reflexivity|split; [intros H; contradiction|]]]; intros i; cbn; auto. intros _. repeat split; discriminate. Qed.

(** What a thread does next. *)
Lemma rsec_Ret a m r p : rsec a m (Ret r) p -> m = 0 /\ p = Ret r.
Proof. inversion 1; auto. Qed.
Lemma rsec_bad a m q p : match q with Lock _ | LockW _ | Unlock _ | Put _ _ => True | _ => False end -> rsec a m q p -> m = 0 /\ p = q.
Proof. intros H X. inversion X; subst; auto; contradiction. Qed.
Lemma rsec_RLock a m k p : rsec a m (RLock k) p -> (m = 0 /\ p = RLock k) \/ rsec a (Datatypes.S m) k p.
Proof. inversion 1; subst; auto. Qed.
Lemma rsec_Get a m g p : rsec a m (Get g) p -> (m = 0 /\ p = Get g) \/ (m <> 0 /\ rsec a m (g a) p).
Proof. inversion 1; subst; auto. Qed.
Lemma disc_bad o q : match q with Get _ | RUnlock _ | LockW _ | Unlock _ | Put _ _ => True | _ => False end -> ~ disc o q.
Proof. intros H X. inversion X; subst; contradiction. Qed.

Lemma step_inv n s0 c e c' h f a : step code n c e c' -> inv n c f a -> explains apply s0 h f a -> exists f' a', inv n c' f' a' /\ explains apply s0 (h ++ e) f' a'.
Proof.
  intros Hs I X. pose proof I as (H1 & H2 & H3 & H4). destruct Hs as [i o q Hi Et|i o r q Hi Et|i o k q Hi Et Ep Ew|i o k q m Hi Et Em|i o k q Hi Et Ep Ew|i o k q Hi Et Ep Er|i o k q Hi Et Ew|i o g q Hi Et|i o g k q Hi Et];
    pose proof (H1 i) as T; rewrite Et in T; unfold tinv in T; cbn [t_cur] in T.
  - (* invocation *) destruct T as (Eph & E0 & E1 & E2). exists (upd f i (Called o)), a. split; [|apply x_inv; assumption]. apply inv_local; [exact I|exact Hi|]. left. rewrite E0. split; [reflexivity|]. split; [exists (code o); split; [constructor|apply D]|auto].
  - (* response *)
    assert (R1 : exists f1 a1, inv n c f1 a1 /\ explains apply s0 h f1 a1 /\ f1 i = Done r /\ c_rd c i = 0 /\ is_id (c_pend c) i = false /\ is_id (c_wr c) i = false).
    { destruct T as [(Eph & (q' & Hr & Hd) & E1 & E2)|[(_ & (k & _ & X1) & _)|[(r' & Eph & Hr & E1 & E2)|(r' & _ & Hw & _)]]]; [|discriminate| |inversion Hw].
      - apply rsec_Ret in Hr as (E0 & ->). inversion Hd as [r' Ha|k' Ha|k' Ha]; subst.
        exists (upd f i (Done r)), a. split; [|split; [|rewrite upd_same; auto]].
        + destruct (inv_local n c f a i o (Ret r) q (Done r) I Hi) as (G1 & _).
          { right. right. left. exists r. rewrite E0. repeat split; auto. constructor. }
          split; [|split; [exact H2|split; [exact H3|exact H4]]]. intros j. specialize (G1 j). cbn [c_sh c_ths c_rd c_pend c_wr] in G1. unfold goto in G1. destruct (Nat.eq_dec j i) as [->|Hj]; [|rewrite !upd_other in G1 by exact Hj; rewrite upd_other by exact Hj; exact G1].
          rewrite upd_same in *. rewrite Et. rewrite upd_same in G1. exact G1.
        + pose proof (x_lin apply s0 h f a i o X Eph) as X1. rewrite Ha in X1. exact X1.
      - apply rsec_Ret in Hr as (E0 & Er). injection Er as ->. exists f, a. auto 10. }
    destruct R1 as (f1 & a1 & (G1 & G2 & G3 & G4) & X1 & Ef & E0 & E1 & E2). exists (upd f1 i Idle), a1. split; [|eapply x_res; eassumption].
    split; [|split; [exact G2|split; [exact G3|exact G4]]]. intros j. cbn [c_sh c_ths c_rd c_pend c_wr]. destruct (Nat.eq_dec j i) as [->|Hj]; [|rewrite !upd_other by exact Hj; apply G1]. rewrite !upd_same. unfold tinv. cbn [t_cur]. auto.
  - (* RLock *)
    assert (K : forall ph, tinv (c_sh c) a (mkT (Some (o, k)) q) ph (Datatypes.S (c_rd c i)) false false -> inv n (mkC (c_sh c) (upd (c_rd c) i (Datatypes.S (c_rd c i))) (c_pend c) (c_wr c) (goto c i o k q)) (upd f i ph) a).
    { intros ph Hp. split; [|split; [exact H2|split; [intros X1; contradiction|]]]; cbn [c_sh c_ths c_rd c_pend c_wr].
      - intros j. unfold goto. destruct (Nat.eq_dec j i) as [->|Hj]; [|rewrite !upd_other by exact Hj; apply H1]. rewrite !upd_same, Ep, Ew. exact Hp.
      - intros j Hj. rewrite upd_other by lia. apply H4. exact Hj. }
    assert (KF : forall ph, f i = ph -> tinv (c_sh c) a (mkT (Some (o, k)) q) ph (Datatypes.S (c_rd c i)) false false -> exists f' a', inv n (mkC (c_sh c) (upd (c_rd c) i (Datatypes.S (c_rd c i))) (c_pend c) (c_wr c) (goto c i o k q)) f' a' /\ explains apply s0 (h ++ []) f' a').
    { intros ph Ef Hp. exists f, a. rewrite app_nil_r. split; [|exact X]. destruct (K ph Hp) as (Q1 & Q2 & Q3 & Q4). split; [|auto]. intros j. specialize (Q1 j). destruct (Nat.eq_dec j i) as [->|Hj]; [rewrite (upd_same f) in Q1; rewrite Ef; exact Q1|rewrite (upd_other f) in Q1 by exact Hj; exact Q1]. }
    destruct T as [(Eph & (q' & Hr & Hd) & E1 & E2)|[(_ & (k' & _ & X1) & _)|[(r & Eph & Hr & E1 & E2)|(r & _ & Hw & _)]]]; [|discriminate| |inversion Hw].
    + apply rsec_RLock in Hr as [(E0 & ->)|Hk]; [|apply (KF _ Eph); left; split; [reflexivity|split; [exists q'; auto|auto]]].
      inversion Hd as [|k0 Ha|]; subst. destruct (Ha a) as [(Ha1 & Ha2)|(p & Hp & Hd')].
      * exists (upd f i (Done (snd (apply o a)))), a. split; [|rewrite app_nil_r; pose proof (x_lin apply s0 h f a i o X Eph) as X1; rewrite Ha1 in X1; exact X1]. apply K. rewrite E0. right. right. left. exists (snd (apply o a)). auto.
      * apply (KF _ Eph). rewrite E0. left. split; [reflexivity|split; [exists p; auto|auto]].
    + apply rsec_RLock in Hr as [(_ & Hr)|Hk]; [discriminate|]. apply (KF _ Eph). right. right. left. exists r. auto.
  - (* RUnlock *)
    assert (Ew : c_wr c = None). { destruct (c_wr c) as [w|] eqn:Ew; [|reflexivity]. destruct H3 as (_ & H3); [discriminate|]. rewrite H3 in Em. discriminate. }
    rewrite Em in T. exists f, a. rewrite app_nil_r. split; [|exact X]. split; [|split; [exact H2|split; [intros X1; contradiction|]]]; cbn [c_sh c_ths c_rd c_pend c_wr].
    + intros j. unfold goto. destruct (Nat.eq_dec j i) as [->|Hj]; [|rewrite !upd_other by exact Hj; apply H1]. rewrite !upd_same.
      destruct T as [(Eph & (q' & Hr & Hd) & E1 & E2)|[(_ & (k' & _ & X1) & _)|[(r & Eph & Hr & E1 & E2)|(r & _ & Hw & _)]]]; [|discriminate| |inversion Hw]; inversion Hr; subst; rewrite E1, E2.
      * left. split; [exact Eph|]. split; [exists q'; auto|auto].
      * right. right. left. exists r. auto.
    + intros j Hj. rewrite upd_other by lia. apply H4. exact Hj.
  - (* Lock: announce *)
    destruct T as [(Eph & (q' & Hr & Hd) & E1 & E2)|[(_ & (k' & _ & X1) & _)|[(r & Eph & Hr & E1 & E2)|(r & _ & Hw & _)]]]; [|discriminate|apply rsec_bad in Hr as (_ & Hr); [discriminate|exact Logic.I]|inversion Hw].
    apply rsec_bad in Hr as (E0 & ->); [|exact Logic.I]. exists f, a. rewrite app_nil_r. split; [|exact X]. split; [|split; [exact H2|split; [intros X1; contradiction|]]]; cbn [c_sh c_ths c_rd c_pend c_wr].
    + intros j. unfold goto. destruct (Nat.eq_dec j i) as [->|Hj].
      * rewrite upd_same, is_id_same, E0, E2. right. left. split; [exact Eph|]. split; [exists k; auto|auto].
      * rewrite upd_other, is_id_other by exact Hj. specialize (H1 j). rewrite Ep in H1. exact H1.
    + intros j Hj. destruct (H4 j Hj) as (A1 & _ & A3). repeat split; auto. intros E. injection E as ->. lia.
  - (* Lock: acquire *)
    destruct T as [(_ & (q' & Hr & Hd) & _)|[(Eph & (k' & Hd & X1) & E0 & E1 & E2)|[(r & Eph & Hr & E1 & E2)|(r & _ & Hw & _)]]];
      [apply rsec_bad in Hr as (_ & ->); [exfalso; eapply disc_bad; [|exact Hd]|]; exact Logic.I| |apply rsec_bad in Hr as (_ & Hr); [discriminate|exact Logic.I]|inversion Hw].
    injection X1 as <-. inversion Hd as [| |k0 Ha]; subst. specialize (Ha a).
    assert (Ew : c_wr c = None). { destruct (c_wr c) as [w|] eqn:Ew; [|reflexivity]. destruct H3 as (H3 & _); [discriminate|]. congruence. }
    assert (R0 : forall j, c_rd c j = 0) by (intros j; destruct (Nat.lt_ge_cases j n) as [Hj|Hj]; [apply Er; exact Hj|apply H4; exact Hj]).
    exists (upd f i (Done (snd (apply o a)))), (fst (apply o a)). rewrite app_nil_r. split; [|apply x_lin; assumption]. split; [|split; [intros X1; discriminate|split; [auto|]]]; cbn [c_sh c_ths c_rd c_pend c_wr].
    + intros j. unfold goto. destruct (Nat.eq_dec j i) as [->|Hj].
      * rewrite !upd_same, is_id_same. right. right. right. eexists. split; [reflexivity|]. rewrite (H2 Ew). auto.
      * rewrite !upd_other, is_id_other by exact Hj. apply tinv_keep with (sh := c_sh c) (a := a); [|intros X1; exfalso; apply X1; apply R0|discriminate]. specialize (H1 j). rewrite Ep, Ew, is_id_other in H1 by exact Hj. exact H1.
    + intros j Hj. destruct (H4 j Hj) as (A1 & A2 & A3). repeat split; auto; [discriminate|]. intros E. injection E as ->. lia.
  - (* Unlock *)
    destruct T as [(_ & (q' & Hr & Hd) & _)|[(Eph & (k' & Hd & X1) & E0 & E1 & E2)|[(r & Eph & Hr & E1 & E2)|(r & Eph & Hw & E0 & E1 & E2)]]];
      [apply rsec_bad in Hr as (_ & ->); [exfalso; eapply disc_bad; [|exact Hd]|]; exact Logic.I|discriminate|apply rsec_bad in Hr as (_ & Hr); [discriminate|exact Logic.I]|].
    inversion Hw; subst. exists f, (c_sh c). rewrite app_nil_r. split; [|assumption]. destruct H3 as (Ep & R0); [congruence|]. split; [|split; [reflexivity|split; [intros X1; contradiction|]]]; cbn [c_sh c_ths c_rd c_pend c_wr].
    + intros j. unfold goto. destruct (Nat.eq_dec j i) as [->|Hj].
      * rewrite !upd_same, E0, E1. right. right. left. exists r. repeat split; auto. constructor.
      * rewrite !upd_other by exact Hj. specialize (H1 j). rewrite Ew, is_id_other in H1 by exact Hj. exact H1.
    + intros j Hj. destruct (H4 j Hj) as (A1 & A2 & A3). repeat split; auto. discriminate.
  - (* Get *)
    exists f, a. rewrite app_nil_r. split; [|exact X].
    assert (EA : c_rd c i <> 0 -> c_sh c = a). { intros Hm. apply H2. destruct (c_wr c) as [w|] eqn:Ew; [|reflexivity]. destruct H3 as (_ & H3); [discriminate|]. rewrite (H3 i) in Hm. contradiction. }
    assert (Q : inv n (mkC (c_sh c) (c_rd c) (c_pend c) (c_wr c) (goto c i o (g (c_sh c)) q)) (upd f i (f i)) a).
    { apply inv_local; [exact I|exact Hi|]. destruct T as [(Eph & (q' & Hr & Hd) & E1 & E2)|[(Eph & (k' & Hd & X1) & E0 & E1 & E2)|[(r & Eph & Hr & E1 & E2)|(r & Eph & Hw & E0 & E1 & E2)]]]; [| discriminate| |].
      - apply rsec_Get in Hr as [(_ & ->)|(Hm & Hk)]; [exfalso; eapply disc_bad; [|exact Hd]; exact Logic.I|]. left. rewrite EA by exact Hm. split; [exact Eph|]. split; [exists q'; auto|auto].
      - right. right. left. exists r. apply rsec_Get in Hr as [(_ & Hr)|(Hm & Hk)]; [discriminate|]. rewrite EA by exact Hm. auto.
      - right. right. right. exists r. inversion Hw; subst. auto. }
    destruct Q as (Q1 & Q2 & Q3 & Q4). split; [|auto]. intros j. specialize (Q1 j). destruct (Nat.eq_dec j i) as [->|Hj]; [rewrite upd_same in Q1; exact Q1|rewrite (upd_other f) in Q1 by exact Hj; exact Q1].
  - (* Put *)
    destruct T as [(_ & (q' & Hr & Hd) & _)|[(Eph & (k' & Hd & X1) & E0 & E1 & E2)|[(r & Eph & Hr & E1 & E2)|(r & Eph & Hw & E0 & E1 & E2)]]];
      [apply rsec_bad in Hr as (_ & ->); [exfalso; eapply disc_bad; [|exact Hd]|]; exact Logic.I|discriminate|apply rsec_bad in Hr as (_ & Hr); [discriminate|exact Logic.I]|].
    inversion Hw; subst. assert (Ew : c_wr c = Some i). { destruct (c_wr c) as [w|]; [|discriminate]. cbn in E2. apply Nat.eqb_eq in E2. congruence. }
    destruct H3 as (Ep & R0); [congruence|]. exists f, a. rewrite app_nil_r. split; [|assumption]. split; [|split; [cbn; congruence|split; [cbn; auto|exact H4]]]. intros j. cbn [c_sh c_ths c_rd c_pend c_wr]. unfold goto. destruct (Nat.eq_dec j i) as [->|Hj].
    + rewrite !upd_same, E0, E1, E2. right. right. right. exists r. auto.
    + rewrite !upd_other by exact Hj. apply tinv_keep with (sh := c_sh c) (a := a); [apply H1|auto|]. rewrite Ew, is_id_other by exact Hj. discriminate.
Qed.
Lemma exec_inv n s calls h c : exec code n (start s calls) h c -> exists f a, inv n c f a /\ explains apply s h f a.
Proof.
  induction 1 as [|h c e c' Hx (f & a & I & X) Hs]; [exists (fun _ => Idle), s; split; [apply inv_start|constructor]|]. eapply step_inv; eassumption.
Qed.
Lemma disciplined_linearizable n s calls h c : exec code n (start s calls) h c -> linearizable apply s h.
Proof. intros H. destruct (exec_inv n s calls h c H) as (f & a & _ & X). exists f, a. exact X. Qed.

(** ** The state left by finished calls *)
(** The calls of [i] in a history. *)
Fixpoint calls_of (i : nat) (h : list (event O R)) : list O :=
  match h with [] => [] | Inv j o :: t => if Nat.eqb j i then o :: calls_of i t else calls_of i t | Res _ _ :: t => calls_of i t end.
Lemma calls_of_app i h1 h2 : calls_of i (h1 ++ h2) = calls_of i h1 ++ calls_of i h2.
Proof. induction h1 as [|[j o|j r] t IH]; cbn [calls_of app]; [reflexivity| |exact IH]. destruct (Nat.eqb j i); cbn [app]; rewrite IH; reflexivity. Qed.
Definition of_thread (i : nat) (order : list (nat * O)) : list O := map snd (filter (fun p => Nat.eqb (fst p) i) order).
Lemma of_thread_app i o1 o2 : of_thread i (o1 ++ o2) = of_thread i o1 ++ of_thread i o2.
Proof. unfold of_thread. rewrite filter_app, map_app. reflexivity. Qed.
Definition play (order : list (nat * O)) (s : S) : S := fold_left (fun s p => fst (apply (snd p) s)) order s.
Lemma explains_order s0 h f s : explains apply s0 h f s -> exists order, s = play order s0 /\ forall i, of_thread i order ++ (match f i with Called o => [o] | _ => [] end) = calls_of i h.
Proof.
  induction 1 as [|h f s i o _ (order & -> & Ho) E|h f s i o _ (order & -> & Ho) E|h f s i r _ (order & -> & Ho) E].
  - exists []. split; reflexivity.
  - exists order. split; [reflexivity|]. intros j. rewrite calls_of_app, <- Ho. cbn [calls_of]. destruct (Nat.eqb_spec i j) as [<-|Hj].
    + rewrite upd_same, E, app_nil_r. reflexivity.
    + rewrite upd_other, app_nil_r by congruence. reflexivity.
  - exists (order ++ [(i, o)]). split; [unfold play; rewrite fold_left_app; reflexivity|]. intros j. rewrite <- Ho, of_thread_app. unfold of_thread at 2. cbn [filter fst]. destruct (Nat.eqb_spec i j) as [<-|Hj].
    + rewrite upd_same, E, app_nil_r. reflexivity.
    + rewrite upd_other by congruence. cbn [map]. rewrite app_nil_r. reflexivity.
  - exists order. split; [reflexivity|]. intros j. rewrite calls_of_app, <- Ho. cbn [calls_of]. rewrite app_nil_r. destruct (Nat.eq_dec j i) as [->|Hj]; [rewrite upd_same, E|rewrite upd_other by exact Hj]; reflexivity.
Qed.
Lemma exec_calls n s calls h c : exec code n (start s calls) h c -> forall i, calls_of i h ++ t_todo (c_ths c i) = calls i.
Proof.
  induction 1 as [|h c e c' Hx IH Hs]; intros j; [reflexivity|]. rewrite calls_of_app, <- (IH j). destruct Hs as [i o q Hi Et|i o r q Hi Et|i o k q Hi Et Ep Ew|i o k q m Hi Et Em|i o k q Hi Et Ep Ew|i o k q Hi Et Ep Er|i o k q Hi Et Ew|i o g q Hi Et|i o g k q Hi Et];
    cbn [calls_of c_ths]; unfold goto; rewrite <- app_assoc; f_equal; (destruct (Nat.eq_dec j i) as [->|Hj]; [rewrite upd_same, Et, ?Nat.eqb_refl; reflexivity|rewrite upd_other by exact Hj]); try reflexivity. destruct (Nat.eqb_spec i j); [congruence|reflexivity].
Qed.
Definition finished (c : config) : Prop := forall i, t_cur (c_ths c i) = None /\ t_todo (c_ths c i) = [].
Lemma finished_state n s calls h c : exec code n (start s calls) h c -> finished c -> exists order, c_sh c = play order s /\ forall i, of_thread i order = calls i.
Proof.
  intros Hx Hf. destruct (exec_inv n s calls h c Hx) as (f & a & (H1 & H2 & H3 & H4) & X). destruct (explains_order s h f a X) as (order & Ea & Ho).
  assert (Ti : forall i, f i = Idle /\ is_id (c_wr c) i = false). { intros i. destruct (Hf i) as (Hc & _). pose proof (H1 i) as T. unfold tinv in T. rewrite Hc in T. destruct T as (A & _ & _ & B). auto. }
  exists order. split.
  - rewrite <- Ea. apply H2. destruct (c_wr c) as [w|]; [|reflexivity]. destruct (Ti w) as (_ & B). cbn in B. rewrite Nat.eqb_refl in B. discriminate.
  - intros i. pose proof (exec_calls n s calls h c Hx i) as E. destruct (Hf i) as (_ & Ht). rewrite Ht, app_nil_r in E. rewrite <- E, <- Ho. destruct (Ti i) as (-> & _). rewrite app_nil_r. reflexivity.
Qed.

(** ** No deadlock without nested read locks *)
(** [nonest b p]: [p], holding a read lock iff [b], never asks for a second one. *)
Inductive nonest : bool -> prog -> Prop :=
| n_ret r : nonest false (Ret r)
| n_rlock k : nonest true k -> nonest false (RLock k)
| n_lock k : nonest false (Lock k)
| n_get b f : (forall s, nonest b (f s)) -> nonest b (Get f)
| n_runlock k : nonest false k -> nonest true (RUnlock k).
Variable good : O -> Prop.
Definition finv (c : config) : Prop := (forall i, Forall good (t_todo (c_ths c i))) /\ forall i o p q, c_ths c i = mkT (Some (o, p)) q -> is_id (c_pend c) i = false -> is_id (c_wr c) i = false ->
  (c_rd c i = 0 /\ nonest false p) \/ (c_rd c i = 1 /\ nonest true p).
Hypothesis F : forall o, good o -> nonest false (code o).
Lemma find_reader (rd : nat -> nat) n : (exists i, i < n /\ rd i <> 0) \/ (forall i, i < n -> rd i = 0).
Proof.
  induction n as [|n [(i & Hi & H)|IH]]; [right; lia|left; exists i; auto|]. destruct (Nat.eq_dec (rd n) 0) as [E|E]; [|left; exists n; auto]. right. intros i Hi. destruct (Nat.eq_dec i n) as [->|]; [exact E|apply IH; lia].
Qed.
Lemma step_finv n c e c' f a : step code n c e c' -> inv n c f a -> finv c -> finv c'.
Proof.
  intros Hs (H1 & H2 & H3 & H4) (HG & Hf). split.
  { intros j. destruct Hs as [i o q Hi Et|i o r q Hi Et|i o k q Hi Et Ep Ew|i o k q m Hi Et Em|i o k q Hi Et Ep Ew|i o k q Hi Et Ep Er|i o k q Hi Et Ew|i o g q Hi Et|i o g k q Hi Et]; pose proof (HG i) as G; rewrite Et in G; cbn [t_todo c_ths] in *; unfold goto; (destruct (Nat.eq_dec j i) as [->|Hj]; [rewrite upd_same|rewrite upd_other by exact Hj; apply HG]); cbn [t_todo]; try exact G. inversion G; assumption. }
  destruct Hs as [i o q Hi Et|i o r q Hi Et|i o k q Hi Et Ep Ew|i o k q m Hi Et Em|i o k q Hi Et Ep Ew|i o k q Hi Et Ep Er|i o k q Hi Et Ew|i o g q Hi Et|i o g k q Hi Et];
    pose proof (H1 i) as T; rewrite Et in T; unfold tinv in T; cbn [t_cur] in T; intros j o' p' q'; cbn [c_ths c_rd c_pend c_wr]; unfold goto; destruct (Nat.eq_dec j i) as [->|Hj]; rewrite ?upd_same; try (rewrite !upd_other by exact Hj; apply Hf); intros E P W; try discriminate; try (injection E as <- <- <-).
  - left. destruct T as (_ & T & _). split; [exact T|apply F]. specialize (HG i). rewrite Et in HG. inversion HG; assumption.
  - destruct (Hf i o _ q Et P W) as [(Hm & Hn)|(Hm & Hn)]; inversion Hn; subst. right. split; [rewrite Hm; reflexivity|assumption].
  - destruct (Hf i o _ q Et P W) as [(Hm & Hn)|(Hm & Hn)]; inversion Hn; subst. left. split; [lia|assumption].
  - rewrite is_id_same in P. discriminate.
  - rewrite upd_other in E by exact Hj. eapply Hf; [exact E|rewrite Ep; reflexivity|exact W].
  - rewrite is_id_same in W. discriminate.
  - rewrite upd_other in E by exact Hj. eapply Hf; [exact E|rewrite Ep; apply is_id_other; exact Hj|].
    destruct (c_wr c) as [w|] eqn:Ew; [|reflexivity]. destruct H3 as (H3 & _); [discriminate|]. congruence.
  - rewrite Ew, is_id_same in T. destruct T as [(_ & _ & _ & T)|[(_ & _ & _ & _ & T)|[(r & _ & _ & _ & T)|(r & _ & Hw & E0 & _)]]]; try discriminate. inversion Hw; subst. left. split; [exact E0|constructor].
  - rewrite upd_other in E by exact Hj. eapply Hf; [exact E|exact P|]. rewrite Ew. apply is_id_other. exact Hj.
  - destruct (Hf i o _ q Et P W) as [(Hm & Hn)|(Hm & Hn)]; inversion Hn; subst; auto.
  - destruct (Hf i o _ q Et P W) as [(Hm & Hn)|(Hm & Hn)]; inversion Hn.
Qed.
Lemma exec_finv n s calls h c : (forall i, Forall good (calls i)) -> exec code n (start s calls) h c -> exists f a, inv n c f a /\ finv c.
Proof.
  intros G. induction 1 as [|h c e c' Hx (f & a & I & Hf) Hs]; [exists (fun _ => Idle), s; split; [apply inv_start|split; [exact G|intros i o p q X; discriminate]]|].
  destruct (exec_inv n s calls h c Hx) as (f1 & a1 & I1 & X1). destruct (step_inv n s c e c' h f1 a1 Hs I1 X1) as (f2 & a2 & I2 & _). exists f2, a2. split; [exact I2|]. eapply step_finv; eassumption.
Qed.
Lemma flat_no_deadlock n s calls h c : (forall i, Forall good (calls i)) -> exec code n (start s calls) h c -> ~ deadlock code n c.
Proof.
  intros G H. destruct (exec_finv n s calls h c G H) as (f & a & (H1 & H2 & H3 & H4) & HG & Hf). intros ((i & Hi & HU) & HS). unfold stuck in HS.
  destruct (c_wr c) as [w|] eqn:Ew.
  - (* the writer can move *)
    assert (Hw : w < n). { destruct (Nat.lt_ge_cases w n) as [X|X]; [exact X|]. destruct (H4 w X) as (_ & _ & X3). congruence. }
    pose proof (H1 w) as T. unfold tinv in T. rewrite is_id_same in T. destruct (c_ths c w) as [cur q] eqn:Et. cbn [t_cur] in T. destruct cur as [(o, p)|]; [|destruct T as (_ & _ & _ & T); discriminate].
    destruct T as [(_ & _ & _ & T)|[(_ & _ & _ & _ & T)|[(r & _ & _ & _ & T)|(r & Eph & HW & E0 & E1 & _)]]]; try discriminate. inversion HW; subst; eapply HS; [eapply s_get|eapply s_put|eapply s_unlock]; eassumption.
  - assert (HP : forall j, is_id None j = false) by reflexivity.
    destruct (find_reader (c_rd c) n) as [(j & Hj & Hrd)|R0].
    + (* a reader can move *)
      pose proof (H1 j) as T. unfold tinv in T. destruct (c_ths c j) as [cur q] eqn:Et. cbn [t_cur] in T. destruct cur as [(o, p)|]; [|destruct T as (_ & T & _); contradiction].
      assert (P : is_id (c_pend c) j = false). { destruct T as [(_ & _ & T & _)|[(_ & _ & T & _)|[(r & _ & _ & T & _)|(r & _ & _ & T & _)]]]; try assumption; contradiction. }
      destruct (Hf j o p q Et P (HP j)) as [(Hm & Hn)|(Hm & Hn)]; [contradiction|]. inversion Hn; subst; eapply HS; [eapply s_get|eapply s_runlock]; eassumption.
    + destruct (c_pend c) as [w|] eqn:Ep.
      * (* the announced writer can move *)
        assert (Hw : w < n). { destruct (Nat.lt_ge_cases w n) as [X|X]; [exact X|]. destruct (H4 w X) as (_ & X2 & _). congruence. }
        pose proof (H1 w) as T. unfold tinv in T. rewrite is_id_same in T. destruct (c_ths c w) as [cur q] eqn:Et. cbn [t_cur] in T. destruct cur as [(o, p)|]; [|destruct T as (_ & _ & T & _); discriminate].
        destruct T as [(_ & _ & T & _)|[(_ & (k & _ & ->) & _)|[(r & _ & _ & T & _)|(r & _ & _ & _ & T & _)]]]; try discriminate. eapply HS. eapply s_lockw; eassumption.
      * (* the unfinished call can move *)
        pose proof (H1 i) as T. unfold tinv in T. destruct (c_ths c i) as [cur q] eqn:Et. cbn [t_cur t_todo] in *. destruct cur as [(o, p)|].
        -- destruct (Hf i o p q Et eq_refl (HP i)) as [(Hm & Hn)|(Hm & Hn)]; [|rewrite (R0 i Hi) in Hm; discriminate].
           inversion Hn; subst; eapply HS; [eapply s_res|eapply s_rlock|eapply s_lock|eapply s_get]; eassumption.
        -- destruct q as [|o q]; [destruct HU as [HU|HU]; contradiction|]. eapply HS. eapply s_inv; eassumption.
Qed.
End Conc.

(** ** Executions are finite *)
Section Finite.
Context {S O R : Type}.
Notation prog := (prog S R). Notation config := (config S O R). Notation thread := (@thread S O R).
Variable code : O -> prog.
(** One thread gets nearer to its end. *)
Inductive tnext : thread -> thread -> Prop :=
| t_inv o q : tnext (mkT (Some (o, code o)) q) (mkT None (o :: q))
| t_res o r q : tnext (mkT None q) (mkT (Some (o, Ret r)) q)
| t_rlock o k q : tnext (mkT (Some (o, k)) q) (mkT (Some (o, RLock k)) q)
| t_runlock o k q : tnext (mkT (Some (o, k)) q) (mkT (Some (o, RUnlock k)) q)
| t_lock o k q : tnext (mkT (Some (o, LockW k)) q) (mkT (Some (o, Lock k)) q)
| t_lockw o k q : tnext (mkT (Some (o, k)) q) (mkT (Some (o, LockW k)) q)
| t_unlock o k q : tnext (mkT (Some (o, k)) q) (mkT (Some (o, Unlock k)) q)
| t_get o f s q : tnext (mkT (Some (o, f s)) q) (mkT (Some (o, Get f)) q)
| t_put o g k q : tnext (mkT (Some (o, k)) q) (mkT (Some (o, Put g k)) q).
Lemma tnext_acc_prog q (HQ : Acc tnext (mkT None q)) o (p : prog) : Acc tnext (mkT (Some (o, p)) q).
Proof.
  induction p as [r|k IH|k IH|k IH|k IH|k IH|f IH|g k IH]; constructor; intros t Ht; inversion Ht; subst; auto. constructor. intros t' Ht'. inversion Ht'; subst. exact IH.
Qed.
Lemma tnext_acc_none q : Acc tnext (mkT None q).
Proof. induction q as [|o q IH]; constructor; intros t Ht; inversion Ht; subst. apply tnext_acc_prog. exact IH. Qed.
Lemma tnext_acc t : Acc tnext t.
Proof. destruct t as [[(o, p)|] q]; [apply tnext_acc_prog|]; apply tnext_acc_none. Qed.
Lemma step_tnext n c e c' : step code n c e c' -> exists i, i < n /\ tnext (c_ths c' i) (c_ths c i) /\ forall j, j <> i -> c_ths c' j = c_ths c j.
Proof.
  intros Hs. destruct Hs as [i o q Hi Et|i o r q Hi Et|i o k q Hi Et Ep Ew|i o k q m Hi Et Em|i o k q Hi Et Ep Ew|i o k q Hi Et Ep Er|i o k q Hi Et Ew|i o g q Hi Et|i o g k q Hi Et];
    exists i; (split; [exact Hi|]); cbn [c_ths]; unfold goto; (split; [rewrite upd_same, Et; constructor|intros j Hj; apply upd_other; exact Hj]).
Qed.
(** Thread states as far as the first [n] are concerned. *)
Inductive snext (n : nat) (f' f : nat -> thread) : Prop :=
  sn i : i < n -> tnext (f' i) (f i) -> (forall j, j < n -> j <> i -> f' j = f j) -> snext n f' f.
Lemma snext_acc n : forall f, Acc (snext n) f.
Proof.
  induction n as [|n IH]; intros f; [constructor; intros f' [i Hi _ _]; lia|].
  remember (f n) as t eqn:Et. revert f Et. induction (tnext_acc t) as [t _ IHt]. intros f. induction (IH f) as [f _ IHf]. intros Et.
  constructor. intros f' [i Hi Ht Ho]. destruct (Nat.eq_dec i n) as [->|Hne].
  - rewrite <- Et in Ht. exact (IHt _ Ht f' eq_refl).
  - apply IHf; [apply (sn n f' f i); [lia|exact Ht|intros j Hj Hji; apply Ho; [lia|exact Hji]]|]. rewrite (Ho n); [exact Et|lia|lia].
Qed.
Lemma finite n : well_founded (fun c' c => exists e, step code n c e c').
Proof.
  intros c. remember (c_ths c) as f eqn:Ef. revert c Ef. induction (snext_acc n f) as [f _ IH]. intros c Ef. constructor. intros c' (e & Hs).
  apply step_tnext in Hs as (i & Hi & Ht & Ho). refine (IH (c_ths c') _ c' eq_refl). rewrite Ef. apply (sn n _ _ i); auto.
Qed.
End Finite.

(** ** Nested read locks deadlock *)
Section Nested.
Context {S O R : Type}.
Variable code : O -> prog S R.
(** Call [v], running alone in state [s], comes to [p] holding [n] read locks. *)
Inductive alone (v : O) (s : S) : nat -> prog S R -> Prop :=
| a_start : alone v s 0 (code v)
| a_rlock n k : alone v s n (RLock k) -> alone v s (Datatypes.S n) k
| a_runlock n k : alone v s (Datatypes.S n) (RUnlock k) -> alone v s n k
| a_get n f : alone v s n (Get f) -> alone v s n (f s).
Definition duel (v w : O) (i : nat) : list O := match i with 0 => [v] | 1 => [w] | _ => [] end.
Lemma alone_exec v w s n p : alone v s n p -> exists c, exec code 2 (start s (duel v w)) [Inv 0 v] c /\
  c_sh c = s /\ c_rd c 0 = n /\ c_rd c 1 = 0 /\ c_pend c = None /\ c_wr c = None /\ c_ths c 0 = mkT (Some (v, p)) [] /\ c_ths c 1 = mkT None [w].
Proof.
  assert (B0 : 0 < 2) by lia. induction 1 as [|n k _ (c & Hx & H1 & H2 & H3 & H4 & H5 & H6 & H7)|n k _ (c & Hx & H1 & H2 & H3 & H4 & H5 & H6 & H7)|n f _ (c & Hx & H1 & H2 & H3 & H4 & H5 & H6 & H7)].
  - eexists. split; [|shelve]. apply (e_step code 2 _ [] _ [Inv 0 v] _ (e_refl code 2 _)). apply s_inv with (q := []); [exact B0|reflexivity].
    Unshelve. repeat split; reflexivity.
  - eexists. split; [|shelve]. pose proof (e_step code 2 _ _ _ _ _ Hx (s_rlock code 2 c 0 v k [] B0 H6 H4 H5)) as X. rewrite app_nil_r in X. exact X.
    Unshelve. cbn [c_sh c_rd c_pend c_wr c_ths]. unfold goto. rewrite !upd_same, !upd_other by lia. rewrite H2. auto 10.
  - eexists. split; [|shelve]. pose proof (e_step code 2 _ _ _ _ _ Hx (s_runlock code 2 c 0 v k [] n B0 H6 H2)) as X. rewrite app_nil_r in X. exact X.
    Unshelve. cbn [c_sh c_rd c_pend c_wr c_ths]. unfold goto. rewrite !upd_same, !upd_other by lia. auto 10.
  - eexists. split; [|shelve]. pose proof (e_step code 2 _ _ _ _ _ Hx (s_get code 2 c 0 v f [] B0 H6)) as X. rewrite app_nil_r in X. exact X.
    Unshelve. cbn [c_sh c_rd c_pend c_wr c_ths]. unfold goto. rewrite !upd_same, !upd_other by lia. rewrite H1. auto 10.
Qed.
(** [v] comes to ask for a second read lock; [w] asks for the lock in between. *)
Lemma nested_deadlock v w k k' s n : alone v s (Datatypes.S n) (RLock k) -> code w = Lock k' ->
  exists h c, exec code 2 (start s (duel v w)) h c /\ deadlock code 2 c.
Proof.
  intros Hv Hw. destruct (alone_exec v w s _ _ Hv) as (c & Hx & H1 & H2 & H3 & H4 & H5 & H6 & H7). assert (B1 : 1 < 2) by lia.
  pose proof (s_inv code 2 c 1 w [] B1 H7) as X1. set (c1 := mkC _ _ _ _ _) in X1. assert (T1 : c_ths c1 1 = mkT (Some (w, Lock k')) []) by (unfold c1, goto; cbn [c_ths]; rewrite upd_same, Hw; reflexivity).
  pose proof (s_lock code 2 c1 1 w k' [] B1 T1 H4 H5) as X2. set (c2 := mkC _ _ _ _ _) in X2.
  eexists _, c2. split; [exact (e_step code 2 _ _ _ _ _ (e_step code 2 _ _ _ _ _ Hx X1) X2)|].
  assert (U0 : c_ths c2 0 = mkT (Some (v, RLock k)) []) by (unfold c2, c1, goto; cbn [c_ths]; rewrite !upd_other by lia; exact H6).
  assert (U1 : c_ths c2 1 = mkT (Some (w, LockW k')) []) by (unfold c2, goto; cbn [c_ths]; apply upd_same).
  split; [exists 0; split; [lia|]; left; rewrite U0; discriminate|].
  intros e c' Hs. assert (B : forall i, i < 2 -> i = 0 \/ i = 1) by lia. destruct Hs as [i o q Hi Et|i o r q Hi Et|i o kk q Hi Et Ep Ew|i o kk q m Hi Et Em|i o kk q Hi Et Ep Ew|i o kk q Hi Et Ep Er|i o kk q Hi Et Ew|i o g q Hi Et|i o g kk q Hi Et];
    destruct (B i Hi) as [->| ->]; rewrite ?U0, ?U1 in Et; try discriminate. specialize (Er 0 (Nat.lt_0_succ 1)). unfold c2, c1 in Er. cbn [c_rd] in Er. rewrite H2 in Er. discriminate.
Qed.
End Nested.
