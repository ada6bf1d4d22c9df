(** Running a given schedule; the cache of factorials; autocovariance. *)
From Verif Require Import Base F64 NumModel RingModel MomentModel JointModel MathModel MathProof ConcModel ConcProof LockModel LockProof.

Section Run.
Context {S O R : Type}.
Variable code : O -> prog S R.
(** The next step of goroutine [i], if it has one. *)
Definition stepi (n : nat) (c : config S O R) (i : nat) : option (list (event O R) * config S O R) :=
  if negb (Nat.ltb i n) then None else
  match c_ths c i with
  | mkT None [] => None
  | mkT None (o :: q) => Some ([Inv i o], mkC (c_sh c) (c_rd c) (c_pend c) (c_wr c) (goto c i o (code o) q))
  | mkT (Some (o, p)) q =>
      match p with
      | Ret r => Some ([Res i r], mkC (c_sh c) (c_rd c) (c_pend c) (c_wr c) (upd (c_ths c) i (mkT None q)))
      | RLock k => match c_pend c, c_wr c with None, None => Some ([], mkC (c_sh c) (upd (c_rd c) i (Datatypes.S (c_rd c i))) (c_pend c) (c_wr c) (goto c i o k q)) | _, _ => None end
      | RUnlock k => match c_rd c i with 0 => None | Datatypes.S m => Some ([], mkC (c_sh c) (upd (c_rd c) i m) (c_pend c) (c_wr c) (goto c i o k q)) end
      | Lock k => match c_pend c, c_wr c with None, None => Some ([], mkC (c_sh c) (c_rd c) (Some i) (c_wr c) (goto c i o (LockW k) q)) | _, _ => None end
      | LockW k => match c_pend c with Some j => if Nat.eqb j i && forallb (fun j => Nat.eqb (c_rd c j) 0) (seq 0 n) then Some ([], mkC (c_sh c) (c_rd c) None (Some i) (goto c i o k q)) else None | None => None end
      | Unlock k => match c_wr c with Some j => if Nat.eqb j i then Some ([], mkC (c_sh c) (c_rd c) (c_pend c) None (goto c i o k q)) else None | None => None end
      | Get f => Some ([], mkC (c_sh c) (c_rd c) (c_pend c) (c_wr c) (goto c i o (f (c_sh c)) q))
      | Put g k => Some ([], mkC (g (c_sh c)) (c_rd c) (c_pend c) (c_wr c) (goto c i o k q))
      end
  end.
Lemma stepi_sound n c i e c' : stepi n c i = Some (e, c') -> step code n c e c'.
Proof.
  unfold stepi. destruct (Nat.ltb_spec i n) as [Hi|Hi]; cbn [negb]; [|discriminate]. destruct (c_ths c i) as [[(o, p)|] q] eqn:Et.
  - destruct p as [r|k|k|k|k|k|f|g k].
    + intros H. injection H as <- <-. eapply s_res; eassumption.
    + destruct (c_pend c) eqn:Ep; [discriminate|]. destruct (c_wr c) eqn:Ew; [discriminate|]. intros H. injection H as <- <-. pose proof (s_rlock code n c i o k q Hi Et Ep Ew) as X. rewrite Ep, Ew in X. exact X.
    + destruct (c_rd c i) as [|m] eqn:Em; [discriminate|]. intros H. injection H as <- <-. eapply s_runlock; eassumption.
    + destruct (c_pend c) eqn:Ep; [discriminate|]. destruct (c_wr c) eqn:Ew; [discriminate|]. intros H. injection H as <- <-. pose proof (s_lock code n c i o k q Hi Et Ep Ew) as X. rewrite Ew in X. exact X.
    + destruct (c_pend c) as [j|] eqn:Ep; [|discriminate]. destruct (Nat.eqb_spec j i) as [->|]; [|discriminate]. cbn [andb]. destruct (forallb _ _) eqn:Ef; [|discriminate]. intros H. injection H as <- <-. eapply s_lockw; try eassumption.
      intros j Hj. rewrite forallb_forall in Ef. apply Nat.eqb_eq, Ef, in_seq. lia.
    + destruct (c_wr c) as [j|] eqn:Ew; [|discriminate]. destruct (Nat.eqb_spec j i) as [->|]; [|discriminate]. intros H. injection H as <- <-. eapply s_unlock; eassumption.
    + intros H. injection H as <- <-. eapply s_get; eassumption.
    + intros H. injection H as <- <-. eapply s_put; eassumption.
  - destruct q as [|o q]; [discriminate|]. intros H. injection H as <- <-. eapply s_inv; eassumption.
Qed.
(** The history of a schedule. *)
Fixpoint runs (n : nat) (l : list nat) (c : config S O R) : option (list (event O R) * config S O R) :=
  match l with
  | [] => Some ([], c)
  | i :: l => match stepi n c i with Some (e, c') => match runs n l c' with Some (h, c'') => Some (e ++ h, c'') | None => None end | None => None end
  end.
Lemma runs_exec n c0 l : forall h0 c h c', exec code n c0 h0 c -> runs n l c = Some (h, c') -> exec code n c0 (h0 ++ h) c'.
Proof.
  induction l as [|i l IH]; cbn [runs]; intros h0 c h c' Hx H; [injection H as <- <-; rewrite app_nil_r; exact Hx|].
  destruct (stepi n c i) as [(e, c1)|] eqn:E; [|discriminate]. destruct (runs n l c1) as [(h1, c2)|] eqn:E1; [|discriminate]. injection H as <- <-. rewrite app_assoc. eapply IH; [|exact E1]. eapply e_step; [exact Hx|]. apply stepi_sound with (i := i). exact E.
Qed.
Lemma runs_sound n c0 l h c : runs n l c0 = Some (h, c) -> exec code n c0 h c.
Proof. intros H. exact (runs_exec n c0 l [] c0 h c (e_refl code n c0) H). Qed.
Lemma runs_hist n c0 l h : option_map fst (runs n l c0) = Some h -> exists c, exec code n c0 h c.
Proof. destruct (runs n l c0) as [(h', c)|] eqn:E; [|discriminate]. intros H. injection H as <-. exists c. apply runs_sound with l. exact E. Qed.
End Run.

(** ** The factorial cache *)
Local Open Scope Z_scope.
(** [p], which only reads, returns [r] when the state is [s]. *)
Inductive evals {S R} (s : S) : prog S R -> R -> Prop :=
| ev_ret r : evals s (Ret r) r
| ev_get f r : evals s (f s) r -> evals s (Get f) r.
Lemma evals_get {S R} (s : S) f (r : R) : evals s (Get f) r -> evals s (f s) r.
Proof. inversion 1; assumption. Qed.
Lemma evals_ret {S R} (s : S) (r r' : R) : evals s (Ret r) r' -> r = r'.
Proof. inversion 1; reflexivity. Qed.
Section ReadOnly.
Context {S O R : Type} (code : O -> prog S R) (val : O -> R) (s0 : S) (good : O -> Prop).
Hypothesis H : forall o, good o -> evals s0 (code o) (val o).
Definition roinv (c : config S O R) (f : nat -> @phase O R) : Prop := c_sh c = s0 /\
  forall i, Forall good (t_todo (c_ths c i)) /\ match t_cur (c_ths c i) with None => f i = Idle | Some (o, p) => f i = Called o /\ evals s0 p (val o) end.
Lemma ro_step n c e c' h f : step code n c e c' -> roinv c f -> explains (fun o s => (s, val o)) s0 h f s0 -> exists f', roinv c' f' /\ explains (fun o s => (s, val o)) s0 (h ++ e) f' s0.
Proof.
  intros Hs (Hsh & Ht) X. assert (U : forall (i : nat) (t : thread) ph, (Forall good (t_todo t) /\ match t_cur t with None => ph = Idle | Some (o, p) => ph = Called o /\ evals s0 p (val o) end) -> forall j, Forall good (t_todo (upd (c_ths c) i t j)) /\
      match t_cur (upd (c_ths c) i t j) with None => upd f i ph j = Idle | Some (o, p) => upd f i ph j = Called o /\ evals s0 p (val o) end).
  { intros i t ph Q j. destruct (Nat.eq_dec j i) as [->|Hj]; [rewrite !upd_same; exact Q|rewrite !upd_other by exact Hj; apply Ht]. }
  destruct Hs as [i o q Hi Et|i o r q Hi Et|i o k q Hi Et Ep Ew|i o k q m Hi Et Em|i o k q Hi Et Ep Ew|i o k q Hi Et Ep Er|i o k q Hi Et Ew|i o g q Hi Et|i o g k q Hi Et];
    pose proof (Ht i) as (T1 & T2); rewrite Et in T1, T2; cbn [t_cur t_todo] in T1, T2; try (destruct T2 as (_ & T2); inversion T2; fail).
  - exists (upd f i (Called o)). split; [|apply x_inv; assumption]. split; [exact Hsh|]. cbn [c_ths]. unfold goto. apply U. cbn [t_cur t_todo]. inversion T1; subst. split; [assumption|]. split; [reflexivity|]. apply H. assumption.
  - destruct T2 as (T2 & T3). apply evals_ret in T3. subst r. exists (upd (upd f i (Done (val o))) i Idle). split.
    + split; [exact Hsh|]. intros j. cbn [c_ths]. specialize (U i (mkT None q) Idle (conj T1 eq_refl) j). destruct (Nat.eq_dec j i) as [->|Hj]; [rewrite !upd_same in *; exact U|rewrite !upd_other in * by exact Hj; exact U].
    + apply x_res; [|apply upd_same]. exact (x_lin (fun o s => (s, val o)) s0 h f s0 i o X T2).
  - destruct T2 as (T2 & T3). apply evals_get in T3. rewrite <- Hsh in T3 at 2. exists f. rewrite app_nil_r. split; [|exact X]. split; [exact Hsh|]. cbn [c_ths]. unfold goto. intros j.
    specialize (U i (mkT (Some (o, g (c_sh c))) q) (Called o) (conj T1 (conj eq_refl T3)) j). destruct (Nat.eq_dec j i) as [->|Hj]; [rewrite !upd_same in *; rewrite T2; exact U|rewrite !upd_other in * by exact Hj; exact U].
Qed.
Lemma ro_exec n calls h c : (forall i, Forall good (calls i)) -> exec code n (start s0 calls) h c -> c_sh c = s0 /\ linearizable (fun o s => (s, val o)) s0 h.
Proof.
  intros Hg Hx. assert (HH : exists f, roinv c f /\ explains (fun o s => (s, val o)) s0 h f s0).
  { induction Hx as [|h c e c' Hx (f & I & X) Hs]; [exists (fun _ => Idle); split; [split; [reflexivity|]; intros i; cbn; auto|constructor]|]. eapply ro_step; eassumption. }
  destruct HH as (f & (Hs & _) & X). split; [exact Hs|]. exists f, s0. exact X.
Qed.
End ReadOnly.

Lemma fact_code_evals fuel n c ret r : cache_ok c -> 0 <= n < zlen c -> evals c (ret (Ok (factw (Z.to_nat n)))) r -> evals c (fact_code (S fuel) n ret) r.
Proof.
  intros (m & Hc) Hn H. cbn [fact_code]. apply ev_get. destruct (n >=? zlen c) eqn:E; [lia|]. apply ev_get. destruct (n <? 0) eqn:E0; [lia|].
  assert (Hl : zlen c = Z.of_nat (S m)) by (rewrite Hc; unfold zlen; rewrite map_length, seq_length; reflexivity).
  assert (E1 : nth_error c (Z.to_nat n) = Some (factw (Z.to_nat n))).
  { rewrite Hc. rewrite nth_error_map. rewrite (nth_error_nth' _ 0%nat) by (rewrite seq_length; lia). rewrite seq_nth by lia. reflexivity. }
  rewrite E1. exact H.
Qed.
Definition bval (o : bcall) : res Z := match o with BBinom n k => binom n k end.
Definition bgood (c : list Z) (o : bcall) : Prop := match o with BBinom n k => 0 <= k <= n /\ n < zlen c end.
Lemma bcode_evals c o : cache_ok c -> bgood c o -> evals c (bcode o) (bval o).
Proof.
  destruct o as [n k]. intros Hc (Hk & Hn). cbn [bcode bval]. unfold binom. destruct ((k =? 0) || (k =? n)) eqn:E; [apply ev_ret|].
  replace (Z.to_nat (n + 2)) with (S (Z.to_nat (n + 1))) by lia. unfold factorial. destruct (n <? 0) eqn:E0; [lia|]. destruct (k <? 0) eqn:E1; [lia|]. destruct (n - k <? 0) eqn:E2; [lia|]. cbn [bind].
  apply fact_code_evals; [exact Hc|lia|]. cbn [try]. apply fact_code_evals; [exact Hc|lia|]. cbn [try]. apply fact_code_evals; [exact Hc|lia|]. cbn [try]. apply ev_ret.
Qed.
(** Entries of the cache never change in sequential use. *)
Lemma fact_fill_prefix fuel : forall c n c', fact_fill fuel c n = Ok c' -> exists t, c' = c ++ t.
Proof.
  induction fuel as [|fuel IH]; intros c n c'; cbn [fact_fill]; destruct (n >=? zlen c); try discriminate; try (intros H; injection H as <-; exists []; rewrite app_nil_r; reflexivity).
  intros H. apply IH in H as (t & ->). unfold fact_grow. eexists. rewrite <- app_assoc. reflexivity.
Qed.
Lemma factorial_c_prefix c n c' v : factorial_c c n = Ok (c', v) -> exists t, c' = c ++ t.
Proof.
  unfold factorial_c. destruct (fact_fill _ c n) as [c1|e| | |] eqn:E; cbn [bind]; try discriminate. destruct (n <? 0); [discriminate|]. destruct (nth_error c1 _); [|discriminate]. intros H. injection H as <- _. eapply fact_fill_prefix. exact E.
Qed.
Lemma binom_c_prefix c n k c' v : binom_c c n k = Ok (c', v) -> exists t, c' = c ++ t.
Proof.
  unfold binom_c. destruct ((k =? 0) || (k =? n)); [intros H; injection H as <- _; exists []; rewrite app_nil_r; reflexivity|].
  destruct (factorial_c c n) as [(c1, fn)|e| | |] eqn:E1; cbn [bind]; try discriminate. destruct (factorial_c c1 k) as [(c2, fk)|e| | |] eqn:E2; cbn [bind]; try discriminate. destruct (factorial_c c2 (n - k)) as [(c3, fnk)|e| | |] eqn:E3; cbn [bind]; try discriminate.
  destruct (idiv fn _); cbn [bind]; try discriminate. intros H. injection H as <- _. apply factorial_c_prefix in E1 as (t1 & ->). apply factorial_c_prefix in E2 as (t2 & ->). apply factorial_c_prefix in E3 as (t3 & ->). eexists. rewrite <- !app_assoc. reflexivity.
Qed.
(** Any sequence of later calls. *)
Inductive later : list Z -> list Z -> Prop :=
| l_refl c : later c c
| l_call c n k c' v c'' : binom_c c n k = Ok (c', v) -> later c' c'' -> later c c''.
Lemma later_prefix c c' : later c c' -> exists t, c' = c ++ t.
Proof.
  induction 1 as [c|c n k c' v c'' H _ (t & ->)]; [exists []; rewrite app_nil_r; reflexivity|]. apply binom_c_prefix in H as (t' & ->). eexists. rewrite <- app_assoc. reflexivity.
Qed.
Lemma factorial_c_old c t n : 0 <= n < zlen c -> factorial_c (c ++ t) n = match nth_error c (Z.to_nat n) with Some v => Ok (c ++ t, v) | None => Panic end.
Proof.
  intros Hn. unfold factorial_c. assert (E : fact_fill (Z.to_nat (n + 1)) (c ++ t) n = Ok (c ++ t)).
  { replace (Z.to_nat (n + 1)) with (S (Z.to_nat n)) by lia. cbn [fact_fill]. unfold zlen in *. rewrite app_length. rewrite Nat2Z.inj_add, Z.geb_leb. destruct (Z.leb_spec (Z.of_nat (length c) + Z.of_nat (length t)) n); [lia|reflexivity]. }
  rewrite E. cbn [bind]. destruct (n <? 0) eqn:E0; [lia|]. rewrite nth_error_app1 by (unfold zlen in Hn; lia). reflexivity.
Qed.

(** [add_in] is the model's add when the cache is sound. *)
Lemma binom_form n k : binom n k = Panic \/ exists v, binom n k = Ok v.
Proof.
  unfold binom, factorial, idiv. destruct ((k =? 0) || (k =? n)); eauto. destruct (n <? 0); cbn [bind]; auto. destruct (k <? 0); cbn [bind]; auto. destruct (n - k <? 0); cbn [bind]; auto. destruct (_ =? 0); eauto.
Qed.
Lemma binom_in_ok c n k : cache_ok c -> binom_in c n k = binom n k.
Proof.
  intros Hc. unfold binom_in. pose proof (binom_c_ok c n k Hc) as H. destruct (binom_form n k) as [E|(v & E)]; rewrite E in *; [rewrite H; reflexivity|]. destruct H as (c' & -> & _). reflexivity.
Qed.
Lemma inner_in_ok {T} (N : Num T) c op term k is_ : cache_ok c -> forall s, inner_in N c op term k is_ s = inner N op term k is_ s.
Proof.
  intros Hc. induction is_ as [|i t IH]; intros s; [reflexivity|]. cbn [inner_in inner]. unfold coef_in, coef. rewrite binom_in_ok by exact Hc. destruct (binom (Z.of_nat k) (Z.of_nat i)); cbn [bind]; auto.
Qed.
Lemma outer_ext {T} (g1 g2 : (nat -> T) -> nat -> res T) ks : (forall f k, g1 f k = g2 f k) -> forall f, outer g1 ks f = outer g2 ks f.
Proof. intros Hg. induction ks as [|k t IH]; intros f; [reflexivity|]. cbn [outer]. rewrite Hg. destruct (g2 f k); cbn [bind]; auto. Qed.
Lemma add_in_ok {T} (N : Num T) cache c x : cache_ok cache -> add_in N cache c x = c_add N c x.
Proof. intros Hc. unfold add_in, c_add. f_equal. apply outer_ext. intros f k. apply inner_in_ok. exact Hc. Qed.

(** ** Autocov, Autocorr *)
Section Auto.
Context {T : Type} (N : Num T) {V : Type} (view : res T -> V).
Definition anested (k : @jkind T) : bool := match k with JEwmCov _ => false | _ => true end.
Lemma auto_nested k (a : @auto T) c : anested k = true -> jm_core (a_metric a) = Some c -> j_get_count c <> 0 -> exists n kk, alone (acode N view k) AValue a (S n) (RLock kk).
Proof.
  intros Hk Ec Hn. pose proof (a_start (acode N view k) AValue a) as X. cbn [acode] in X. unfold rsection at 1 in X. apply a_rlock, a_get, a_runlock in X. unfold on_core at 1 in X. rewrite Ec in X. cbn beta iota in X.
  destruct (Z.eqb_spec (j_get_count c) 0) as [E|_]; [contradiction|]. destruct k; try discriminate; cbn [jkcode] in X; apply a_rlock in X; unfold rsection at 1 in X; eexists 0%nat, _; exact X.
Qed.
Lemma auto_value_error (a : @auto T) : auto_value N a <> Err ENoValues.
Proof.
  unfold auto_value. destruct (jm_core (a_metric a)) as [c|] eqn:Ec; [|discriminate]. destruct (j_get_count c =? 0) eqn:E0; [discriminate|]. unfold jm_value. rewrite Ec. unfold j_get_count in E0.
  assert (Z0 : forall m, j_get_sum c m = Err ENotTracked \/ exists v, j_get_sum c m = Ok v) by (intros m; unfold j_get_sum; rewrite E0; destruct (j_sums c (t_hash m)); eauto).
  destruct (jm_kind (a_metric a)); cbn [jvalue]; unfold corr_value; repeat match goal with |- context [j_get_sum c ?m] => destruct (Z0 m) as [->|(? & ->)]; cbn [bind]; try discriminate end.
Qed.
(** The error "no values seen yet" is not one of the sequential results. *)
Lemma auto_no_novalues k s0 h f s : explains (aapply N (fun r => r) k) s0 h f s -> (forall i, f i <> Done (AVal (Err ENoValues))) /\ forall i, ~ In (Res i (AVal (Err ENoValues))) h.
Proof.
  assert (U : forall (f : nat -> phase) i ph, (forall j, f j <> Done (AVal (Err ENoValues))) -> ph <> @Done (@acall T) (@ares (res T)) (AVal (Err ENoValues)) -> forall j, upd f i ph j <> Done (AVal (Err ENoValues))).
  { intros f0 i ph H Hp j. destruct (Nat.eq_dec j i) as [->|Hj]; [rewrite upd_same; exact Hp|rewrite upd_other by exact Hj; apply H]. }
  induction 1 as [|h f s i o _ (I1 & I2) E|h f s i o _ (I1 & I2) E|h f s i r _ (I1 & I2) E].
  - split; [discriminate|intros i []].
  - split; [apply U; [exact I1|discriminate]|]. intros j X. apply in_app_iff in X as [X|[X|[]]]; [exact (I2 j X)|discriminate].
  - split; [|exact I2]. apply U; [exact I1|]. destruct o as [x| |]; cbn [aapply upd_spec snd]; try discriminate. intros X. injection X as X. exact (auto_value_error _ X).
  - split; [apply U; [exact I1|discriminate]|]. intros j X. apply in_app_iff in X as [X|[X|[]]]; [exact (I2 j X)|]. injection X as -> ->. exact (I1 j E).
Qed.
End Auto.
