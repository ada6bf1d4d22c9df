(** Proofs about CfgModel.v. *)
From Verif Require Import Base HistSpec RingModel MathModel NumModel MomentModel JointModel ClearProof CfgModel.
Local Open Scope Z_scope.

Lemma upd_nth_same {A} (l : list A) i x y : nth_error l i = Some y -> nth_error (upd_nth l i x) i = Some x.
Proof. revert i. induction l as [|z l IH]; intros [|i] H; cbn in *; try discriminate; [reflexivity|]. apply IH, H. Qed.
Lemma upd_nth_other {A} (l : list A) i j x : i <> j -> nth_error (upd_nth l j x) i = nth_error l i.
Proof. revert i j. induction l as [|z l IH]; intros [|i] [|j] H; cbn; try reflexivity; try congruence. apply IH. congruence. Qed.
Lemma put_same {A} (f : nat -> A) a v : put f a v a = v.
Proof. unfold put. rewrite Nat.eqb_refl. reflexivity. Qed.
Lemma put_other {A} (f : nat -> A) a b v : b <> a -> put f a v b = f b.
Proof. intros H. unfold put. destruct (Nat.eqb_spec b a); [congruence|reflexivity]. Qed.

Section Moment.
Context {T : Type} (N : Num T).

(** The calls made on the i-th core. *)
Fixpoint calls (i : nat) (cs : list (@cmd T)) : list (op T) :=
  match cs with
  | [] => []
  | Push j x :: t => if Nat.eqb j i then OPush x :: calls i t else calls i t
  | Clear j :: t => if Nat.eqb j i then OClear :: calls i t else calls i t
  | _ :: t => calls i t
  end.

Lemma load_push h c x c' : p_push N h c x = Ok c' -> pk_decay c' = pk_decay c /\ c_push N (load h c) x = Ok (load h c').
Proof.
  unfold p_push. destruct (c_push N (load h c) x) as [k| | | |] eqn:E; cbn; intros H; try discriminate. injection H as <-. split; [reflexivity|]. f_equal.
  apply c_push_params in E. destruct E as (_ & _ & E). destruct k as [m l s n w d q]. cbn in E. unfold load in *. cbn [pk_core pk_decay c_mean c_len c_sums c_count c_window c_queue] in *. cbn in E. rewrite E. reflexivity.
Qed.
Lemma load_clear h c c' : p_clear N c = Ok c' -> pk_decay c' = pk_decay c /\ c_clear N (load h c) = Ok (load h c').
Proof. unfold p_clear, c_clear. cbn [rmap]. intros H. injection H as <-. split; reflexivity. Qed.

Lemma step_core s c s' i k : step N s c = Ok s' -> nth_error (w_cores s) i = Some k -> (forall a x, c = WriteFlt a x -> pk_decay k <> Some a) ->
  exists k', nth_error (w_cores s') i = Some k' /\ pk_decay k' = pk_decay k /\ core_run N (load (w_heap s) k) (calls i [c]) = Ok (load (w_heap s') k').
Proof.
  intros E Hk Hw.
  assert (K : forall h, option_map (h_flt h) (pk_decay k) = option_map (h_flt (w_heap s)) (pk_decay k) -> load h k = load (w_heap s) k).
  { intros h H. unfold load. rewrite H. reflexivity. }
  assert (K0 : forall s1, w_cores s1 = w_cores s -> option_map (h_flt (w_heap s1)) (pk_decay k) = option_map (h_flt (w_heap s)) (pk_decay k) ->
    exists k', nth_error (w_cores s1) i = Some k' /\ pk_decay k' = pk_decay k /\ Ok (load (w_heap s) k) = Ok (load (w_heap s1) k')).
  { intros s1 H1 H2. exists k. rewrite H1. rewrite (K _ H2). auto. }
  destruct c; cbn [step calls] in *; unfold core_run; cbn [run].
  - injection E as <-. apply K0; reflexivity.
  - injection E as <-. apply K0; reflexivity.
  - injection E as <-. apply K0; reflexivity.
  - injection E as <-. apply K0; reflexivity.
  - injection E as <-. apply K0; reflexivity.
  - destruct (p_sums (cfg_of s v)); [|discriminate]. injection E as <-. apply K0; reflexivity.
  - injection E as <-. apply K0; reflexivity.
  - injection E as <-. apply K0; [reflexivity|]. cbn. specialize (Hw a x eq_refl). destruct (pk_decay k) as [b|]; [|reflexivity]. cbn. rewrite put_other by congruence. reflexivity.
  - destruct us as [|u [|u' us]]; [injection E as <-; apply K0; reflexivity|injection E as <-; apply K0; reflexivity|].
    destruct (p_merge_loop _ _ _ _ _ _) as [[[ks w] d]| | | |]; try discriminate; injection E as <-; apply K0; reflexivity.
  - unfold p_new_core in E. destruct (new_core N _) as [c|e| | |] eqn:EN; cbn in E; try discriminate; injection E as <-; [|apply K0; reflexivity].
    exists k. cbn [w_cores w_heap]. split; [|auto]. rewrite nth_error_app1; [exact Hk|]. apply nth_error_Some. congruence.
  - destruct (nth_error (w_cores s) i0) as [c|] eqn:EI.
    + apply bind_ok in E. destruct E as (c' & E1 & E2). injection E2 as <-. cbn [w_cores w_heap]. destruct (Nat.eqb_spec i0 i) as [->|Hn].
      * rewrite Hk in EI. injection EI as <-. apply load_push in E1. destruct E1 as [E1 E2]. exists c'. split; [eapply upd_nth_same; eassumption|]. split; [exact E1|].
        cbn [run]. rewrite E2. reflexivity.
      * exists k. rewrite upd_nth_other by congruence. cbn [run]. auto.
    + injection E as <-. destruct (Nat.eqb_spec i0 i) as [->|Hn]; [congruence|]. exists k. cbn [run]. auto.
  - destruct (nth_error (w_cores s) i0) as [c|] eqn:EI.
    + apply bind_ok in E. destruct E as (c' & E1 & E2). injection E2 as <-. cbn [w_cores w_heap]. destruct (Nat.eqb_spec i0 i) as [->|Hn].
      * rewrite Hk in EI. injection EI as <-. apply (load_clear (w_heap s)) in E1. destruct E1 as [E1 E2]. exists c'. split; [eapply upd_nth_same; eassumption|]. split; [exact E1|].
        cbn [run]. rewrite E2. reflexivity.
      * exists k. rewrite upd_nth_other by congruence. cbn [run]. auto.
    + injection E as <-. destruct (Nat.eqb_spec i0 i) as [->|Hn]; [congruence|]. exists k. cbn [run]. auto.
Qed.

Lemma run_app_ok {S A} (p : S -> A -> res S) (cl : S -> res S) a b s s1 : run p cl a s = Ok s1 -> run p cl (a ++ b) s = run p cl b s1.
Proof.
  revert s. induction a as [|o a IH]; intros s E; cbn in *; [injection E as ->; reflexivity|].
  destruct o; apply bind_ok in E; destruct E as (s' & E1 & E2); rewrite E1; cbn [bind]; apply IH; exact E2.
Qed.
Lemma calls_cons i c cs : calls i (c :: cs) = calls i [c] ++ calls i cs.
Proof. destruct c; cbn; try reflexivity; destruct (Nat.eqb _ _); reflexivity. Qed.

Lemma exec_core i cs : forall s s' k, exec N s cs = Ok s' -> nth_error (w_cores s) i = Some k -> (forall a x, In (WriteFlt a x) cs -> pk_decay k <> Some a) ->
  exists k', nth_error (w_cores s') i = Some k' /\ pk_decay k' = pk_decay k /\ core_run N (load (w_heap s) k) (calls i cs) = Ok (load (w_heap s') k').
Proof.
  induction cs as [|c cs IH]; intros s s' k E Hk Hw.
  - cbn in E. injection E as <-. exists k. cbn. auto.
  - cbn [exec] in E. apply bind_ok in E. destruct E as (s1 & E1 & E2).
    destruct (step_core s c s1 i k E1 Hk) as (k1 & H1 & H2 & H3); [intros a x ->; apply (Hw a x); left; reflexivity|].
    destruct (IH s1 s' k1 E2 H1) as (k' & H4 & H5 & H6); [intros a x Hi; rewrite H2; apply (Hw a x); right; exact Hi|].
    exists k'. split; [exact H4|]. split; [congruence|]. rewrite calls_cons. unfold core_run in *. rewrite (run_app_ok _ _ _ _ _ _ H3). exact H6.
Qed.

(** A new core is the one of the contents of the config. *)
Lemma step_new s v s1 : step N s (New v) = Ok s1 ->
  w_heap s1 = w_heap s /\ w_var s1 = w_var s /\ w_cfg s1 = put (w_cfg s) (w_var s v) (p_defaults (cfg_of s v)) /\
  match new_core N (contents (w_heap s) (p_defaults (cfg_of s v))) with
  | Ok k => exists c, w_cores s1 = w_cores s ++ [c] /\ load (w_heap s1) c = k /\ pk_decay c = p_decay (cfg_of s v)
  | Err _ => w_cores s1 = w_cores s
  | _ => False
  end.
Proof.
  cbn [step]. unfold p_new_core. destruct (new_core N _) as [c|e| | |] eqn:EN; cbn; intros H; try discriminate; injection H as <-; repeat split.
  exists (mkPC c (p_decay (cfg_of s v))). split; [reflexivity|]. split; [|reflexivity]. cbn [w_heap]. unfold new_core in EN. apply bind_ok in EN. destruct EN as (u & _ & EN).
  destruct (cf_window _) as [w|]; [|discriminate]. injection EN as <-. reflexivity.
Qed.

(** ** The default map *)
Fixpoint own_sums (s : world) (cs : list cmd) : Prop :=
  match cs with
  | [] => True
  | c :: t => (forall v k, c = AddSum v k -> p_sums (cfg_of s v) <> Some default_map) /\ match step N s c with Ok s' => own_sums s' t | _ => True end
  end.
Definition dinv (s : world (T := T)) : Prop := h_map (w_heap s) default_map = [] /\ (default_map < h_next (w_heap s))%nat.
Lemma step_dinv s c s' : dinv s -> step N s c = Ok s' -> (forall v k, c = AddSum v k -> p_sums (cfg_of s v) <> Some default_map) -> dinv s'.
Proof.
  intros [D1 D2] E Hc. unfold dinv, default_map in *. destruct c; cbn [step] in E.
  - injection E as <-. cbn. auto.
  - injection E as <-. cbn. auto.
  - injection E as <-. cbn. auto.
  - injection E as <-. cbn [w_heap set_map next h_map h_next]. rewrite put_other by lia. auto.
  - injection E as <-. cbn. auto.
  - specialize (Hc v k eq_refl). destruct (p_sums (cfg_of s v)) as [a|]; [|discriminate]. injection E as <-. cbn [w_heap set_map next h_map h_next]. rewrite put_other by congruence. auto.
  - injection E as <-. cbn. auto.
  - injection E as <-. cbn. auto.
  - destruct us as [|u [|u' us]]; [injection E as <-; auto|injection E as <-; auto|].
    destruct (p_merge_loop _ _ _ _ _ _) as [[[ks w] d]| | | |]; try discriminate; injection E as <-; cbn [w_heap set_map next h_map h_next]; [rewrite put_other by lia|]; auto.
  - destruct (step_new s v s' E) as (-> & _). auto.
  - destruct (nth_error (w_cores s) i) as [c|]; [apply bind_ok in E; destruct E as (c' & _ & E)|]; injection E as <-; auto.
  - destruct (nth_error (w_cores s) i) as [c|]; [apply bind_ok in E; destruct E as (c' & _ & E)|]; injection E as <-; auto.
Qed.
Lemma exec_dinv cs : forall s s', dinv s -> own_sums s cs -> exec N s cs = Ok s' -> dinv s'.
Proof.
  induction cs as [|c cs IH]; intros s s' D O E; cbn [exec own_sums] in *; [injection E as <-; exact D|].
  destruct O as [O1 O2]. apply bind_ok in E. destruct E as (s1 & E1 & E2). rewrite E1 in O2. apply (IH s1 s' (step_dinv s c s1 D E1 O1) O2 E2).
Qed.
Lemma start_dinv : dinv (start N).
Proof. split; cbn; [reflexivity|unfold default_map; lia]. Qed.

Lemma default_contents h p : h_map h default_map = [] -> new_core N (contents h (p_defaults p)) = new_core N (contents h p).
Proof. intros H. unfold new_core, set_defaults, contents, p_defaults. destruct p as [[a|] w d]; cbn; [reflexivity|]. rewrite H. reflexivity. Qed.

(** Merging configs in the heap is merging their contents. *)
Lemma merge_contents h cs : forall sums w d,
  rmap (fun r => mkCfg (Some (fst (fst r))) (option_map (h_int h) (snd (fst r))) (option_map (h_flt h) (snd r))) (p_merge_loop N h cs sums w d) =
  merge_loop N (map (contents h) cs) sums (option_map (h_int h) w) (option_map (h_flt h) d).
Proof.
  induction cs as [|c cs IH]; intros sums w d; [reflexivity|]. cbn [p_merge_loop merge_loop map]. cbn [contents cf_sums cf_window cf_decay].
  destruct (p_sums c) as [a|], (p_window c) as [cw|], (p_decay c) as [cd|], w as [w0|], d as [d0|]; cbn [option_map bind];
    repeat (match goal with |- context [if ?b then _ else _] => destruct b end; cbn [bind rmap]; try reflexivity); rewrite IH; reflexivity.
Qed.
End Moment.

Section Joint.
Context {T : Type} (N : Num T).

Fixpoint jcalls (i : nat) (cs : list (@jcmd T)) : list (op (list T)) :=
  match cs with
  | [] => []
  | JPush j x :: t => if Nat.eqb j i then OPush x :: jcalls i t else jcalls i t
  | JClear j :: t => if Nat.eqb j i then OClear :: jcalls i t else jcalls i t
  | _ :: t => jcalls i t
  end.
Lemma jcalls_cons i c cs : jcalls i (c :: cs) = jcalls i [c] ++ jcalls i cs.
Proof. destruct c; cbn; try reflexivity; destruct (Nat.eqb _ _); reflexivity. Qed.

Lemma j_remove_params (c : @vcore T) x d : j_remove N c x = Ok d -> j_tuples d = j_tuples c /\ j_decay d = j_decay c.
Proof.
  unfold j_remove. destruct (_ >? _); [|intros H; injection H as <-; auto]. intros H. apply bind_ok in H. destruct H as ([s m] & _ & H). injection H as <-. auto.
Qed.
Lemma jpush_params (c : @vcore T) x d : jpush N c x = Ok d -> j_tuples d = j_tuples c /\ j_decay d = j_decay c.
Proof.
  unfold jpush, j_push. destruct (negb _); [discriminate|]. intros H. apply bind_ok in H. destruct H as (c1 & H1 & H2).
  assert (P1 : j_tuples c1 = j_tuples c /\ j_decay c1 = j_decay c).
  { destruct (negb _); [|injection H1 as <-; auto]. apply bind_ok in H1. destruct H1 as (c2 & H3 & H4). apply bind_ok in H4. destruct H4 as (q & _ & H4). injection H4 as <-. cbn.
    destruct (_ =? _); [|injection H3 as <-; auto]. apply bind_ok in H3. destruct H3 as ([y q'] & _ & H3). apply j_remove_params in H3. exact H3. }
  destruct P1 as [P1 P2]. rewrite P2 in H2. destruct (j_decay c) as [d0|]; [unfold j_add_decay in H2|unfold j_add in H2]; apply bind_ok in H2; destruct H2 as (m & _ & H2); injection H2 as <-; cbn; auto.
Qed.
Lemma jload_push h c x c' : q_push N h c x = Ok c' -> jk_tuples c' = jk_tuples c /\ jk_decay c' = jk_decay c /\ jpush N (jload h c) x = Ok (jload h c').
Proof.
  unfold q_push. destruct (jpush N (jload h c) x) as [k| | | |] eqn:E; cbn; intros H; try discriminate. injection H as <-. split; [reflexivity|]. split; [reflexivity|]. f_equal.
  apply jpush_params in E. destruct E as (E1 & E2). destruct k as [m t s n c0 w d q]. cbn in E1, E2. unfold jload in *. cbn. rewrite E1, E2. reflexivity.
Qed.
Lemma jload_clear h c c' : q_clear N c = Ok c' -> jk_tuples c' = jk_tuples c /\ jk_decay c' = jk_decay c /\ j_clear N (jload h c) = Ok (jload h c').
Proof. unfold q_clear, j_clear. cbn [rmap]. intros H. injection H as <-. repeat split; reflexivity. Qed.

(** What the core reads through its pointers. *)
Definition reads (h : heap) (c : jpcore (T := T)) : list tuple * option T := (match jk_tuples c with Some a => tuples h a | None => [] end, option_map (h_flt h) (jk_decay c)).
Lemma jload_reads h h' c c' : jk_core c' = jk_core c -> reads h' c' = reads h c -> jload h' c' = jload h c.
Proof. unfold reads, jload. intros E H. injection H as H1 H2. rewrite E, H1, H2. reflexivity. Qed.

Lemma jstep_core s c s' i k : jstep N s c = Ok s' -> nth_error (jw_cores s) i = Some k -> reads (jw_heap s') k = reads (jw_heap s) k ->
  exists k', nth_error (jw_cores s') i = Some k' /\ jk_tuples k' = jk_tuples k /\ jk_decay k' = jk_decay k /\ jcore_run N (jload (jw_heap s) k) (jcalls i [c]) = Ok (jload (jw_heap s') k').
Proof.
  intros E Hk Hw. pose proof (jload_reads _ _ k k eq_refl Hw) as K.
  assert (K0 : jw_cores s' = jw_cores s ->
    exists k', nth_error (jw_cores s') i = Some k' /\ jk_tuples k' = jk_tuples k /\ jk_decay k' = jk_decay k /\ Ok (jload (jw_heap s) k) = Ok (jload (jw_heap s') k')).
  { intros H1. exists k. rewrite H1, K. auto. }
  destruct c; cbn [jstep jcalls] in *; unfold jcore_run; cbn [run].
  - injection E as <-. apply K0; reflexivity.
  - injection E as <-. apply K0; reflexivity.
  - injection E as <-. apply K0; reflexivity.
  - injection E as <-. apply K0; reflexivity.
  - destruct (mk_tuples (jw_heap s) ts). injection E as <-. apply K0; reflexivity.
  - injection E as <-. apply K0; reflexivity.
  - destruct (q_sums (jcfg_of s v)); [|discriminate]. destruct (_ <? _)%nat; [|discriminate]. injection E as <-. apply K0; reflexivity.
  - destruct (q_sums (jcfg_of s v)); [|discriminate]. destruct (nth_error _ _); [|discriminate]. destruct (_ <? _)%nat; [|discriminate]. injection E as <-. apply K0; reflexivity.
  - injection E as <-. apply K0; reflexivity.
  - injection E as <-. apply K0; reflexivity.
  - destruct us as [|u [|u' us]]; [injection E as <-; apply K0; reflexivity|injection E as <-; apply K0; reflexivity|].
    destruct (q_merge_loop _ _ _ _ _ _ _) as [[[[ks w] n] d]| | | |]; try discriminate; injection E as <-; apply K0; reflexivity.
  - destruct (q_new_core N (jw_heap s) (jcfg_of s v)) as [[h' p] [c|e| | |]]; try discriminate; injection E as <-; [|apply K0; reflexivity].
    exists k. cbn [jw_cores jw_heap] in *. split; [|rewrite K; auto]. rewrite nth_error_app1; [exact Hk|]. apply nth_error_Some. congruence.
  - destruct (nth_error (jw_cores s) i0) as [c|] eqn:EI.
    + apply bind_ok in E. destruct E as (c' & E1 & E2). injection E2 as <-. cbn [jw_cores jw_heap]. destruct (Nat.eqb_spec i0 i) as [->|Hn].
      * rewrite Hk in EI. injection EI as <-. apply jload_push in E1. destruct E1 as (E0 & E1 & E2). exists c'. split; [eapply upd_nth_same; eassumption|]. split; [exact E0|]. split; [exact E1|].
        cbn [run]. rewrite E2. reflexivity.
      * exists k. rewrite upd_nth_other by congruence. cbn [run]. auto.
    + injection E as <-. destruct (Nat.eqb_spec i0 i) as [->|Hn]; [congruence|]. exists k. cbn [run]. auto.
  - destruct (nth_error (jw_cores s) i0) as [c|] eqn:EI.
    + apply bind_ok in E. destruct E as (c' & E1 & E2). injection E2 as <-. cbn [jw_cores jw_heap]. destruct (Nat.eqb_spec i0 i) as [->|Hn].
      * rewrite Hk in EI. injection EI as <-. apply (jload_clear (jw_heap s)) in E1. destruct E1 as (E0 & E1 & E2). exists c'. split; [eapply upd_nth_same; eassumption|]. split; [exact E0|]. split; [exact E1|].
        cbn [run]. rewrite E2. reflexivity.
      * exists k. rewrite upd_nth_other by congruence. cbn [run]. auto.
    + injection E as <-. destruct (Nat.eqb_spec i0 i) as [->|Hn]; [congruence|]. exists k. cbn [run]. auto.
Qed.

(** ** Addresses in use are below [h_next] *)
Record jwf (s : jworld (T := T)) : Prop := {
  wf_cfg : forall u a, q_sums (jw_cfg s u) = Some a -> (a < h_next (jw_heap s))%nat;
  wf_arr : forall a b, In b (h_arr (jw_heap s) a) -> (b < h_next (jw_heap s))%nat;
  wf_core : forall c a, In c (jw_cores s) -> jk_tuples c = Some a -> (a < h_next (jw_heap s))%nat;
  wf_pos : (default_arr < h_next (jw_heap s))%nat }.
Lemma jstart_wf : jwf (jstart N).
Proof. split; cbn; try discriminate; try tauto. unfold default_arr. lia. Qed.

Lemma mk_tuples_spec ts : forall (h h' : heap (T := T)) l, mk_tuples h ts = (h', l) ->
  (h_next h <= h_next h')%nat /\ h_arr h' = h_arr h /\ h_flt h' = h_flt h /\ h_int h' = h_int h /\ (forall a, (a < h_next h)%nat -> h_tup h' a = h_tup h a) /\
  (forall b, In b l -> (h_next h <= b < h_next h')%nat) /\ map (h_tup h') l = ts.
Proof.
  induction ts as [|t ts IH]; intros h h' l E; cbn [mk_tuples] in E.
  - injection E as <- <-. do 5 (split; [auto|]). split; [intros b []|reflexivity].
  - destruct (mk_tuples (next (set_tup h (h_next h) t)) ts) as [h1 l1] eqn:E1. injection E as <- <-. destruct (IH _ _ _ E1) as (H1 & H2 & H3 & H3' & H4 & H5 & H6).
    cbn [next set_tup h_next h_arr h_flt h_int h_tup] in *. split; [lia|]. do 3 (split; [auto|]). split; [|split].
    + intros a Ha. rewrite H4 by lia. apply put_other. lia.
    + intros b [<-|H]; [lia|]. apply H5 in H. lia.
    + cbn [map]. rewrite H6, H4 by lia. rewrite put_same. reflexivity.
Qed.
Lemma q_simplify_in h sums : forall seen keys kept l, q_simplify_loop (T := T) h sums seen keys kept = Ok l -> forall b, In b l -> In b kept \/ In b sums.
Proof.
  induction sums as [|a sums IH]; intros seen keys kept l E b Hb; cbn [q_simplify_loop] in E; [injection E as <-; auto|].
  destruct (existsb _ _); [destruct (IH _ _ _ _ E b Hb); cbn; tauto|]. apply bind_ok in E. destruct E as (d & _ & E).
  destruct d; destruct (IH _ _ _ _ E b Hb) as [H|H]; cbn; try tauto. apply in_app_iff in H. destruct H as [H|[->|[]]]; tauto.
Qed.
Lemma q_merge_in h cs : forall sums w v d r, q_merge_loop N h cs sums w v d = Ok r -> forall b, In b (fst (fst (fst r))) -> In b sums \/ exists c a, In c cs /\ q_sums c = Some a /\ In b (h_arr h a).
Proof.
  induction cs as [|c cs IH]; intros sums w v d r E b Hb; cbn [q_merge_loop] in E.
  - apply bind_ok in E. destruct E as (l & E1 & E2). injection E2 as <-. cbn in Hb. destruct (q_simplify_in _ _ _ _ _ _ E1 b Hb) as [[]|H]. auto.
  - apply bind_ok in E. destruct E as (w' & _ & E). apply bind_ok in E. destruct E as (v' & _ & E). apply bind_ok in E. destruct E as (d' & _ & E).
    destruct (IH _ _ _ _ _ E b Hb) as [H|(c' & a & H1 & H2 & H3)]; [|right; exists c', a; cbn; auto].
    destruct (q_sums c) as [a|] eqn:EQ; [|auto]. apply in_app_iff in H. destruct H as [H|H]; [auto|]. right. exists c, a. cbn. auto.
Qed.

Lemma upd_nth_in {A} (l : list A) i x y : In y (upd_nth l i x) -> y = x \/ In y l.
Proof. revert i. induction l as [|z l IH]; intros [|i]; cbn; try tauto; intros [H|H]; auto. apply IH in H. tauto. Qed.
Lemma put_case {A} (f : nat -> A) a v b : (b = a /\ put f a v b = v) \/ (b <> a /\ put f a v b = f b).
Proof. destruct (Nat.eq_dec b a) as [->|H]; [left; split; [reflexivity|apply put_same]|right; split; [exact H|apply put_other, H]]. Qed.

Lemma q_new_spec h p h' p' r : q_new_core N h p = (h', p', r) ->
  (h_next h <= h_next h')%nat /\ h_arr h' = h_arr h /\ h_tup h' = h_tup h /\ h_flt h' = h_flt h /\ q_sums p' = q_sums (q_defaults p) /\ q_decay p' = q_decay p /\ q_window p' = q_window p /\
  (forall c, r = Ok c -> jk_tuples c = q_sums p' /\ jk_decay c = q_decay p' /\ jnew_core N (jcontents h (q_defaults p)) = Ok (jk_core c)).
Proof.
  unfold q_new_core. destruct (jnew_core N (jcontents h (q_defaults p))) as [c|e| | |] eqn:E; intros H; try (injection H as <- <- <-; repeat split; try lia; intros; discriminate).
  destruct (q_vars (q_defaults p)) as [n|]; [injection H as <- <- <-; repeat split; try lia; try (injection H as <-; cbn; auto)|].
  destruct (jsums_of _) as [|t ts]; injection H as <- <- <-; cbn [next set_int h_next]; repeat split; try lia; try (injection H as <-; cbn; auto).
Qed.

Lemma jstep_wf s c s' : jwf s -> jstep N s c = Ok s' -> jwf s'.
Proof.
  intros [W1 W2 W3 W4] E. unfold default_arr in *. assert (WC : forall p b, (forall a, q_sums p = Some a -> (a < h_next (jw_heap s))%nat) -> forall u a, q_sums (put (jw_cfg s) b p u) = Some a -> (a < h_next (jw_heap s))%nat).
  { intros p b H u a. destruct (put_case (jw_cfg s) b p u) as [[-> ->]|[_ ->]]; [apply H|apply W1]. }
  destruct c; cbn [jstep] in E.
  - injection E as <-. split; cbn [jw_cfg jw_heap jw_cores next h_next h_arr]; unfold default_arr.
    + intros u a H. enough (a < h_next (jw_heap s))%nat by lia. revert H. apply WC. discriminate.
    + intros a b H. apply W2 in H. lia.
    + intros c a H1 H2. specialize (W3 c a H1 H2). lia.
    + lia.
  - injection E as <-. split; cbn; auto. apply WC. cbn. apply W1.
  - injection E as <-. split; cbn; auto. apply WC. cbn. apply W1.
  - injection E as <-. split; cbn; auto. apply WC. cbn. apply W1.
  - destruct (mk_tuples (jw_heap s) ts) as [h1 l] eqn:EM. injection E as <-. destruct (mk_tuples_spec _ _ _ _ EM) as (M1 & M2 & M3 & _ & M4 & M5 & M6).
    split; cbn [jw_cfg jw_heap jw_cores next set_arr h_next h_arr]; unfold default_arr.
    + intros u a H. destruct (put_case (jw_cfg s) (jw_var s v) (mkJP (Some (h_next h1)) (q_window (jcfg_of s v)) (q_vars (jcfg_of s v)) (q_decay (jcfg_of s v))) u) as [[_ P]|[_ P]]; rewrite P in H; [cbn in H; injection H as <-; lia|]. apply W1 in H. lia.
    + intros a b H. destruct (put_case (h_arr h1) (h_next h1) l a) as [[_ P]|[_ P]]; rewrite P in H; [apply M5 in H; lia|]. rewrite M2 in H. apply W2 in H. lia.
    + intros c a H1 H2. specialize (W3 c a H1 H2). lia.
    + lia.
  - injection E as <-. split; cbn; auto. apply WC. cbn. apply W1.
  - destruct (q_sums (jcfg_of s v)) as [a0|] eqn:EQ; [|discriminate]. destruct (_ <? _)%nat; [|discriminate]. injection E as <-. split; cbn [jw_cfg jw_heap jw_cores next set_arr set_tup h_next h_arr]; unfold default_arr.
    + intros u a H. apply W1 in H. lia.
    + intros a b H. destruct (put_case (h_arr (jw_heap s)) a0 (upd_nth (h_arr (jw_heap s) a0) i (h_next (jw_heap s))) a) as [[_ P]|[_ P]]; rewrite P in H; [apply upd_nth_in in H; destruct H as [->|H]; [lia|]|]; apply W2 in H; lia.
    + intros c a H1 H2. specialize (W3 c a H1 H2). lia.
    + lia.
  - destruct (q_sums (jcfg_of s v)); [|discriminate]. destruct (nth_error _ _); [|discriminate]. destruct (_ <? _)%nat; [|discriminate]. injection E as <-. split; cbn; auto.
  - injection E as <-. split; cbn; auto.
  - injection E as <-. split; cbn; auto.
  - destruct us as [|u [|u' us]]; [injection E as <-; split; auto|injection E as <-; split; cbn; auto|].
    destruct (q_merge_loop _ _ _ _ _ _ _) as [[[[ks w] n] d]| | | |] eqn:EM; try discriminate; injection E as <-; [|split; auto].
    split; cbn [jw_cfg jw_heap jw_cores next set_arr h_next h_arr]; unfold default_arr.
    + intros x a H. destruct (put_case (jw_cfg s) (h_next (jw_heap s)) (mkJP (Some (h_next (jw_heap s))) w n d) x) as [[_ P]|[_ P]]; rewrite P in H; [cbn in H; injection H as <-; lia|]. apply W1 in H. lia.
    + intros a b H. destruct (put_case (h_arr (jw_heap s)) (h_next (jw_heap s)) ks a) as [[_ P]|[_ P]]; rewrite P in H; [|apply W2 in H; lia].
      destruct (q_merge_in _ _ _ _ _ _ _ EM b H) as [[]|(c & a' & _ & _ & H3)]. apply W2 in H3. lia.
    + intros c a H1 H2. specialize (W3 c a H1 H2). lia.
    + lia.
  - destruct (q_new_core N (jw_heap s) (jcfg_of s v)) as [[h' p] r] eqn:EN. destruct (q_new_spec _ _ _ _ _ EN) as (Q1 & Q2 & Q3 & Q4 & Q5 & Q6 & Q7 & Q8).
    assert (HP : forall a, q_sums p = Some a -> (a < h_next (jw_heap s))%nat).
    { rewrite Q5. unfold q_defaults, default_arr. cbn. intros a. destruct (q_sums (jcfg_of s v)) as [a0|] eqn:EQ; intros H; injection H as <-; [eapply W1; exact EQ|lia]. }
    destruct r as [c|e| | |]; try discriminate; injection E as <-; (split; cbn [jw_cfg jw_heap jw_cores]; unfold default_arr; [intros u a H; enough (a < h_next (jw_heap s))%nat by lia; revert H; apply WC, HP|intros a b H; rewrite Q2 in H; apply W2 in H; lia| |lia]).
    + intros c0 a H1 H2. apply in_app_iff in H1. destruct H1 as [H1|[<-|[]]]; [specialize (W3 c0 a H1 H2); lia|]. destruct (Q8 c eq_refl) as (H3 & _). rewrite H3 in H2. apply HP in H2. lia.
    + intros c0 a H1 H2. specialize (W3 c0 a H1 H2). lia.
  - destruct (nth_error (jw_cores s) i) as [c|] eqn:EI; [apply bind_ok in E; destruct E as (c' & E1 & E)|]; injection E as <-; split; cbn; auto.
    intros c0 a H1 H2. apply upd_nth_in in H1. destruct H1 as [->|H1]; [|eauto]. apply jload_push in E1. destruct E1 as (E1 & _). rewrite E1 in H2. eapply W3; [eapply nth_error_In; exact EI|exact H2].
  - destruct (nth_error (jw_cores s) i) as [c|] eqn:EI; [apply bind_ok in E; destruct E as (c' & E1 & E)|]; injection E as <-; split; cbn; auto.
    intros c0 a H1 H2. apply upd_nth_in in H1. destruct H1 as [->|H1]; [|eauto]. apply (jload_clear (jw_heap s)) in E1. destruct E1 as (E1 & _). rewrite E1 in H2. eapply W3; [eapply nth_error_In; exact EI|exact H2].
Qed.
Lemma jexec_wf cs : forall s s', jwf s -> jexec N s cs = Ok s' -> jwf s'.
Proof. induction cs as [|c cs IH]; intros s s' W E; cbn [jexec] in E; [injection E as <-; exact W|]. apply bind_ok in E. destruct E as (s1 & E1 & E2). apply (IH s1 s' (jstep_wf s c s1 W E1) E2). Qed.

(** Commands that write to tuples or to slots of a slice. *)
Definition rewrites_sums (c : jcmd (T := T)) : Prop := match c with JSetTuple _ _ _ | JSetPower _ _ _ _ => True | _ => False end.
Lemma jstep_reads s c s' k : jwf s -> jstep N s c = Ok s' -> ~ rewrites_sums c -> (forall a x, c = JWriteFlt a x -> jk_decay k <> Some a) ->
  (forall a, jk_tuples k = Some a -> (a < h_next (jw_heap s))%nat) -> reads (jw_heap s') k = reads (jw_heap s) k.
Proof.
  intros [W1 W2 W3 W4] E Hr Hw Ha.
  assert (G : forall h, (forall a, (a < h_next (jw_heap s))%nat -> h_arr h a = h_arr (jw_heap s) a) -> (forall a, (a < h_next (jw_heap s))%nat -> h_tup h a = h_tup (jw_heap s) a) ->
    option_map (h_flt h) (jk_decay k) = option_map (h_flt (jw_heap s)) (jk_decay k) -> reads h k = reads (jw_heap s) k).
  { intros h H1 H2 H3. unfold reads. rewrite H3. f_equal. destruct (jk_tuples k) as [a|]; [|reflexivity]. unfold tuples. rewrite H1 by auto. apply map_ext_in. intros b Hb. apply H2. eapply W2. exact Hb. }
  destruct c; cbn [jstep rewrites_sums] in *; try tauto.
  - injection E as <-. apply G; reflexivity.
  - injection E as <-. apply G; reflexivity.
  - injection E as <-. apply G; reflexivity.
  - injection E as <-. apply G; reflexivity.
  - destruct (mk_tuples (jw_heap s) ts) as [h1 l] eqn:EM. injection E as <-. destruct (mk_tuples_spec _ _ _ _ EM) as (M1 & M2 & M3 & _ & M4 & M5 & M6).
    apply G; cbn [jw_heap next set_arr h_arr h_tup h_flt].
    + intros a H. rewrite put_other by lia. rewrite M2. reflexivity.
    + exact M4.
    + rewrite M3. reflexivity.
  - injection E as <-. apply G; reflexivity.
  - injection E as <-. apply G; reflexivity.
  - injection E as <-. apply G; try reflexivity. cbn. specialize (Hw a x eq_refl). destruct (jk_decay k) as [b|]; [|reflexivity]. cbn. rewrite put_other by congruence. reflexivity.
  - destruct us as [|u [|u' us]]; [injection E as <-; reflexivity|injection E as <-; reflexivity|].
    destruct (q_merge_loop _ _ _ _ _ _ _) as [[[[ks w] n] d]| | | |] eqn:EM; try discriminate; injection E as <-; [|reflexivity].
    apply G; try reflexivity. cbn [jw_heap next set_arr h_arr]. intros a H. apply put_other. lia.
  - destruct (q_new_core N (jw_heap s) (jcfg_of s v)) as [[h' p] r] eqn:EN. destruct (q_new_spec _ _ _ _ _ EN) as (Q1 & Q2 & Q3 & Q4 & _).
    destruct r as [c|e| | |]; try discriminate; injection E as <-; (apply G; cbn [jw_heap]; [rewrite Q2|rewrite Q3|rewrite Q4]; reflexivity).
  - destruct (nth_error (jw_cores s) i) as [c|]; [apply bind_ok in E; destruct E as (c' & _ & E)|]; injection E as <-; reflexivity.
  - destruct (nth_error (jw_cores s) i) as [c|]; [apply bind_ok in E; destruct E as (c' & _ & E)|]; injection E as <-; reflexivity.
Qed.

Lemma jexec_core i cs : forall s s' k, jwf s -> jexec N s cs = Ok s' -> nth_error (jw_cores s) i = Some k -> (forall c, In c cs -> ~ rewrites_sums c) ->
  (forall a x, In (JWriteFlt a x) cs -> jk_decay k <> Some a) ->
  exists k', nth_error (jw_cores s') i = Some k' /\ jcore_run N (jload (jw_heap s) k) (jcalls i cs) = Ok (jload (jw_heap s') k').
Proof.
  induction cs as [|c cs IH]; intros s s' k W E Hk Hr Hw.
  - cbn in E. injection E as <-. exists k. cbn. auto.
  - cbn [jexec] in E. apply bind_ok in E. destruct E as (s1 & E1 & E2).
    assert (R : reads (jw_heap s1) k = reads (jw_heap s) k).
    { apply (jstep_reads s c s1 k W E1); [apply Hr; left; reflexivity|intros a x ->; apply (Hw a x); left; reflexivity|]. intros a. apply (wf_core s W). eapply nth_error_In. exact Hk. }
    destruct (jstep_core s c s1 i k E1 Hk R) as (k1 & H1 & H2 & H2' & H3).
    destruct (IH s1 s' k1 (jstep_wf s c s1 W E1) E2 H1) as (k' & H4 & H6); [intros c0 Hc; apply Hr; right; exact Hc|intros a x Hi; rewrite H2'; apply (Hw a x); right; exact Hi|].
    exists k'. split; [exact H4|]. rewrite jcalls_cons. unfold jcore_run in *. rewrite (run_app_ok _ _ _ _ _ _ H3). exact H6.
Qed.

Lemma jstep_new s v s1 : jstep N s (JNew v) = Ok s1 ->
  match jnew_core N (jcontents (jw_heap s) (q_defaults (jcfg_of s v))) with
  | Ok k => exists c, jw_cores s1 = jw_cores s ++ [c] /\ jload (jw_heap s1) c = k /\ jk_decay c = q_decay (jcfg_of s v)
  | Err _ => jw_cores s1 = jw_cores s
  | _ => False
  end.
Proof.
  cbn [jstep]. destruct (q_new_core N (jw_heap s) (jcfg_of s v)) as [[h' p] r] eqn:EN. pose proof (q_new_spec _ _ _ _ _ EN) as (_ & Q2 & Q3 & Q4 & Q5 & Q6 & _ & Q8).
  unfold q_new_core in EN. destruct (jnew_core N (jcontents (jw_heap s) (q_defaults (jcfg_of s v)))) as [c|e| | |] eqn:E.
  - assert (exists c0, r = Ok c0) as [c0 ->] by (destruct (match q_vars _ with Some _ => _ | None => _ end) as [h2 p2]; injection EN as <- <- <-; eauto).
    intros H. injection H as <-. destruct (Q8 c0 eq_refl) as (K1 & K2 & K3). injection K3 as K3. exists c0. split; [reflexivity|]. split; [|congruence].
    unfold jnew_core in E. apply bind_ok in E. destruct E as (u & _ & E). cbn [jw_heap]. unfold jload, tuples. rewrite K1, K2, Q5, Q6, Q2, Q3, Q4.
    destruct (jf_window _) as [w|]; [|discriminate]. destruct (match jf_vars _ with Some _ => _ | None => _ end) as [n|]; [|discriminate]. injection E as <-. rewrite <- K3. cbn [j_means j_sums j_new j_count j_window j_queue].
    unfold jcontents. cbn [jf_decay jf_sums]. unfold jsums_of. cbn [jf_sums]. unfold q_defaults. cbn [q_sums q_decay]. destruct (q_sums (jcfg_of s v)); reflexivity.
  - injection EN as <- <- <-. intros H. injection H as <-. reflexivity.
  - injection EN as <- <- <-. discriminate.
  - injection EN as <- <- <-. discriminate.
  - injection EN as <- <- <-. discriminate.
Qed.

(** Merging configs in the heap is merging their contents. *)
Lemma simplify_contents h sums : forall seen keys kept, rmap (map (h_tup (T := T) h)) (q_simplify_loop h sums seen keys kept) = simplify_loop (map (h_tup h) sums) seen keys (map (h_tup h) kept).
Proof.
  induction sums as [|a sums IH]; intros seen keys kept; [reflexivity|]. cbn [q_simplify_loop simplify_loop map]. destruct (existsb _ _); [apply IH|].
  destruct (some_leq _ _) as [b| | | |]; cbn; try reflexivity. destruct b; rewrite IH; [reflexivity|]. rewrite map_app. reflexivity.
Qed.
Lemma jmerge_contents h cs : forall sums w v d,
  rmap (fun r => mkJCfg (Some (map (h_tup h) (fst (fst (fst r))))) (option_map (h_int h) (snd (fst (fst r)))) (option_map (h_int h) (snd (fst r))) (option_map (h_flt h) (snd r))) (q_merge_loop N h cs sums w v d) =
  jmerge_loop N (map (jcontents h) cs) (map (h_tup h) sums) (option_map (h_int h) w) (option_map (h_int h) v) (option_map (h_flt h) d).
Proof.
  induction cs as [|c cs IH]; intros sums w v d.
  - cbn [q_merge_loop jmerge_loop map]. unfold simplify_sums. pose proof (simplify_contents h sums [] [] []) as SC. cbn [map] in SC. rewrite <- SC. destruct (q_simplify_loop h sums [] [] []); reflexivity.
  - cbn [q_merge_loop jmerge_loop map]. cbn [jcontents jf_sums jf_window jf_vars jf_decay]. unfold tuples.
    destruct (q_sums c) as [a|], (q_window c) as [cw|], (q_vars c) as [cv|], (q_decay c) as [cd|], w as [w0|], v as [v0|], d as [d0|]; cbn [option_map bind];
    repeat (match goal with |- context [if ?b then _ else _] => destruct b end; cbn [bind rmap]; try reflexivity); rewrite IH, ?map_app; reflexivity.
Qed.

(** ** The default slice, and the pointers made by NewCore *)
(** Every pointer made by NewCore that a command mentions exists already. *)
Definition ptr_known (h : heap (T := T)) (p : option iptr) : Prop := match p with Some (Made n) => (n < h_next h)%nat | _ => True end.
Fixpoint known_ptrs (s : jworld) (cs : list (jcmd (T := T))) : Prop :=
  match cs with
  | [] => True
  | c :: t => match c with JMkCfg _ w n _ => ptr_known (jw_heap s) w /\ ptr_known (jw_heap s) n | JSetWindow _ w => ptr_known (jw_heap s) w | JSetVars _ n => ptr_known (jw_heap s) n | _ => True end /\
      match jstep N s c with Ok s' => known_ptrs s' t | _ => True end
  end.
Definition jinv (s : jworld (T := T)) : Prop :=
  jwf s /\ h_arr (jw_heap s) default_arr = [] /\ (forall u, ptr_known (jw_heap s) (q_window (jw_cfg s u)) /\ ptr_known (jw_heap s) (q_vars (jw_cfg s u))).
Lemma ptr_known_le h h' p : (h_next h <= h_next h')%nat -> ptr_known h p -> ptr_known h' p.
Proof. unfold ptr_known. destruct p as [[n|n]|]; auto. lia. Qed.
Lemma q_merge_ptr (P : option iptr -> Prop) h cs : forall sums w v d r, q_merge_loop N h cs sums w v d = Ok r -> P w -> P v -> (forall c, In c cs -> P (q_window c) /\ P (q_vars c)) ->
  P (snd (fst (fst r))) /\ P (snd (fst r)).
Proof.
  induction cs as [|c cs IH]; intros sums w v d r E Pw Pv Pc; cbn [q_merge_loop] in E.
  - apply bind_ok in E. destruct E as (l & _ & E). injection E as <-. cbn. auto.
  - apply bind_ok in E. destruct E as (w' & Ew & E). apply bind_ok in E. destruct E as (v' & Ev & E). apply bind_ok in E. destruct E as (d' & _ & E).
    destruct (Pc c (or_introl eq_refl)) as [Q1 Q2]. apply (IH _ _ _ _ _ E); [| |intros; apply Pc; right; assumption].
    + destruct (q_window c); [|injection Ew as <-; exact Pw]. destruct w; [|injection Ew as <-; exact Q1]. destruct (_ =? _); [injection Ew as <-; exact Pw|discriminate].
    + destruct (q_vars c); [|injection Ev as <-; exact Pv]. destruct v; [|injection Ev as <-; exact Q2]. destruct (_ =? _); [injection Ev as <-; exact Pv|discriminate].
Qed.
Lemma q_new_vars h p h' p' r : q_new_core N h p = (h', p', r) -> (q_vars p' = q_vars p /\ h' = h) \/
  (q_vars p = None /\ exists k t ts, r = Ok k /\ jsums_of (jcontents h (q_defaults p)) = t :: ts /\ q_vars p' = Some (Made (h_next h)) /\ h' = set_int (next h) (Made (h_next h)) (zlen t)).
Proof.
  unfold q_new_core. destruct (jnew_core N (jcontents h (q_defaults p))) as [c|e| | |] eqn:E; intros H; try (injection H as <- <- <-; left; split; reflexivity).
  cbn [q_vars q_defaults] in H. destruct (q_vars p) as [n|] eqn:EV; [injection H as <- <- <-; left; cbn; auto|].
  destruct (jsums_of _) as [|t ts] eqn:ES; injection H as <- <- <-; [left; cbn; auto|]. right. split; [reflexivity|]. eexists _, t, ts. repeat split; reflexivity.
Qed.

Lemma jstep_inv s c s' : jinv s -> known_ptrs s [c] -> jstep N s c = Ok s' -> jinv s'.
Proof.
  intros (W & D & P) K E. split; [eapply jstep_wf; eassumption|]. cbn [known_ptrs] in K. destruct K as [K _]. pose proof (wf_pos s W) as W4. unfold default_arr in *.
  assert (PC : forall h p b, (h_next (jw_heap s) <= h_next h)%nat -> ptr_known h (q_window p) -> ptr_known h (q_vars p) ->
    forall u, ptr_known h (q_window (put (jw_cfg s) b p u)) /\ ptr_known h (q_vars (put (jw_cfg s) b p u))).
  { intros h p b Hl H1 H2 u. destruct (put_case (jw_cfg s) b p u) as [[_ ->]|[_ ->]]; [auto|]. split; eapply ptr_known_le; try apply Hl; apply P. }
  assert (PL : forall h p, (h_next (jw_heap s) <= h_next h)%nat -> ptr_known (jw_heap s) p -> ptr_known h p) by (intros; eapply ptr_known_le; eassumption).
  destruct c; cbn [jstep] in E.
  - injection E as <-. cbn [jw_heap jw_cfg next h_arr]. split; [exact D|]. destruct K as [K1 K2]. apply PC; [cbn; lia| |]; apply PL; cbn; auto.
  - injection E as <-. cbn. split; [exact D|]. apply PC; [lia|exact K|apply P].
  - injection E as <-. cbn. split; [exact D|]. apply PC; [lia|apply P|exact K].
  - injection E as <-. cbn. split; [exact D|]. apply PC; [lia|apply P|apply P].
  - destruct (mk_tuples (jw_heap s) ts) as [h1 l] eqn:EM. injection E as <-. destruct (mk_tuples_spec _ _ _ _ EM) as (M1 & M2 & _). cbn [jw_heap jw_cfg next set_arr h_arr].
    split; [rewrite put_other by lia; rewrite M2; exact D|]. apply PC; [cbn; lia| |]; (apply PL; [cbn; lia|apply P]).
  - injection E as <-. cbn. split; [exact D|]. apply PC; [lia|apply P|apply P].
  - destruct (q_sums (jcfg_of s v)) as [a0|]; [|discriminate]. destruct (Nat.ltb_spec i (length (h_arr (jw_heap s) a0))) as [Hi|]; [|discriminate]. injection E as <-.
    cbn [jw_heap jw_cfg next set_arr set_tup h_arr]. split; [|intros u; split; (apply PL; [cbn; lia|apply P])].
    destruct (Nat.eq_dec a0 0) as [->|Hn]; [rewrite D in Hi; cbn in Hi; lia|]. rewrite put_other by congruence. exact D.
  - destruct (q_sums (jcfg_of s v)); [|discriminate]. destruct (nth_error _ _); [|discriminate]. destruct (_ <? _)%nat; [|discriminate]. injection E as <-. split; [exact D|exact P].
  - injection E as <-. split; [exact D|exact P].
  - injection E as <-. split; [exact D|exact P].
  - destruct us as [|u [|u' us]]; [injection E as <-; auto|injection E as <-; auto|].
    destruct (q_merge_loop _ _ _ _ _ _ _) as [[[[ks w] n] d]| | | |] eqn:EM; try discriminate; injection E as <-; [|auto]. cbn [jw_heap jw_cfg next set_arr h_arr].
    split; [rewrite put_other by lia; exact D|]. destruct (q_merge_ptr (ptr_known (jw_heap s)) _ _ _ _ _ _ _ EM I I) as [Q1 Q2].
    { intros c Hc. apply in_map_iff in Hc. destruct Hc as (x & <- & _). apply P. }
    apply PC; [cbn; lia| |]; (apply PL; [cbn; lia|assumption]).
  - destruct (q_new_core N (jw_heap s) (jcfg_of s v)) as [[h' p] r] eqn:EN. destruct (q_new_spec _ _ _ _ _ EN) as (Q1 & Q2 & _ & _ & _ & _ & Q7 & _). pose proof (q_new_vars _ _ _ _ _ EN) as QV.
    assert (G : h_arr h' 0 = [] /\ forall u, ptr_known h' (q_window (put (jw_cfg s) (jw_var s v) p u)) /\ ptr_known h' (q_vars (put (jw_cfg s) (jw_var s v) p u))).
    { split; [rewrite Q2; exact D|]. apply PC; [lia|rewrite Q7; apply PL; [lia|apply P]|].
      destruct QV as [[-> _]|(_ & k & t & ts & _ & _ & -> & ->)]; [apply PL; [lia|apply P]|]. cbn. lia. }
    destruct r; try discriminate; injection E as <-; exact G.
  - destruct (nth_error (jw_cores s) i) as [c|]; [apply bind_ok in E; destruct E as (c' & _ & E)|]; injection E as <-; split; [exact D|exact P|exact D|exact P].
  - destruct (nth_error (jw_cores s) i) as [c|]; [apply bind_ok in E; destruct E as (c' & _ & E)|]; injection E as <-; split; [exact D|exact P|exact D|exact P].
Qed.
Lemma jexec_inv cs : forall s s', jinv s -> known_ptrs s cs -> jexec N s cs = Ok s' -> jinv s'.
Proof.
  induction cs as [|c cs IH]; intros s s' I K E; cbn [jexec known_ptrs] in *; [injection E as <-; exact I|]. destruct K as [K1 K2].
  apply bind_ok in E. destruct E as (s1 & E1 & E2). rewrite E1 in K2. apply (IH s1 s'); [|exact K2|exact E2]. apply (jstep_inv s c s1 I); [|exact E1]. cbn [known_ptrs]. split; [exact K1|]. rewrite E1. exact Logic.I.
Qed.
Lemma jstart_inv : jinv (jstart N).
Proof. split; [apply jstart_wf|]. split; [reflexivity|]. intros u. cbn. auto. Qed.

(** Nothing but Sums (nil becomes empty) and Vars changes in the config given to NewCore, and nothing at all in others. *)
Lemma jnew_keeps s v s1 : jinv s -> jstep N s (JNew v) = Ok s1 -> jw_var s1 = jw_var s /\ forall u,
  let a := jcontents (jw_heap s) (jw_cfg s u) in let b := jcontents (jw_heap s1) (jw_cfg s1 u) in
  jf_window b = jf_window a /\ jf_decay b = jf_decay a /\ jsums_of b = jsums_of a /\
  (jf_sums b = jf_sums a \/ u = jw_var s v /\ jf_sums a = None /\ jf_sums b = Some []) /\
  (jf_vars b = jf_vars a \/ (u = jw_var s v /\ jf_vars a = None /\ exists t ts, jsums_of a = t :: ts /\ jf_vars b = Some (zlen t))).
Proof.
  intros (W & D & P) E. cbn [jstep] in E. destruct (q_new_core N (jw_heap s) (jcfg_of s v)) as [[h' p] r] eqn:EN.
  destruct (q_new_spec _ _ _ _ _ EN) as (Q1 & Q2 & Q3 & Q4 & Q5 & Q6 & Q7 & _). pose proof (q_new_vars _ _ _ _ _ EN) as QV.
  assert (ES : jw_var s1 = jw_var s /\ jw_heap s1 = h' /\ jw_cfg s1 = put (jw_cfg s) (jw_var s v) p) by (destruct r; try discriminate; injection E as <-; auto).
  destruct ES as (E1 & E2 & E3). split; [exact E1|]. intros u. cbv zeta. rewrite E2, E3. clear E E1 E2 E3.
  assert (TT : forall a, tuples h' a = tuples (jw_heap s) a) by (intros a; unfold tuples; rewrite Q2, Q3; reflexivity).
  assert (PI : forall q, ptr_known (jw_heap s) q -> option_map (h_int h') q = option_map (h_int (jw_heap s)) q).
  { intros q Hq. destruct QV as [[_ ->]|(_ & k & t & ts & _ & _ & _ & ->)]; [reflexivity|]. destruct q as [[n|n]|]; try reflexivity. cbn in *. destruct (Nat.eqb_spec n (h_next (jw_heap s))); [lia|reflexivity]. }
  assert (TS : forall q, option_map (tuples h') q = option_map (tuples (jw_heap s)) q) by (intros [a|]; cbn; [rewrite TT|]; reflexivity).
  destruct (P u) as [P1 P2]. destruct (put_case (jw_cfg s) (jw_var s v) p u) as [[-> EP]|[_ EP]]; rewrite EP; unfold jcontents, jsums_of; cbn [jf_window jf_decay jf_sums jf_vars].
  - change (jw_cfg s (jw_var s v)) with (jcfg_of s v) in *. rewrite Q4, Q5, Q6, Q7, PI by exact P1. split; [reflexivity|]. split; [reflexivity|].
    assert (SS : match option_map (tuples h') (q_sums (q_defaults (jcfg_of s v))) with Some l => l | None => [] end = match option_map (tuples (jw_heap s)) (q_sums (jcfg_of s v)) with Some l => l | None => [] end).
    { rewrite TS. cbn. destruct (q_sums (jcfg_of s v)); [reflexivity|]. cbn. unfold tuples. unfold default_arr in *. rewrite D. reflexivity. }
    split; [exact SS|]. split; [rewrite TS; cbn; destruct (q_sums (jcfg_of s v)); cbn; [left; reflexivity|right; unfold tuples; unfold default_arr in *; rewrite D; auto]|]. destruct QV as [[QV _]|(QV & k & t & ts & _ & ET & QV' & EH)]; [left; rewrite QV; apply PI, P2|right].
    split; [reflexivity|]. rewrite QV, QV'. split; [reflexivity|]. exists t, ts. split.
    + rewrite <- SS, TS. exact ET.
    + rewrite EH. cbn. rewrite Nat.eqb_refl. reflexivity.
  - rewrite Q4, TS, !PI by assumption. do 3 (split; [reflexivity|]). split; left; reflexivity.
Qed.

Lemma validate_set f n ts : zlen f = n -> 2 <= n -> validate_tuples f (Some n) ts = validate_tuples f None ts.
Proof.
  intros Hf Hn. induction ts as [|t ts IH]; [reflexivity|]. cbn [validate_tuples]. rewrite IH. f_equal. unfold validate_tuple. destruct (Nat.eqb_spec (length t) (length f)) as [El|]; [|reflexivity].
  cbn [negb]. destruct (zlen t <? 2); [reflexivity|]. unfold zlen in *. rewrite El, Hf, Z.eqb_refl. reflexivity.
Qed.
Lemma jnew_again (a b : @jconfig T) (k : @vcore T) : jnew_core N a = Ok k -> jf_window b = jf_window a -> jf_decay b = jf_decay a -> jsums_of b = jsums_of a ->
  (jf_vars b = jf_vars a \/ (jf_vars a = None /\ exists t ts, jsums_of a = t :: ts /\ jf_vars b = Some (zlen t))) -> jnew_core N b = Ok k.
Proof.
  intros E Hw Hd Hs Hv. unfold jnew_core, jvalidate in *. rewrite Hw, Hd, Hs. destruct Hv as [->|(Hv & t & ts & Ht & ->)]; [exact E|]. rewrite Hv, Ht in E. rewrite Ht. cbn [hd] in *.
  destruct (jf_window a) as [w|]; [|discriminate]. destruct (w <? 0); [discriminate|]. cbn [bind] in E.
  apply bind_ok in E. destruct E as (u & E1 & E2). apply bind_ok in E1. destruct E1 as (u1 & E1 & E3). apply bind_ok in E3. destruct E3 as (u2 & E3 & E4).
  assert (Ht2 : (zlen t <? 2) = false).
  { cbn [validate_tuples] in E3. apply bind_ok in E3. destruct E3 as (u3 & E3 & _). unfold validate_tuple in E3. rewrite Nat.eqb_refl in E3. cbn [negb] in E3. destruct (zlen t <? 2); [discriminate|reflexivity]. }
  rewrite Ht2, (validate_set t (zlen t) (t :: ts) eq_refl), E1; [|apply Z.ltb_ge in Ht2; lia]. cbn [bind]. rewrite E3. cbn [bind]. exact E2.
Qed.

Lemma jstep_default s c s' : jwf s -> h_arr (jw_heap s) default_arr = [] -> jstep N s c = Ok s' -> h_arr (jw_heap s') default_arr = [].
Proof.
  intros W D E. pose proof (wf_pos s W) as W4. unfold default_arr in *. destruct c; cbn [jstep] in E; try (injection E as <-; exact D).
  - destruct (mk_tuples (jw_heap s) ts) as [h1 l] eqn:EM. injection E as <-. destruct (mk_tuples_spec _ _ _ _ EM) as (M1 & M2 & _). cbn [jw_heap next set_arr h_arr]. rewrite put_other by lia. rewrite M2. exact D.
  - destruct (q_sums (jcfg_of s v)) as [a0|]; [|discriminate]. destruct (Nat.ltb_spec i (length (h_arr (jw_heap s) a0))) as [Hi|]; [|discriminate]. injection E as <-.
    cbn [jw_heap next set_arr set_tup h_arr]. destruct (Nat.eq_dec a0 0) as [->|Hn]; [rewrite D in Hi; cbn in Hi; lia|]. rewrite put_other by congruence. exact D.
  - destruct (q_sums (jcfg_of s v)); [|discriminate]. destruct (nth_error _ _); [|discriminate]. destruct (_ <? _)%nat; [|discriminate]. injection E as <-. exact D.
  - destruct us as [|u [|u' us]]; [injection E as <-; auto|injection E as <-; auto|].
    destruct (q_merge_loop _ _ _ _ _ _ _) as [[[[ks w] n] d]| | | |] eqn:EM; try discriminate; injection E as <-; [|exact D]. cbn [jw_heap next set_arr h_arr]. rewrite put_other by lia. exact D.
  - destruct (q_new_core N (jw_heap s) (jcfg_of s v)) as [[h' p] r] eqn:EN. destruct (q_new_spec _ _ _ _ _ EN) as (Q1 & Q2 & _).
    destruct r; try discriminate; injection E as <-; cbn [jw_heap]; rewrite Q2; exact D.
  - destruct (nth_error (jw_cores s) i) as [c|]; [apply bind_ok in E; destruct E as (c' & _ & E)|]; injection E as <-; exact D.
  - destruct (nth_error (jw_cores s) i) as [c|]; [apply bind_ok in E; destruct E as (c' & _ & E)|]; injection E as <-; exact D.
Qed.
Lemma jexec_default cs : forall s s', jwf s -> h_arr (jw_heap s) default_arr = [] -> jexec N s cs = Ok s' -> h_arr (jw_heap s') default_arr = [].
Proof.
  induction cs as [|c cs IH]; intros s s' W D E; cbn [jexec] in E; [injection E as <-; exact D|]. apply bind_ok in E. destruct E as (s1 & E1 & E2).
  apply (IH s1 s' (jstep_wf s c s1 W E1) (jstep_default s c s1 W D E1) E2).
Qed.
Lemma jdefault_contents h p : h_arr h default_arr = [] -> jnew_core N (A := list T) (jcontents h (q_defaults p)) = jnew_core N (jcontents h p).
Proof. intros H. unfold jnew_core, jvalidate, jcontents, jsums_of, q_defaults. destruct p as [[a|] w n d]; cbn [q_sums q_window q_vars q_decay jf_sums jf_window jf_vars jf_decay option_map]; [reflexivity|]. unfold tuples. rewrite H. reflexivity. Qed.
End Joint.

Lemma exec_app {T} (N : Num T) a : forall b s s2, exec N s (a ++ b) = Ok s2 -> exists s1, exec N s a = Ok s1 /\ exec N s1 b = Ok s2.
Proof. induction a as [|c a IH]; intros b s s2 E; cbn in *; [exists s; auto|]. destruct (step N s c) as [s'| | | |]; try discriminate. apply (IH b s' s2 E). Qed.
Lemma jexec_app {T} (N : Num T) a : forall b s s2, jexec N s (a ++ b) = Ok s2 -> exists s1, jexec N s a = Ok s1 /\ jexec N s1 b = Ok s2.
Proof. induction a as [|c a IH]; intros b s s2 E; cbn in *; [exists s; auto|]. destruct (jstep N s c) as [s'| | | |]; try discriminate. apply (IH b s' s2 E). Qed.

(** Tests for [own_sums] and [known_ptrs], for examples. *)
Fixpoint own_sumsb {T} (N : Num T) (s : world) (cs : list cmd) : bool :=
  match cs with
  | [] => true
  | c :: t => match c with AddSum v _ => match p_sums (cfg_of s v) with Some O => false | _ => true end | _ => true end && match step N s c with Ok s' => own_sumsb N s' t | _ => true end
  end.
Lemma own_sumsb_ok {T} (N : Num T) cs : forall s, own_sumsb N s cs = true -> own_sums N s cs.
Proof.
  induction cs as [|c cs IH]; intros s H; cbn [own_sumsb own_sums] in *; [exact I|]. apply andb_prop in H. destruct H as [H1 H2]. split.
  - intros v k ->. unfold default_map. destruct (p_sums (cfg_of s v)) as [[|a]|]; discriminate.
  - destruct (step N s c); try exact I. apply IH, H2.
Qed.
Definition ptr_knownb {T} (h : heap (T := T)) (p : option iptr) : bool := match p with Some (Made n) => (n <? h_next h)%nat | _ => true end.
Fixpoint known_ptrsb {T} (N : Num T) (s : jworld) (cs : list jcmd) : bool :=
  match cs with
  | [] => true
  | c :: t => match c with JMkCfg _ w n _ => ptr_knownb (jw_heap s) w && ptr_knownb (jw_heap s) n | JSetWindow _ w => ptr_knownb (jw_heap s) w | JSetVars _ n => ptr_knownb (jw_heap s) n | _ => true end &&
      match jstep N s c with Ok s' => known_ptrsb N s' t | _ => true end
  end.
Lemma ptr_knownb_ok {T} (h : heap (T := T)) p : ptr_knownb h p = true -> ptr_known h p.
Proof. destruct p as [[n|n]|]; cbn; auto. apply Nat.ltb_lt. Qed.
Lemma known_ptrsb_ok {T} (N : Num T) cs : forall s, known_ptrsb N s cs = true -> known_ptrs N s cs.
Proof.
  induction cs as [|c cs IH]; intros s H; cbn [known_ptrsb known_ptrs] in *; [exact I|]. apply andb_prop in H. destruct H as [H1 H2]. split.
  - destruct c; try exact I; try (apply ptr_knownb_ok; exact H1). apply andb_prop in H1. destruct H1. split; apply ptr_knownb_ok; assumption.
  - destruct (jstep N s c); try exact I. apply IH, H2.
Qed.

(** ** The merged config is a new one *)
Section MomentMerge.
Context {T : Type} (N : Num T).
Definition mwf (s : world (T := T)) : Prop :=
  (forall u, (w_var s u < h_next (w_heap s))%nat) /\ (forall a b, p_sums (w_cfg s a) = Some b -> (b < h_next (w_heap s))%nat) /\ (0 < h_next (w_heap s))%nat.
Lemma start_mwf : mwf (start N).
Proof. split; [cbn; lia|]. split; [discriminate|cbn; lia]. Qed.
Lemma step_mwf s c s' : mwf s -> step N s c = Ok s' -> mwf s'.
Proof.
  intros (W1 & W2 & W3) E.
  assert (G : forall (h : heap (T := T)) p b, (h_next (w_heap s) <= h_next h)%nat -> (forall x, p_sums p = Some x -> (x < h_next h)%nat) ->
    forall a x, p_sums (put (w_cfg s) b p a) = Some x -> (x < h_next h)%nat).
  { intros h p b Hl Hp a x. destruct (put_case (w_cfg s) b p a) as [[_ ->]|[_ ->]]; [apply Hp|]. intros H. apply W2 in H. lia. }
  assert (V : forall (h : heap (T := T)) v a, (h_next (w_heap s) <= h_next h)%nat -> (a < h_next h)%nat -> forall u, (put (w_var s) v a u < h_next h)%nat).
  { intros h v a Hl Ha u. destruct (put_case (w_var s) v a u) as [[_ ->]|[_ ->]]; [exact Ha|]. specialize (W1 u). lia. }
  assert (V0 : forall (h : heap (T := T)), (h_next (w_heap s) <= h_next h)%nat -> forall u, (w_var s u < h_next h)%nat) by (intros h Hl u; specialize (W1 u); lia).
  destruct c; cbn [step] in E.
  - injection E as <-. unfold mwf. cbn [w_heap w_var w_cfg]. split; [apply V; cbn; lia|]. split; [|cbn; lia]. apply G; [cbn; lia|discriminate].
  - injection E as <-. split; [exact W1|]. split; [|exact W3]. apply (G (w_heap s)); [lia|]. cbn. intros x. apply W2.
  - injection E as <-. split; [exact W1|]. split; [|exact W3]. apply (G (w_heap s)); [lia|]. cbn. intros x. apply W2.
  - injection E as <-. unfold mwf. cbn [w_heap w_var w_cfg]. split; [apply V0; cbn; lia|]. split; [|cbn; lia]. apply G; [cbn; lia|]. cbn. intros x [= <-]. lia.
  - injection E as <-. split; [exact W1|]. split; [|exact W3]. apply (G (w_heap s)); [lia|]. cbn. intros x. apply W2.
  - destruct (p_sums (cfg_of s v)); [|discriminate]. injection E as <-. repeat split; assumption.
  - injection E as <-. repeat split; assumption.
  - injection E as <-. repeat split; assumption.
  - destruct us as [|u [|u' us]]; [injection E as <-; repeat split; assumption|injection E as <-; split; [cbn; apply V; auto|split; assumption]|].
    destruct (p_merge_loop _ _ _ _ _ _) as [[[ks w] d]| | | |]; try discriminate; injection E as <-; [|repeat split; assumption]. unfold mwf. cbn [w_heap w_var w_cfg].
    split; [apply V; cbn; lia|]. split; [|cbn; lia]. apply G; [cbn; lia|]. cbn. intros x [= <-]. lia.
  - destruct (step_new N s v s' E) as (E1 & E2 & E3 & _). unfold mwf. rewrite E1, E2, E3. split; [exact W1|]. split; [|exact W3]. apply (G (w_heap s)); [lia|]. cbn. intros x. destruct (p_sums (cfg_of s v)) eqn:EP; intros [= <-]; [eapply W2; exact EP|exact W3].
  - destruct (nth_error (w_cores s) i) as [c|]; [apply bind_ok in E; destruct E as (c' & _ & E)|]; injection E as <-; repeat split; assumption.
  - destruct (nth_error (w_cores s) i) as [c|]; [apply bind_ok in E; destruct E as (c' & _ & E)|]; injection E as <-; repeat split; assumption.
Qed.
Lemma exec_mwf cs : forall s s', mwf s -> exec N s cs = Ok s' -> mwf s'.
Proof. induction cs as [|c cs IH]; intros s s' W E; cbn [exec] in E; [injection E as <-; exact W|]. apply bind_ok in E. destruct E as (s1 & E1 & E2). apply (IH s1 s' (step_mwf s c s1 W E1) E2). Qed.

Lemma merge_new s us v s1 : mwf s -> (2 <= length us)%nat -> step N s (Merge us v) = Ok s1 ->
  match merge_configs N (map (fun u => contents (w_heap s) (cfg_of s u)) us) with
  | Ok m => contents (w_heap s1) (cfg_of s1 v) = m /\ w_var s1 v = h_next (w_heap s) /\ p_sums (cfg_of s1 v) = Some (h_next (w_heap s)) /\
      (forall u, u <> v -> w_var s1 u = w_var s u /\ cfg_of s1 u = cfg_of s u /\ contents (w_heap s1) (cfg_of s1 u) = contents (w_heap s) (cfg_of s u)) /\ w_cores s1 = w_cores s
  | Err _ => s1 = s
  | _ => False
  end.
Proof.
  intros (W1 & W2 & W3) L E. destruct us as [|u0 [|u1 us]]; cbn in L; try lia. cbn [step] in E. set (cs := u0 :: u1 :: us) in *.
  pose proof (merge_contents N (w_heap s) (map (cfg_of s) cs) [] None None) as M. cbn [option_map] in M. rewrite map_map in M.
  replace (merge_configs N (map (fun u => contents (w_heap s) (cfg_of s u)) cs)) with (merge_loop N (map (fun u => contents (w_heap s) (cfg_of s u)) cs) [] None None) by reflexivity. rewrite <- M.
  destruct (p_merge_loop N (w_heap s) (map (cfg_of s) cs) [] None None) as [[[ks w] d]| | | |]; try discriminate; injection E as <-; cbn [rmap]; [|reflexivity].
  cbn [fst snd w_heap w_var w_cfg w_cores]. unfold cfg_of at 1 2. cbn [w_var w_cfg]. rewrite !put_same. split; [unfold contents; cbn; rewrite put_same; reflexivity|]. split; [reflexivity|]. split; [reflexivity|]. split; [|reflexivity].
  intros u Hu. unfold cfg_of. cbn [w_var w_cfg]. rewrite (put_other (w_var s)) by exact Hu. rewrite put_other by (specialize (W1 u); lia). split; [reflexivity|]. split; [reflexivity|].
  unfold contents. cbn. f_equal. destruct (p_sums (w_cfg s (w_var s u))) as [b|] eqn:EP; [|reflexivity]. cbn. rewrite put_other; [reflexivity|]. apply W2 in EP. lia.
Qed.
(** Changes to a config at an address of its own with sums of its own reach no other. *)
Definition edits (v : nat) (c : cmd (T := T)) : Prop :=
  match c with SetWindow x _ | SetDecay x _ | MkSums x _ | AddSum x _ => x = v | _ => False end.
Lemma edit_other s v c s' u : mwf s -> edits v c -> step N s c = Ok s' -> w_var s u <> w_var s v -> (forall b, p_sums (cfg_of s v) = Some b -> p_sums (cfg_of s u) <> Some b) ->
  contents (w_heap s') (cfg_of s' u) = contents (w_heap s) (cfg_of s u).
Proof.
  intros (W1 & W2 & W3) Hc E Hu Hs. destruct c; cbn in Hc; try contradiction; subst; cbn [step] in E.
  - injection E as <-. unfold cfg_of. cbn. rewrite put_other by exact Hu. reflexivity.
  - injection E as <-. unfold cfg_of. cbn. rewrite put_other by exact Hu. reflexivity.
  - injection E as <-. unfold cfg_of. cbn [w_var w_cfg w_heap]. rewrite put_other by exact Hu. unfold contents. cbn. f_equal. destruct (p_sums (w_cfg s (w_var s u))) as [b|] eqn:EP; [|reflexivity]. cbn. rewrite put_other; [reflexivity|]. apply W2 in EP. lia.
  - destruct (p_sums (cfg_of s v)) as [a|]; [|discriminate]. injection E as <-. specialize (Hs a eq_refl). unfold cfg_of in *. cbn [w_var w_cfg w_heap]. unfold contents. cbn. f_equal. destruct (p_sums (w_cfg s (w_var s u))) as [b|]; [|reflexivity]. cbn. rewrite put_other by congruence. reflexivity.
Qed.
Definition apart (s : world (T := T)) (v : nat) : Prop :=
  forall u, u <> v -> w_var s u <> w_var s v /\ (forall b, p_sums (cfg_of s v) = Some b -> p_sums (cfg_of s u) <> Some b).
Lemma edit_apart s v c s' : mwf s -> apart s v -> edits v c -> step N s c = Ok s' -> apart s' v.
Proof.
  intros (W1 & W2 & W3) A Hc E u Hu. destruct (A u Hu) as [A1 A2]. destruct c; cbn in Hc; try contradiction; subst; cbn [step] in E.
  - injection E as <-. unfold cfg_of in *. cbn. rewrite put_same, put_other by exact A1. auto.
  - injection E as <-. unfold cfg_of in *. cbn. rewrite put_same, put_other by exact A1. auto.
  - injection E as <-. unfold cfg_of in *. cbn. rewrite put_same, put_other by exact A1. split; [exact A1|]. cbn. intros b [= <-] H. apply W2 in H. lia.
  - destruct (p_sums (cfg_of s v)) as [a|] eqn:EP; [|discriminate]. injection E as <-. unfold cfg_of in *. cbn. rewrite EP. auto.
Qed.
Lemma edits_other v cs : forall s s', mwf s -> apart s v -> Forall (edits v) cs -> exec N s cs = Ok s' -> forall u, u <> v -> contents (w_heap s') (cfg_of s' u) = contents (w_heap s) (cfg_of s u).
Proof.
  induction cs as [|c cs IH]; intros s s' W A F E u Hu; cbn [exec] in E; [injection E as <-; reflexivity|]. inversion F as [|? ? F1 F2]; subst. apply bind_ok in E. destruct E as (s1 & E1 & E2).
  destruct (A u Hu) as [A1 A2]. rewrite (IH s1 s' (step_mwf s c s1 W E1) (edit_apart s v c s1 W A F1 E1) F2 E2 u Hu). apply (edit_other s v c s1 u W F1 E1 A1 A2).
Qed.
End MomentMerge.

Section JointMerge.
Context {T : Type} (N : Num T).
Definition vwf (s : jworld (T := T)) : Prop := forall u, (jw_var s u < h_next (jw_heap s))%nat.
Lemma step_vwf s c s' : vwf s -> jstep N s c = Ok s' -> vwf s'.
Proof.
  intros W1 E.
  assert (V : forall (h : heap (T := T)) v a, (h_next (jw_heap s) <= h_next h)%nat -> (a < h_next h)%nat -> forall u, (put (jw_var s) v a u < h_next h)%nat).
  { intros h v a Hl Ha u. destruct (put_case (jw_var s) v a u) as [[_ ->]|[_ ->]]; [exact Ha|]. specialize (W1 u). lia. }
  assert (V0 : forall (h : heap (T := T)), (h_next (jw_heap s) <= h_next h)%nat -> forall u, (jw_var s u < h_next h)%nat) by (intros h Hl u; specialize (W1 u); lia).
  unfold vwf. destruct c; cbn [jstep] in E; try (injection E as <-; exact W1).
  - injection E as <-. cbn [jw_heap jw_var]. apply V; cbn; lia.
  - destruct (mk_tuples (jw_heap s) ts) as [h1 l] eqn:EM. injection E as <-. destruct (mk_tuples_spec _ _ _ _ EM) as (M1 & _). cbn [jw_heap jw_var]. apply V0. cbn. lia.
  - destruct (q_sums (jcfg_of s v)) as [a0|]; [|discriminate]. destruct (_ <? _)%nat; [|discriminate]. injection E as <-. cbn [jw_heap jw_var]. apply V0. cbn. lia.
  - destruct (q_sums (jcfg_of s v)); [|discriminate]. destruct (nth_error _ _); [|discriminate]. destruct (_ <? _)%nat; [|discriminate]. injection E as <-. exact W1.
  - destruct us as [|u [|u' us]]; [injection E as <-; exact W1|injection E as <-; cbn [jw_heap jw_var]; apply V; auto|].
    destruct (q_merge_loop _ _ _ _ _ _ _) as [[[[ks w] n] d]| | | |] eqn:EM; try discriminate; injection E as <-; [|exact W1]. cbn [jw_heap jw_var]. apply V; cbn; lia.
  - destruct (q_new_core N (jw_heap s) (jcfg_of s v)) as [[h' p] r] eqn:EN. destruct (q_new_spec N _ _ _ _ _ EN) as (Q1 & _).
    destruct r; try discriminate; injection E as <-; cbn [jw_heap jw_var]; apply V0, Q1.
  - destruct (nth_error (jw_cores s) i) as [c|]; [apply bind_ok in E; destruct E as (c' & _ & E)|]; injection E as <-; exact W1.
  - destruct (nth_error (jw_cores s) i) as [c|]; [apply bind_ok in E; destruct E as (c' & _ & E)|]; injection E as <-; exact W1.
Qed.
Lemma exec_vwf cs : forall s s', vwf s -> jexec N s cs = Ok s' -> vwf s'.
Proof. induction cs as [|c cs IH]; intros s s' W E; cbn [jexec] in E; [injection E as <-; exact W|]. apply bind_ok in E. destruct E as (s1 & E1 & E2). apply (IH s1 s' (step_vwf s c s1 W E1) E2). Qed.

Lemma tuples_keep (h h' : heap (T := T)) (b : nat) : h_arr h' b = h_arr h b -> (forall x, In x (h_arr h b) -> h_tup h' x = h_tup h x) -> tuples h' b = tuples h b.
Proof. intros H1 H2. unfold tuples. rewrite H1. apply map_ext_in. exact H2. Qed.

Lemma jmerge_new s us v s1 : jwf s -> vwf s -> (2 <= length us)%nat -> jstep N s (JMerge us v) = Ok s1 ->
  match jmerge_configs N (map (fun u => jcontents (jw_heap s) (jcfg_of s u)) us) with
  | Ok m => jcontents (jw_heap s1) (jcfg_of s1 v) = m /\ jw_var s1 v = h_next (jw_heap s) /\ q_sums (jcfg_of s1 v) = Some (h_next (jw_heap s)) /\
      (forall u, u <> v -> jw_var s1 u = jw_var s u /\ jcfg_of s1 u = jcfg_of s u /\ jcontents (jw_heap s1) (jcfg_of s1 u) = jcontents (jw_heap s) (jcfg_of s u)) /\ jw_cores s1 = jw_cores s
  | Err _ => s1 = s
  | _ => False
  end.
Proof.
  intros [W2 W3 W4 W5] W1 L E. destruct us as [|u0 [|u1 us]]; cbn in L; try lia. cbn [jstep] in E. set (cs := u0 :: u1 :: us) in *.
  pose proof (jmerge_contents N (jw_heap s) (map (jcfg_of s) cs) [] None None None) as M. cbn [option_map] in M. rewrite map_map in M.
  replace (jmerge_configs N (map (fun u => jcontents (jw_heap s) (jcfg_of s u)) cs)) with (jmerge_loop N (map (fun u => jcontents (jw_heap s) (jcfg_of s u)) cs) [] None None None) by reflexivity. cbn [map] in M. rewrite <- M.
  destruct (q_merge_loop N (jw_heap s) (map (jcfg_of s) cs) [] None None None) as [[[[ks w] n] d]| | | |]; try discriminate; injection E as <-; cbn [rmap]; [|reflexivity].
  cbn [fst snd jw_heap jw_var jw_cfg jw_cores]. unfold jcfg_of at 1 2. cbn [jw_var jw_cfg]. rewrite !put_same. split; [unfold jcontents, tuples; cbn; rewrite put_same; reflexivity|]. split; [reflexivity|]. split; [reflexivity|]. split; [|reflexivity].
  intros u Hu. unfold jcfg_of. cbn [jw_var jw_cfg]. rewrite (put_other (jw_var s)) by exact Hu. rewrite put_other by (specialize (W1 u); lia). split; [reflexivity|]. split; [reflexivity|].
  unfold jcontents. cbn. f_equal. destruct (q_sums (jw_cfg s (jw_var s u))) as [b|] eqn:EP; [|reflexivity]. cbn [option_map]. f_equal. apply tuples_keep; [|reflexivity]. cbn. apply put_other. apply W2 in EP. lia.
Qed.
Definition jedits (v : nat) (c : jcmd (T := T)) : Prop :=
  match c with JSetWindow x _ | JSetVars x _ | JSetDecay x _ | JMkSums x _ | JSetTuple x _ _ => x = v | _ => False end.
Definition japart (s : jworld (T := T)) (v : nat) : Prop :=
  forall u, u <> v -> jw_var s u <> jw_var s v /\ (forall b, q_sums (jcfg_of s v) = Some b -> q_sums (jcfg_of s u) <> Some b).
Lemma jedit_other s v c s' u : jwf s -> jedits v c -> jstep N s c = Ok s' -> jw_var s u <> jw_var s v -> (forall b, q_sums (jcfg_of s v) = Some b -> q_sums (jcfg_of s u) <> Some b) ->
  jcontents (jw_heap s') (jcfg_of s' u) = jcontents (jw_heap s) (jcfg_of s u).
Proof.
  intros [W2 W3 W4 W5] Hc E Hu Hs. destruct c; cbn in Hc; try contradiction; subst; cbn [jstep] in E.
  - injection E as <-. unfold jcfg_of. cbn. rewrite put_other by exact Hu. reflexivity.
  - injection E as <-. unfold jcfg_of. cbn. rewrite put_other by exact Hu. reflexivity.
  - injection E as <-. unfold jcfg_of. cbn. rewrite put_other by exact Hu. reflexivity.
  - destruct (mk_tuples (jw_heap s) ts) as [h1 l] eqn:EM. injection E as <-. destruct (mk_tuples_spec _ _ _ _ EM) as (M1 & M2 & M3 & M3' & M4 & _). unfold jcfg_of. cbn [jw_var jw_cfg jw_heap]. rewrite put_other by exact Hu.
    unfold jcontents. cbn. rewrite M3, M3'. f_equal. destruct (q_sums (jw_cfg s (jw_var s u))) as [b|] eqn:EP; [|reflexivity]. cbn [option_map]. f_equal. apply W2 in EP. apply tuples_keep; cbn.
    + rewrite put_other by lia. rewrite M2. reflexivity.
    + intros x Hx. apply M4. eapply W3. exact Hx.
  - destruct (q_sums (jcfg_of s v)) as [a|]; [|discriminate]. destruct (_ <? _)%nat; [|discriminate]. injection E as <-. specialize (Hs a eq_refl). unfold jcfg_of in *. cbn [jw_var jw_cfg jw_heap]. unfold jcontents. cbn. f_equal.
    destruct (q_sums (jw_cfg s (jw_var s u))) as [b|]; [|reflexivity]. cbn [option_map]. f_equal. apply tuples_keep; cbn.
    + apply put_other. congruence.
    + intros x Hx. apply put_other. apply W3 in Hx. lia.
Qed.
Lemma jedit_apart s v c s' : jwf s -> japart s v -> jedits v c -> jstep N s c = Ok s' -> japart s' v.
Proof.
  intros [W2 W3 W4 W5] A Hc E u Hu. destruct (A u Hu) as [A1 A2]. destruct c; cbn in Hc; try contradiction; subst; cbn [jstep] in E.
  - injection E as <-. unfold jcfg_of in *. cbn. rewrite put_same, put_other by exact A1. auto.
  - injection E as <-. unfold jcfg_of in *. cbn. rewrite put_same, put_other by exact A1. auto.
  - injection E as <-. unfold jcfg_of in *. cbn. rewrite put_same, put_other by exact A1. auto.
  - destruct (mk_tuples (jw_heap s) ts) as [h1 l] eqn:EM. injection E as <-. destruct (mk_tuples_spec _ _ _ _ EM) as (M1 & _). unfold jcfg_of in *. cbn. rewrite put_same, put_other by exact A1. split; [exact A1|]. cbn. intros b [= <-] H. apply W2 in H. lia.
  - destruct (q_sums (jcfg_of s v)) as [a|] eqn:EP; [|discriminate]. destruct (_ <? _)%nat; [|discriminate]. injection E as <-. unfold jcfg_of in *. cbn. rewrite EP. auto.
Qed.
Lemma jedits_other v cs : forall s s', jwf s -> japart s v -> Forall (jedits v) cs -> jexec N s cs = Ok s' -> forall u, u <> v -> jcontents (jw_heap s') (jcfg_of s' u) = jcontents (jw_heap s) (jcfg_of s u).
Proof.
  induction cs as [|c cs IH]; intros s s' W A F E u Hu; cbn [jexec] in E; [injection E as <-; reflexivity|]. inversion F as [|? ? F1 F2]; subst. apply bind_ok in E. destruct E as (s1 & E1 & E2).
  destruct (A u Hu) as [A1 A2]. rewrite (IH s1 s' (jstep_wf N s c s1 W E1) (jedit_apart s v c s1 W A F1 E1) F2 E2 u Hu). apply (jedit_other s v c s1 u W F1 E1 A1 A2).
Qed.
End JointMerge.
