(** Configurations that the caller shares and changes: C73 to C75. *)
From Flocq Require Import Core BinarySingleNaN.
From Verif Require Import Base F64 FloatR HistSpec RingModel MathModel NumModel MomentModel JointModel CfgModel CfgProof.
Local Open Scope Z_scope.

(** ** Specification *)
(** A program up to a successful NewCore(v), which makes the i-th core, and the rest of the program. *)
Record life {T} (N : Num T) (v i : nat) (s1 : world) (cs : list cmd) (s2 : world) : Prop := {
  l_old : exists pre s, exec N (start N) pre = Ok s /\ step N s (New v) = Ok s1 /\ i = length (w_cores s) /\ length (w_cores s1) = S i;
  l_rest : exec N s1 cs = Ok s2 }.
(** The i-th core then answers as one made from the values that the config had at the time. *)
Definition frozen {T} (N : Num T) (v i : nat) (s1 : world) (cs : list cmd) (s2 : world) : Prop :=
  exists k k', new_core N (contents (w_heap s1) (cfg_of s1 v)) = Ok k /\ core_run N k (calls i cs) = Ok k' /\ core_at s2 i = Ok k'.
(** For joint, [s] is the state before NewCore. *)
Record jlife {T} (N : Num T) (v i : nat) (s s1 : jworld) (cs : list jcmd) (s2 : jworld) : Prop := {
  jl_old : exists pre, jexec N (jstart N) pre = Ok s;
  jl_new : jstep N s (JNew v) = Ok s1 /\ i = length (jw_cores s) /\ length (jw_cores s1) = S i;
  jl_rest : jexec N s1 cs = Ok s2 }.
Definition jfrozen {T} (N : Num T) (v i : nat) (s : jworld) (cs : list jcmd) (s2 : jworld) : Prop :=
  exists k k', jnew_core N (jcontents (jw_heap s) (jcfg_of s v)) = Ok k /\ jcore_run N k (jcalls i cs) = Ok k' /\ jcore_at s2 i = Ok k'.

(** ** Theorems *)

(** *** C73. A core keeps the configuration it was made with *)

(** What holds for moment: it does, whatever the program changes, except through the pointer Decay. *)
Theorem C73_moment_partial T (N : Num T) v i s1 cs s2 : life N v i s1 cs s2 ->
  (forall a x, In (WriteFlt a x) cs -> p_decay (cfg_of s1 v) <> Some a) -> frozen N v i s1 cs s2.
Proof.
  intros [(pre & s & E0 & E1 & -> & L) E2] Hw. destruct (step_new N s v s1 E1) as (H1 & H2 & H3 & H4).
  assert (HC : cfg_of s1 v = p_defaults (cfg_of s v)) by (unfold cfg_of at 1; rewrite H2, H3; apply put_same).
  rewrite <- H1, <- HC in H4. unfold frozen. destruct (new_core N _) as [k|e| | |]; try contradiction; [|rewrite H4 in L; lia].
  destruct H4 as (c & H4 & H5 & H6). assert (Hc : nth_error (w_cores s1) (length (w_cores s)) = Some c) by (rewrite H4, nth_error_app2, Nat.sub_diag by lia; reflexivity).
  destruct (exec_core N (length (w_cores s)) cs s1 s2 c E2 Hc) as (c' & K1 & K2 & K3).
  { intros a x Hi. rewrite H6. specialize (Hw a x Hi). rewrite HC in Hw. exact Hw. }
  rewrite H5 in K3. exists k, (load (w_heap s2) c'). split; [reflexivity|]. split; [exact K3|]. unfold core_at. rewrite K1. reflexivity.
Qed.
Print Assumptions C73_moment_partial.

(** For joint: neither through Decay nor by writing to a tuple or to a place of a slice of tuples. *)
Theorem C73_joint_partial T (N : Num T) v i s s1 cs s2 : jlife N v i s s1 cs s2 ->
  (forall a x, In (JWriteFlt a x) cs -> q_decay (jcfg_of s v) <> Some a) ->
  (forall u j t, ~ In (JSetTuple u j t) cs) -> (forall u j m k, ~ In (JSetPower u j m k) cs) -> jfrozen N v i s cs s2.
Proof.
  intros [(pre & E0) (E1 & -> & L) E2] Hw Ht Hp. pose proof (jexec_wf N pre _ _ (jstart_wf N) E0) as W. pose proof (jexec_default N pre _ _ (jstart_wf N) eq_refl E0) as D.
  pose proof (jstep_wf N s _ s1 W E1) as W1. pose proof (jstep_new N s v s1 E1) as H4. rewrite (jdefault_contents N _ _ D) in H4. unfold jfrozen.
  destruct (jnew_core N _) as [k|e| | |]; try contradiction; [|rewrite H4 in L; lia].
  destruct H4 as (c & H4 & H5 & H6). assert (Hc : nth_error (jw_cores s1) (length (jw_cores s)) = Some c) by (rewrite H4, nth_error_app2, Nat.sub_diag by lia; reflexivity).
  destruct (jexec_core N (length (jw_cores s)) cs s1 s2 c W1 E2 Hc) as (c' & K1 & K3).
  { intros d Hd Hr. destruct d; cbn in Hr; try contradiction; [apply (Ht _ _ _ Hd)|apply (Hp _ _ _ _ Hd)]. }
  { intros a x Hi. rewrite H6. apply (Hw a x Hi). }
  rewrite H5 in K3. exists k, (jload (jw_heap s2) c'). split; [reflexivity|]. split; [exact K3|]. unfold jcore_at. rewrite K1. reflexivity.
Qed.
Print Assumptions C73_joint_partial.

(** False in general. A decay is read through the caller's pointer at every Push: with decay 1/2 the mean of
    0, 4 is 2, but it is 1 if the variable is set to 1/4 in between. *)
Definition dec_pre : list (@cmd f64) := [WriteFlt 0 (fdy 1 (-1)); MkCfg 0 (Some (Var 0)) (Some 0%nat)].
Definition dec_post : list (@cmd f64) := [Push 0 (fz 0); WriteFlt 0 (fdy 1 (-2)); Push 0 (fz 4)].
Lemma dec_values : rmap (fun s => length (w_cores s)) (exec FN (start FN) dec_pre) = Ok 0%nat /\
  rmap (fun s => length (w_cores s)) (exec FN (start FN) (dec_pre ++ [New 0])) = Ok 1%nat /\
  rmap fbits (s <- exec FN (start FN) (dec_pre ++ [New 0] ++ dec_post) ;; c <- core_at s 0 ;; Ok (c_mean c)) = Ok (fbits (fz 1)) /\
  rmap fbits (s <- exec FN (start FN) (dec_pre ++ [New 0]) ;; k <- new_core FN (contents (w_heap s) (cfg_of s 0)) ;; c <- core_run FN k (calls 0 dec_post) ;; Ok (c_mean c)) = Ok (fbits (fz 2)).
Proof. repeat split; vm_compute; reflexivity. Qed.
Theorem C73_moment_refuted : ~ (forall v i s1 cs s2, life FN v i s1 cs s2 -> frozen FN v i s1 cs s2).
Proof.
  intros H. destruct dec_values as (L0 & L1 & H1 & H2). apply rmap_ok in H1 as (m & H1 & E1). apply bind_ok in H1 as (s2 & ES & H1). apply rmap_ok in L0 as (s & EP & L0). apply rmap_ok in L1 as (s1 & EN & L1).
  rewrite EN in H2. cbn [bind] in H2. destruct (exec_app FN _ _ _ _ EN) as (s' & EP' & EN'). rewrite EP in EP'. injection EP' as <-. cbn [exec] in EN'. apply bind_ok in EN' as (s0 & EN' & X). injection X as ->.
  rewrite app_assoc in ES. destruct (exec_app FN _ _ _ _ ES) as (s' & E' & ER). rewrite EN in E'. injection E' as <-.
  destruct (H 0%nat 0%nat s1 dec_post s2) as (k & k' & K1 & K2 & K3).
  { split; [|exact ER]. exists dec_pre, s. repeat split; auto. }
  rewrite K1 in H2. cbn [bind] in H2. rewrite K2 in H2. rewrite K3 in H1. cbn [bind rmap] in H1, H2. injection H1 as <-.
  assert (XX : fbits (fz 1) <> fbits (fz 2)) by (vm_compute; discriminate). congruence.
Qed.
Print Assumptions C73_moment_refuted.

(** For joint also the tuples: a core with Sums {{1, 1}} has, after 1, 1 and 3, 5, the sum of products 4; if the
    caller sets the tuple to {1, 0} in between, the sum stays 0. *)
Definition tup_pre : list (@jcmd f64) := [JMkCfg 0 (Some (Var 0)) None None; JMkSums 0 [[1; 1]]].
Definition tup_post : list (@jcmd f64) := [JPush 0 [fz 1; fz 1]; JSetPower 0 0 1 0; JPush 0 [fz 3; fz 5]].
Lemma tup_values : rmap (fun s => length (jw_cores s)) (jexec FN (jstart FN) tup_pre) = Ok 0%nat /\
  rmap (fun s => length (jw_cores s)) (jexec FN (jstart FN) (tup_pre ++ [JNew 0])) = Ok 1%nat /\
  rmap fbits (s <- jexec FN (jstart FN) (tup_pre ++ [JNew 0] ++ tup_post) ;; c <- jcore_at s 0 ;; j_get_sum c [1; 1]) = Ok (fbits (fz 0)) /\
  rmap fbits (s <- jexec FN (jstart FN) tup_pre ;; k <- jnew_core FN (jcontents (jw_heap s) (jcfg_of s 0)) ;; c <- jcore_run FN k (jcalls 0 tup_post) ;; j_get_sum c [1; 1]) = Ok (fbits (fz 4)).
Proof. repeat split; vm_compute; reflexivity. Qed.
Theorem C73_joint_refuted : ~ (forall v i s s1 cs s2, jlife FN v i s s1 cs s2 -> (forall a x, ~ In (JWriteFlt a x) cs) -> jfrozen FN v i s cs s2).
Proof.
  intros H. destruct tup_values as (L0 & L1 & H1 & H2). apply rmap_ok in H1 as (m & H1 & E1). apply bind_ok in H1 as (s2 & ES & H1). apply rmap_ok in L0 as (s & EP & L0). apply rmap_ok in L1 as (s1 & EN & L1).
  rewrite EP in H2. cbn [bind] in H2. destruct (jexec_app FN _ _ _ _ EN) as (s' & EP' & EN'). rewrite EP in EP'. injection EP' as <-. cbn [jexec] in EN'. apply bind_ok in EN' as (s0 & EN' & X). injection X as ->.
  rewrite app_assoc in ES. destruct (jexec_app FN _ _ _ _ ES) as (s' & E' & ER). rewrite EN in E'. injection E' as <-.
  destruct (H 0%nat 0%nat s s1 tup_post s2) as (k & k' & K1 & K2 & K3).
  { split; [exists tup_pre; exact EP|repeat split; auto|exact ER]. }
  { intros a x [X|[X|[X|[]]]]; discriminate. }
  rewrite K1 in H2. cbn [bind] in H2. rewrite K2 in H2. rewrite K3 in H1. cbn [bind] in H1, H2. rewrite H1 in H2. cbn [rmap bind] in H2.
  assert (XX : fbits (fz 0) <> fbits (fz 4)) by (vm_compute; discriminate). congruence.
Qed.
Print Assumptions C73_joint_refuted.

(** A case of both: everything of the config is changed afterwards, its pointers and what they point to, but not
    the cell of the first core's decay. *)
Definition mix_post : list (@cmd f64) := [Push 0 (fz 0); WriteInt (Var 0) 7; SetDecay 0 (Some 1%nat); WriteFlt 1 (fdy 1 (-2)); SetDecay 0 None; AddSum 0 5; MkSums 0 []; New 0; Push 0 (fz 4); Push 1 (fz 9)].
Definition mix_pre : list (@cmd f64) := [WriteFlt 0 (fdy 1 (-1)); MkCfg 0 (Some (Var 0)) (Some 0%nat); MkSums 0 [2]].
Definition jmix_pre : list (@jcmd f64) := [JMkCfg 0 (Some (Var 0)) None None; JMkSums 0 [[1; 1]]].
Definition jmix_post : list (@jcmd f64) := [JPush 0 [fz 1; fz 1]; JWriteInt (Var 0) 7; JSetVars 0 None; JMkSums 0 [[1; 1; 1]]; JNew 0; JPush 0 [fz 3; fz 5]; JPush 1 [fz 0; fz 0; fz 0]].
Example C73_case :
  (exists s1 s2, life FN 0 0 s1 mix_post s2 /\ (forall a x, In (WriteFlt a x) mix_post -> p_decay (cfg_of s1 0) <> Some a)) /\
  (exists s s1 s2, jlife FN 0 0 s s1 jmix_post s2 /\ (forall a x, ~ In (JWriteFlt a x) jmix_post) /\
    (forall u j t, ~ In (JSetTuple u j t) jmix_post) /\ (forall u j m k, ~ In (JSetPower u j m k) jmix_post)) /\
  rmap fbits (s <- exec FN (start FN) (mix_pre ++ [New 0] ++ mix_post) ;; c <- core_at s 0 ;; Ok (c_mean c)) = Ok (fbits (fz 2)) /\
  rmap fbits (s <- jexec FN (jstart FN) (jmix_pre ++ [JNew 0] ++ jmix_post) ;; c <- jcore_at s 0 ;; j_get_sum c [1; 1]) = Ok (fbits (fz 4)).
Proof.
  split; [|split; [|split; vm_compute; reflexivity]].
  - destruct (rmap_ok (fun s => length (w_cores s)) (exec FN (start FN) mix_pre) 0%nat) as (s & EP & L0); [vm_compute; reflexivity|].
    destruct (rmap_ok (fun s => (length (w_cores s), p_decay (cfg_of s 0))) (exec FN (start FN) (mix_pre ++ [New 0])) (1%nat, Some 0%nat)) as (s1 & EN & L1); [vm_compute; reflexivity|].
    destruct (rmap_ok (fun s => length (w_cores s)) (exec FN (start FN) ((mix_pre ++ [New 0]) ++ mix_post)) 2%nat) as (s2 & ES & L2); [vm_compute; reflexivity|].
    destruct (exec_app FN _ _ _ _ EN) as (s' & EP' & EN'). rewrite EP in EP'. injection EP' as <-. cbn [exec] in EN'. apply bind_ok in EN' as (s0 & EN' & X). injection X as ->.
    destruct (exec_app FN _ _ _ _ ES) as (s' & E' & ER). rewrite EN in E'. injection E' as <-. injection L1 as L1 L3.
    exists s1, s2. split; [split; [exists mix_pre, s; repeat split; auto|exact ER]|]. intros a x Hi. rewrite L3.
    apply (in_map (fun c => match c with WriteFlt a _ => Some a | _ => None end)) in Hi. cbn [map mix_post In] in Hi. intros [= <-]. clear - Hi. decompose [or] Hi; try discriminate; contradiction.
  - destruct (rmap_ok (fun s => length (jw_cores s)) (jexec FN (jstart FN) jmix_pre) 0%nat) as (s & EP & L0); [vm_compute; reflexivity|].
    destruct (rmap_ok (fun s => length (jw_cores s)) (jexec FN (jstart FN) (jmix_pre ++ [JNew 0])) 1%nat) as (s1 & EN & L1); [vm_compute; reflexivity|].
    destruct (rmap_ok (fun s => length (jw_cores s)) (jexec FN (jstart FN) ((jmix_pre ++ [JNew 0]) ++ jmix_post)) 2%nat) as (s2 & ES & L2); [vm_compute; reflexivity|].
    destruct (jexec_app FN _ _ _ _ EN) as (s' & EP' & EN'). rewrite EP in EP'. injection EP' as <-. cbn [jexec] in EN'. apply bind_ok in EN' as (s0 & EN' & X). injection X as ->.
    destruct (jexec_app FN _ _ _ _ ES) as (s' & E' & ER). rewrite EN in E'. injection E' as <-.
    exists s, s1, s2. split; [split; [exists jmix_pre; exact EP|repeat split; auto|exact ER]|].
    assert (Q : forall c, In c jmix_post -> match c with JWriteFlt _ _ | JSetTuple _ _ _ | JSetPower _ _ _ _ => False | _ => True end).
    { apply Forall_forall. unfold jmix_post. repeat constructor. }
    repeat split; intros; intros Hi; exact (Q _ Hi).
Qed.

(** *** C74. NewCore has no side effect on configurations *)

(** moment, false in general: NewCore gives a config without Sums the map of the package's default. If the caller
    then adds a sum to it, all configs without Sums made later, and those before, track it. *)
Definition leak_cmds : list (@cmd f64) := [MkCfg 0 (Some (Var 0)) None; New 0; AddSum 0 3; MkCfg 1 (Some (Var 0)) None; New 1].
Theorem C74_moment_refuted : exists s k, exec FN (start FN) leak_cmds = Ok s /\ core_at s 1 = Ok k /\ c_len k = 4%nat /\
  rmap (@c_len f64) (new_core FN (mkCfg None (Some 0) None)) = Ok 0%nat.
Proof.
  destruct (rmap_ok (@c_len f64) (s <- exec FN (start FN) leak_cmds ;; core_at s 1) 4%nat) as (k & E & L); [vm_compute; reflexivity|].
  apply bind_ok in E as (s & E1 & E2). exists s, k. repeat split; auto.
Qed.
Print Assumptions C74_moment_refuted.

(** What holds: in a program that never adds to a map that NewCore put into a config, NewCore changes nothing but
    that Sums nil becomes empty, and gives the core of the config's contents. *)
Theorem C74_moment_partial T (N : Num T) pre s v s1 : exec N (start N) pre = Ok s -> own_sums N (start N) pre -> step N s (New v) = Ok s1 ->
  (forall u, let a := contents (w_heap s) (cfg_of s u) in let b := contents (w_heap s1) (cfg_of s1 u) in
    cf_window b = cf_window a /\ cf_decay b = cf_decay a /\ (cf_sums b = cf_sums a \/ cf_sums a = None /\ cf_sums b = Some [])) /\
  match new_core N (contents (w_heap s) (cfg_of s v)) with
  | Ok k => core_at s1 (length (w_cores s)) = Ok k
  | Err _ => w_cores s1 = w_cores s
  | _ => False
  end.
Proof.
  intros E0 O E1. destruct (exec_dinv N pre _ _ (start_dinv N) O E0) as [D _]. destruct (step_new N s v s1 E1) as (H1 & H2 & H3 & H4). split.
  - intros u. cbv zeta. rewrite H1. unfold cfg_of. rewrite H2, H3. destruct (put_case (w_cfg s) (w_var s v) (p_defaults (cfg_of s v)) (w_var s u)) as [[-> ->]|[_ ->]]; [|auto].
    cbn. split; [reflexivity|]. split; [reflexivity|]. unfold cfg_of. destruct (p_sums (w_cfg s (w_var s v))); [left; reflexivity|right]. cbn. rewrite D. auto.
  - rewrite (default_contents N _ _ D) in H4. destruct (new_core N _) as [k|e| | |]; auto. destruct H4 as (c & H4 & H5 & _). unfold core_at. rewrite H4, nth_error_app2, Nat.sub_diag by lia. cbn. rewrite H5. reflexivity.
Qed.
Print Assumptions C74_moment_partial.

(** joint, false in general: NewCore sets Vars. The config cannot be used again with tuples of another length. *)
Definition vars_pre : list (@jcmd f64) := [JMkCfg 0 (Some (Var 0)) None None; JMkSums 0 [[1; 1]]].
Definition vars_post : list (@jcmd f64) := [JMkSums 0 [[1; 1; 1]]].
Theorem C74_joint_refuted : exists s s' k, jexec FN (jstart FN) (vars_pre ++ vars_post) = Ok s /\ jexec FN (jstart FN) (vars_pre ++ [JNew 0] ++ vars_post) = Ok s' /\
  jnew_core FN (A := list f64) (jcontents (jw_heap s) (jcfg_of s 0)) = Ok k /\ jnew_core FN (A := list f64) (jcontents (jw_heap s') (jcfg_of s' 0)) = Err ETupleVars.
Proof.
  destruct (rmap_ok (fun k => length (j_means k)) (s <- jexec FN (jstart FN) (vars_pre ++ vars_post) ;; jnew_core FN (A := list f64) (jcontents (jw_heap s) (jcfg_of s 0))) 3%nat) as (k & E & _); [vm_compute; reflexivity|].
  apply bind_ok in E as (s & E1 & E2).
  destruct (rmap_ok (fun s => match jnew_core FN (A := list f64) (jcontents (jw_heap s) (jcfg_of s 0)) with Err ETupleVars => true | _ => false end) (jexec FN (jstart FN) (vars_pre ++ [JNew 0] ++ vars_post)) true) as (s' & E3 & E4); [vm_compute; reflexivity|].
  exists s, s', k. split; [exact E1|]. split; [exact E3|]. split; [exact E2|]. clear - E4. destruct (jnew_core FN _) as [| []| | |]; try discriminate E4. reflexivity.
Qed.
Print Assumptions C74_joint_refuted.

(** What holds: NewCore changes nothing but that Sums nil becomes empty and Vars nil the length of the tuples,
    in the config it is given only. It gives the core of the config's contents, and so does using the config again. *)
Theorem C74_joint_partial T (N : Num T) pre s v s1 : jexec N (jstart N) pre = Ok s -> known_ptrs N (jstart N) pre -> jstep N s (JNew v) = Ok s1 ->
  (forall u, let a := jcontents (jw_heap s) (jcfg_of s u) in let b := jcontents (jw_heap s1) (jcfg_of s1 u) in
    jf_window b = jf_window a /\ jf_decay b = jf_decay a /\
    (jf_sums b = jf_sums a \/ jw_var s u = jw_var s v /\ jf_sums a = None /\ jf_sums b = Some []) /\
    (jf_vars b = jf_vars a \/ jw_var s u = jw_var s v /\ jf_vars a = None /\ exists t ts, jf_sums a = Some (t :: ts) /\ jf_vars b = Some (zlen t))) /\
  match jnew_core N (jcontents (jw_heap s) (jcfg_of s v)) with
  | Ok k => jcore_at s1 (length (jw_cores s)) = Ok k /\ jnew_core N (jcontents (jw_heap s1) (jcfg_of s1 v)) = Ok k
  | Err _ => jw_cores s1 = jw_cores s
  | _ => False
  end.
Proof.
  intros E0 K E1. pose proof (jexec_inv N pre _ _ (jstart_inv N) K E0) as I. pose proof I as (W & D & _). destruct (jnew_keeps N s v s1 I E1) as (HV & HK). split.
  - intros u. cbv zeta. unfold jcfg_of. rewrite HV. destruct (HK (jw_var s u)) as (A1 & A2 & A3 & A4 & A5). split; [exact A1|]. split; [exact A2|].
    split; [exact A4|]. destruct A5 as [A5|(A5 & A6 & t & ts & A7 & A8)]; [left; exact A5|right]. split; [exact A5|]. split; [exact A6|]. exists t, ts. split; [|exact A8].
    unfold jsums_of in A7. destruct (jf_sums (jcontents (jw_heap s) (jw_cfg s (jw_var s u)))); [|discriminate]. rewrite A7. reflexivity.
  - pose proof (jstep_new N s v s1 E1) as H4. rewrite (jdefault_contents N _ _ D) in H4. destruct (jnew_core N (jcontents (jw_heap s) (jcfg_of s v))) as [k|e| | |] eqn:EK; auto.
    destruct H4 as (c & H4 & H5 & _). split; [unfold jcore_at; rewrite H4, nth_error_app2, Nat.sub_diag by lia; cbn; rewrite H5; reflexivity|].
    destruct (HK (jw_var s v)) as (A1 & A2 & A3 & _ & A5). unfold jcfg_of. rewrite HV. apply (jnew_again N _ _ k EK A1 A2 A3). destruct A5 as [A5|(_ & A5)]; auto.
Qed.
Print Assumptions C74_joint_partial.

(** A case of both: several configs, shared sums, a merged config and a core before. *)
Definition quiet_pre : list (@cmd f64) := [MkCfg 0 (Some (Var 0)) None; MkSums 0 [2]; New 0; MkCfg 1 (Some (Var 0)) None; New 1; MkCfg 2 None None; Merge [0; 1; 2]%nat 3; AddSum 3 4; MkCfg 1 (Some (Var 0)) None].
Definition jquiet_pre : list (@jcmd f64) := [JMkCfg 0 (Some (Var 0)) None None; JMkSums 0 [[1; 1]; [2; 0]]; JNew 0; JMkCfg 1 None None None; JShareSums 1 0; JMerge [0; 1]%nat 2; JMkCfg 3 (Some (Var 0)) None None; JShareSums 3 2].
Example C74_case :
  (exists s s1, exec FN (start FN) quiet_pre = Ok s /\ own_sums FN (start FN) quiet_pre /\ step FN s (New 1) = Ok s1 /\ length (w_cores s1) = 3%nat) /\
  (exists s s1, jexec FN (jstart FN) jquiet_pre = Ok s /\ known_ptrs FN (jstart FN) jquiet_pre /\ jstep FN s (JNew 3) = Ok s1 /\ length (jw_cores s1) = 2%nat /\
    jf_vars (jcontents (jw_heap s) (jcfg_of s 3)) = None /\ jf_vars (jcontents (jw_heap s1) (jcfg_of s1 3)) = Some 2).
Proof.
  split.
  - destruct (rmap_ok (fun s => length (w_cores s)) (exec FN (start FN) (quiet_pre ++ [New 1])) 3%nat) as (s1 & E1 & L1); [vm_compute; reflexivity|].
    destruct (exec_app FN _ _ _ _ E1) as (s & E & E2). cbn [exec] in E2. apply bind_ok in E2 as (s0 & E2 & X). injection X as ->. exists s, s1. split; [exact E|]. split; [|auto].
    apply own_sumsb_ok. vm_compute. reflexivity.
  - destruct (rmap_ok (fun s => (length (jw_cores s), jf_vars (jcontents (jw_heap s) (jcfg_of s 3)))) (jexec FN (jstart FN) (jquiet_pre ++ [JNew 3])) (2%nat, Some 2)) as (s1 & E1 & L1); [vm_compute; reflexivity|].
    destruct (rmap_ok (fun s => jf_vars (jcontents (jw_heap s) (jcfg_of s 3))) (jexec FN (jstart FN) jquiet_pre) None) as (s & E & L); [vm_compute; reflexivity|].
    destruct (jexec_app FN _ _ _ _ E1) as (s' & E' & E2). rewrite E in E'. injection E' as <-. cbn [jexec] in E2. apply bind_ok in E2 as (s0 & E2 & X). injection X as ->. injection L1 as L1 L2. exists s, s1. split; [exact E|]. split; [|auto].
    apply known_ptrsb_ok. vm_compute. reflexivity.
Qed.

(** *** C75. MergeConfigs makes a new config *)

(** Of two or more configs: the result has the merged contents, no other config changes, then or when the fields and
    the sums of the result are changed. If there is an error nothing changes. *)
Theorem C75_moment_partial T (N : Num T) pre s us v s1 : exec N (start N) pre = Ok s -> (2 <= length us)%nat -> step N s (Merge us v) = Ok s1 ->
  match merge_configs N (map (fun u => contents (w_heap s) (cfg_of s u)) us) with
  | Ok m => contents (w_heap s1) (cfg_of s1 v) = m /\
      forall cs s2, Forall (edits v) cs -> exec N s1 cs = Ok s2 -> forall u, u <> v -> contents (w_heap s2) (cfg_of s2 u) = contents (w_heap s) (cfg_of s u)
  | Err _ => s1 = s
  | _ => False
  end.
Proof.
  intros E0 L E. pose proof (exec_mwf N pre _ _ (start_mwf N) E0) as W. pose proof (merge_new N s us v s1 W L E) as M. pose proof (step_mwf N s _ s1 W E) as W1.
  destruct (merge_configs N _) as [m|e| | |]; auto. destruct M as (M1 & M2 & M3 & M4 & _). split; [exact M1|]. intros cs s2 F E2 u Hu.
  destruct W as (A & B & _). destruct (M4 u Hu) as (H1 & H2 & H3). rewrite <- H3. apply (edits_other N v cs s1 s2 W1); auto.
  intros x Hx. destruct (M4 x Hx) as (K1 & K2 & _). rewrite K1, K2, M2, M3. split; [specialize (A x); lia|]. intros b [= <-] H. apply B in H. lia.
Qed.
Print Assumptions C75_moment_partial.
(** For joint the tuples themselves are shared: [jedits] has no v.Sums[i][j] = k. *)
Theorem C75_joint_partial T (N : Num T) pre s us v s1 : jexec N (jstart N) pre = Ok s -> (2 <= length us)%nat -> jstep N s (JMerge us v) = Ok s1 ->
  match jmerge_configs N (map (fun u => jcontents (jw_heap s) (jcfg_of s u)) us) with
  | Ok m => jcontents (jw_heap s1) (jcfg_of s1 v) = m /\
      forall cs s2, Forall (jedits v) cs -> jexec N s1 cs = Ok s2 -> forall u, u <> v -> jcontents (jw_heap s2) (jcfg_of s2 u) = jcontents (jw_heap s) (jcfg_of s u)
  | Err _ => s1 = s
  | _ => False
  end.
Proof.
  intros E0 L E. pose proof (jexec_wf N pre _ _ (jstart_wf N) E0) as W. assert (V : vwf s) by (apply (exec_vwf N pre (jstart N) s); [intros u; cbn; lia|exact E0]).
  pose proof (jmerge_new N s us v s1 W V L E) as M. pose proof (jstep_wf N s _ s1 W E) as W1.
  destruct (jmerge_configs N _) as [m|e| | |]; auto. destruct M as (M1 & M2 & M3 & M4 & _). split; [exact M1|]. intros cs s2 F E2 u Hu.
  destruct (M4 u Hu) as (H1 & H2 & H3). rewrite <- H3. apply (jedits_other N v cs s1 s2 W1); auto.
  intros x Hx. destruct (M4 x Hx) as (K1 & K2 & _). rewrite K1, K2, M2, M3. split; [specialize (V x); lia|]. intros b [= <-] H. apply (wf_cfg s W) in H. lia.
Qed.
Print Assumptions C75_joint_partial.

(** False for one config: the result is the config itself. Changing its window changes the config's. *)
Definition one_pre : list (@cmd f64) := [WriteInt (Var 1) 5; MkCfg 0 (Some (Var 0)) None].
Theorem C75_moment_refuted : exists s s1 s2, exec FN (start FN) one_pre = Ok s /\ step FN s (Merge [0%nat] 1) = Ok s1 /\ step FN s1 (SetWindow 1 (Some (Var 1))) = Ok s2 /\
  cf_window (contents (w_heap s) (cfg_of s 0)) = Some 0 /\ cf_window (contents (w_heap s2) (cfg_of s2 0)) = Some 5.
Proof. eexists _, _, _. split; [reflexivity|]. split; [reflexivity|]. split; [reflexivity|]. split; reflexivity. Qed.
Print Assumptions C75_moment_refuted.
(** False for joint also of two: a tuple of the result changed in place is changed in the config it comes from. *)
Definition two_pre : list (@jcmd f64) := [JMkCfg 0 (Some (Var 0)) None None; JMkSums 0 [[1; 1]]; JMkCfg 1 (Some (Var 0)) None None; JMkSums 1 [[2; 0]]].
Theorem C75_joint_refuted : exists s s1 s2, jexec FN (jstart FN) two_pre = Ok s /\ jstep FN s (JMerge [0; 1]%nat 2) = Ok s1 /\ jstep FN s1 (JSetPower 2 0 0 7) = Ok s2 /\
  jf_sums (jcontents (jw_heap s) (jcfg_of s 0)) = Some [[1; 1]] /\ jf_sums (jcontents (jw_heap s2) (jcfg_of s2 0)) = Some [[7; 1]].
Proof.
  destruct (rmap_ok (fun s => jf_sums (jcontents (jw_heap s) (jcfg_of s 0))) (jexec FN (jstart FN) (two_pre ++ [JMerge [0; 1]%nat 2; JSetPower 2 0 0 7])) (Some [[7; 1]])) as (s2 & E2 & L2); [vm_compute; reflexivity|].
  destruct (rmap_ok (fun s => jf_sums (jcontents (jw_heap s) (jcfg_of s 0))) (jexec FN (jstart FN) two_pre) (Some [[1; 1]])) as (s & E & L); [vm_compute; reflexivity|].
  destruct (jexec_app FN _ _ _ _ E2) as (s' & E' & E3). rewrite E in E'. injection E' as <-. cbn [jexec] in E3. apply bind_ok in E3 as (s1 & E3 & E4). apply bind_ok in E4 as (s3 & E4 & X). injection X as ->.
  exists s, s1, s2. auto.
Qed.
Print Assumptions C75_joint_refuted.
Example C75_case :
  (exists s s1 s2 m, exec FN (start FN) quiet_pre = Ok s /\ step FN s (Merge [0; 3]%nat 4) = Ok s1 /\ merge_configs FN (map (fun u => contents (w_heap s) (cfg_of s u)) [0; 3]%nat) = Ok m /\ sums_of m = [2; 4] /\
    exec FN s1 [AddSum 4 6; SetDecay 4 (Some 2%nat); MkSums 4 [9]; AddSum 4 8] = Ok s2 /\ cf_sums (contents (w_heap s2) (cfg_of s2 4)) = Some [9; 8] /\ cf_sums (contents (w_heap s2) (cfg_of s2 0)) = Some [2]) /\
  (exists s s1 s2 m, jexec FN (jstart FN) two_pre = Ok s /\ jstep FN s (JMerge [0; 1]%nat 2) = Ok s1 /\ jmerge_configs FN (map (fun u => jcontents (jw_heap s) (jcfg_of s u)) [0; 1]%nat) = Ok m /\ jsums_of m = [[1; 1]; [2; 0]] /\
    jexec FN s1 [JSetTuple 2 0 [5; 5]; JSetVars 2 (Some (Var 1))] = Ok s2 /\ jf_sums (jcontents (jw_heap s2) (jcfg_of s2 2)) = Some [[5; 5]; [2; 0]] /\ jf_sums (jcontents (jw_heap s2) (jcfg_of s2 0)) = Some [[1; 1]]).
Proof.
  split.
  - destruct (rmap_ok sums_of (s <- exec FN (start FN) quiet_pre ;; merge_configs FN (map (fun u => contents (w_heap s) (cfg_of s u)) [0; 3]%nat)) [2; 4]) as (m & E & L); [vm_compute; reflexivity|].
    apply bind_ok in E as (s & E & EM).
    destruct (rmap_ok (fun s => (cf_sums (contents (w_heap s) (cfg_of s 4)), cf_sums (contents (w_heap s) (cfg_of s 0)))) (exec FN (start FN) (quiet_pre ++ [Merge [0; 3]%nat 4] ++ [AddSum 4 6; SetDecay 4 (Some 2%nat); MkSums 4 [9]; AddSum 4 8])) (Some [9; 8], Some [2])) as (s2 & E2 & L2); [vm_compute; reflexivity|].
    destruct (exec_app FN _ _ _ _ E2) as (s' & E' & E3). rewrite E in E'. injection E' as <-. destruct (exec_app FN _ _ _ _ E3) as (s1 & E1 & E4). cbn [exec] in E1. apply bind_ok in E1 as (s0 & E1 & X). injection X as ->. injection L2 as L2 L3.
    exists s, s1, s2, m. auto 10.
  - destruct (rmap_ok jsums_of (s <- jexec FN (jstart FN) two_pre ;; jmerge_configs FN (map (fun u => jcontents (jw_heap s) (jcfg_of s u)) [0; 1]%nat)) [[1; 1]; [2; 0]]) as (m & E & L); [vm_compute; reflexivity|].
    apply bind_ok in E as (s & E & EM).
    destruct (rmap_ok (fun s => (jf_sums (jcontents (jw_heap s) (jcfg_of s 2)), jf_sums (jcontents (jw_heap s) (jcfg_of s 0)))) (jexec FN (jstart FN) (two_pre ++ [JMerge [0; 1]%nat 2] ++ [JSetTuple 2 0 [5; 5]; JSetVars 2 (Some (Var 1))])) (Some [[5; 5]; [2; 0]], Some [[1; 1]])) as (s2 & E2 & L2); [vm_compute; reflexivity|].
    destruct (jexec_app FN _ _ _ _ E2) as (s' & E' & E3). rewrite E in E'. injection E' as <-. destruct (jexec_app FN _ _ _ _ E3) as (s1 & E1 & E4). cbn [jexec] in E1. apply bind_ok in E1 as (s0 & E1 & X). injection X as ->. injection L2 as L2 L3.
    exists s, s1, s2, m. auto 10.
Qed.
