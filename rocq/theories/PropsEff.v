(** C44: a Push that returns an error has no effect. *)
From Verif Require Import Base F64 HistSpec RingModel NumModel MomentModel JointModel MinMaxModel HeapModel QuantileModel NameModel EffModel EffProof.

(** ** Specification: a failed call is as if it had not been made. *)
Definition failed (r : res unit) : bool := match r with Err _ => true | _ => false end.
(** Making all calls of a history, also after a call that returned an error. A panic or a blocked call ends it. *)
Fixpoint erun {S A} (push : S -> A -> S * res unit) (clear : S -> res S) (ops : list (op A)) (s : S) : res S :=
  match ops with
  | [] => Ok s
  | OPush x :: t => match push s x with
                    | (s', Ok _) | (s', Err _) => erun push clear t s'
                    | (_, r) => bind r (fun _ => Ok s)
                    end
  | OClear :: t => bind (clear s) (erun push clear t)
  end.
(** The history without its failed calls *)
Fixpoint no_failed {S A} (push : S -> A -> S * res unit) (clear : S -> res S) (ops : list (op A)) (s : S) : list (op A) :=
  match ops with
  | [] => []
  | OPush x :: t => if failed (snd (push s x)) then no_failed push clear t s else OPush x :: no_failed push clear t (fst (push s x))
  | OClear :: t => OClear :: match clear s with Ok s' => no_failed push clear t s' | _ => t end
  end.

Lemma no_failed_ok {S A} (push : S -> A -> S * res unit) clear (Inv : S -> Prop) :
  (forall s x e, Inv s -> snd (push s x) = Err e -> fst (push s x) = s) ->
  (forall s x, Inv s -> returned (snd (push s x)) -> Inv (fst (push s x))) ->
  (forall s s', Inv s -> clear s = Ok s' -> Inv s') ->
  forall ops s, Inv s -> erun push clear (no_failed push clear ops s) s = erun push clear ops s.
Proof.
  intros Hf Hp Hc. induction ops as [| [x |] t IH]; intros s I; cbn [no_failed erun]; [reflexivity | |].
  - pose proof (Hf s x) as F. pose proof (Hp s x I) as P. destruct (push s x) as [s' r] eqn:E. cbn [fst snd] in *.
    destruct r as [[] | e | | |]; cbn [failed erun]; rewrite ?E; try reflexivity.
    + apply IH, P. left; reflexivity.
    + rewrite (F e I eq_refl). apply IH, I.
  - destruct (clear s) as [s' | | | |] eqn:E; cbn [bind erun]; rewrite ?E; try reflexivity. cbn [bind]. apply IH. eapply Hc; eauto.
Qed.

(** ** Cores: joint.Core; every configuration, history and number of values. *)
Theorem C44_core {T} (N : Num T) junk (c : @vcore T) xs e : core_reach N junk c ->
  snd (jpush_eff N junk c xs) = Err e -> e = EArity /\ fst (jpush_eff N junk c xs) = c.
Proof.
  intros R E. destruct (core_reach_good N junk c R) as [v G].
  destruct (jpush_eff_good N junk v c xs G) as [[_ H] | [[_ H] _]]; [rewrite H in *; cbn [snd] in E; injection E as <-; auto | exfalso; eapply H; eauto].
Qed.
Print Assumptions C44_core.
Theorem C44_core_history {T} (N : Num T) junk cfg ops (c0 : @vcore T) : jnew_core N cfg = Ok c0 ->
  erun (jpush_eff N junk) (j_clear N) (no_failed (jpush_eff N junk) (j_clear N) ops c0) c0 = erun (jpush_eff N junk) (j_clear N) ops c0.
Proof.
  intros H. apply (no_failed_ok _ _ (core_reach N junk)); [| | | now apply CNew with cfg].
  - intros c x e R E. now apply (C44_core N junk c x e R).
  - intros c x R E. now apply CPush.
  - intros c c' R E. now apply CClear with c.
Qed.
Print Assumptions C44_core_history.

(** ** Cov, Corr, EWMCov, EWMCorr, with any core set in any way, or none. *)
Theorem C44_joint {T} (N : Num T) junk (m : @jmetric T) xs e : jm_reach N junk m ->
  snd (jm_push_eff N junk m xs) = Err e -> fst (jm_push_eff N junk m xs) = m.
Proof. intros R. apply jm_push_failed, (jm_reach_good N junk m R). Qed.
Print Assumptions C44_joint.
Theorem C44_joint_history {T} (N : Num T) junk ops (m : @jmetric T) : jm_reach N junk m ->
  erun (jm_push_eff N junk) (jm_clear N) (no_failed (jm_push_eff N junk) (jm_clear N) ops m) m = erun (jm_push_eff N junk) (jm_clear N) ops m.
Proof.
  intros H. apply (no_failed_ok _ _ (jm_reach N junk)); [| | | exact H].
  - intros s x e R E. now apply (C44_joint N junk s x e R).
  - intros s x R E. now apply JPush.
  - intros s s' R E. now apply JClear with s.
Qed.
Print Assumptions C44_joint_history.

(** ** Mean, Moment, Std, Skewness, Kurtosis, EWMA, EWMMoment, EWMStd: in every state; the only error is a missing core. *)
Theorem C44_moment {T} (N : Num T) junk (m : @metric T) x e :
  snd (m_push_eff N junk m x) = Err e -> e = ECoreNotSet /\ m_core m = None /\ fst (m_push_eff N junk m x) = m.
Proof.
  unfold m_push_eff. destruct (m_core m) as [c |]; [| intros [= <-]; auto].
  pose proof (half_failed junk (c_push N) c x e (ne_cpush N c x)) as H. destruct (half junk (c_push N) c x) as [c' r]. intros E. now destruct H.
Qed.
Print Assumptions C44_moment.

(** ** Min, Max, Quantile, Median, IQR, HeapMedian: Push never returns an error, whatever the state and the value, NaN included. *)
Theorem C44_no_errors m q h x e :
  min_push m x <> Err e /\ max_push m x <> Err e /\ q_push q x <> Err e /\ hm_push h x <> Err e.
Proof. repeat split; [apply ne_min | apply ne_max | apply ne_quant | apply ne_heap]. Qed.
Print Assumptions C44_no_errors.

(** ** Autocov, Autocorr *)
(** False when SetCore is given a core for another number of variables: the failed Push has then already removed a value from the lag queue.
    After SetCore with a core for two variables the next Push finds the value missing, and there is no pair yet. *)
Theorem C44_auto_refuted junk : exists a c2 x y e, auto_reach FN junk (fun _ => True) a /\ core_reach FN junk c2 /\ length (j_means c2) = 2 /\
  snd (auto_push_eff FN junk a x) = Err e /\
  let later b := auto_value FN (fst (auto_push_eff FN junk (auto_set_core b c2) y)) in
  is_ok (later a) = true /\ rmap fbits (later (fst (auto_push_eff FN junk a x))) = Err ETooFew.
Proof.
  assert (OK : forall (r : res (@vcore f64)) d, is_ok r = true -> r = Ok (match r with Ok c => c | _ => d end)) by (intros r d; destruct r; cbn; intros; congruence).
  set (d := @mkJ f64 (list f64) [] [] (fun _ => None) (fun _ => None) 0%Z 0%Z None (ring_new 0)).
  set (cfg v := @mkJCfg f64 (Some [repeat 1%Z v]) (Some 0%Z) None None).
  set (core_ v := match @jnew_core f64 FN (list f64) (cfg v) with Ok c => c | _ => d end).
  assert (E3 : jnew_core FN (cfg 3) = Ok (core_ 3)) by (apply OK; vm_compute; reflexivity).
  assert (E2 : jnew_core FN (cfg 2) = Ok (core_ 2)) by (apply OK; vm_compute; reflexivity).
  set (a0 := mkA 1%Z (ring_new 1) (new_jmetric (JCov 0%Z)) : @auto f64).
  exists (fst (auto_push_eff FN junk (auto_set_core a0 (core_ 3)) (fz 1))), (core_ 2), (fz 2), (fz 3), EArity.
  split.
  { apply APush; [| left; vm_compute; reflexivity]. apply ASet; [| now apply CNew with (cfg 3) | exact I]. apply ANew with ACov 1%Z 0%Z. reflexivity. }
  split; [now apply CNew with (cfg 2) |]. split; [vm_compute; reflexivity |]. split; [vm_compute; reflexivity |]. cbv zeta.
  split; vm_compute; reflexivity.
Qed.
Print Assumptions C44_auto_refuted.
(** Missing: cores for other numbers of variables passed to SetCore. *)
Theorem C44_auto_partial {T} (N : Num T) junk (a : @auto T) x e : auto_reach N junk (fun c => length (j_means c) = 2) a ->
  snd (auto_push_eff N junk a x) = Err e -> fst (auto_push_eff N junk a x) = a.
Proof. intros R. apply auto_push_failed, (auto_reach_good N junk _ a (fun c H => H) R). Qed.
Print Assumptions C44_auto_partial.

(** ** The calls above are the calls of the rest of the model, with the same outcomes and the same new states. *)
Theorem C44_same_calls : forall fN jjunk mjunk qjunk hjunk xjunk m x,
  match s_push fN m x with
  | Ok m' => s_push_eff fN jjunk mjunk qjunk hjunk xjunk m x = (m', Ok tt)
  | r => snd (s_push_eff fN jjunk mjunk qjunk hjunk xjunk m x) = outcome r
  end.
Proof.
  intros. assert (H : agrees (s_push fN m x) (s_push_eff fN jjunk mjunk qjunk hjunk xjunk m x)).
  { destruct m; cbn [s_push s_push_eff]; apply agrees_rmap; auto using half_agrees, m_push_agrees, auto_push_agrees. }
  unfold agrees in H. destruct (s_push fN m x); exact H.
Qed.
Print Assumptions C44_same_calls.
Theorem C44_same_joint_calls {T} (N : Num T) junk (m : @jmetric T) xs :
  match jm_push N m xs with
  | Ok m' => jm_push_eff N junk m xs = (m', Ok tt)
  | r => snd (jm_push_eff N junk m xs) = outcome r
  end.
Proof. pose proof (jm_push_agrees N junk m xs) as H. unfold agrees in H. destruct (jm_push N m xs); exact H. Qed.
Print Assumptions C44_same_joint_calls.

(** A Cov without a core, then with its own core, with failed pushes of 2, 3 and 1 values among the others *)
Definition eff_ops : list (op (list f64)) := [OPush [fz 1; fz 2]; OPush [fz 9; fz 9; fz 9]; OPush [fz 3; fz 8]; OPush [fz 7]; OPush [fz 5; fz 5]].
Example C44_case junk : let nc := new_jmetric (JCov 2%Z) in
  jm_reach FN junk nc /\ jm_push_eff FN junk nc [fz 1; fz 2] = (nc, Err ECoreNotSet) /\
  (m <- jm_init FN nc ;; Ok (length (no_failed (jm_push_eff FN junk) (jm_clear FN) eff_ops m))) = Ok 3 /\
  rmap fbits (m <- jm_init FN nc ;; m <- erun (jm_push_eff FN junk) (jm_clear FN) eff_ops m ;; jm_value FN m) = Ok (fbits (fz (-3))).
Proof. cbv zeta. split; [constructor |]. split; [reflexivity |]. split; vm_compute; reflexivity. Qed.
