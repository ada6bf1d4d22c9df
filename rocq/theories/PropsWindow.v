(** C89: a window that has not yet been exceeded has no effect. *)
From Coq Require Import ZArith Lia Bool List String.
From Flocq Require Import BinarySingleNaN.
From Verif Require Import Base F64 FloatR HistSpec RingModel MathModel NumModel MinMaxModel OrderSpec MomentModel MetricProof JointModel JointConf JointSpec LagProof QuantileModel HeapModel PropsMinMax PropsCross.
Import ListNotations.
Local Open Scope list_scope.
Local Open Scope Z_scope.

(** At no time more than [w] values had been pushed since the last Clear. *)
Definition unexceeded {A} (w : Z) (ops : list (op A)) : Prop := forall a b, ops = a ++ b -> zlen (hist a) <= w.

(** ** Runs with and without a window *)
(** The same, counted along the history from [n] values on. *)
Fixpoint fits {A} (w n : Z) (ops : list (op A)) : Prop :=
  match ops with [] => True | OPush _ :: t => n + 1 <= w /\ fits w (n + 1) t | OClear :: t => fits w 0 t end.
Lemma unexceeded_from {A} w (ops : list (op A)) : forall h, (forall a b, ops = a ++ b -> zlen (fold_left (fun h o => match o with OPush x => h ++ [x] | OClear => [] end) a h) <= w) -> fits w (zlen h) ops.
Proof.
  induction ops as [|[x|] ops IH]; intros h H; cbn [fits]; [exact I| |].
  - assert (E : zlen (h ++ [x]) = zlen h + 1) by (unfold zlen; rewrite app_length; cbn [length]; lia). split.
    + rewrite <- E. exact (H [OPush x] ops eq_refl).
    + rewrite <- E. apply IH. intros a b Hab. exact (H (OPush x :: a) b (f_equal (cons (OPush x)) Hab)).
  - apply (IH []). intros a b Hab. exact (H (OClear :: a) b (f_equal (cons OClear) Hab)).
Qed.
Lemma unexceeded_fits {A} w (ops : list (op A)) : unexceeded w ops -> fits w 0 ops.
Proof. intros H. exact (unexceeded_from w ops [] H). Qed.
Lemma rmap_ok {A B} (f : A -> B) r : rmap f r = match r with Ok x => Ok (f x) | Err e => Err e | Panic => Panic | Hang => Hang | NoFuel => NoFuel end.
Proof. destruct r; reflexivity. Qed.
Lemma run_erase {S1 S2 A} (push : S1 -> A -> res S1) clear (push' : S2 -> A -> res S2) clear' (er : S1 -> S2) (I : Z -> S1 -> Prop) w :
  (forall n s x, I n s -> n + 1 <= w -> rmap er (push s x) = push' (er s) x /\ forall s', push s x = Ok s' -> I (n + 1) s') ->
  (forall n s, I n s -> rmap er (clear s) = clear' (er s) /\ forall s', clear s = Ok s' -> I 0 s') ->
  forall ops n s, I n s -> fits w n ops -> rmap er (run push clear ops s) = run push' clear' ops (er s).
Proof.
  intros Hp Hc. induction ops as [|[x|] ops IH]; intros n s Hi Hf; cbn [run fits] in *; [reflexivity| |].
  - destruct Hf as [Hf1 Hf2]. destruct (Hp n s x Hi Hf1) as [E K]. rewrite <- E. destruct (push s x) as [s'|e| | |]; try reflexivity. cbn [bind rmap]. apply (IH (n + 1)); auto.
  - destruct (Hc n s Hi) as [E K]. rewrite <- E. destruct (clear s) as [s'|e| | |]; try reflexivity. cbn [bind rmap]. apply (IH 0); auto.
Qed.
(** A queue of [n] values in a metric with window [w]. *)
Definition queued {A} (w n : Z) (q : ring A) : Prop := rcap q = round_up w /\ ring_len q = n.
Lemma queued_put {A} w n (q : ring A) x : queued w n q -> n + 1 <= w -> exists q', ring_put q x = Ok q' /\ queued w (n + 1) q'.
Proof.
  intros [C L] H. rewrite (ring_put_ok q x w C ltac:(lia)). eexists. split; [reflexivity|]. split; [exact C|]. unfold ring_len, zlen in *. cbn [ritems]. rewrite app_length. cbn [length]. lia.
Qed.
Lemma queued_new {A} w : queued w 0 (@ring_new A w).
Proof. split; reflexivity. Qed.

(** ** Moments *)
Section Moments.
Context {T : Type} (N : Num T).
Definition c_nowin (c : @core T) : @core T := mkCore (c_mean c) (c_len c) (c_sums c) (c_count c) 0 (c_decay c) (ring_new 0).
Lemma c_push_nowin w n (c : @core T) x : w <> 0 -> c_window c = w /\ queued w n (c_queue c) -> n + 1 <= w ->
  rmap c_nowin (c_push N c x) = c_push N (c_nowin c) x /\ forall c', c_push N c x = Ok c' -> c_window c' = w /\ queued w (n + 1) (c_queue c').
Proof.
  intros Hw (W & Q) Hn. unfold c_push. cbn [c_nowin c_window c_queue c_decay]. rewrite W. destruct (Z.eqb_spec w 0) as [?|_]; [contradiction|]. cbn [negb Z.eqb bind].
  pose proof Q as [_ L]. rewrite L. destruct (Z.eqb_spec n w) as [?|_]; [lia|]. cbn [bind]. destruct (queued_put w n (c_queue c) x Q Hn) as (q & -> & Q'). cbn [bind c_nowin c_decay].
  destruct (c_decay c) as [d|] eqn:Ed; unfold c_add_decay, c_add; cbn [c_nowin c_mean c_len c_sums c_count c_window c_decay c_queue]; rewrite ?Ed; destruct (outer _ _ _) as [f|e| | |]; cbn [bind rmap]; (split; [reflexivity|]); intros c' E; try discriminate E; injection E as <-; cbn [c_window c_queue]; auto.
Qed.
Lemma core_nowin w (c : @core T) ops : w <> 0 -> c_window c = w -> queued w 0 (c_queue c) -> unexceeded w ops -> rmap c_nowin (core_run N c ops) = core_run N (c_nowin c) ops.
Proof.
  intros Hw W Q Hu. apply (run_erase (c_push N) (c_clear N) (c_push N) (c_clear N) c_nowin (fun n c => c_window c = w /\ queued w n (c_queue c)) w) with (n := 0); [| |auto|apply unexceeded_fits, Hu].
  - intros n s x Hi Hn. exact (c_push_nowin w n s x Hw Hi Hn).
  - intros n s (Ws & _). split; [reflexivity|]. intros s' E. injection E as <-. cbn [c_window c_queue]. rewrite Ws. split; [reflexivity|apply queued_new].
Qed.
Lemma new_core_nowin sums w : 0 <= w -> rmap c_nowin (new_core N (mkCfg sums (Some w) None)) = new_core N (mkCfg sums (Some 0) None) /\
  forall c, new_core N (mkCfg sums (Some w) None) = Ok c -> c_window c = w /\ queued w 0 (c_queue c).
Proof.
  intros Hw. unfold new_core. cbv zeta. unfold validate. destruct sums as [s|]; cbn [set_defaults cf_window cf_decay cf_sums sums_of bind]; (destruct (Z.ltb_spec w 0) as [?|_]; [lia|]); change (0 <? 0) with false; cbv iota; cbn [bind];
    try destruct (existsb _ _); cbn [bind rmap]; (split; [reflexivity|]); intros c E; try discriminate E; injection E as <-; cbn [c_window c_queue]; (split; [reflexivity|apply queued_new]).
Qed.
(** The windowed metrics *)
Inductive windowed : (Z -> @kind T) -> Prop :=
| wd_mean : windowed KMean | wd_moment k : windowed (KMoment k) | wd_std : windowed KStd | wd_skew : windowed KSkew | wd_kurt : windowed KKurt.
Lemma moment_nowin k w ops : windowed k -> 0 < w -> unexceeded w ops ->
  (m <- m_run N (k w) ops ;; m_value N m) = (m <- m_run N (k 0) ops ;; m_value N m).
Proof.
  intros Hk Hw Hu. rewrite !m_run_eq.
  assert (E : exists sums, kconfig (k w) = mkCfg sums (Some w) None /\ kconfig (k 0) = mkCfg sums (Some 0) None) by (destruct Hk; cbn [kconfig]; eauto).
  destruct E as (sums & -> & ->). destruct (new_core_nowin sums w ltac:(lia)) as [<- K]. destruct (new_core N _) as [c|e| | |]; try reflexivity. cbn [bind rmap]. destruct (K c eq_refl) as [W Q].
  rewrite <- (core_nowin w c ops ltac:(lia) W Q Hu). destruct (core_run N c ops) as [c'|e| | |]; try reflexivity. cbn [bind rmap]. unfold m_value. cbn [m_core m_kind].
  destruct Hk; reflexivity.
Qed.
End Moments.

(** ** Joint *)
Section Joint.
Context {T : Type} (N : Num T).
Definition j_nowin (c : @jcore T (list T)) : @jcore T (list T) := mkJ (j_means c) (j_tuples c) (j_sums c) (j_new c) (j_count c) 0 (j_decay c) (ring_new 0).
Lemma j_push_nowin w n (c : @jcore T (list T)) x : w <> 0 -> j_window c = w /\ queued w n (j_queue c) -> n + 1 <= w ->
  rmap j_nowin (jpush N c x) = jpush N (j_nowin c) x /\ forall c', jpush N c x = Ok c' -> j_window c' = w /\ queued w (n + 1) (j_queue c').
Proof.
  intros Hw (W & Q) Hn. unfold jpush, j_push. cbn [j_nowin j_window j_queue j_decay j_means]. destruct (negb _); [split; [reflexivity|intros ? E; discriminate E]|].
  rewrite W. destruct (Z.eqb_spec w 0) as [?|_]; [contradiction|]. cbn [negb Z.eqb bind].
  pose proof Q as [_ L]. rewrite L. destruct (Z.eqb_spec n w) as [?|_]; [lia|]. cbn [bind]. destruct (queued_put w n (j_queue c) x Q Hn) as (q & -> & Q'). cbn [bind j_nowin j_decay].
  destruct (j_decay c) as [d|] eqn:Ed; unfold j_add_decay, j_add; cbn [j_nowin j_means j_tuples j_sums j_new j_count j_window j_decay j_queue]; cbv zeta; rewrite ?Ed; destruct (upd_tuples _ _ _ _ _) as [f|e| | |]; cbn [bind rmap]; (split; [reflexivity|]); intros c' E; try discriminate E; injection E as <-; cbn [j_window j_queue]; auto.
Qed.
Definition jm_nowin (k : @jkind T) (m : @jmetric T) : @jmetric T := mkJM k (option_map j_nowin (jm_core m)).
Lemma jm_run_nowin (k : Z -> @jkind T) w ops : k = JCov \/ k = JCorr -> 0 < w -> fits w 0 ops -> rmap (jm_nowin (k 0)) (jm_run N (k w) ops) = jm_run N (k 0) ops.
Proof.
  intros Hk Hw Hu. unfold jm_run, jm_init, new_jmetric. cbn [jm_kind].
  assert (E : exists c, jnew_core N (jkconfig (k w)) = Ok c /\ jnew_core N (jkconfig (k 0)) = Ok (j_nowin c) /\ j_window c = w /\ queued w 0 (j_queue c)).
  { destruct Hk as [->| ->]; unfold jnew_core, jvalidate; cbn [jkconfig jf_window jf_decay jf_sums jf_vars jsums_of]; (destruct (Z.ltb_spec w 0) as [?|_]; [lia|]); eexists; (split; [reflexivity|]); (split; [reflexivity|]); (split; [reflexivity|apply queued_new]). }
  destruct E as (c & -> & -> & W & Q). cbn [bind]. change (mkJM (k 0) (Some (j_nowin c))) with (jm_nowin (k 0) (mkJM (k w) (Some c))).
  apply (run_erase (jm_push N) (jm_clear N) (jm_push N) (jm_clear N) (jm_nowin (k 0)) (fun n m => exists c, jm_core m = Some c /\ j_window c = w /\ queued w n (j_queue c)) w) with (n := 0); [| |exists c; auto|exact Hu].
  - intros n m x (c1 & Em & Hi) Hn. unfold jm_push. cbn [jm_nowin jm_core]. rewrite Em. cbn [option_map]. destruct (negb _); [split; [reflexivity|intros ? E; discriminate E]|].
    destruct (j_push_nowin w n c1 x ltac:(lia) Hi Hn) as [<- K]. destruct (jpush N c1 x) as [c2|e| | |]; cbn [bind rmap]; (split; [reflexivity|]); intros m' E; try discriminate E. injection E as <-. exists c2. split; [reflexivity|]. apply K. reflexivity.
  - intros n m (c1 & Em & Wc & _). unfold jm_clear. cbn [jm_nowin jm_core]. rewrite Em. cbn [option_map]. unfold j_clear. cbn [bind rmap]. split; [reflexivity|]. intros m' E. injection E as <-. eexists. split; [reflexivity|]. cbn [j_window j_queue]. rewrite Wc. split; [reflexivity|apply queued_new].
Qed.
Lemma jm_value_nowin (k : Z -> @jkind T) w ops m : k = JCov \/ k = JCorr -> jm_run N (k w) ops = Ok m -> jm_value N (jm_nowin (k 0) m) = jm_value N m.
Proof.
  intros Hk E. assert (Ek : jm_kind m = k w).
  { unfold jm_run, jm_init, new_jmetric in E. cbn [jm_kind] in E. apply bind_ok in E as (m0 & E0 & E). apply bind_ok in E0 as (c0 & _ & E0). injection E0 as <-.
    assert (G : forall ops m0, jm_kind m0 = k w -> run (jm_push N) (jm_clear N) ops m0 = Ok m -> jm_kind m = k w).
    { clear - m. induction ops as [|[x|] ops IH]; intros m0 K E; cbn [run] in E; [injection E as <-; exact K| |]; apply bind_ok in E as (m1 & E1 & E); apply (IH m1); try exact E.
      - unfold jm_push in E1. destruct (jm_core m0); [|discriminate E1]. destruct (negb _); [discriminate E1|]. apply bind_ok in E1 as (c1 & _ & E1). injection E1 as <-. exact K.
      - unfold jm_clear in E1. destruct (jm_core m0); [|injection E1 as <-; exact K]. apply bind_ok in E1 as (c1 & _ & E1). injection E1 as <-. exact K. }
    exact (G ops (mkJM (k w) (Some c0)) eq_refl E). }
  unfold jm_value. rewrite Ek. cbn [jm_nowin jm_core jm_kind]. destruct (jm_core m) as [c|]; [|reflexivity]. destruct Hk as [->| ->]; reflexivity.
Qed.
Lemma joint_nowin (k : Z -> @jkind T) w ops : k = JCov \/ k = JCorr -> 0 < w -> fits w 0 ops ->
  (m <- jm_run N (k w) ops ;; jm_value N m) = (m <- jm_run N (k 0) ops ;; jm_value N m).
Proof.
  intros Hk Hw Hf. rewrite <- (jm_run_nowin k w ops Hk Hw Hf). destruct (jm_run N (k w) ops) as [m|e| | |] eqn:E; try reflexivity. cbn [bind rmap]. symmetry. exact (jm_value_nowin k w ops m Hk E).
Qed.
Lemma lag_calls_fits lag w (ops : list (op T)) : forall h, fits (w + Z.of_nat lag) (zlen h) ops -> fits w (Z.max 0 (zlen h - Z.of_nat lag)) (lag_calls lag h ops).
Proof.
  induction ops as [|[x|] ops IH]; intros h H; cbn [fits lag_calls] in *; [exact I| |].
  - destruct H as [H1 H2]. assert (E : zlen (h ++ [x]) = zlen h + 1) by (unfold zlen; rewrite app_length; cbn [length]; lia). rewrite <- E in H2. specialize (IH _ H2). rewrite E in IH.
    destruct (Nat.leb_spec lag (length h)) as [Hl|Hl]; unfold zlen in *; cbn [app fits].
    + replace (Z.max 0 (Z.of_nat (length h) - Z.of_nat lag) + 1) with (Z.max 0 (Z.of_nat (length h) + 1 - Z.of_nat lag)) by lia. split; [lia|exact IH].
    + replace (Z.max 0 (Z.of_nat (length h) - Z.of_nat lag)) with (Z.max 0 (Z.of_nat (length h) + 1 - Z.of_nat lag)) by lia. exact IH.
  - specialize (IH [] H). unfold zlen in IH. cbn [length] in IH. replace (Z.max 0 (Z.of_nat 0 - Z.of_nat lag)) with 0 in IH by lia. exact IH.
Qed.
Lemma auto_nowin k lag w ops : 0 < w -> unexceeded (w + Z.of_nat lag) ops ->
  (a <- auto_run N k (Z.of_nat lag) w ops ;; auto_value N a) = (a <- auto_run N k (Z.of_nat lag) 0 ops ;; auto_value N a).
Proof.
  intros Hw Hu. destruct (C67_auto N k lag w ops) as [_ ->]. destruct (C67_auto N k lag 0 ops) as [_ ->].
  pose proof (lag_calls_fits lag w ops [] (unexceeded_fits _ _ Hu)) as Hf. replace (Z.max 0 (zlen (@nil T) - Z.of_nat lag)) with 0 in Hf by (unfold zlen; cbn [length]; lia).
  destruct k.
  - rewrite <- (jm_run_nowin JCov w _ (or_introl eq_refl) Hw Hf). destruct (jm_run N (JCov w) _) as [m|e| | |] eqn:E; try reflexivity. cbn [bind rmap]. destruct (lagged lag (hist ops)); [reflexivity|]. symmetry. exact (jm_value_nowin JCov w _ m (or_introl eq_refl) E).
  - rewrite <- (jm_run_nowin JCorr w _ (or_intror eq_refl) Hw Hf). destruct (jm_run N (JCorr w) _) as [m|e| | |] eqn:E; try reflexivity. cbn [bind rmap]. destruct (lagged lag (hist ops)); [reflexivity|]. symmetry. exact (jm_value_nowin JCorr w _ m (or_intror eq_refl) E).
Qed.
End Joint.

(** ** Quantiles *)
Definition q_nowin (q : quant) : quant := mkQ 0 (q_interp q) (ring_new 0) (q_stat q).
Lemma qopts_nowin e os : forall q, rmap q_nowin (qopts_apply e q os) = qopts_apply e (q_nowin q) os /\ forall q', qopts_apply e q os = Ok q' -> q_window q' = q_window q /\ q_queue q' = q_queue q.
Proof.
  induction os as [|o os IH]; intros q; cbn [qopts_apply]; [split; [reflexivity|]; intros q' E; injection E as <-; auto|].
  assert (K : rmap q_nowin (qopt_apply e q o) = qopt_apply e (q_nowin q) o /\ forall q', qopt_apply e q o = Ok q' -> q_window q' = q_window q /\ q_queue q' = q_queue q).
  { destruct o as [i so|i]; cbn [qopt_apply q_nowin q_window q_interp q_queue q_stat].
    - destruct (impl_valid i); cbn [negb]; [|split; [reflexivity|intros q' E; discriminate E]]. destruct (impl_init e i so) as [st|x| | |]; cbn [bind rmap]; (split; [reflexivity|]); intros q' E; try discriminate E. injection E as <-. auto.
    - destruct (interp_valid i); cbn [negb bind rmap]; (split; [reflexivity|]); intros q' E; try discriminate E. injection E as <-. auto. }
  destruct K as [<- K]. destruct (qopt_apply e q o) as [q1|x| | |]; cbn [bind rmap]; try (split; [reflexivity|]; intros q' E; discriminate E). destruct (IH q1) as [A B]. split; [exact A|]. intros q' E. destruct (K q1 eq_refl) as [<- <-]. exact (B q' E).
Qed.
Lemma new_quantile_nowin e w os : 0 <= w -> rmap q_nowin (new_quantile e w os) = new_quantile e 0 os /\ forall q, new_quantile e w os = Ok q -> q_window q = w /\ queued w 0 (q_queue q).
Proof.
  intros Hw. unfold new_quantile. destruct (Z.ltb_spec w 0) as [?|_]; [lia|]. change (0 <? 0) with false. cbv iota. destruct (impl_init e 0 []) as [st|x| | |]; cbn [bind rmap]; try (split; [reflexivity|]; intros q E; discriminate E).
  destruct (qopts_nowin e os (mkQ w 0 (ring_new w) st)) as [A B]. split; [exact A|]. intros q E. destruct (B q E) as [W Q]. cbn [q_window q_queue] in W, Q. rewrite Q. split; [exact W|apply queued_new].
Qed.
Lemma q_run_nowin e w os ops : 0 < w -> unexceeded w ops -> rmap q_nowin (q_run e w os ops) = q_run e 0 os ops.
Proof.
  intros Hw Hu. unfold q_run. destruct (new_quantile_nowin e w os ltac:(lia)) as [<- K]. destruct (new_quantile e w os) as [q|x| | |]; try reflexivity. cbn [bind rmap]. destruct (K q eq_refl) as [W Q].
  apply (run_erase q_push q_clear q_push q_clear q_nowin (fun n q => q_window q = w /\ queued w n (q_queue q)) w) with (n := 0); [| |auto|apply unexceeded_fits, Hu].
  - clear. intros n q x (W & Q) Hn. unfold q_push. cbn [q_nowin q_window q_queue]. rewrite W. pose proof Q as [_ L]. rewrite L. destruct (Z.eqb_spec w 0) as [->|_]; cbn [negb Z.eqb bind].
    + exfalso. unfold ring_len, zlen in L. lia.
    + destruct (Z.eqb_spec n w) as [?|_]; [lia|]. cbn [bind]. destruct (queued_put w n (q_queue q) x Q Hn) as (r & -> & Q'). cbn [bind q_stat q_nowin q_window q_interp q_queue]. destruct (stat_add (q_stat q) x) as [st|y| | |]; cbn [bind rmap]; (split; [reflexivity|]); intros q' E; try discriminate E; injection E as <-; auto.
  - clear. intros n q (W & _). unfold q_clear. cbn [q_nowin q_stat q_interp q_window]. destruct (stat_clear (q_stat q)) as [st|y| | |]; cbn [bind rmap]; (split; [reflexivity|]); intros q' E; try discriminate E; injection E as <-. cbn [q_window q_queue]. rewrite W. split; [reflexivity|apply queued_new].
Qed.

(** ** HeapMedian *)
Definition hm_nowin (m : hmed) : hmed := mkHM 0 (hm_low m) (hm_high m) (ring_new 0) (hm_store m) (hm_next m).
Lemma hm_push_nowin w n m x : w <> 0 -> hm_window m = w /\ queued w n (hm_queue m) -> n + 1 <= w ->
  rmap hm_nowin (hm_push m x) = hm_push (hm_nowin m) x /\ forall m', hm_push m x = Ok m' -> hm_window m' = w /\ queued w (n + 1) (hm_queue m').
Proof.
  intros Hw (W & Q) Hn. unfold hm_push. cbn [hm_nowin hm_window hm_queue hm_low hm_high hm_store hm_next]. rewrite W. pose proof Q as [_ L]. rewrite L. destruct (Z.eqb_spec w 0) as [?|_]; [contradiction|]. destruct (Z.eqb_spec n w) as [?|_]; [lia|]. cbn [negb andb Z.eqb]. cbv zeta.
  match goal with |- context [bind (if (h_len (hm_low m) =? 0)%nat then ?a else ?b) _] => destruct (if (h_len (hm_low m) =? 0)%nat then a else b) as [lw|e| | |] end; cbn [bind rmap]; try (split; [reflexivity|intros m' E; discriminate E]).
  match goal with |- context [bind (if lw then ?a else ?b) _] => destruct (if lw then a else b) as [[[st1 lo1] hi1]|e| | |] end; cbn [bind rmap]; try (split; [reflexivity|intros m' E; discriminate E]).
  destruct (hm_rebalance st1 lo1 hi1 (hm_next m)) as [[[[st2 lo2] hi2] b]|e| | |]; cbn [bind rmap]; try (split; [reflexivity|intros m' E; discriminate E]).
  destruct (queued_put w n (hm_queue m) b Q Hn) as (q & -> & Q'). cbn [bind rmap]. split; [reflexivity|]. intros m' E. injection E as <-. auto.
Qed.
Lemma hm_run_nowin w ops : 0 < w -> unexceeded w ops -> rmap hm_nowin (hm_run w ops) = hm_run 0 ops.
Proof.
  intros Hw Hu. unfold hm_run, new_heap_median. destruct (Z.ltb_spec w 0) as [?|_]; [lia|]. change (0 <? 0) with false. cbn [bind].
  apply (run_erase hm_push hm_clear hm_push hm_clear hm_nowin (fun n m => hm_window m = w /\ queued w n (hm_queue m)) w) with (n := 0) (s := mkHM w low_empty high_empty (ring_new w) (fun _ => mkItem (fz 0) ""%string 0) 0); [| |split; [reflexivity|apply queued_new]|apply unexceeded_fits, Hu].
  - intros n m x Hi Hn. exact (hm_push_nowin w n m x ltac:(lia) Hi Hn).
  - intros n m (W & _). split; [reflexivity|]. intros m' E. injection E as <-. cbn [hm_window hm_queue]. rewrite W. split; [reflexivity|apply queued_new].
Qed.

(** ** C89 *)
(** Until more than [w] values have come since the last Clear, a metric with window [w] returns what the metric without a window returns, bit for bit,
    NaN and infinities included, errors and panics too. Mean, Moment, Std, Skewness, Kurtosis: *)
Theorem C89_moment {T} (N : Num T) : forall k w ops, windowed k -> 0 < w -> unexceeded w ops ->
  (m <- m_run N (k w) ops ;; m_value N m) = (m <- m_run N (k 0) ops ;; m_value N m).
Proof. intros k w ops. apply moment_nowin. Qed.
Print Assumptions C89_moment.
(** Cov and Corr: *)
Theorem C89_joint {T} (N : Num T) : forall (k : Z -> @jkind T) w ops, k = JCov \/ k = JCorr -> 0 < w -> unexceeded w ops ->
  (m <- jm_run N (k w) ops ;; jm_value N m) = (m <- jm_run N (k 0) ops ;; jm_value N m).
Proof. intros k w ops Hk Hw Hu. apply joint_nowin; auto using unexceeded_fits. Qed.
Print Assumptions C89_joint.
(** Autocov and Autocorr, whose window counts pairs: *)
Theorem C89_auto {T} (N : Num T) : forall k lag w ops, 0 < w -> unexceeded (w + Z.of_nat lag) ops ->
  (a <- auto_run N k (Z.of_nat lag) w ops ;; auto_value N a) = (a <- auto_run N k (Z.of_nat lag) 0 ops ;; auto_value N a).
Proof. intros k lag w ops. apply auto_nowin. Qed.
Print Assumptions C89_auto.
(** Quantile, Median and IQR over every storage: *)
Theorem C89_quantile : forall e w os ops phi, 0 < w -> unexceeded w ops ->
  (q <- q_run e w os ops ;; q_value e q phi) = (q <- q_run e 0 os ops ;; q_value e q phi) /\
  (q <- median_run e w os ops ;; median_value e q) = (q <- median_run e 0 os ops ;; median_value e q) /\
  (q <- iqr_run e w os ops ;; iqr_value e q) = (q <- iqr_run e 0 os ops ;; iqr_value e q).
Proof.
  intros e w os ops phi Hw Hu. change (median_run e w os ops) with (q_run e w (os ++ [QInterp 4]) ops). change (median_run e 0 os ops) with (q_run e 0 (os ++ [QInterp 4]) ops).
  change (iqr_run e w os ops) with (q_run e w (os ++ [QInterp 4]) ops). change (iqr_run e 0 os ops) with (q_run e 0 (os ++ [QInterp 4]) ops).
  rewrite <- !(q_run_nowin e w _ ops Hw Hu). split; [destruct (q_run e w os ops); reflexivity|]. split; destruct (q_run e w (os ++ [QInterp 4]) ops); reflexivity.
Qed.
Print Assumptions C89_quantile.
(** HeapMedian: *)
Theorem C89_heap_median : forall w ops, 0 < w -> unexceeded w ops -> (m <- hm_run w ops ;; hm_value m) = (m <- hm_run 0 ops ;; hm_value m).
Proof. intros w ops Hw Hu. rewrite <- (hm_run_nowin w ops Hw Hu). destruct (hm_run w ops); reflexivity. Qed.
Print Assumptions C89_heap_median.

(** Min and Max: not bit for bit, and not with NaN. math.Min and math.Max, used without a window, return NaN if any value is, and tell -0 from 0; the comparisons
    used with a window do neither. *)
Theorem C89_min_max_refuted :
  (exists w ops, 0 < w /\ unexceeded w ops /\ hist ops = [fz 1; fnan] /\ (m <- min_run w ops ;; min_value m) = Ok (fz 1) /\ (m <- min_run 0 ops ;; min_value m) = Ok fnan) /\
  (exists w ops, 0 < w /\ unexceeded w ops /\ hist ops = [fz 1; fnan] /\ (m <- max_run w ops ;; max_value m) = Ok (fz 1) /\ (m <- max_run 0 ops ;; max_value m) = Ok fnan) /\
  (exists w ops, 0 < w /\ unexceeded w ops /\ hist ops = [B754_zero false; B754_zero true] /\ (m <- min_run w ops ;; min_value m) = Ok (B754_zero false) /\ (m <- min_run 0 ops ;; min_value m) = Ok (B754_zero true)).
Proof.
  assert (U : forall x y : f64, unexceeded 2 [OPush x; OPush y]).
  { intros x y a b E. destruct a as [|p [|q [|r a]]]; cbn [app] in E; [unfold zlen; cbn; lia|injection E as <- _; unfold zlen; cbn; lia|injection E as <- <- _; unfold zlen; cbn; lia|discriminate E]. }
  split; [exists 2, [OPush (fz 1); OPush fnan]|split; [exists 2, [OPush (fz 1); OPush fnan]|exists 2, [OPush (B754_zero false); OPush (B754_zero true)]]]; (split; [lia|]); (split; [apply U|]).
  - split; [reflexivity|]. split; reflexivity.
  - split; [reflexivity|]. split; reflexivity.
  - split; [reflexivity|]. split; reflexivity.
Qed.
Print Assumptions C89_min_max_refuted.
Lemma live_unexceeded {A} w (h : list A) : 0 < w -> zlen h <= w -> live w h = h.
Proof. intros Hw Hl. unfold live. destruct (Z.eqb_spec w 0); [lia|]. apply lastn_all. unfold zlen in Hl. lia. Qed.
(** Without NaN the results are equal as numbers. *)
Theorem C89_min_max_partial : forall w ops, 0 < w -> zlen (hist ops) <= w -> Forall nonnan (hist ops) ->
  exists m m0 n n0, min_run w ops = Ok m /\ min_run 0 ops = Ok m0 /\ max_run w ops = Ok n /\ max_run 0 ops = Ok n0 /\
    match hist ops with
    | [] => min_value m = Err ENoValues /\ min_value m0 = Err ENoValues /\ max_value n = Err ENoValues /\ max_value n0 = Err ENoValues
    | _ => (exists v v0, min_value m = Ok v /\ min_value m0 = Ok v0 /\ feq v v0 = true) /\ (exists v v0, max_value n = Ok v /\ max_value n0 = Ok v0 /\ feq v v0 = true)
    end.
Proof.
  intros w ops Hw Hl Hn. destruct (C01_min_is_window_minimum w ops ltac:(lia) Hn) as (m & Em & Zm & Vm). destruct (C01_min_is_window_minimum 0 ops ltac:(lia) Hn) as (m0 & Em0 & Zm0 & Vm0).
  destruct (C02_max_is_window_maximum w ops ltac:(lia) Hn) as (n & En & Zn & Vn). destruct (C02_max_is_window_maximum 0 ops ltac:(lia) Hn) as (n0 & En0 & Zn0 & Vn0).
  exists m, m0, n, n0. do 4 (split; [assumption|]). rewrite (live_unexceeded w _ Hw Hl) in *. change (live 0 (hist ops)) with (hist ops) in *. rewrite Forall_forall in Hn.
  destruct (hist ops) as [|x l]; [auto|]. clear - Hn Vm Vm0 Vn Vn0. split.
  - destruct (Vm ltac:(discriminate)) as (v & E & I & L). destruct (Vm0 ltac:(discriminate)) as (v0 & E0 & I0 & L0). exists v, v0. split; [exact E|]. split; [exact E0|]. specialize (L v0 I0). specialize (L0 v I).
    pose proof (Hn v I) as A. pose proof (Hn v0 I0) as B. unfold nonnan in A, B. rewrite fle_key in L, L0 by assumption. rewrite feq_key by assumption. apply Z.leb_le in L, L0. apply Z.eqb_eq. lia.
  - destruct (Vn ltac:(discriminate)) as (v & E & I & L). destruct (Vn0 ltac:(discriminate)) as (v0 & E0 & I0 & L0). exists v, v0. split; [exact E|]. split; [exact E0|]. specialize (L v0 I0). specialize (L0 v I).
    pose proof (Hn v I) as A. pose proof (Hn v0 I0) as B. unfold nonnan in A, B. unfold fge in L, L0. rewrite fle_key in L, L0 by assumption. rewrite feq_key by assumption. apply Z.leb_le in L, L0. apply Z.eqb_eq. lia.
Qed.
Print Assumptions C89_min_max_partial.
Example C89_case : unexceeded 2 (map OPush [fz 1; fz 4] ++ OClear :: map OPush [fz 2; fz 6]) /\ windowed (@KStd f64) /\
  rmap fbits (m <- m_run FN (KMean 2) (map OPush [fz 1; fz 4] ++ OClear :: map OPush [fz 2; fz 6]) ;; m_value FN m) = Ok (fbits (fz 4)) /\
  rmap fbits (m <- m_run FN (KMean 2) (map OPush [fz 1; fz 2; fz 6]) ;; m_value FN m) = Ok (fbits (fz 4)) /\ ~ unexceeded 2 (map OPush [fz 1; fz 2; fz 6]) /\
  rmap fbits (m <- m_run FN (KMean 0) (map OPush [fz 1; fz 2; fz 6]) ;; m_value FN m) = Ok (fbits (fz 3)).
Proof.
  split.
  - intros a b E. destruct a as [|o1 [|o2 [|o3 [|o4 [|o5 [|o6 a]]]]]]; cbn [map app] in E; try discriminate E; repeat match type of E with _ :: _ = _ :: _ => apply (f_equal (fun l => (hd OClear l, tl l))) in E; cbn [hd tl] in E; let H := fresh in pose proof (f_equal fst E) as H; apply (f_equal snd) in E; cbn [fst snd] in H, E; rewrite <- H; clear H end; unfold zlen; cbn; lia.
  - split; [constructor|]. split; [vm_compute; reflexivity|]. split; [vm_compute; reflexivity|]. split; [|vm_compute; reflexivity].
    intros H. specialize (H (map OPush [fz 1; fz 2; fz 6]) [] eq_refl). rewrite hist_pushes in H. unfold zlen in H. cbn [length] in H. lia.
Qed.
