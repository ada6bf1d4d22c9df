(** The moment and joint cores on negated values, in float64. Nothing here models repository code. *)
From Coq Require Import ZArith Lia Bool List.
From Flocq Require Import Core BinarySingleNaN.
From Verif Require Import Base F64 HistSpec RingModel MathModel NumModel MomentModel MetricProof JointSym NegArith.
Import ListNotations.
Local Open Scope Z_scope.

Lemma odd_split k i : (i <= k)%nat -> xorb (Nat.odd i) (Nat.odd (k - i)) = Nat.odd k.
Proof. intros H. rewrite <- Nat.odd_add. f_equal. lia. Qed.
Lemma ev_odd (x x' : f64) k : (k <= 200)%nat -> ev true x x' -> ev (Nat.odd k) (npow FN x k) (npow FN x' k).
Proof. exact (ev_pow true x x' k). Qed.
(** Multiplying by the same number *)
Lemma ev_scale s c a a' : ev s a a' -> ev s (fmul c a) (fmul c a').
Proof. intros H. pose proof (ev_mul false s c c a a' (ev_refl c) H) as K. rewrite xorb_false_l in K. exact K. Qed.

Lemma f2_len {A B} {P : A -> B -> Prop} {l l'} : Forall2 P l l' -> length l = length l'.
Proof. induction 1; cbn [length]; congruence. Qed.

(** ** The moment core *)
Definition fsev (f g : nat -> f64) : Prop := forall k, ev (Nat.odd k) (f k) (g k).
Lemma inner_ev op term term' k is_ : (forall s a a' b b', ev s a a' -> ev s b b' -> ev s (op a b) (op a' b')) ->
  (forall c i, In i is_ -> ev (Nat.odd k) (term c i) (term' c i)) -> forall s s', ev (Nat.odd k) s s' -> both (ev (Nat.odd k)) (inner FN op term k is_ s) (inner FN op term' k is_ s').
Proof.
  intros Hop. induction is_ as [|i l IH]; intros Ht s s' Hs; cbn [inner]; [exact Hs|]. destruct (coef FN k i); cbn [bind both]; auto. apply IH; [intros; apply Ht; right; assumption|]. apply Hop; [exact Hs|apply Ht; left; reflexivity].
Qed.
Lemma outer_ev step step' ks : (forall f g k, In k ks -> fsev f g -> both (ev (Nat.odd k)) (step f k) (step' g k)) ->
  forall f g, fsev f g -> both fsev (outer step ks f) (outer step' ks g).
Proof.
  induction ks as [|k ks IH]; intros Hs f g H; cbn [outer]; [exact H|]. apply (both_bind (ev (Nat.odd k))); [apply Hs; [left; reflexivity|exact H]|]. intros v v' Hv.
  apply IH; [intros; apply Hs; [right; assumption|assumption]|]. intros j. unfold sput. destruct (Nat.eqb_spec j k); [subst; exact Hv|apply H].
Qed.
Definition nc (c d : @core f64) : Prop :=
  ev true (c_mean c) (c_mean d) /\ (c_len c <= 200)%nat /\ c_len d = c_len c /\ fsev (c_sums c) (c_sums d) /\ c_count d = c_count c /\ c_window d = c_window c /\ c_decay d = c_decay c /\
  rcap (c_queue d) = rcap (c_queue c) /\ Forall2 (ev true) (ritems (c_queue c)) (ritems (c_queue d)).
Ltac nc_parts H := destruct H as (Hm & Hl & El & Hs & En & Ew & Ed & Er & Hq).
Ltac ks H := match type of H with In ?k (rev _) => apply in_rev in H | _ => idtac end; unfold ks_up in H; apply in_seq in H.
Lemma nc_add c d x x' : nc c d -> ev true x x' -> both nc (c_add FN c x) (c_add FN d x').
Proof.
  intros H Hx. nc_parts H. unfold c_add. rewrite El, En. apply (both_bind fsev).
  - apply outer_ev; [|exact Hs]. intros f g k Hk Hf. ks Hk. pose proof (ev_sub true _ _ _ _ Hx Hm) as Hd.
    apply inner_ev; [apply ev_add| |].
    + intros cf i Hi. apply in_seq in Hi. rewrite <- (odd_split k i) by lia. apply ev_mul; [|apply Hf]. apply ev_scale. apply ev_odd; [lia|]. apply ev_div. exact Hd.
    + apply ev_add; [apply Hf|]. apply ev_scale. apply ev_odd; [lia|exact Hd].
  - intros f g Hf. cbn [both]. unfold nc. cbn [c_mean c_len c_sums c_count c_window c_decay c_queue]. repeat (split; [first [assumption|reflexivity|idtac]|]); try assumption.
    apply ev_add; [exact Hm|]. apply ev_div. apply ev_sub; assumption.
Qed.
Lemma nc_decay c d e x x' : nc c d -> ev true x x' -> both nc (c_add_decay FN c e x) (c_add_decay FN d e x').
Proof.
  intros H Hx. nc_parts H. unfold c_add_decay. rewrite El, En. set (r := if _ =? 1 then _ else _). clearbody r. pose proof (ev_sub true _ _ _ _ Hx Hm) as Hd. apply (both_bind fsev).
  - apply outer_ev; [|exact Hs]. intros f g k Hk Hf. ks Hk. apply inner_ev; [apply ev_add| |].
    + intros cf i Hi. apply in_seq in Hi. rewrite <- (odd_split k i) by lia. apply ev_mul; [|apply Hf].
      rewrite <- (xorb_false_r (Nat.odd i)). apply ev_mul; [|apply ev_refl]. apply ev_scale. apply ev_odd; [lia|]. apply ev_scale. exact Hd.
    + apply ev_add; [apply ev_scale, Hf|]. apply ev_scale. apply ev_odd; [lia|exact Hd].
  - intros f g Hf. cbn [both]. unfold nc. cbn [c_mean c_len c_sums c_count c_window c_decay c_queue]. repeat (split; [first [assumption|reflexivity|idtac]|]); try assumption.
    apply ev_add; [exact Hm|]. apply ev_scale. exact Hd.
Qed.
Lemma fsev0 : fsev (fun _ => fz 0) (fun _ => fz 0). Proof. intros k. apply ev_z0. Qed.
Lemma nc_rem c d x x' : nc c d -> ev true x x' -> both nc (c_remove FN c x) (c_remove FN d x').
Proof.
  intros H Hx. nc_parts H. unfold c_remove. rewrite El, En. destruct (_ >? 0).
  - assert (Hm' : ev true (nsub FN (c_mean c) (ndiv FN (nsub FN x (c_mean c)) (nz FN (c_count c - 1)))) (nsub FN (c_mean d) (ndiv FN (nsub FN x' (c_mean d)) (nz FN (c_count c - 1))))).
    { apply ev_sub; [exact Hm|]. apply ev_div. apply ev_sub; assumption. }
    pose proof (ev_sub true _ _ _ _ Hx Hm') as Hd. apply (both_bind fsev).
    + apply outer_ev; [|exact Hs]. intros f g k Hk Hf. ks Hk. apply inner_ev; [apply ev_sub| |].
      * intros cf i Hi. apply in_seq in Hi. rewrite <- (odd_split k i) by lia. apply ev_mul; [|apply Hf]. apply ev_scale. apply ev_odd; [lia|]. apply ev_div. exact Hd.
      * apply ev_sub; [apply Hf|]. apply ev_scale. apply ev_odd; [lia|exact Hd].
    + intros f g Hf. cbn [both]. unfold nc. cbn [c_mean c_len c_sums c_count c_window c_decay c_queue]. repeat (split; [first [assumption|reflexivity|idtac]|]); assumption.
  - cbn [both]. unfold nc. cbn [c_mean c_len c_sums c_count c_window c_decay c_queue]. repeat (split; [first [assumption|reflexivity|apply ev_z0|apply fsev0]|]); assumption.
Qed.
Lemma nc_push c d x x' : nc c d -> ev true x x' -> both nc (c_push FN c x) (c_push FN d x').
Proof.
  intros H Hx. pose proof H as H0. nc_parts H0. unfold c_push. apply (both_bind nc).
  - rewrite Ew. destruct (negb (c_window c =? 0)); [|exact H]. apply (both_bind nc).
    + assert (Eq : ring_len (c_queue d) = ring_len (c_queue c)) by (unfold ring_len, zlen; rewrite (f2_len Hq); reflexivity). rewrite Eq.
      destruct (_ =? _); [|exact H]. unfold ring_get. destruct Hq as [|y y' l l' Hy Hq]; [exact I|]. cbn [bind]. rewrite Er, El, En, Ed. apply nc_rem; [|exact Hy].
      unfold nc. cbn [c_mean c_len c_sums c_count c_window c_decay c_queue rcap ritems]. repeat (split; [first [assumption|reflexivity]|]); assumption.
    + clear - Hx. intros c1 d1 H. nc_parts H. apply (both_bind (fun q q' => rcap q' = rcap q /\ Forall2 (ev true) (ritems q) (ritems q'))).
      * unfold ring_put, ring_len, zlen. rewrite Er, <- (f2_len Hq). destruct (_ <? _); [|exact I]. cbn [both rcap ritems]. split; [reflexivity|]. apply Forall2_app; [exact Hq|constructor; [exact Hx|constructor]].
      * intros q q' [Eq Hqq]. cbn [both]. unfold nc. cbn [c_mean c_len c_sums c_count c_window c_decay c_queue rcap ritems]. repeat (split; [first [assumption|reflexivity]|]); assumption.
  - intros c1 d1 H1. pose proof H1 as (_ & _ & _ & _ & _ & _ & Ed1 & _). rewrite Ed1. destruct (c_decay c1); [apply nc_decay|apply nc_add]; assumption.
Qed.
Lemma nc_clear c d : nc c d -> both nc (c_clear FN c) (c_clear FN d).
Proof.
  intros H. nc_parts H. unfold c_clear. cbn [both]. unfold nc. cbn [c_mean c_len c_sums c_count c_window c_decay c_queue]. rewrite Ew. repeat (split; [first [assumption|reflexivity|apply ev_z0|apply fsev0]|]). constructor.
Qed.
Definition neg_op (o : op f64) : op f64 := match o with OPush x => OPush (Bopp x) | OClear => OClear end.
Lemma nc_run ops : forall c d, nc c d -> both nc (core_run FN c ops) (core_run FN d (map neg_op ops)).
Proof.
  unfold core_run. induction ops as [|[x|] ops IH]; intros c d H; cbn [map neg_op run]; [exact H| |].
  - apply (both_bind nc); [apply nc_push; [exact H|apply ev_opp_self]|exact IH].
  - apply (both_bind nc); [apply nc_clear, H|exact IH].
Qed.
(** ** The metrics *)
Definition kodd (k : @kind f64) : bool :=
  match k with
  | KMean _ | KSkew _ | KEwma _ => true
  | KMoment p _ | KEwmMoment p _ => Z.odd p
  | _ => false
  end.
Definition kmax (k : @kind f64) : Z := match k with KMoment p _ | KEwmMoment p _ => p | _ => 0 end.
Lemma get_sum_ev c d k : nc c d -> both (ev (Z.odd k)) (c_get_sum c k) (c_get_sum d k).
Proof.
  intros H. nc_parts H. unfold c_get_sum. rewrite En, El. destruct (_ =? 0); [reflexivity|]. destruct (Z.leb_spec k 0) as [?|Hk]; cbn [orb]; [reflexivity|]. destruct (_ >=? _); [reflexivity|]. cbn [both].
  pose proof (Hs (Z.to_nat k)) as E. replace (Nat.odd (Z.to_nat k)) with (Z.odd k) in E; [exact E|].
  rewrite <- (Z2Nat.id k) at 1 by lia. destruct (Nat.odd (Z.to_nat k)) eqn:Eo.
  - apply Nat.odd_spec in Eo as (m & ->). apply Z.odd_spec. exists (Z.of_nat m). lia.
  - rewrite <- Nat.negb_even in Eo. apply negb_false_iff in Eo. apply Nat.even_spec in Eo as (m & ->). rewrite <- Z.negb_even. apply negb_false_iff, Z.even_spec. exists (Z.of_nat m). lia.
Qed.
Lemma moment_ev c d k : nc c d -> both (ev (Z.odd k)) (moment_value FN c k) (moment_value FN d k).
Proof.
  intros H. unfold moment_value. apply (both_bind (ev (Z.odd k))); [apply get_sum_ev, H|]. intros a b Hab. nc_parts H. unfold c_get_count. rewrite En. cbn [both]. apply ev_div, Hab.
Qed.
Lemma value_ev k c d : nc c d -> both (ev (kodd k)) (kvalue FN k c) (kvalue FN k d).
Proof.
  intros H. pose proof H as H0. nc_parts H0. destruct k as [w|p w|w|w|w|e|p e|e]; cbn [kvalue kodd].
  - unfold c_get_mean. rewrite En. destruct (_ =? 0); [reflexivity|exact Hm].
  - apply moment_ev, H.
  - apply (both_bind (ev false)); [exact (moment_ev c d 2 H)|]. intros a b Hab. apply ev_sqrt, Hab.
  - unfold c_get_count. rewrite En. destruct (_ =? 0); [reflexivity|]. apply (both_bind (ev false)); [exact (moment_ev c d 2 H)|]. intros a b Hab. apply (both_bind (ev true)); [exact (moment_ev c d 3 H)|]. intros m n Hmn.
    cbn [both npow32 nmul ndiv FN]. rewrite (pow32_eq (fmul a _) (fmul b (fdiv (nsub FN (nz FN (c_count c)) (nz FN 1)) (nz FN (c_count c))))) by (apply (ev_mul false false); [exact Hab|apply ev_refl]).
    apply ev_div. apply ev_scale. apply (ev_mul true false); [exact Hmn|apply ev_refl].
  - unfold c_get_count. rewrite En. destruct (_ =? 0); [reflexivity|]. apply (both_bind (ev false)); [exact (moment_ev c d 2 H)|]. intros a b Hab. apply (both_bind (ev false)); [exact (moment_ev c d 4 H)|]. intros m n Hmn.
    cbn [both npow nmul ndiv nsub FN]. rewrite (pow2_eq (fmul a _) (fmul b (fdiv (fsub (nz FN (c_count c)) (nz FN 1)) (nz FN (c_count c))))) by (apply (ev_mul false false); [exact Hab|apply ev_refl]).
    apply ev_sub; [|apply ev_refl]. apply ev_div. apply (ev_mul false false); [exact Hmn|apply ev_refl].
  - unfold c_get_mean. rewrite En. destruct (_ =? 0); [reflexivity|exact Hm].
  - apply get_sum_ev, H.
  - apply (both_bind (ev false)); [exact (get_sum_ev c d 2 H)|]. intros a b Hab. apply ev_sqrt, Hab.
Qed.
Lemma new_len k c : kmax k <= 199 -> new_core FN (kconfig k) = Ok c -> nc c c.
Proof.
  intros Hk E. unfold new_core in E. cbv zeta in E. apply bind_ok in E as (u & _ & E). destruct (cf_window _) as [w|]; [|discriminate E]. injection E as <-.
  unfold nc. cbn [c_mean c_len c_sums c_count c_window c_decay c_queue ring_new rcap ritems]. split; [apply ev_z0|]. split.
  { destruct k; cbn [kconfig set_defaults sums_of cf_sums kmax] in *; unfold max_sum; cbn [fold_left]; try (cbn; lia). all: destruct (Z.gtb_spec k (-1)); lia. }
  repeat (split; [first [reflexivity|apply fsev0]|]). constructor.
Qed.
Theorem neg_run k ops : kmax k <= 199 -> both (ev (kodd k)) (m <- m_run FN k ops ;; m_value FN m) (m <- m_run FN k (map neg_op ops) ;; m_value FN m).
Proof.
  intros Hk. rewrite !m_run_eq. destruct (new_core FN (kconfig k)) as [c| | | |] eqn:E; cbn [bind rmap both]; auto. pose proof (nc_run ops c c (new_len k c Hk E)) as R.
  destruct (core_run FN c ops) as [c1| | | |], (core_run FN c (map neg_op ops)) as [d1| | | |]; cbn [both bind rmap] in *; try contradiction; auto. unfold m_value. cbn [m_core m_kind]. apply value_ev, R.
Qed.
