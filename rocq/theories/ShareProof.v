(** Metrics that share a core see what they would see on their own. *)
From Verif Require Import Base F64 HistSpec RingModel NumModel MomentModel MetricProof TotalProof ShareModel.

Section Proof.
Context {T : Type} (N : Num T).
Local Notation core := (@core T). Local Notation kind := (@kind T).

Definition eqto (L : nat) (f g : nat -> T) : Prop := forall j, j < L -> f j = g j.
Definition local (step : (nat -> T) -> nat -> res T) : Prop := forall k f g, eqto (S k) f g -> step f k = step g k.

Lemma inner_ext op t1 t2 k l : (forall c i, t1 c i = t2 c i) -> forall s : T, inner N op t1 k l s = inner N op t2 k l s.
Proof. intros H. induction l as [|i l IH]; intros s; cbn [inner]; [reflexivity|]. destruct (coef N k i); cbn [bind]; try reflexivity. rewrite H. apply IH. Qed.
Lemma outer_app step a b : forall f : nat -> T, outer step (a ++ b) f = (g <- outer step a f ;; outer step b g).
Proof. induction a as [|k a IH]; intros f; cbn [app outer bind]; [reflexivity|]. destruct (step f k); cbn [bind]; try reflexivity. apply IH. Qed.
Lemma outer_high step L ks : (forall k, In k ks -> L <= k) -> forall (f f' : nat -> T), outer step ks f = Ok f' -> eqto L f' f.
Proof.
  induction ks as [|k ks IH]; intros H f f' E; cbn [outer] in E; [injection E as <-; intros j _; reflexivity|].
  apply bind_ok in E as (v & _ & E). intros j Hj. rewrite (IH (fun k Hk => H k (or_intror Hk)) _ _ E j Hj). unfold sput.
  destruct (Nat.eqb_spec j k) as [->|_]; [|reflexivity]. specialize (H k (or_introl eq_refl)). lia.
Qed.
Lemma outer_low step L ks : local step -> (forall k, In k ks -> k < L) -> forall (f g f' : nat -> T), eqto L f g -> outer step ks f = Ok f' ->
  exists g', outer step ks g = Ok g' /\ eqto L f' g'.
Proof.
  intros Hs. induction ks as [|k ks IH]; intros H f g f' A E; cbn [outer] in *; [injection E as <-; exists g; auto|].
  apply bind_ok in E as (v & Ev & E). rewrite <- (Hs k f g), Ev by (intros j Hj; apply A; specialize (H k (or_introl eq_refl)); lia). cbn [bind].
  apply (IH (fun k Hk => H k (or_intror Hk)) (sput f k v)); [|exact E]. intros j Hj. unfold sput. destruct (Nat.eqb j k); [reflexivity|]. apply A, Hj.
Qed.
Lemma ks_split L1 L2 : L1 <= L2 -> exists hi, ks_up L2 = ks_up L1 ++ hi /\ forall k, In k hi -> L1 <= k.
Proof.
  intros H. exists (seq (2 + (L1 - 2)) ((L2 - 2) - (L1 - 2))). split.
  - unfold ks_up. rewrite <- seq_app. f_equal. lia.
  - intros k Hk. apply in_seq in Hk. lia.
Qed.
Lemma ks_in L k : In k (ks_up L) -> 2 <= k < L.
Proof. unfold ks_up. rewrite in_seq. lia. Qed.

(** From the larger slice of sums to the smaller one. *)
Lemma outer_down step L1 L2 (f g g' : nat -> T) : local step -> L1 <= L2 -> eqto L1 f g -> outer step (rev (ks_up L2)) g = Ok g' ->
  exists f', outer step (rev (ks_up L1)) f = Ok f' /\ eqto L1 f' g'.
Proof.
  intros Hs HL A E. destruct (ks_split L1 L2 HL) as (hi & Eks & Hhi). rewrite Eks, rev_app_distr, outer_app in E. apply bind_ok in E as (g1 & E1 & E2).
  pose proof (outer_high step L1 (rev hi) (fun k Hk => Hhi k (proj2 (in_rev _ _) Hk)) _ _ E1) as A1.
  destruct (outer_low step L1 (rev (ks_up L1)) Hs (fun k Hk => proj2 (ks_in L1 k (proj2 (in_rev _ _) Hk))) g1 f g') as (f' & Ef & A2).
  - intros j Hj. rewrite A1, A by exact Hj. reflexivity.
  - exact E2.
  - exists f'. split; [exact Ef|]. intros j Hj. symmetry. apply A2, Hj.
Qed.
Lemma outer_up step L1 L2 (f g g' : nat -> T) : local step -> L1 <= L2 -> eqto L1 f g -> outer step (ks_up L2) g = Ok g' ->
  exists f', outer step (ks_up L1) f = Ok f' /\ eqto L1 f' g'.
Proof.
  intros Hs HL A E. destruct (ks_split L1 L2 HL) as (hi & Eks & Hhi). rewrite Eks, outer_app in E. apply bind_ok in E as (g1 & E1 & E2).
  destruct (outer_low step L1 (ks_up L1) Hs (fun k Hk => proj2 (ks_in L1 k Hk)) g f g1) as (f' & Ef & A2).
  - intros j Hj. symmetry. apply A, Hj.
  - exact E1.
  - exists f'. split; [exact Ef|]. intros j Hj. rewrite <- A2 by exact Hj. symmetry. exact (outer_high step L1 hi Hhi _ _ E2 j Hj).
Qed.

(** [c] tracks the first sums of [d]. *)
Definition part (c d : core) : Prop :=
  c_mean c = c_mean d /\ c_count c = c_count d /\ c_window c = c_window d /\ c_decay c = c_decay d /\ c_queue c = c_queue d /\
  c_len c <= c_len d /\ eqto (c_len c) (c_sums c) (c_sums d).
Local Ltac fields c d HR :=
  destruct c as [m1 L1 f1 n1 w1 d1 q1], d as [m2 L2 f2 n2 w2 d2 q2]; unfold part in HR; cbn [c_mean c_count c_window c_decay c_queue c_len c_sums] in HR;
  destruct HR as (<- & <- & <- & <- & <- & HL & HS).
Local Ltac loc := intros k f g A; unfold eqto in A; cbv zeta; rewrite (A k) by lia; apply inner_ext; intros c' i; rewrite (A (k - i)%nat) by lia; reflexivity.

Lemma part_add c d x d' : part c d -> c_add N d x = Ok d' -> exists c', c_add N c x = Ok c' /\ part c' d' /\ c_len c' = c_len c.
Proof.
  intros HR E. fields c d HR. unfold c_add in *. cbn [c_mean c_count c_window c_decay c_queue c_len c_sums] in *.
  apply bind_ok in E as (g' & E & H). injection H as <-. eapply outer_down in E; [|loc|exact HL|exact HS]. destruct E as (f' & -> & A). cbn [bind].
  eexists. split; [reflexivity|]. split; [|reflexivity]. unfold part. cbn. auto 10.
Qed.
Lemma part_add_decay c d e x d' : part c d -> c_add_decay N d e x = Ok d' -> exists c', c_add_decay N c e x = Ok c' /\ part c' d' /\ c_len c' = c_len c.
Proof.
  intros HR E. fields c d HR. unfold c_add_decay in *. cbn [c_mean c_count c_window c_decay c_queue c_len c_sums] in *.
  apply bind_ok in E as (g' & E & H). injection H as <-. eapply outer_down in E; [|loc|exact HL|exact HS]. destruct E as (f' & -> & A). cbn [bind].
  eexists. split; [reflexivity|]. split; [|reflexivity]. unfold part. cbn. auto 10.
Qed.
Lemma part_remove c d x d' : part c d -> c_remove N d x = Ok d' -> exists c', c_remove N c x = Ok c' /\ part c' d' /\ c_len c' = c_len c.
Proof.
  intros HR E. fields c d HR. unfold c_remove in *. cbn [c_mean c_count c_window c_decay c_queue c_len c_sums] in *. destruct (n1 - 1 >? 0)%Z.
  - apply bind_ok in E as (g' & E & H). injection H as <-. eapply outer_up in E; [|loc|exact HL|exact HS]. destruct E as (f' & -> & A). cbn [bind].
    eexists. split; [reflexivity|]. split; [|reflexivity]. unfold part. cbn. auto 10.
  - injection E as <-. eexists. split; [reflexivity|]. split; [|reflexivity]. unfold part, eqto. cbn. auto 10.
Qed.
Lemma part_queue c d q : part c d -> part (mkCore (c_mean c) (c_len c) (c_sums c) (c_count c) (c_window c) (c_decay c) q) (mkCore (c_mean d) (c_len d) (c_sums d) (c_count d) (c_window d) (c_decay d) q).
Proof. unfold part. cbn. tauto. Qed.
Lemma part_push c d x d' : part c d -> c_push N d x = Ok d' -> exists c', c_push N c x = Ok c' /\ part c' d' /\ c_len c' = c_len c.
Proof.
  intros HR E. unfold c_push in *. apply bind_ok in E as (d1 & E1 & E).
  assert (X : exists c1, (if negb (c_window c =? 0)%Z then
                            c1 <- (if (ring_len (c_queue c) =? c_window c)%Z then
                                     '(y, q) <- ring_get (c_queue c) ;; c_remove N (mkCore (c_mean c) (c_len c) (c_sums c) (c_count c) (c_window c) (c_decay c) q) y
                                   else Ok c) ;;
                            q <- ring_put (c_queue c1) x ;; Ok (mkCore (c_mean c1) (c_len c1) (c_sums c1) (c_count c1) (c_window c1) (c_decay c1) q)
                          else Ok c) = Ok c1 /\ part c1 d1 /\ c_len c1 = c_len c).
  { pose proof HR as (_ & _ & Ew & _ & Eq & _). rewrite Ew, Eq. destruct (negb _); [|injection E1 as <-; exists c; auto].
    apply bind_ok in E1 as (d0 & E0 & E1). apply bind_ok in E1 as (q & E2 & E1). injection E1 as <-.
    assert (Y : exists c0, (if (ring_len (c_queue d) =? c_window d)%Z then
                              '(y, q) <- ring_get (c_queue d) ;; c_remove N (mkCore (c_mean c) (c_len c) (c_sums c) (c_count c) (c_window d) (c_decay c) q) y
                            else Ok c) = Ok c0 /\ part c0 d0 /\ c_len c0 = c_len c).
    { destruct (_ =? _)%Z; [|injection E0 as <-; exists c; auto]. destruct (ring_get (c_queue d)) as [(y, q')| | | |]; cbn [bind] in *; try discriminate.
      rewrite <- Ew. destruct (part_remove _ _ y d0 (part_queue c d q' HR) E0) as (c0 & Ec & R0 & L0). exists c0. auto. }
    destruct Y as (c0 & -> & R0 & L0). cbn [bind]. pose proof R0 as (_ & _ & _ & _ & Eq0 & _). rewrite Eq0, E2. cbn [bind].
    eexists. split; [reflexivity|]. split; [apply part_queue, R0|exact L0]. }
  destruct X as (c1 & -> & R1 & L1). cbn [bind]. pose proof R1 as (_ & _ & _ & Ed & _). rewrite Ed. destruct (c_decay d1) as [e|].
  - destruct (part_add_decay c1 d1 e x d' R1 E) as (c' & Ec & R & L). exists c'. repeat split; try assumption; congruence || apply R.
  - destruct (part_add c1 d1 x d' R1 E) as (c' & Ec & R & L). exists c'. repeat split; try assumption; congruence || apply R.
Qed.
Lemma part_clear c d d' : part c d -> c_clear N d = Ok d' -> exists c', c_clear N c = Ok c' /\ part c' d' /\ c_len c' = c_len c.
Proof.
  intros HR E. fields c d HR. unfold c_clear in *. cbn [c_mean c_count c_window c_decay c_queue c_len c_sums] in *. injection E as <-.
  eexists. split; [reflexivity|]. split; [|reflexivity]. unfold part, eqto. cbn. auto 10.
Qed.
Lemma part_run ops : forall c d d', part c d -> core_run N d ops = Ok d' -> exists c', core_run N c ops = Ok c' /\ part c' d' /\ c_len c' = c_len c.
Proof.
  induction ops as [|[x|] ops IH]; intros c d d' HR E; unfold core_run in *; cbn [run] in *.
  - injection E as <-. exists c. auto.
  - apply bind_ok in E as (d1 & E1 & E). destruct (part_push c d x d1 HR E1) as (c1 & -> & R1 & L1). cbn [bind].
    destruct (IH c1 d1 d' R1 E) as (c' & Ec & R & L). exists c'. split; [exact Ec|]. split; [exact R|congruence].
  - apply bind_ok in E as (d1 & E1 & E). destruct (part_clear c d d1 HR E1) as (c1 & -> & R1 & L1). cbn [bind].
    destruct (IH c1 d1 d' R1 E) as (c' & Ec & R & L). exists c'. split; [exact Ec|]. split; [exact R|congruence].
Qed.

(** Value looks at the sums of the metric's own configuration only. *)
Lemma part_sum c d k : part c d -> (k < Z.of_nat (c_len c))%Z -> c_get_sum c k = c_get_sum d k.
Proof.
  intros HR Hk. fields c d HR. unfold c_get_sum. cbn [c_count c_len c_sums] in *. destruct (n1 =? 0)%Z; [reflexivity|].
  destruct (k <=? 0)%Z eqn:E; [reflexivity|]. apply Z.leb_gt in E. cbn [orb].
  replace (k >=? Z.of_nat L1)%Z with false by (symmetry; rewrite Z.geb_leb; apply Z.leb_gt; lia). replace (k >=? Z.of_nat L2)%Z with false by (symmetry; rewrite Z.geb_leb; apply Z.leb_gt; lia).
  rewrite HS by lia. reflexivity.
Qed.
Lemma part_value k c d : part c d -> (forall j, In j (sums_of (@kconfig T k)) -> (j < Z.of_nat (c_len c))%Z) -> kvalue N k c = kvalue N k d.
Proof.
  intros HR H. pose proof HR as (Em & En & _).
  assert (V : forall j, In j (sums_of (@kconfig T k)) -> moment_value N c j = moment_value N d j).
  { intros j Hj. unfold moment_value, c_get_count. rewrite (part_sum c d j HR (H j Hj)), En. reflexivity. }
  assert (M : c_get_mean c = c_get_mean d) by (unfold c_get_mean; rewrite Em, En; reflexivity).
  assert (C : c_get_count c = c_get_count d) by exact En.
  destruct k; cbn [kvalue]; unfold sums_of in *; cbn [kconfig cf_sums] in *; try exact M.
  - apply V. left. reflexivity.
  - rewrite V by (left; reflexivity). reflexivity.
  - rewrite C, (V 2%Z), (V 3%Z) by (cbn [In]; auto). reflexivity.
  - rewrite C, (V 2%Z), (V 4%Z) by (cbn [In]; auto). reflexivity.
  - apply part_sum; [exact HR|]. apply H. left. reflexivity.
  - rewrite (part_sum c d 2 HR) by (apply H; left; reflexivity). reflexivity.
Qed.

(** *** Making the cores *)
Lemma max_sum_ge s k : In k s -> (k <= max_sum s)%Z.
Proof. intros H. unfold max_sum. pose proof (max_sum_spec s (-1)%Z) as X. cbv zeta in X. destruct X as (_ & X & _). apply X, H. Qed.
Lemma max_sum_mono s t : (forall k, In k s -> In k t) -> (max_sum s <= max_sum t)%Z.
Proof.
  intros H. unfold max_sum. pose proof (max_sum_spec s (-1)%Z) as X. pose proof (max_sum_spec t (-1)%Z) as Y. cbv zeta in X, Y.
  destruct X as (_ & _ & [X|X]), Y as (Y1 & Y2 & _); [lia|]. apply Y2, H, X.
Qed.

(** Whether a metric weighs exponentially, and its configuration as a whole *)
Definition decayed (k : kind) : bool := match cf_decay (@kconfig T k) with Some _ => true | None => false end.
Lemma kwindow_cfg k : cf_window (@kconfig T k) = Some (kwindow k).
Proof. destruct k; reflexivity. Qed.
Hypothesis Hdec : forall d e, neqb N d e = true -> nle N d (nz N 0) = false -> d = e.
Definition uniform (ks : list kind) : Prop := forall k k', In k ks -> In k' ks -> decayed k = decayed k'.
Lemma windows_all ks : windows (map (@kconfig T) ks) = map kwindow ks.
Proof. induction ks as [|k ks IH]; [reflexivity|]. cbn [map windows flat_map]. rewrite kwindow_cfg. cbn [app]. f_equal. exact IH. Qed.
Lemma in_dec ks k d : In k ks -> cf_decay (@kconfig T k) = Some d -> In d (decays (map (@kconfig T) ks)).
Proof. intros Hk E. unfold decays. apply in_flat_map. exists (kconfig k). split; [apply in_map, Hk|]. rewrite E. left. reflexivity. Qed.
Lemma dec_in ks d : In d (decays (map (@kconfig T) ks)) -> exists k, In k ks /\ cf_decay (@kconfig T k) = Some d.
Proof. unfold decays. rewrite in_flat_map. intros (c & Hc & Hd). apply in_map_iff in Hc as (k & <- & Hk). exists k. split; [exact Hk|]. destruct (cf_decay (kconfig k)); [|destruct Hd]. destruct Hd as [->|[]]. reflexivity. Qed.

(** The merged configuration, seen from one of the metrics *)
Lemma merged_one ks cfg k : merge_configs N (map kconfig ks) = Ok cfg -> cfg_valid N cfg -> uniform ks -> In k ks ->
  cf_window cfg = Some (kwindow k) /\ cf_decay cfg = cf_decay (kconfig k) /\ (forall j, In j (sums_of (kconfig k)) -> In j (sums_of cfg)).
Proof.
  intros E V U Hk. assert (X : ks = [k] \/ merge_loop N (map kconfig ks) [] None None = Ok cfg).
  { destruct ks as [|k1 [|k2 ks]]; [destruct Hk| |right; exact E]. destruct Hk as [<-|[]]. auto. }
  destruct X as [->|E'].
  - injection E as <-. rewrite kwindow_cfg. auto.
  - clear E. destruct (merge_loop_spec N (map kconfig ks) [] None None) as [H1 H2]. cbn [opt_list app] in H1, H2.
    assert (D : agree Z.eqb (windows (map (@kconfig T) ks)) /\ agree (neqb N) (decays (map (@kconfig T) ks)) \/ ~ (agree Z.eqb (windows (map (@kconfig T) ks)) /\ agree (neqb N) (decays (map (@kconfig T) ks)))).
    { assert (Dec : forall A (e : A -> A -> bool) l, agree e l \/ ~ agree e l).
      { intros A e [|x l]; [left; exact I|]. cbn [agree]. destruct (forallb (e x) l) eqn:F; [left; apply Forall_forall; intros y Hy; exact (proj1 (forallb_forall _ _) F y Hy)|].
        right. intros H. rewrite Forall_forall in H. apply not_true_iff_false in F. apply F. apply forallb_forall. exact H. }
      destruct (Dec _ Z.eqb (windows (map (@kconfig T) ks))), (Dec _ (neqb N) (decays (map (@kconfig T) ks))); tauto. }
    destruct D as [D|D]; [|destruct (H2 D) as [H|H]; congruence]. destruct (H1 D) as (s & Es & Hs). rewrite Es in E'. injection E' as <-. destruct D as [D1 D2].
    destruct V as ((w & Hw & _ & Hd) & _). cbn [cf_window cf_decay sums_of cf_sums] in *. split; [|split].
    + rewrite windows_all in *. destruct ks as [|k0 ks]; [destruct Hk|]. cbn [map hd_error agree] in *. f_equal. destruct Hk as [->|Hk]; [reflexivity|].
      rewrite Forall_forall in D1. apply Z.eqb_eq. apply D1. apply in_map, Hk.
    + destruct (decays (map kconfig ks)) as [|d0 l] eqn:Ed; cbn [hd_error] in *.
      * destruct (cf_decay (kconfig k)) as [d|] eqn:E; [|reflexivity]. apply (in_dec ks k d Hk) in E. rewrite Ed in E. destruct E.
      * destruct (dec_in ks d0) as (k0 & Hk0 & E0); [rewrite Ed; left; reflexivity|]. specialize (U k k0 Hk Hk0). unfold decayed in U. rewrite E0 in U.
        destruct (cf_decay (kconfig k)) as [d|] eqn:E; [|discriminate]. f_equal. pose proof (in_dec ks k d Hk E) as Hin. rewrite Ed in Hin. destruct Hin as [->|Hin]; [reflexivity|].
        cbn [agree] in D2. rewrite Forall_forall in D2. apply Hdec; [apply D2, Hin|]. apply (Hd d0 eq_refl).
    + intros j Hj. apply Hs. right. exists (kconfig k). split; [apply in_map, Hk|exact Hj].
Qed.

(** The calls as a history of the core. *)
Definition plain (o : via_op) : op T := match o with SPush _ x => OPush x | SClear _ => OClear end.
Lemma sh_steps_core l : forall s s', sh_steps N l s = Ok s' -> sh_kinds s' = sh_kinds s /\ core_run N (sh_core s) (map plain l) = Ok (sh_core s').
Proof.
  induction l as [|o l IH]; intros s s' E; cbn [sh_steps map] in *; [injection E as <-; split; reflexivity|].
  apply bind_ok in E as (s1 & E1 & E). destruct (IH s1 s' E) as [K1 R1].
  assert (X : sh_kinds s1 = sh_kinds s /\ core_run N (sh_core s) [plain o] = Ok (sh_core s1)).
  { clear - E1. unfold core_run. destruct o as [[i|] x|[i|]]; cbn [sh_step plain run] in *.
    - unfold sh_metric in E1. destruct (nth_error (sh_kinds s) i); [|discriminate]. cbn [option_map m_push m_core m_kind] in E1.
      destruct (c_push N (sh_core s) x); cbn [bind] in *; try discriminate. injection E1 as <-. split; reflexivity.
    - destruct (c_push N (sh_core s) x); cbn [bind] in *; try discriminate. injection E1 as <-. split; reflexivity.
    - unfold sh_metric in E1. destruct (nth_error (sh_kinds s) i); [|discriminate]. cbn [option_map m_clear m_core m_kind] in E1.
      destruct (c_clear N (sh_core s)); cbn [bind] in *; try discriminate. injection E1 as <-. split; reflexivity.
    - destruct (c_clear N (sh_core s)); cbn [bind] in *; try discriminate. injection E1 as <-. split; reflexivity. }
  destruct X as [K0 R0]. split; [congruence|]. unfold core_run in *. change (plain o :: map plain l) with ([plain o] ++ map plain l). rewrite run_app, R0. exact R1.
Qed.
Lemma core_steps_sh l : forall s c, (forall i, In (Some i) (map (fun o => match o with SPush v _ => v | SClear v => v end) l) -> i < length (sh_kinds s)) ->
  core_run N (sh_core s) (map plain l) = Ok c -> sh_steps N l s = Ok (mkSh (sh_kinds s) c).
Proof.
  induction l as [|o l IH]; intros s c Hi E; unfold core_run in *; cbn [sh_steps map] in *; [destruct s; injection E as <-; reflexivity|].
  change (plain o :: map plain l) with ([plain o] ++ map plain l) in E. rewrite run_app in E. apply bind_ok in E as (c1 & E1 & E).
  assert (X : sh_step N s o = Ok (mkSh (sh_kinds s) c1)).
  { clear - E1 Hi. destruct o as [[i|] x|[i|]]; cbn [sh_step plain run] in *; rewrite ?bind_ok in E1.
    - unfold sh_metric. specialize (Hi i (or_introl eq_refl)). destruct (nth_error (sh_kinds s) i) eqn:En; [|apply nth_error_None in En; lia]. cbn [option_map m_push m_core m_kind].
      destruct E1 as (c & -> & H). injection H as <-. reflexivity.
    - destruct E1 as (c & -> & H). injection H as <-. reflexivity.
    - unfold sh_metric. specialize (Hi i (or_introl eq_refl)). destruct (nth_error (sh_kinds s) i) eqn:En; [|apply nth_error_None in En; lia]. cbn [option_map m_clear m_core m_kind].
      destruct E1 as (c & -> & H). injection H as <-. reflexivity.
    - destruct E1 as (c & -> & H). injection H as <-. reflexivity. }
  rewrite X. cbn [bind]. apply (IH (mkSh (sh_kinds s) c1)); [|exact E]. cbn [sh_kinds]. intros i H. apply Hi. right. exact H.
Qed.

Lemma new_core_fresh cfg c : new_core N cfg = Ok c -> cfg_valid N cfg /\ exists w, cf_window cfg = Some w /\ c = fresh_core N (Z.to_nat (max_sum (sums_of cfg) + 1)) w (cf_decay cfg).
Proof.
  intros E. assert (V : cfg_valid N cfg).
  { unfold new_core in E. cbv zeta in E. apply bind_ok in E as ([] & V & _). rewrite (validate_ok N) in V. apply cfg_valid_defaults, V. }
  split; [exact V|]. destruct (proj1 (new_core_spec N cfg) V) as (w & Ew & E'). exists w. split; [exact Ew|]. congruence.
Qed.

Theorem shared_same ks l s i k : sh_run N ks l = Ok s -> uniform ks -> nth_error ks i = Some k ->
  exists m, m_run N k (map plain l) = Ok m /\ sh_value N s i = m_value N m.
Proof.
  intros E U Ei. unfold sh_run in E. apply bind_ok in E as (s0 & E0 & E). unfold sh_new in E0. apply bind_ok in E0 as (cfg & Em & E0). apply bind_ok in E0 as (c & Ec & E0). injection E0 as <-.
  apply sh_steps_core in E as [K R]. cbn [sh_kinds sh_core] in K, R. destruct (new_core_fresh cfg c Ec) as (V & w & Ew & ->).
  assert (Hk : In k ks) by (eapply nth_error_In; exact Ei). destruct (merged_one ks cfg k Em V U Hk) as (Ew' & Ed & Hs). rewrite Ew in Ew'. injection Ew' as ->.
  assert (Vk : cfg_valid N (kconfig k)).
  { destruct V as ((w' & H1 & H2 & H3) & H4). rewrite Ew in H1. injection H1 as <-. split.
    - exists (kwindow k). split; [apply kwindow_cfg|]. split; [exact H2|]. rewrite <- Ed. exact H3.
    - intros j Hj. apply H4, Hs, Hj. }
  destruct (proj1 (new_core_spec N (kconfig k)) Vk) as (w' & Ew' & En). rewrite kwindow_cfg in Ew'. injection Ew' as <-.
  set (c0 := fresh_core N (Z.to_nat (max_sum (sums_of (kconfig k)) + 1)) (kwindow k) (cf_decay (kconfig k))) in *.
  destruct (part_run (map plain l) c0 (fresh_core N (Z.to_nat (max_sum (sums_of cfg) + 1)) (kwindow k) (cf_decay cfg)) (sh_core s)) as (c' & E' & P & L).
  - unfold c0, fresh_core, part, eqto. cbn. pose proof (max_sum_mono _ _ Hs). repeat split; [congruence|lia].
  - exact R.
  - exists (mkM k (Some c')). split.
    + rewrite m_run_eq, En. cbn [bind]. rewrite E'. reflexivity.
    + unfold sh_value, sh_metric. rewrite K, Ei. unfold m_value. cbn [option_map m_core m_kind]. symmetry. apply part_value; [exact P|].
      intros j Hj. rewrite L. unfold c0, fresh_core. cbn [c_len]. pose proof (max_sum_ge _ _ Hj). destruct Vk as [_ Vk]. specialize (Vk j Hj). lia.
Qed.

(** Sharing succeeds if the metrics are accepted one by one and agree in window and decay. *)
Theorem shared_total ks l : ks <> [] -> (forall k, In k ks -> (exists c, new_core N (kconfig k) = Ok c) /\ (korder k <= 65)%Z) ->
  (forall k k', In k ks -> In k' ks -> kwindow k = kwindow k' /\ cf_decay (kconfig k) = cf_decay (kconfig k')) ->
  (forall k d, In k ks -> cf_decay (kconfig k) = Some d -> neqb N d d = true) ->
  (forall i, In (Some i) (map (fun o => match o with SPush v _ => v | SClear v => v end) l) -> i < length ks) ->
  exists s, sh_run N ks l = Ok s.
Proof.
  intros Hne Hok Hag Hnn Hi. destruct ks as [|k0 ks']; [congruence|]. set (ks := k0 :: ks') in *. assert (H0 : In k0 ks) by (left; reflexivity).
  destruct (proj1 (Hok k0 H0)) as (c0 & E0). destruct (new_core_fresh _ _ E0) as (((w & Ew & Hw & Hd) & Hpos) & _). rewrite kwindow_cfg in Ew. injection Ew as <-.
  assert (M : exists cfg, merge_configs N (map kconfig ks) = Ok cfg /\ cf_window cfg = Some (kwindow k0) /\ cf_decay cfg = cf_decay (kconfig k0) /\
                          (forall j, In j (sums_of cfg) -> exists k, In k ks /\ In j (sums_of (kconfig k)))).
  { destruct ks' as [|k1 ks'].
    - exists (kconfig k0). split; [reflexivity|]. split; [apply kwindow_cfg|]. split; [reflexivity|]. intros j Hj. exists k0. split; [left; reflexivity|exact Hj].
    - destruct (merge_loop_spec N (map kconfig ks) [] None None) as [H1 _]. cbn [opt_list app] in H1. destruct H1 as (s & Es & Hs).
      + split.
        * rewrite windows_all. subst ks. cbn [map agree]. apply Forall_forall. intros w Hin. change (kwindow k1 :: map kwindow ks') with (map (@kwindow T) (k1 :: ks')) in Hin.
          apply in_map_iff in Hin as (k & <- & Hk). apply Z.eqb_eq. apply (Hag k0 k H0 (or_intror Hk)).
        * destruct (decays (map kconfig ks)) as [|d0 t] eqn:Ed; [exact I|]. cbn [agree]. apply Forall_forall. intros d Hin.
          destruct (dec_in ks d0) as (ka & Ha & Ea); [rewrite Ed; left; reflexivity|]. destruct (dec_in ks d) as (kb & Hb & Eb); [rewrite Ed; right; exact Hin|].
          destruct (Hag ka kb Ha Hb) as [_ H]. rewrite Ea, Eb in H. injection H as <-. exact (Hnn ka d0 Ha Ea).
      + exists (mkCfg (Some s) (hd_error (windows (map kconfig ks))) (hd_error (decays (map kconfig ks)))). split; [exact Es|]. cbn [cf_window cf_decay sums_of cf_sums]. split; [|split].
        * rewrite windows_all. reflexivity.
        * destruct (decays (map kconfig ks)) as [|d0 t] eqn:Ed; cbn [hd_error].
          -- destruct (cf_decay (kconfig k0)) as [d|] eqn:E; [|reflexivity]. apply (in_dec ks k0 d H0) in E. rewrite Ed in E. destruct E.
          -- destruct (dec_in ks d0) as (ka & Ha & Ea); [rewrite Ed; left; reflexivity|]. rewrite <- Ea. apply (Hag ka k0 Ha H0).
        * intros j Hj. apply Hs in Hj as [[]|(c & Hc & Hj)]. apply in_map_iff in Hc as (k & <- & Hk). exists k. auto. }
  destruct M as (cfg & Em & Ew & Ed & Hs).
  assert (V : cfg_valid N cfg).
  { split.
    - exists (kwindow k0). split; [exact Ew|]. split; [exact Hw|]. rewrite Ed. exact Hd.
    - intros j Hj. destruct (Hs j Hj) as (k & Hk & Hjk). destruct (proj1 (Hok k Hk)) as (c & Ec). destruct (new_core_fresh _ _ Ec) as ((_ & P) & _). apply P, Hjk. }
  destruct (proj1 (new_core_spec N cfg) V) as (w & Ew' & En). rewrite Ew in Ew'. injection Ew' as <-.
  assert (HL : (max_sum (sums_of cfg) <= 65)%Z).
  { unfold max_sum. destruct (max_sum_spec (sums_of cfg) (-1)%Z) as (_ & _ & [X|X]); [lia|]. apply Hs in X as (k & Hk & X).
    assert (Y : forall j, In j (sums_of (kconfig k)) -> (j <= korder k)%Z) by (intros j Hj; destruct k; cbn [sums_of kconfig cf_sums korder] in *; cbn [In] in Hj; intuition (subst; lia)).
    specialize (Y _ X). pose proof (proj2 (Hok k Hk)). lia. }
  destruct (ctot_run N (Z.to_nat (max_sum (sums_of cfg) + 1)) (kwindow k0) (cf_decay cfg) (fun _ => nz N 0) (map plain l)) as (c & Er & _); [lia|exact Hw|].
  exists (mkSh ks c). unfold sh_run, sh_new. rewrite Em. cbn [bind]. rewrite En. cbn [bind]. apply (core_steps_sh l (mkSh ks _)); [exact Hi|exact Er].
Qed.
End Proof.
