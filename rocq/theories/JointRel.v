(** Executions of the joint core in rational arithmetic carry over to exact real arithmetic. *)
From Coq Require Import Reals Lra QArith Qreals Qround.
From Verif Require Import Base HistSpec RingModel MathModel NumModel MomentSpec NumRel JointModel JointSpec.
Local Close Scope Q_scope.

Definition qoo (a : option (option Q)) (b : option xr) : Prop := orel a b.
Definition hrel (m : @hmap (option Q)) (n : @hmap xr) : Prop := forall h, qoo (m h) (n h).
Definition vrel (x : list (option Q)) (y : list xr) : Prop := Forall2 qrel x y.
Definition fnrel (f : option Q -> option Q) (g : xr -> xr) : Prop := forall a x, qrel a x -> qrel (f a) (g x).

Lemma hget_rel m n h : hrel m n -> qrel (hget QN m h) (hget XN n h).
Proof. intros H. specialize (H h). unfold hget. destruct (m h), (n h); cbn in H; try contradiction; [exact H|apply qrel_nz]. Qed.
Lemma hput_rel m n h a x : hrel m n -> qrel a x -> hrel (hput m h a) (hput n h x).
Proof. intros H Ha k. unfold hput. destruct (k =? h)%Z; [exact Ha|apply H]. Qed.
Lemma hzero_rel m n : hrel m n -> hrel (hzero QN m) (hzero XN n).
Proof. intros H k. specialize (H k). unfold hzero. destruct (m k), (n k); cbn in *; try contradiction; [apply qrel_nz|exact I]. Qed.
Lemma hcopy_rel m n m' n' : hrel m n -> hrel m' n' -> hrel (hcopy m m') (hcopy n n').
Proof. intros H H' k. specialize (H k). specialize (H' k). unfold hcopy. destruct (m k), (n k); cbn in *; try contradiction; assumption. Qed.
Lemma vpow_rel x y : vrel x y -> forall n a b, qrel a b -> qrel (vpow_loop QN x n a) (vpow_loop XN y n b).
Proof. induction 1 as [|u v x y Huv Hxy IH]; intros [|k n] a b Hab; cbn [vpow_loop]; auto. apply IH. qr. Qed.
Lemma vrel_length x y : vrel x y -> length x = length y. Proof. apply Forall2_length. Qed.
Lemma t_pow_rel x y n : vrel x y -> rrel qrel (t_pow QN x n) (t_pow XN y n).
Proof. intros H. unfold t_pow. rewrite (vrel_length x y H). destruct (negb _); cbn [rrel]; [reflexivity|]. apply vpow_rel; [exact H|apply qrel_nz]. Qed.
Lemma vrel_map f g x y : (forall a b, qrel a b -> qrel (f a) (g b)) -> vrel x y -> vrel (map f x) (map g y).
Proof. intros Hf. induction 1; constructor; auto. Qed.
Lemma vrel_map2 f g x y x' y' : (forall a b a' b', qrel a b -> qrel a' b' -> qrel (f (a, a')) (g (b, b'))) -> vrel x y -> vrel x' y' -> vrel (map f (combine x x')) (map g (combine y y')).
Proof. intros Hf H. revert x' y'. induction H; intros x' y' H'; [constructor|]. inversion H'; subst; cbn [combine map]; constructor; auto. apply IHForall2. assumption. Qed.

Definition trel (t : tuple -> tuple -> @hmap (option Q) -> res (option Q -> option Q)) (u : tuple -> tuple -> @hmap xr -> res (xr -> xr)) : Prop :=
  forall a b m n, hrel m n -> rrel fnrel (t a b m) (u a b n).
Lemma upd_b_rel t u a bs : trel t u -> forall m n, hrel m n -> rrel hrel (upd_b QN t a bs m) (upd_b XN u a bs n).
Proof.
  intros Ht. induction bs as [|b bs IH]; intros m n H; [exact H|]. cbn [upd_b]. eapply rrel_bind; [apply Ht; exact H|]. intros f g Hfg. apply IH. apply hput_rel; [exact H|]. apply Hfg. apply hget_rel. exact H.
Qed.
Lemma upd_a_rel t u as_ : trel t u -> forall m n, hrel m n -> rrel hrel (upd_a QN t as_ m) (upd_a XN u as_ n).
Proof.
  intros Ht. induction as_ as [|a as_ IH]; intros m n H; [exact H|]. cbn [upd_a]. eapply rrel_bind; [apply upd_b_rel; [exact Ht|apply hput_rel; [exact H|apply qrel_nz]]|]. exact IH.
Qed.
Lemma upd_tuples_rel t u r ts : trel t u -> forall m n, hrel m n -> rrel hrel (upd_tuples QN t r ts m) (upd_tuples XN u r ts n).
Proof.
  intros Ht. induction ts as [|a ts IH]; intros m n H; [exact H|]. cbn [upd_tuples]. eapply rrel_bind; [apply upd_a_rel; [exact Ht|exact H]|]. exact IH.
Qed.
Lemma rrel_eq {A} (r : res A) : rrel eq r r. Proof. destruct r; cbn; auto. Qed.
Lemma add_term_rel c c' d d' s s' : qrel c c' -> vrel d d' -> hrel s s' -> trel (add_term QN c d s) (add_term XN c' d' s').
Proof.
  intros Hc Hd Hs a b m n H. unfold add_term. eapply rrel_bind; [apply t_pow_rel; exact Hd|]. intros dp dp' Hdp. cbv zeta.
  destruct (t_abs b =? 0)%Z; [cbn [rrel]; intros x y Hxy; qr; apply hget_rel; exact Hs|].
  destruct (t_eq b a); [cbn [rrel]; intros x y Hxy; qr|].
  eapply rrel_bind; [apply rrel_eq|]. intros mn ? <-. eapply rrel_bind; [apply rrel_eq|]. intros df ? <-. cbn [rrel]. intros x y Hxy. qr. apply hget_rel; exact Hs.
Qed.
Lemma decay_term_rel c c' d d' s s' : qrel c c' -> vrel d d' -> hrel s s' -> trel (decay_term QN c d s) (decay_term XN c' d' s').
Proof.
  intros Hc Hd Hs a b m n H. unfold decay_term. eapply rrel_bind; [apply t_pow_rel; exact Hd|]. intros dp dp' Hdp. cbv zeta.
  destruct (t_abs b =? 0)%Z; [cbn [rrel]; intros x y Hxy; qr; apply hget_rel; exact Hs|].
  destruct (t_eq b a); [cbn [rrel]; intros x y Hxy; qr|].
  eapply rrel_bind; [apply rrel_eq|]. intros mn ? <-. eapply rrel_bind; [apply rrel_eq|]. intros df ? <-. cbn [rrel]. intros x y Hxy. qr. apply hget_rel; exact Hs.
Qed.
Lemma rem_term_rel c c' d d' s s' : qrel c c' -> vrel d d' -> hrel s s' -> trel (rem_term QN c d s) (rem_term XN c' d' s').
Proof.
  intros Hc Hd Hs a b m n H. unfold rem_term. eapply rrel_bind; [apply t_pow_rel; exact Hd|]. intros dp dp' Hdp. cbv zeta.
  destruct (t_abs b =? 0)%Z; [cbn [rrel]; intros x y Hxy; qr; apply hget_rel; exact Hs|].
  destruct (t_eq b a); [cbn [rrel]; intros x y Hxy; qr|].
  eapply rrel_bind; [apply rrel_eq|]. intros mn ? <-. eapply rrel_bind; [apply rrel_eq|]. intros df ? <-. cbn [rrel]. intros x y Hxy. qr. apply hget_rel; exact H.
Qed.
Lemma rem_tuples_rel c c' d d' ts : qrel c c' -> vrel d d' -> forall s s' m n, hrel s s' -> hrel m n ->
  rrel (fun p q => hrel (fst p) (fst q) /\ hrel (snd p) (snd q)) (rem_tuples QN c d ts s m) (rem_tuples XN c' d' ts s' n).
Proof.
  intros Hc Hd. induction ts as [|t ts IH]; intros s s' m n Hs H; cbn [rem_tuples]; [split; assumption|].
  eapply rrel_bind; [apply upd_a_rel; [apply rem_term_rel; assumption|exact H]|]. intros m' n' H'. apply IH; [apply hcopy_rel; assumption|exact H'].
Qed.

Definition qring (q : ring (list (option Q))) (r : ring (list xr)) : Prop := rcap q = rcap r /\ Forall2 vrel (ritems q) (ritems r).
Definition jrel (c : @vcore (option Q)) (d : @vcore xr) : Prop :=
  vrel (j_means c) (j_means d) /\ j_tuples c = j_tuples d /\ hrel (j_sums c) (j_sums d) /\ hrel (j_new c) (j_new d) /\ j_count c = j_count d /\
  j_window c = j_window d /\ orel (j_decay c) (j_decay d) /\ qring (j_queue c) (j_queue d).
Ltac jsplit := repeat split; cbn [j_means j_tuples j_sums j_new j_count j_window j_decay j_queue]; auto.
Lemma deltas_rel x y m n : vrel x y -> vrel m n -> vrel (deltas QN x m) (deltas XN y n).
Proof. intros. unfold deltas. apply vrel_map2; auto. intros. cbn [fst snd]. qr. Qed.

Lemma j_add_rel c d x y : jrel c d -> vrel x y -> rrel jrel (j_add QN c x) (j_add XN d y).
Proof.
  intros (Hm & Ht & Hs & Hw & Hn & Hwi & Hd & Hq) Hx. unfold j_add. cbv zeta. rewrite <- Ht, <- Hn.
  pose proof (deltas_rel _ _ _ _ Hx Hm) as HD.
  eapply rrel_bind; [apply upd_tuples_rel; [apply add_term_rel; [apply qrel_nz|exact HD|exact Hs]|exact Hw]|].
  intros m n H. jsplit; try apply Hq; [|apply hcopy_rel; assumption]. unfold add_means. apply vrel_map2; auto. intros. cbn [fst snd]. qr.
Qed.
Lemma j_add_decay_rel c d e1 e2 x y : jrel c d -> qrel e1 e2 -> vrel x y -> rrel jrel (j_add_decay QN c e1 x) (j_add_decay XN d e2 y).
Proof.
  intros (Hm & Ht & Hs & Hw & Hn & Hwi & Hd & Hq) He Hx. unfold j_add_decay. cbv zeta. rewrite <- Ht, <- Hn.
  assert (He' : qrel (if (j_count c + 1 =? 1)%Z then nz QN 1 else e1) (if (j_count c + 1 =? 1)%Z then nz XN 1 else e2)).
  { destruct (_ =? _)%Z; [apply qrel_nz|exact He]. }
  pose proof (deltas_rel _ _ _ _ Hx Hm) as HD.
  eapply rrel_bind; [apply upd_tuples_rel; [apply decay_term_rel; [exact He'|exact HD|exact Hs]|exact Hw]|].
  intros m n H. jsplit; try apply Hq; [|apply hcopy_rel; assumption]. unfold add_means. apply vrel_map2; auto. intros. cbn [fst snd]. qr.
Qed.
Lemma j_remove_rel c d x y : jrel c d -> vrel x y -> rrel jrel (j_remove QN c x) (j_remove XN d y).
Proof.
  intros (Hm & Ht & Hs & Hw & Hn & Hwi & Hd & Hq) Hx. unfold j_remove. cbv zeta. rewrite <- Ht, <- Hn.
  destruct (j_count c - 1 >? 0)%Z.
  - set (mq := map _ (combine x (j_means c))). set (mx := map _ (combine y (j_means d))).
    assert (HM : vrel mq mx) by (apply vrel_map2; auto; intros; cbn [fst snd]; pose proof (qrel_nz (j_count c - 1)); qr).
    eapply rrel_bind; [apply rem_tuples_rel; [apply qrel_nz|apply deltas_rel; [exact Hx|exact HM]|exact Hs|exact Hw]|].
    intros [s m] [s' n] [H1 H2]. cbn [fst snd] in *. jsplit; try apply Hq.
  - jsplit; try apply Hq; [apply vrel_map; [intros; apply qrel_nz|exact Hm]|apply hzero_rel; exact Hs|apply hzero_rel; exact Hw].
Qed.
Lemma jpush_rel c d x y : jrel c d -> vrel x y -> rrel jrel (jpush QN c x) (jpush XN d y).
Proof.
  intros Hc Hx. pose proof Hc as (Hm & Ht & Hs & Hw & Hn & Hwi & Hd & Hq). unfold jpush, j_push. rewrite (vrel_length _ _ Hx), (vrel_length _ _ Hm), <- Hwi.
  destruct (negb (Nat.eqb _ _)); [reflexivity|].
  eapply (rrel_bind jrel).
  - destruct (negb (j_window c =? 0)%Z); [|exact Hc].
    eapply (rrel_bind jrel).
    + unfold ring_len, zlen. rewrite (Forall2_length _ _ _ (proj2 Hq)). destruct (_ =? _)%Z; [|exact Hc].
      destruct Hq as [Hq1 Hq2]. unfold ring_get. inversion Hq2 as [E1 E2|a b l1 l2 Hab Hl E1 E2]; cbn [bind rrel]; [exact I|].
      apply j_remove_rel; [|exact Hab]. jsplit.
    + intros c1 d1 (A1 & A2 & A3 & A4 & A5 & A6 & A7 & [A8 A9]). unfold ring_put, ring_len, zlen. rewrite A8, (Forall2_length _ _ _ A9). destruct (_ <? _)%Z; cbn [bind rrel]; [|exact I].
      jsplit. cbn [ritems]. apply Forall2_app; [exact A9|constructor; auto].
  - intros c1 d1 H1. pose proof H1 as (_ & _ & _ & _ & _ & _ & A7 & _). unfold orel in A7.
    destruct (j_decay c1), (j_decay d1); try contradiction; [apply j_add_decay_rel; assumption|apply j_add_rel; assumption].
Qed.
Lemma j_clear_rel c d : jrel c d -> rrel jrel (j_clear QN c) (j_clear XN d).
Proof.
  intros (Hm & Ht & Hs & Hw & Hn & Hwi & Hd & Hq). unfold j_clear. cbn [rrel]. rewrite Hwi. jsplit; [apply vrel_map; [intros; apply qrel_nz|exact Hm]|apply hzero_rel; exact Hs|apply hzero_rel; exact Hw|constructor].
Qed.
Definition qpops (ops : list (op (list Q))) : list (op (list (option Q))) := map (fun o => match o with OPush x => OPush (map Some x) | OClear => OClear end) ops.
Definition rpops (ops : list (op (list Q))) : list (op (list R)) := map (fun o => match o with OPush x => OPush (map Q2R x) | OClear => OClear end) ops.
Lemma vrel_some x : vrel (map Some x) (map Fin (map Q2R x)).
Proof. induction x; constructor; [reflexivity|assumption]. Qed.
Lemma jcore_run_rel ops : forall c d, jrel c d -> rrel jrel (jcore_run QN c (qpops ops)) (jcore_run XN d (pops (rpops ops))).
Proof.
  unfold jcore_run. induction ops as [|[x|] ops IH]; intros c d H; cbn [qpops rpops pops map run pop]; [exact H| |].
  - eapply rrel_bind; [apply jpush_rel; [exact H|apply vrel_some]|]. exact IH.
  - eapply rrel_bind; [apply j_clear_rel; exact H|]. exact IH.
Qed.
Lemma init_keys_rel ts : hrel (init_keys QN ts) (init_keys XN ts).
Proof.
  unfold init_keys. assert (H0 : hrel (fun _ => None) (fun _ => None)) by (intros h; exact I). revert H0. generalize (fun _ : Z => @None (option Q)) (fun _ : Z => @None xr).
  induction ts as [|t ts IH]; intros m n H; cbn [fold_left]; [exact H|]. apply IH. revert m n H. induction (iter_list t false) as [|a l IHl]; intros m n H; cbn [fold_left]; [exact H|].
  apply IHl. apply hput_rel; [exact H|apply qrel_nz].
Qed.
Lemma jnew_core_rel s w v : rrel jrel (jnew_core QN (mkJCfg s w v None)) (jnew_core XN (mkJCfg s w v None)).
Proof.
  unfold jnew_core. eapply (rrel_bind eq). { unfold jvalidate. cbn [jf_window jf_vars jf_decay jsums_of jf_sums]. apply rrel_eq. }
  intros [] [] _. cbn [jf_window jf_vars jf_decay jsums_of jf_sums]. destruct w as [w|]; [|exact I].
  assert (G : forall ts v0, jrel (mkJ (repeat (nz QN 0) v0) ts (init_keys QN ts) (init_keys QN ts) 0 w None (ring_new w)) (mkJ (repeat (nz XN 0) v0) ts (init_keys XN ts) (init_keys XN ts) 0 w None (ring_new w))).
  { intros ts v0. jsplit; [|apply init_keys_rel|apply init_keys_rel|constructor]. induction v0; constructor; [apply qrel_nz|assumption]. }
  unfold jsums_of. cbn [jf_sums]. destruct v as [v|]; [apply G|]. destruct s as [[|t ts]|]; first [exact I|apply G].
Qed.
Lemma jcore_transfer s w v ops cq : (c <- jnew_core QN (mkJCfg s w v None) ;; jcore_run QN c (qpops ops)) = Ok cq ->
  exists c0 c, jnew_core XN (mkJCfg s w v None) = Ok c0 /\ jcore_run XN c0 (pops (rpops ops)) = Ok c /\ jrel cq c.
Proof.
  intros H. pose proof (jnew_core_rel s w v) as H0. destruct (jnew_core QN (mkJCfg s w v None)) as [q0| | | |]; cbn [bind] in H; try discriminate.
  cbn [rrel] in H0. destruct (jnew_core XN (mkJCfg s w v None)) as [c0| | | |]; try contradiction.
  pose proof (jcore_run_rel ops q0 c0 H0) as H1. rewrite H in H1. cbn [rrel] in H1. destruct (jcore_run XN c0 (pops (rpops ops))) as [c| | | |] eqn:E; try contradiction. exists c0, c. auto.
Qed.
Lemma jsum_transfer cq c m q : jrel cq c -> j_get_sum cq m = Ok (Some q) -> j_get_sum c m = Ok (Fin (Q2R q)).
Proof.
  intros (_ & _ & Hs & _ & Hn & _) H. unfold j_get_sum in *. rewrite <- Hn. destruct (j_count cq =? 0)%Z; [discriminate|]. specialize (Hs (t_hash m)).
  destruct (j_sums cq (t_hash m)); [|discriminate]. injection H as ->. destruct (j_sums c (t_hash m)); cbn in Hs; [|contradiction]. congruence.
Qed.
