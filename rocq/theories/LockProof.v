(** The locking of the metrics follows the discipline; which calls never nest read locks. *)
From Verif Require Import Base F64 NumModel RingModel MinMaxModel HeapModel QuantileModel MomentModel JointModel MathModel ConcModel ConcProof LockModel.
Local Open Scope Z_scope.

Section Frag.
Context {S O R : Type}.
Variable apply : O -> S -> S * R.
Lemma wsection_disc o f ret : (forall s, apply o s = upd_spec f ret s) -> disc apply o (wsection f ret).
Proof. intros H. apply d_write. intros s. rewrite H. unfold upd_spec. cbn [fst snd]. apply w_get, w_put, w_unlock. Qed.
Lemma lsection_disc o f : (forall s, apply o s = (s, f s)) -> disc apply o (lsection f).
Proof. intros H. apply d_write. intros s. rewrite H. cbn [fst snd]. apply w_get, w_unlock. Qed.
Lemma rsection_rsec {B} s n (f : S -> B) (k : B -> prog S R) p : rsec s (Datatypes.S n) (k (f s)) p -> rsec s (Datatypes.S n) (rsection f k) p.
Proof. intros H. apply r_rlock, r_get, r_runlock. exact H. Qed.
Lemma read_disc o k r : (forall s, apply o s = (s, r s)) -> (forall s, rsec s 1 k (Ret (r s))) -> disc apply o (RLock k).
Proof. intros H Hk. apply d_read. intros s. left. rewrite H. cbn [fst snd]. split; [reflexivity|apply Hk]. Qed.
Lemma rsection_disc o {B} (f : S -> B) (k : B -> prog S R) r : (forall s, apply o s = (s, r s)) -> (forall s, k (f s) = Ret (r s)) -> disc apply o (rsection f k).
Proof. intros H Hk. eapply read_disc; [exact H|]. intros s. apply r_get, r_runlock. rewrite Hk. apply r_end. Qed.
Lemma rsection_flat {B} (f : S -> B) (k : B -> prog S R) : (forall b, nonest false (k b)) -> nonest false (rsection f k).
Proof. intros H. apply n_rlock, n_get. intros s. apply n_runlock, H. Qed.
End Frag.

Lemma nested_start {S O R} (code : O -> prog S R) o c k : code o = RLock (RLock k) -> exists n k, alone code o c (Datatypes.S n) (RLock k).
Proof. intros H. exists 0%nat, k. apply a_rlock. rewrite <- H. apply a_start. Qed.

Ltac rs := repeat first [apply r_end | apply rsection_rsec; cbn beta | apply r_rlock | apply r_runlock | progress unfold try].

Section MomentLock.
Context {T : Type} (N : Num T).
Lemma mvalue_rsec k s n (ret : res T -> prog (@core T) (@mres T)) p : rsec s n (ret (moment_value N s k)) p -> rsec s (Datatypes.S n) (rsection (fun c => c_get_sum c k) (fun r => try r
    (fun m => rsection c_get_count (fun n => RUnlock (ret (Ok (ndiv N m (nsub N (nz N n) (nz N 1)))))))
    (fun e => RUnlock (ret e)))) p.
Proof.
  intros H. apply rsection_rsec. unfold moment_value in H. destruct (c_get_sum s k); cbn [bind try] in *; rs; exact H.
Qed.
Lemma mvalue_code_rsec k s n (ret : res T -> prog (@core T) (@mres T)) p : rsec s (Datatypes.S n) (ret (moment_value N s k)) p -> rsec s (Datatypes.S n) (mvalue_code N k ret) p.
Proof. intros H. apply r_rlock. apply mvalue_rsec. exact H. Qed.
Lemma kcode_disc k : disc (mapply N) (MValue k) (kcode N k).
Proof.
  destruct k as [w|k w|w|w|w|d|k d|d]; cbn [kcode].
  - eapply read_disc; [reflexivity|]. intros s. rs.
  - eapply read_disc; [reflexivity|]. intros s. apply (mvalue_rsec k s 0 (fun r => Ret (MVal r))). rs.
  - eapply read_disc; [reflexivity|]. intros s. apply (mvalue_rsec 2 s 0 (fun r => Ret (MVal (rmap (nsqrt N) r)))). cbn [kvalue]. destruct (moment_value N s 2); rs.
  - eapply read_disc; [reflexivity|]. intros s. apply rsection_rsec. cbn [kvalue]. destruct (c_get_count s =? 0); [rs|]. apply mvalue_code_rsec. destruct (moment_value N s 2); cbn [try bind]; [|rs..]. apply mvalue_code_rsec. destruct (moment_value N s 3); cbn [try bind]; rs.
  - eapply read_disc; [reflexivity|]. intros s. apply rsection_rsec. cbn [kvalue]. destruct (c_get_count s =? 0); [rs|]. apply mvalue_code_rsec. destruct (moment_value N s 2); cbn [try bind]; [|rs..]. apply mvalue_code_rsec. destruct (moment_value N s 4); cbn [try bind]; rs.
  - eapply read_disc; [reflexivity|]. intros s. rs.
  - eapply rsection_disc; [reflexivity|]. intros s. reflexivity.
  - eapply rsection_disc; [reflexivity|]. intros s. cbn [kvalue]. destruct (c_get_sum s 2); reflexivity.
Qed.
Lemma mcode_disc : disciplined (mcode N) (mapply N).
Proof.
  intros [x| |k| | |k]; cbn [mcode].
  - apply wsection_disc. reflexivity.
  - apply wsection_disc. reflexivity.
  - apply kcode_disc.
  - eapply rsection_disc; reflexivity.
  - eapply rsection_disc; reflexivity.
  - eapply rsection_disc; reflexivity.
Qed.
(** A core used with flat calls only. *)
Definition mflat_code (o : @mcall T) : prog (@core T) (@mres T) := if mflat o then mcode N o else Ret (MInt 0).
Lemma mflat_nonest o : mflat o = true -> nonest false (mcode N o).
Proof. destruct o as [x| |k| | |k]; try destruct k; intros H; try discriminate; cbn [mcode kcode]; try apply n_lock; apply rsection_flat; intros b; apply n_ret. Qed.
(** The others read lock twice. *)
Lemma mnested o c : mflat o = false -> exists n k, alone (mcode N) o c (Datatypes.S n) (RLock k).
Proof.
  intros H. destruct o as [x| |[]| | |]; try discriminate; eapply nested_start; reflexivity.
Qed.
End MomentLock.

Section JointLock.
Context {T : Type} (N : Num T).
Lemma jkcode_rsec {S R} (sum : tuple -> S -> res T) (count : S -> res Z) k (ret : res T -> prog S R) s (c : @vcore T) p : (forall m, sum m s = j_get_sum c m) -> count s = Ok (j_get_count c) ->
  rsec s 0 (ret (jvalue N k c)) p -> forall kk, jkcode N sum count k ret = RLock kk -> rsec s 1 kk p.
Proof.
  intros Hs Hc H kk E. assert (CO : rsec s 0 (ret (corr_value N c)) p -> rsec s 1 (rsection (sum [1; 1]) (fun r => try r (fun cov =>
        rsection (sum [2; 0]) (fun r => try r (fun x =>
          rsection (sum [0; 2]) (fun r => try r (fun y => RUnlock (ret (Ok (ndiv N cov (nsqrt N (nmul N x y)))))) (fun e => RUnlock (ret e)))) (fun e => RUnlock (ret e)))) (fun e => RUnlock (ret e)))) p).
  { unfold corr_value. intros Hr. apply rsection_rsec. rewrite Hs. destruct (j_get_sum c [1; 1]); cbn [bind try] in *; [|rs; exact Hr..]. apply rsection_rsec. rewrite Hs. destruct (j_get_sum c [2; 0]); cbn [bind try] in *; [|rs; exact Hr..].
    apply rsection_rsec. rewrite Hs. destruct (j_get_sum c [0; 2]); cbn [bind try] in *; rs; exact Hr. }
  destruct k as [w|w|d|d]; cbn [jkcode jvalue] in *; injection E as <-.
  - apply rsection_rsec. rewrite Hs. destruct (j_get_sum c [1; 1]); cbn [bind try] in *; [|rs; exact H..]. apply rsection_rsec. rewrite Hc. cbn [try]. rs. exact H.
  - apply CO. exact H.
  - apply r_get, r_runlock. rewrite Hs. exact H.
  - apply CO. exact H.
Qed.
Lemma jcode_disc : disciplined (jcode N) (japply N).
Proof.
  intros [xs|xs| |k| |i|m]; cbn [jcode].
  - apply wsection_disc. reflexivity.
  - destruct (negb (Nat.eqb (length xs) 2)) eqn:E; [apply d_ret|apply wsection_disc]; intros s; cbn [japply]; unfold upd_spec; rewrite E; reflexivity.
  - apply wsection_disc. reflexivity.
  - destruct (jkcode N (fun m c => j_get_sum c m) (fun c => Ok (j_get_count c)) k (fun r => Ret (JVal r))) eqn:E; try (destruct k; discriminate).
    eapply read_disc; [reflexivity|]. intros s. cbn beta. eapply jkcode_rsec with (c := s); [| | |exact E]; [reflexivity|reflexivity|apply r_end].
  - eapply rsection_disc; reflexivity.
  - eapply rsection_disc; reflexivity.
  - eapply rsection_disc; reflexivity.
Qed.
Lemma jflat_nonest o : jflat o = true -> nonest false (jcode N o).
Proof.
  destruct o as [xs|xs| |k| |i|m]; try destruct k; intros H; try discriminate; cbn [jcode jkcode]; try destruct (negb (Nat.eqb (length xs) 2)); try apply n_lock; try apply n_ret; apply rsection_flat; intros b; apply n_ret.
Qed.
Lemma jnested o c : jflat o = false -> exists n k, alone (jcode N) o c (Datatypes.S n) (RLock k).
Proof. intros H. destruct o as [xs|xs| |[]| | |]; try discriminate; eapply nested_start; reflexivity. Qed.

Context {V : Type} (view : res T -> V).
Lemma acode_disc k : view (Err ENoValues) = view (Err ETooFew) -> disciplined (acode N view k) (aapply N view k).
Proof.
  intros HV [x| |]; cbn [acode].
  - apply wsection_disc. reflexivity.
  - apply wsection_disc. reflexivity.
  - apply d_read. intros s. cbn [aapply fst snd]. unfold auto_value, as_kind. cbn [a_metric jm_core].
    destruct (jm_core (a_metric s)) as [c|] eqn:Ec; [|left; split; [reflexivity|]; apply r_get; unfold on_core; rewrite Ec; apply r_runlock, r_end].
    assert (OC : on_core (fun c => Ok (j_get_count c)) s = Ok (j_get_count c)) by (unfold on_core; rewrite Ec; reflexivity).
    destruct (j_get_count c =? 0) eqn:E0; [left; split; [reflexivity|]; apply r_get; rewrite OC; cbn beta iota; rewrite E0; apply r_runlock, r_end|]. right.
    eexists. split; [apply r_get; rewrite OC; cbn beta iota; rewrite E0; apply r_runlock, r_end|].
    match goal with |- disc _ _ ?x => destruct x eqn:E end; try (destruct k; discriminate).
    apply d_read. intros s'. left. cbn [aapply fst snd]. split; [reflexivity|]. unfold auto_value, as_kind. cbn [a_metric jm_core].
    destruct (jm_core (a_metric s')) as [c'|] eqn:Ec'.
    + assert (H : rsec s' 1 p (Ret (AVal (view (jvalue N k c'))))).
      { eapply jkcode_rsec with (c := c'); [| | |exact E]; [intros m; unfold on_core; rewrite Ec'; reflexivity|unfold on_core; rewrite Ec'; reflexivity|apply r_end]. }
      destruct (j_get_count c' =? 0) eqn:E1; [|exact H].
      replace (view (Err ETooFew)) with (view (jvalue N k c')); [exact H|]. rewrite <- HV. f_equal. assert (Z0 : forall m, j_get_sum c' m = Err ENoValues) by (intros m; unfold j_get_sum; unfold j_get_count in E1; rewrite E1; reflexivity).
      destruct k; cbn [jvalue]; unfold corr_value; rewrite ?Z0; reflexivity.
    + assert (Z0 : forall m, on_core (fun c => j_get_sum c m) s' = Err ECoreNotSet) by (intros m; unfold on_core; rewrite Ec'; reflexivity).
      destruct k; cbn [jkcode] in E; injection E as <-; [apply rsection_rsec; rewrite Z0; cbn [try]; rs..|apply r_get; rewrite Z0; rs|apply rsection_rsec; rewrite Z0; cbn [try]; rs].
Qed.
(** The kind is never changed. *)
Lemma as_kind_same (a : @auto T) : as_kind (jm_kind (a_metric a)) a = a.
Proof. destruct a as [l q [k c]]. reflexivity. Qed.
End JointLock.

Section QuantileLock.
Variable e : env.
Lemma qvalue_bad q phi : fle phi (fz 0) || fge phi (fz 1) = true -> q_value e q phi = Err EBadQuantile.
Proof. intros H. unfold q_value. rewrite H. reflexivity. Qed.
Lemma qvalue_code_disc o phi : (forall q, qapply e o q = (q, QVal (q_value e q phi))) -> disc (qapply e) o (qvalue_code e phi (fun r => Ret (QVal r))).
Proof.
  intros H. unfold qvalue_code. destruct (fle phi (fz 0) || fge phi (fz 1)) eqn:E; [|eapply rsection_disc; [exact H|reflexivity]].
  apply d_ret. intros q. rewrite H, (qvalue_bad _ _ E). reflexivity.
Qed.
Lemma qvalue_code_rsec phi q n ret p : rsec q (Datatypes.S n) (ret (q_value e q phi)) p -> rsec q (Datatypes.S n) (qvalue_code e phi ret) p.
Proof.
  intros H. unfold qvalue_code. destruct (fle phi (fz 0) || fge phi (fz 1)) eqn:E; [rewrite (qvalue_bad _ _ E) in H; exact H|]. apply rsection_rsec. exact H.
Qed.
Lemma qcode_disc : disciplined (qcode e) (qapply e).
Proof.
  intros [x| |phi| |]; cbn [qcode].
  - apply wsection_disc. reflexivity.
  - apply wsection_disc. reflexivity.
  - apply qvalue_code_disc. reflexivity.
  - apply qvalue_code_disc. reflexivity.
  - eapply read_disc; [reflexivity|]. intros q. apply qvalue_code_rsec. cbn beta. unfold iqr_value. destruct (q_value e q (fdy 1 (-2))) as [q25|er| | |]; cbn [try bind]; [|apply r_runlock, r_end..].
    apply qvalue_code_rsec. apply r_runlock. destruct (q_value e q (fdy 3 (-2))) as [q75|er| | |]; apply r_end.
Qed.
Lemma qflat_nonest o : qflat o = true -> nonest false (qcode e o).
Proof.
  destruct o as [x| |phi| |]; intros H; try discriminate; cbn [qcode]; try apply n_lock; unfold qvalue_code; [destruct (fle phi (fz 0) || fge phi (fz 1))|destruct (fle (fdy 1 (-1)) (fz 0) || fge (fdy 1 (-1)) (fz 1))]; try apply n_ret; apply rsection_flat; intros b; apply n_ret.
Qed.
Lemma quarter_ok : fle (fdy 1 (-2)) (fz 0) || fge (fdy 1 (-2)) (fz 1) = false.
Proof. vm_compute. reflexivity. Qed.
Lemma qnested q : exists n k, alone (qcode e) QIqr q (Datatypes.S n) (RLock k).
Proof.
  eexists 0%nat, _. apply a_rlock. pose proof (a_start (qcode e) QIqr q) as H. cbn [qcode] in H. unfold qvalue_code at 1 in H. rewrite quarter_ok in H. unfold rsection at 1 in H. exact H.
Qed.
End QuantileLock.

Lemma vcode_disc {S} (push : S -> f64 -> res S) clear value : disciplined (vcode push clear value) (vapply push clear value).
Proof. intros [x| |]; cbn [vcode]; [apply wsection_disc|apply wsection_disc|apply lsection_disc]; reflexivity. Qed.
Lemma vcode_nonest {S} (push : S -> f64 -> res S) clear value o : nonest false (vcode push clear value o).
Proof. destruct o; apply n_lock. Qed.
