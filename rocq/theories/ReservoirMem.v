(** Reservoir sampling on memory: samples are copies. *)
From Verif Require Import Base ReservoirModel ReservoirProof.
From Coq Require Import QArith.
Local Open Scope nat_scope.
Section Mem.
Context {A : Type}.
Notation ws := (@wstate A).
Lemma store_len (m : list (list A)) : forall p a, length (store m p a) = length m.
Proof. induction m as [|b m IH]; intros [|p] a; cbn; auto. Qed.
Lemma deref_same (m : list (list A)) : forall p a, p < length m -> deref (store m p a) p = a.
Proof. induction m as [|b m IH]; intros [|p] a H; cbn in *; try lia; [reflexivity|]. apply IH. lia. Qed.
Lemma deref_other (m : list (list A)) : forall p q a, p <> q -> deref (store m p a) q = deref m q.
Proof. induction m as [|b m IH]; intros [|p] [|q] a H; cbn in *; try reflexivity; try contradiction. apply IH. congruence. Qed.
Lemma deref_app (m : list (list A)) a p : p < length m -> deref (m ++ [a]) p = deref m p.
Proof. intros H. unfold deref. apply app_nth1. exact H. Qed.
(** Every slice handed out is an array of its own. *)
Definition winv (s : ws) : Prop := mr_sample (w_res s) < length (w_mem s) /\ (forall p, In p (w_got s) -> p <> mr_sample (w_res s) /\ p < length (w_mem s)) /\ NoDup (w_got s).
Definition wload (s : ws) : reservoir A := mr_load (w_mem s) (w_res s).
Fixpoint wpushed (ops : list (@wop A)) : list A := match ops with [] => [] | WPush x :: o => x :: wpushed o | _ :: o => wpushed o end.

Lemma wstep_supp o (s : ws) r : winv s -> supp (wstep o s) r ->
  match o with
  | WPush x => exists r1, supp (rv_push x (wload s)) r1 /\
      r = rmap (fun r' => mkW (store (w_mem s) (mr_sample (w_res s)) (rv_sample r')) (mkMr (rv_size r') (mr_sample (w_res s)) (rv_count r')) (w_got s)) r1
  | WSample => r = Ok (mkW (w_mem s ++ [deref (w_mem s) (mr_sample (w_res s))]) (w_res s) (w_got s ++ [length (w_mem s)]))
  | WWrite k i x => r = Ok s \/ exists p a, nth_error (w_got s) k = Some p /\ r = Ok (mkW (store (w_mem s) p a) (w_res s) (w_got s))
  end.
Proof.
  intros I H. destruct o as [x| |k i x]; cbn [wstep] in H.
  - apply supp_bind in H. destruct H as (r2 & H2 & H). apply supp_ret in H. unfold mr_push in H2. apply supp_bind in H2. destruct H2 as (r1 & H1 & H2). apply supp_ret in H2. exists r1. split; [exact H1|]. subst. destruct r1; reflexivity.
  - unfold mr_get in H. apply supp_ret in H. exact H.
  - destruct (nth_error (w_got s) k) as [p|] eqn:E; apply supp_ret in H; [|auto]. destruct (slice_set _ _ _) as [a|e| | |]; auto. right. exists p, a. auto.
Qed.
Lemma wstep_inv o (s s' : ws) : winv s -> supp (wstep o s) (Ok s') -> winv s' /\ (forall k p, nth_error (w_got s) k = Some p -> nth_error (w_got s') k = Some p) /\
  (forall k p, nth_error (w_got s) k = Some p -> (forall i x, o <> WWrite k i x) -> deref (w_mem s') p = deref (w_mem s) p).
Proof.
  intros I H. pose proof (wstep_supp o s _ I H) as HS. destruct I as (I1 & I2 & I3). destruct o as [x| |k i x].
  - destruct HS as (r1 & _ & E). destruct r1 as [r1|e| | |]; try discriminate. injection E as ->. split; [split; [|split]|split]; cbn [w_mem w_res w_got mr_sample]; auto.
    + rewrite store_len. exact I1.
    + intros p Hp. rewrite store_len. apply I2. exact Hp.
    + intros k p Hp _. apply deref_other. apply nth_error_In in Hp. apply I2 in Hp. intuition.
  - injection HS as ->. split; [split; [|split]|split]; cbn [w_mem w_res w_got mr_sample].
    + rewrite app_length. lia.
    + intros p Hp. rewrite app_length. cbn [length]. apply in_app_or in Hp. destruct Hp as [Hp|[<-|[]]]; [destruct (I2 p Hp); split; [assumption|lia]|]. split; lia.
    + assert (X : NoDup (w_got s ++ [length (w_mem s)])); [|exact X]. assert (Hn : ~ In (length (w_mem s)) (w_got s)) by (intros Y; apply I2 in Y; lia). clear -I3 Hn. induction (w_got s) as [|a l IH]; cbn; [constructor; [intros []|constructor]|].
      inversion I3; subst. constructor; [rewrite in_app_iff; intros [X|[X|[]]]; [contradiction|subst; apply Hn; left; reflexivity]|]. apply IH; [assumption|intros X; apply Hn; right; exact X].
    + intros k p Hp. rewrite nth_error_app1; [exact Hp|]. apply nth_error_Some. congruence.
    + intros k p Hp _. apply nth_error_In in Hp. apply I2 in Hp. apply deref_app. lia.
  - destruct HS as [E|(p & a & Ep & E)]; injection E as ->; [split; [repeat split; auto; apply I2; assumption|split; auto]|].
    split; [split; [|split]|split]; cbn [w_mem w_res w_got mr_sample]; auto.
    + rewrite store_len. exact I1.
    + intros q Hq. rewrite store_len. apply I2. exact Hq.
    + intros k' q Hq D. apply deref_other. intros ->. apply (D i x). f_equal. apply (proj1 (NoDup_nth_error (w_got s)) I3); [apply nth_error_Some; congruence|congruence].
Qed.
Lemma wload_sample (s : ws) : winv s -> wload (mkW (w_mem s ++ [deref (w_mem s) (mr_sample (w_res s))]) (w_res s) (w_got s ++ [length (w_mem s)])) = wload s.
Proof. intros (I1 & _). unfold wload, mr_load. cbn [w_mem w_res]. rewrite deref_app by exact I1. reflexivity. Qed.
(** The reservoir's distribution does not depend on what the client does with its samples. *)
Lemma wrun_expect ops f : forall s, winv s -> (expect (fun o => f (rmap wload o)) (wrun ops s) == expect f (rv_pushes (wpushed ops) (wload s)))%Q.
Proof.
  induction ops as [|o ops IH]; intros s I; cbn [wrun wpushed]; [cbn [rv_pushes]; rewrite !expect_ret; reflexivity|].
  assert (HI : forall s', supp (wstep o s) (Ok s') -> winv s') by (intros s' H; exact (proj1 (wstep_inv o s s' I H))).
  destruct o as [x| |k i x].
  - cbn [rv_pushes]. rewrite expect_bind. cbn [wstep]. rewrite expect_bind. unfold mr_push at 1. rewrite expect_bind, expect_bind. apply expect_ext. intros r1 H1.
    rewrite expect_ret, expect_ret. destruct r1 as [r1|e| | |]; cbn [rmap bind]; try (rewrite !expect_ret; reflexivity). cbn [fst snd].
    set (s' := mkW _ _ _). assert (E : wload s' = r1). { unfold wload, mr_load, s'. cbn [w_mem w_res mr_size mr_sample mr_count]. rewrite deref_same by exact (proj1 I). destruct r1; reflexivity. }
    assert (I' : winv s'). { apply HI. cbn [wstep]. apply supp_bind. exists (Ok (store (w_mem s) (mr_sample (w_res s)) (rv_sample r1), mkMr (rv_size r1) (mr_sample (w_res s)) (rv_count r1))). split; [|apply supp_ret; reflexivity].
      unfold mr_push. apply supp_bind. exists (Ok r1). split; [exact H1|apply supp_ret; reflexivity]. }
    rewrite (IH s' I'), E. reflexivity.
  - rewrite expect_bind. cbn [wstep mr_get]. rewrite expect_ret. assert (E := wload_sample s I). rewrite IH; [rewrite E; reflexivity|]. apply HI. cbn [wstep mr_get]. apply supp_ret. reflexivity.
  - rewrite expect_bind. assert (HW : forall r, supp (wstep (WWrite k i x) s) r -> exists s', r = Ok s' /\ wload s' = wload s).
    { intros r Hr. destruct (wstep_supp _ s r I Hr) as [->|(p & a & Ep & ->)]; [eauto|]. eexists. split; [reflexivity|]. unfold wload, mr_load. cbn [w_mem w_res]. rewrite deref_other; [reflexivity|]. apply nth_error_In in Ep. apply (proj1 (proj2 I)) in Ep. intuition. }
    rewrite (expect_ext _ (fun _ => expect f (rv_pushes (wpushed ops) (wload s)))).
    + cbn [wstep]. destruct (nth_error (w_got s) k); [destruct (slice_set _ _ _)|]; rewrite expect_ret; reflexivity.
    + intros r Hr. destruct (HW r Hr) as (s' & -> & E). rewrite <- E. apply IH. apply HI. exact Hr.
Qed.
Lemma wrun_inv ops : forall s s', winv s -> supp (wrun ops s) (Ok s') -> winv s' /\
  (forall k p, nth_error (w_got s) k = Some p -> nth_error (w_got s') k = Some p /\ ((forall i x, ~ In (WWrite k i x) ops) -> deref (w_mem s') p = deref (w_mem s) p)).
Proof.
  induction ops as [|o ops IH]; intros s s' I H; cbn [wrun] in H.
  - apply supp_ret in H. injection H as ->. auto.
  - apply supp_bind in H. destruct H as (r & Hr & H). destruct r as [s1|e| | |]; try (apply supp_ret in H; discriminate). destruct (wstep_inv o s s1 I Hr) as (I1 & G1 & D1). destruct (IH s1 s' I1 H) as (I' & HH). split; [exact I'|].
    intros k p Hp. destruct (HH k p (G1 k p Hp)) as (A1 & A2). split; [exact A1|]. intros HN. rewrite A2 by (intros i x X; apply (HN i x); right; exact X). apply D1 with (k := k); [exact Hp|]. intros i x ->. apply (HN i x). left. reflexivity.
Qed.
Lemma winit_inv size : winv (@winit A size).
Proof. split; [cbn; lia|]. split; [intros p []|constructor]. Qed.
End Mem.
