(** Reservoir sampling: C36, C37, C46. *)
From Verif Require Import Base ReservoirModel ReservoirProof ReservoirMem.
From Coq Require Import QArith Permutation Factorial.
Local Open Scope nat_scope.

(** ** Values are only carried around *)
Definition rvmap {A B} (g : A -> B) (r : reservoir A) : reservoir B := mkRv (rv_size r) (map g (rv_sample r)) (rv_count r).
Definition dmap {A B} (g : A -> B) (d : dist A) : dist B := map (fun p => (fst p, g (snd p))) d.
Lemma dmap_bind {A B C} (g : B -> C) (d : dist A) k : dmap g (dbind d k) = dbind d (fun a => dmap g (k a)).
Proof.
  unfold dmap, dbind. induction d as [|p d IH]; [reflexivity|]. cbn [flat_map]. rewrite map_app, IH. f_equal. rewrite !map_map. reflexivity.
Qed.
Lemma bind_dmap {A B C} (g : A -> B) (d : dist A) (k : B -> dist C) : dbind (dmap g d) k = dbind d (fun a => k (g a)).
Proof. unfold dmap, dbind. induction d as [|p d IH]; [reflexivity|]. cbn [map flat_map fst snd]. rewrite IH. reflexivity. Qed.
Lemma dbind_ext {A B} (d : dist A) (k k' : A -> dist B) : (forall a, k a = k' a) -> dbind d k = dbind d k'.
Proof. intros H. unfold dbind. apply flat_map_ext. intros p. rewrite H. reflexivity. Qed.
Lemma slice_set_map {A B} (g : A -> B) s i x : slice_set (map g s) i (g x) = rmap (map g) (slice_set s i x).
Proof. unfold slice_set, zlen. rewrite map_length. destruct (_ && _); [|reflexivity]. cbn [rmap bind]. rewrite map_app, firstn_map. cbn [map]. rewrite skipn_map. reflexivity. Qed.
Lemma push_map {A B} (g : A -> B) x r : rv_push (g x) (rvmap g r) = dmap (rmap (rvmap g)) (rv_push x r).
Proof.
  unfold rv_push. cbn [rvmap rv_size rv_sample rv_count]. destruct (_ <=? _)%Z.
  - unfold dmap, dret, rvmap. cbn. rewrite map_app. reflexivity.
  - rewrite dmap_bind. apply dbind_ext. intros o. unfold dmap, dret. cbn [map fst snd]. do 2 f_equal. destruct o as [i|e| | |]; try reflexivity. cbn [bind rmap]. destruct (_ <? _)%Z; [|reflexivity]. rewrite slice_set_map.
    destruct (slice_set (rv_sample r) i x); reflexivity.
Qed.
Lemma pushes_map {A B} (g : A -> B) l : forall r, rv_pushes (map g l) (rvmap g r) = dmap (rmap (rvmap g)) (rv_pushes l r).
Proof.
  induction l as [|x l IH]; intros r; cbn [map rv_pushes]; [reflexivity|]. rewrite push_map, bind_dmap, dmap_bind. apply dbind_ext. intros [r'|e| | |]; cbn [rmap bind]; try reflexivity. apply IH.
Qed.
Lemma seq_values {A} (l : list A) d : l = map (fun i => nth i l d) (seq 0 (length l)).
Proof.
  apply nth_ext with (d := d) (d' := d); [rewrite map_length, seq_length; reflexivity|]. intros i Hi. rewrite (nth_indep (map _ _) d (nth 0 l d)) by (rewrite map_length, seq_length; exact Hi).
  rewrite (map_nth (fun i => nth i l d)), seq_nth by exact Hi. reflexivity.
Qed.
Lemma by_positions {A} (l : list A) d z : rv_pushes l (rv_new z) = dmap (rmap (rvmap (fun i => nth i l d))) (rv_pushes (seq 0 (length l)) (rv_new z)).
Proof. rewrite <- pushes_map. rewrite <- seq_values. reflexivity. Qed.

(** ** C36 *)
(** Whatever the random choices, no push panics, and the sample consists of the values at
    min(n, max(Size, 0)) distinct positions of the stream. *)
Theorem C36_sample {A} (l : list A) (size : Z) o : supp (rv_pushes l (rv_new size)) o ->
  exists r ps, o = Ok r /\ NoDup ps /\ (forall p, In p ps -> p < length l) /\ Z.of_nat (length ps) = Z.min (zlen l) (Z.max size 0) /\
    forall d, rv_sample r = map (fun p => nth p l d) ps.
Proof.
  intros H. destruct l as [|d l'].
  { cbn in H. apply supp_ret in H. exists (rv_new size), []. subst. repeat split; try constructor; try contradiction. unfold zlen. cbn [length]. lia. }
  set (l := d :: l') in *. rewrite (by_positions l d) in H. destruct H as [q H]. apply in_map_iff in H. destruct H as ((q' & o') & E & H). cbn [fst snd] in E. injection E as _ <-.
  destruct (support size (length l) o') as (r & -> & I); [exists q'; exact H|]. destruct (positions_inv _ r size _ I) as (N & Hp & L). exists (rvmap (fun i => nth i l d) r), (rv_sample r). repeat split; auto.
  - unfold zlen. lia.
  - intros d'. cbn [rvmap rv_sample]. apply map_ext_in. intros p Hi. apply nth_indep. apply Hp. exact Hi.
Qed.
Print Assumptions C36_sample.
(** Sample returns a copy: clients may write into the slices they get without influencing
    the reservoir (its distribution is that of the pushes alone), *)
Theorem C36_no_influence {A} (size : Z) (ops : list (@wop A)) f :
  (expect (fun o => f (rmap (fun s => rv_sample (mr_load (w_mem s) (w_res s))) o)) (wrun ops (winit size)) == expect (fun o => f (rmap rv_sample o)) (rv_pushes (wpushed ops) (rv_new size)))%Q.
Proof.
  pose proof (wrun_expect ops (fun o => f (rmap rv_sample o)) (winit size) (winit_inv size)) as H. change (wload (winit size)) with (@rv_new A size) in H. rewrite <- H. apply expect_ext. intros [s|e| | |] _; reflexivity.
Qed.
Print Assumptions C36_no_influence.
(** and a slice once returned changes only by the client's own writes to it. *)
Theorem C36_stable {A} (size : Z) (ops ops' : list (@wop A)) s s' k p : supp (wrun ops (winit size)) (Ok s) -> supp (wrun ops' s) (Ok s') -> nth_error (w_got s) k = Some p -> (forall i x, ~ In (WWrite k i x) ops') ->
  nth_error (w_got s') k = Some p /\ deref (w_mem s') p = deref (w_mem s) p.
Proof.
  intros H1 H2 Hp HN. destruct (wrun_inv ops (winit size) s (winit_inv size) H1) as (I & _). destruct (wrun_inv ops' s s' I H2) as (_ & H). destruct (H k p Hp) as (A1 & A2). auto.
Qed.
Print Assumptions C36_stable.
Example C36_case : map (fun p => rmap rv_sample (snd p)) (rv_pushes [7; 8; 9] (rv_new 2)) = [Ok [9; 8]; Ok [7; 9]; Ok [7; 8]] /\
  map (fun p => rmap (fun s => (deref (w_mem s) 0, deref (w_mem s) 1)) (snd p)) (wrun [WPush 7; WSample; WWrite 0 0 5; WPush 8] (winit 2)) = [Ok ([7; 8], [5])].
Proof. split; vm_compute; reflexivity. Qed.

(** ** C37 *)
(** For an ideal rand.Intn, every set [t] of Size positions is the sample with probability
    1 / (n choose Size), *)
Theorem C37_uniform (size : Z) (n : nat) (t : list nat) : NoDup t -> length t = Z.to_nat size -> (forall p, In p t -> p < n) -> Z.to_nat size <= n ->
  (expect (fun o => match o with Ok r => if sample_is t (Ok r) then 1 else 0 | _ => 0 end) (rv_pushes (seq 0 n) (rv_new size)) ==
   inject_Z (Z.of_nat (fact (Z.to_nat size) * fact (n - Z.to_nat size))) / inject_Z (Z.of_nat (fact n)))%Q.
Proof.
  intros N L H Hk. rewrite <- (uniform size n t N L Hk H). unfold psample. apply expect_ext. intros [r|e| | |] _; try reflexivity.
Qed.
Print Assumptions C37_uniform.
(** [sample_is t] is as intended, *)
Theorem C37_sample_is (t : list nat) r : NoDup t -> sample_is t (Ok r) = true <-> Permutation (rv_sample r) t.
Proof. exact (sample_is_spec t r). Qed.
Print Assumptions C37_sample_is.
(** every position is sampled with probability Size / n, *)
Theorem C37_inclusion (size : Z) (n p : nat) : (0 < size <= Z.of_nat n)%Z -> p < n ->
  (expect (fun o => match o with Ok r => if in_dec Nat.eq_dec p (rv_sample r) then 1 else 0 | _ => 0 end) (rv_pushes (seq 0 n) (rv_new size)) == inject_Z size / inject_Z (Z.of_nat n))%Q.
Proof.
  intros Hs Hp. replace (inject_Z size) with (inject_Z (Z.of_nat (Z.to_nat size))) by (f_equal; lia). rewrite <- (incl_prob size n p) by lia. apply expect_ext. intros [r|e| | |] _; try reflexivity.
  cbn [pos_in]. destruct (in_dec Nat.eq_dec p (rv_sample r)) as [H|H]; [apply mem_In in H; rewrite H; reflexivity|]. destruct (mem p (rv_sample r)) eqn:M; [apply mem_In in M; contradiction|reflexivity].
Qed.
Print Assumptions C37_inclusion.
(** the probabilities add up to 1, and a stream of any values is sampled by position. *)
Theorem C37_distribution {A} (l : list A) d size :
  (expect (fun _ => 1%Q) (rv_pushes l (rv_new size)) == 1)%Q /\ rv_pushes l (rv_new size) = dmap (rmap (rvmap (fun i => nth i l d))) (rv_pushes (seq 0 (length l)) (rv_new size)).
Proof. split; [exact (expect_one _ size l [] _ (new_inv size))|apply by_positions]. Qed.
Print Assumptions C37_distribution.
Example C37_case : NoDup [3; 1] /\ length [3; 1] = Z.to_nat 2 /\ (expect (fun o => if sample_is [3; 1]%nat o then 1 else 0) (rv_pushes (seq 0 5%nat) (rv_new 2)) == 1 # 10)%Q /\
  (expect (fun o => if sample_is [0; 1]%nat o then 1 else 0) (rv_pushes (seq 0 5%nat) (rv_new 2)) == 1 # 10)%Q.
Proof. split; [repeat constructor; cbn; lia|]. repeat split; vm_compute; reflexivity. Qed.

(** ** C46: assigning the exported field Size between pushes *)
Inductive sop (A : Type) := SPush (x : A) | SSize (z : Z).
Arguments SPush {A} x. Arguments SSize {A} z.
Fixpoint srun {A} (ops : list (sop A)) (r : reservoir A) : dist (res (reservoir A)) :=
  match ops with
  | [] => dret (Ok r)
  | SPush x :: o => dbind (rv_push x r) (fun a => match a with Ok r' => srun o r' | e => dret e end)
  | SSize z :: o => srun o (mkRv z (rv_sample r) (rv_count r))
  end.
(** C46 is false: after a Size of 0 with one push, Size 2 leads to a panic. *)
Theorem C46_resize_refuted : exists ops : list (sop nat), supp (srun ops (rv_new 0)) Panic.
Proof.
  exists [SPush 5; SSize 2; SPush 6; SPush 7]. exists ((1 # 3))%Q. vm_compute. auto 20.
Qed.
Print Assumptions C46_resize_refuted.
Fixpoint shrinking {A} (z : Z) (ops : list (sop A)) : Prop := match ops with [] => True | SPush _ :: o => shrinking z o | SSize z' :: o => (z' <= z)%Z /\ shrinking z' o end.
Lemma shrink_ok {A} (ops : list (sop A)) : forall r o, shrinking (rv_size r) ops -> (0 <= rv_count r)%Z -> (Z.min (rv_count r) (rv_size r) <= zlen (rv_sample r))%Z -> supp (srun ops r) o -> exists r', o = Ok r'.
Proof.
  induction ops as [|[x|z] ops IH]; intros r o HS H0 HL H; cbn [srun shrinking] in *.
  - apply supp_ret in H. eauto.
  - apply supp_bind in H. destruct H as (a & Ha & H). unfold rv_push in Ha. destruct (Z.leb_spec (rv_count r + 1) (rv_size r)) as [Hc|Hc].
    + apply supp_ret in Ha. subst a. apply IH in H; auto; cbn [rv_size rv_count rv_sample]; try lia. unfold zlen in *. rewrite app_length. cbn [length]. lia.
    + apply supp_bind in Ha. destruct Ha as (i & Hi & Ha). apply supp_intn in Hi; [|lia]. destruct Hi as (j & -> & Hj). apply supp_ret in Ha. cbn [bind] in Ha. destruct (Z.ltb_spec (Z.of_nat j) (rv_size r)) as [Hlt|Hge].
      * rewrite slice_set_ok in Ha by (unfold zlen in HL; lia). cbn [bind] in Ha. subst a. apply IH in H; auto; cbn [rv_size rv_count rv_sample]; try lia. unfold zlen in *. rewrite put_len by lia. lia.
      * subst a. apply IH in H; auto; cbn [rv_size rv_count rv_sample]; lia.
  - apply IH in H; cbn [rv_size rv_count rv_sample]; auto; [apply HS|]. destruct HS as [HS _]. lia.
Qed.
(** Missing: histories in which Size grows. *)
Theorem C46_resize_partial {A} (size : Z) (ops : list (sop A)) o : shrinking size ops -> supp (srun ops (rv_new size)) o -> exists r, o = Ok r.
Proof. intros HS. apply shrink_ok; cbn; [exact HS|lia|lia]. Qed.
Print Assumptions C46_resize_partial.
Example C46_case : shrinking 2 [SPush 1; SPush 2; SSize 1; SPush 3] /\ map (fun p => rmap rv_sample (snd p)) (srun [SPush 1; SPush 2; SSize 1; SPush 3] (rv_new 2)) = [Ok [3; 2]; Ok [1; 2]; Ok [1; 2]].
Proof. split; [cbn; lia|vm_compute; reflexivity]. Qed.
