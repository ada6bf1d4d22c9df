(** C53: NaN and windowed quantiles. C54: memory bounded by the window. *)
From Coq Require Import Reals List Lia.
From Flocq Require Import Core BinarySingleNaN.
From Verif Require Import Base F64 HistSpec OrderSpec RingModel MultisetSpec NumModel MomentModel MetricProof JointModel MinMaxModel MinMaxProof AvlModel RbModel QuantileModel QuantileProof HeapModel HeapMedProof
  TotalProof.
Local Open Scope Z_scope.

Definition seqz (l : list (option Z)) : list (op f64) := map (fun o => OPush (match o with Some z => fz z | None => fnan end)) l.
Definition free_env : env := mkEnv (fun p _ => p) (fun _ => fz 0) (fun _ => 0).
(** Two results that a program can tell apart: different values, or one of them not a value *)
Definition differ (a b : res f64) : Prop := match a, b with Ok x, Ok y => feq x y = false | Ok _, _ => True | _, Ok _ => True | _, _ => False end.

(** C53 is false for Quantile (hence Median, IQR) over either tree and for HeapMedian: the live values
    contain no NaN, yet the result differs from that of a fresh metric given the live values only.
    avl.Tree.Remove(NaN) removes the root, whatever its value; rb.Tree.Remove(NaN) removes nothing;
    HeapMedian removes the wrong item. *)
Theorem C53_nan_window_refuted : forall e : env,
  (exists ops, Forall nonnan (live 3 (hist ops)) /\ differ (q <- q_run e 3 [QInterp 1] ops ;; q_value e q (fdy 1 (-1))) (q <- q_run e 3 [QInterp 1] (map OPush (live 3 (hist ops))) ;; q_value e q (fdy 1 (-1)))) /\
  (exists ops, Forall nonnan (live 2 (hist ops)) /\ differ (q <- q_run e 2 [QImpl 1 []; QInterp 1] ops ;; q_value e q (fdy 1 (-1))) (q <- q_run e 2 [QImpl 1 []; QInterp 1] (map OPush (live 2 (hist ops))) ;; q_value e q (fdy 1 (-1)))) /\
  (exists ops, Forall nonnan (live 2 (hist ops)) /\ differ (m <- hm_run 2 ops ;; hm_value m) (m <- hm_run 2 (map OPush (live 2 (hist ops))) ;; hm_value m)).
Proof.
  intros e. split; [|split].
  - exists (seqz [Some 2; None; Some 2; Some 1; Some 1]). split; [repeat constructor|]. vm_compute. reflexivity.
  - exists (seqz [Some 1; None; Some 1; Some 1]). split; [repeat constructor|]. vm_compute. reflexivity.
  - exists (seqz [None; Some 2; Some 1]). split; [repeat constructor|]. vm_compute. reflexivity.
Qed.
Print Assumptions C53_nan_window_refuted.

(** C54 is false for Min and Max once a NaN was pushed: with every window, NaN followed by n
    equal values leaves n + 1 values in the deque. And it is false for Quantile over the AVL tree. *)
Section Grow.
Variable push : mm -> f64 -> res mm.
Variable cond : f64 -> f64 -> bool.
Variable ext : f64 -> f64 -> f64.
Hypothesis push_eq : forall m x, push m x = gpush cond ext m x.
Lemma grow_step w h m x d : 0 < w -> mtot w h m -> mm_deque m = fnan :: d -> (forall b, In b (fnan :: d) -> cond b x = false) ->
  exists m', push m x = Ok m' /\ mtot w (h ++ [x]) m' /\ mm_deque m' = fnan :: d ++ [x].
Proof.
  intros Hw I Hd Hc. destruct (mtot_push push cond ext ltac:(intros; rewrite push_eq; reflexivity) w h m x ltac:(lia) I) as (m' & E & I'). exists m'. split; [exact E|]. split; [exact I'|].
  destruct I as (Ew & Ec & Rc & Rq). destruct (Rq ltac:(lia)) as [Rq1 _]. rewrite push_eq in E. unfold gpush in E. rewrite Ew in E. destruct (Z.eqb_spec w 0); [lia|]. cbn [negb] in E.
  assert (P : rev (pop_while (fun b => cond b x) (rev (fnan :: d))) = fnan :: d).
  { rewrite <- (rev_involutive (fnan :: d)) at 2. f_equal. assert (Hc' : forall b, In b (rev (fnan :: d)) -> cond b x = false) by (intros b Hb; apply Hc; apply in_rev; exact Hb).
    destruct (rev (fnan :: d)) as [|b l]; [reflexivity|]. cbn [pop_while]. rewrite (Hc' b (or_introl eq_refl)). reflexivity. }
  destruct (win_step w h x (mm_queue m) Hw Rc Rq1) as [(Er & y & l & q' & G & Elv & Pq & L)|(Er & Pq & L)]; rewrite Er in E.
  - rewrite G in E. cbn [bind] in E. rewrite Hd in E. cbn [dq_front bind] in E. assert (F : feq fnan y = false) by (destruct y; reflexivity). rewrite F in E. cbn [bind mm_queue] in E.
    rewrite Pq in E. cbn [bind mm_deque] in E. rewrite P in E. injection E as <-. reflexivity.
  - cbn [bind] in E. rewrite Pq in E. cbn [bind] in E. rewrite Hd, P in E. injection E as <-. reflexivity.
Qed.
Lemma grow_run w h m x n : 0 < w -> cond fnan x = false -> cond x x = false -> mtot w h m -> mm_deque m = [fnan] ->
  exists m' h', run push (fun m => Ok m) (repeat (OPush x) n) m = Ok m' /\ mtot w h' m' /\ mm_deque m' = fnan :: repeat x n.
Proof.
  intros Hw C1 C2 I Hd. induction n as [|n IH]; [exists m, h; split; [reflexivity|auto]|].
  destruct IH as (m1 & h1 & E1 & I1 & D1). destruct (grow_step w h1 m1 x (repeat x n) Hw I1 D1) as (m2 & E2 & I2 & D2).
  { intros b [<-|Hb]; [exact C1|]. apply repeat_spec in Hb. subst b. exact C2. }
  exists m2, (h1 ++ [x]). replace (repeat (OPush x) (S n)) with (repeat (OPush x) n ++ [OPush x]) by (symmetry; apply repeat_cons).
  rewrite run_app, E1. cbn [bind run]. rewrite E2. cbn [bind]. split; [reflexivity|]. split; [exact I2|]. rewrite D2. cbn [repeat]. rewrite <- (repeat_cons n x). reflexivity.
Qed.
End Grow.
Lemma run_noclear {S A} (push : S -> A -> res S) c1 c2 x n : forall s, run push c1 (repeat (OPush x) n) s = run push c2 (repeat (OPush x) n) s.
Proof. induction n as [|n IH]; intros s; cbn [repeat run]; [reflexivity|]. destruct (push s x); cbn [bind]; auto. Qed.
Theorem C54_deque_refuted : forall w x n, 0 < w -> nonnan x ->
  (exists m, min_run w (OPush fnan :: repeat (OPush x) n) = Ok m /\ length (mm_deque m) = S n) /\
  (exists m, max_run w (OPush fnan :: repeat (OPush x) n) = Ok m /\ length (mm_deque m) = S n).
Proof.
  intros w x n Hw Hx.
  assert (S1 : forall init push cond ext, (forall m y, push m y = gpush cond ext m y) -> exists m1, push (mkMM w 0 (ring_new w) [] init) fnan = Ok m1 /\ mtot w [fnan] m1 /\ mm_deque m1 = [fnan]).
  { intros init push cond ext He. destruct (mtot_push push cond ext ltac:(intros; rewrite He; reflexivity) w [] (mkMM w 0 (ring_new w) [] init) fnan ltac:(lia) (mtot_init w init)) as (m1 & E & I).
    exists m1. split; [exact E|]. split; [exact I|]. rewrite He in E. unfold gpush in E. cbn [mm_window mm_queue mm_deque] in E. destruct (Z.eqb_spec w 0); [lia|]. cbn [negb] in E.
    assert (Er : (ring_len (@ring_new f64 w) =? w) = false) by (apply Z.eqb_neq; unfold ring_len; cbn; lia). rewrite Er in E. cbn [bind mm_queue mm_deque] in E.
    apply bind_ok in E. destruct E as (q & _ & E). injection E as <-. reflexivity. }
  assert (C : fgt fnan x = false /\ fgt x x = false /\ flt fnan x = false /\ flt x x = false).
  { rewrite (fgt_key x x), (flt_key x x) by assumption. rewrite Z.ltb_irrefl. destruct x; auto. }
  destruct C as (C1 & C2 & C3 & C4). split.
  - unfold min_run, new_min. destruct (Z.ltb_spec w 0); [lia|]. cbn [bind run].
    destruct (S1 (finf false) min_push fgt math_min min_push_g) as (m1 & E1 & I1 & D1). rewrite E1. cbn [bind].
    destruct (grow_run min_push fgt math_min min_push_g w [fnan] m1 x n Hw C1 C2 I1 D1) as (m2 & h2 & E2 & _ & D2). exists m2. rewrite (run_noclear min_push min_clear (fun m => Ok m)), E2. split; [reflexivity|].
    rewrite D2. cbn [length]. rewrite repeat_length. reflexivity.
  - unfold max_run, new_max. destruct (Z.ltb_spec w 0); [lia|]. cbn [bind run].
    destruct (S1 (finf true) max_push flt math_max max_push_g) as (m1 & E1 & I1 & D1). rewrite E1. cbn [bind].
    destruct (grow_run max_push flt math_max max_push_g w [fnan] m1 x n Hw C3 C4 I1 D1) as (m2 & h2 & E2 & _ & D2). exists m2. rewrite (run_noclear max_push max_clear (fun m => Ok m)), E2. split; [reflexivity|].
    rewrite D2. cbn [length]. rewrite repeat_length. reflexivity.
Qed.
Print Assumptions C54_deque_refuted.
Theorem C54_tree_refuted : forall e : env, exists ops, rmap (fun q => stat_size (q_stat q)) (q_run e 3 [] ops) = Ok 4.
Proof. intros e. exists (seqz [None; Some 2; Some 3; Some 1; Some 1]). vm_compute. reflexivity. Qed.
Print Assumptions C54_tree_refuted.

(** Without NaN: the values held by a windowed Min or Max are at most twice the window, those of
    HeapMedian at most the window, those of Quantile at most twice the window; the moment and joint
    cores hold at most the window whatever the values. Missing: NaN (false). *)
Lemma best_length K l : (length (best K l) <= length l)%nat.
Proof. induction l as [|x l IH]; cbn [best length]; [lia|]. destruct (forallb _ l); cbn [length]; lia. Qed.
Theorem C54_min_max_partial : forall w ops, 0 < w -> Forall nonnan (hist ops) ->
  (exists m, min_run w ops = Ok m /\ zlen (ritems (mm_queue m)) <= w /\ zlen (mm_deque m) <= w) /\
  (exists m, max_run w ops = Ok m /\ zlen (ritems (mm_queue m)) <= w /\ zlen (mm_deque m) <= w).
Proof.
  intros w ops Hw Hn. pose proof (live_zlen_le w (hist ops) Hw) as Hl.
  assert (G : forall init K m, MInv init K w (hist ops) m -> zlen (ritems (mm_queue m)) <= w /\ zlen (mm_deque m) <= w).
  { intros init K m I. rewrite (mi_items _ _ _ _ _ I), (mi_deque _ _ _ _ _ I) by (assumption || lia). split; [exact Hl|].
    pose proof (best_length K (live w (hist ops))). unfold zlen in *. lia. }
  split.
  - destruct (min_reach w ops ltac:(lia)) as (m & E & I). exists m. split; [exact E|]. exact (G _ _ _ I).
  - destruct (max_reach w ops ltac:(lia)) as (m & E & I). exists m. split; [exact E|]. exact (G _ _ _ I).
Qed.
Print Assumptions C54_min_max_partial.
Theorem C54_quantile_partial : forall e w os ops, 0 < w -> Forall qopt_num os -> Forall qopt_valid os -> pushes_nonnan ops -> impl_cond (chosen_impl os) w ops ->
  exists q, q_run e w os ops = Ok q /\ stat_size (q_stat q) <= w.
Proof.
  intros e w os ops Hw Hn Hv Hp Hc. destruct (q_reach e w os ops ltac:(lia) Hn Hv Hp Hc) as (q & E & _ & [Hs _]). exists q. split; [exact E|].
  rewrite Hs. apply live_zlen_le. exact Hw.
Qed.
Print Assumptions C54_quantile_partial.
Theorem C54_heap_median_partial : forall w ops, 2 <= w -> pushes_nonnan ops ->
  exists m, hm_run w ops = Ok m /\ Z.of_nat (h_len (hm_low m) + h_len (hm_high m)) <= w /\ ring_len (hm_queue m) <= w.
Proof.
  intros w ops Hw Hn. destruct (hm_run_ok w ops (or_intror Hw) Hn) as (m & E & I). exists m. split; [exact E|].
  destruct I as (_ & _ & _ & _ & _ & _ & _ & _ & Rl & Sz & _). destruct (Z.eqb_spec w 0); [lia|]. unfold stored, addrs, zlen in *. rewrite map_length, app_length in Sz. unfold h_len. lia.
Qed.
Print Assumptions C54_heap_median_partial.
Theorem C54_moment_partial : forall {T} (N : Num T) k c ops, new_core N (kconfig k) = Ok c -> korder k <= 65 -> 0 < kwindow k ->
  exists c', core_run N c ops = Ok c' /\ ring_len (c_queue c') <= kwindow k.
Proof.
  intros T N k c ops E Hk Hw. destruct (new_core_total N k c E Hk) as (_ & _ & len & d & f & -> & Hlen & _).
  destruct (ctot_run N len (kwindow k) d f ops Hlen ltac:(lia)) as (c' & E' & (_ & _ & _ & _ & _ & Rq)). exists c'. split; [exact E'|].
  unfold ring_len. rewrite Rq by lia. apply live_zlen_le. exact Hw.
Qed.
Print Assumptions C54_moment_partial.
Theorem C54_joint_partial : forall {T} (N : Num T) cfg c0 w ops, @jnew_core T N (list T) cfg = Ok c0 -> jf_window cfg = Some w -> 0 < w -> Forall (Forall (fun k => k <= 65)) (jsums_of cfg) ->
  (forall x, In (OPush x) ops -> length x = length (j_means c0)) -> exists c, jcore_run N c0 ops = Ok c /\ ring_len (j_queue c) <= w /\ length (j_means c) = length (j_means c0).
Proof.
  intros T N cfg c0 w ops E Ew Hw F Hx. destruct (jcore_total N cfg c0 ops E F Hx) as (c & Ec & w' & Ew' & ((Lm & _) & _ & _ & Rq & _)). assert (w' = w) by congruence. subst w'.
  exists c. split; [exact Ec|]. split; [|exact Lm]. unfold ring_len. rewrite Rq by lia. apply live_zlen_le. exact Hw.
Qed.
Print Assumptions C54_joint_partial.
Example C54_case : let ops := seqz (map Some [3; 1; 2; 2; 5; 5]) in Forall nonnan (hist ops) /\ pushes_nonnan ops /\
  rmap (fun m => map fbits (mm_deque m)) (min_run 3 ops) = Ok (map fbits [fz 2; fz 5; fz 5]) /\ impl_cond 0 3 ops /\
  rmap (fun q => stat_size (q_stat q)) (q_run free_env 3 [] ops) = Ok 3 /\ rmap (fun m => (h_len (hm_low m) + h_len (hm_high m))%nat) (hm_run 3 ops) = Ok 3%nat.
Proof.
  cbv zeta. split; [repeat constructor|]. split; [intros x H; cbn in H; repeat (destruct H as [H|H]; [injection H as <-; vm_compute; reflexivity|]); destruct H|].
  split; [concrete|]. split; [left; reflexivity|]. concrete.
Qed.
