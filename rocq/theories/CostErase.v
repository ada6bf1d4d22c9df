(** Forgetting the steps of CostModel.v gives the functions of the other model files. *)
From Coq Require Import String.
From Verif Require Import Base F64 HistSpec RingModel MultisetSpec NumModel.
From Verif Require Import AvlModel RbModel SkipModel QuantileModel HeapModel MinMaxModel MomentModel JointModel CostModel.
Local Open Scope nat_scope.

Lemma cbind_snd {A B} (m : cost A) (k : A -> cost B) : snd (cbind m k) = bind (snd m) (fun a => snd (k a)).
Proof. destruct m as [n [a|e| | |]]; cbn; try reflexivity. destruct (k a). reflexivity. Qed.
Lemma tick_snd {A} (m : cost A) : snd (tick m) = snd m.
Proof. reflexivity. Qed.
Lemma lift_snd {A} (r : res A) : snd (lift r) = r.
Proof. reflexivity. Qed.
Lemma steps_snd {A} k (m : cost A) : snd (steps k m) = snd m.
Proof. reflexivity. Qed.
Lemma cmap_snd {A B} (f : A -> B) (m : cost A) : snd (cmap f m) = rmap f (snd m).
Proof. unfold cmap. rewrite cbind_snd. reflexivity. Qed.
Lemma bind_ext' {A B} (r : res A) (k1 k2 : A -> res B) : (forall a, k1 a = k2 a) -> bind r k1 = bind r k2.
Proof. intros H. destruct r; cbn; auto. Qed.

Lemma bind_cong {A B} (r1 r2 : res A) (k1 k2 : A -> res B) : r1 = r2 -> (forall a, k1 a = k2 a) -> bind r1 k1 = bind r2 k2.
Proof. intros -> H. apply bind_ext'. exact H. Qed.

Ltac ers := repeat first [rewrite cbind_snd | rewrite tick_snd | rewrite lift_snd | rewrite steps_snd | rewrite cmap_snd].
Lemma avl_add_erase t x : snd (avl_add_c t x) = avl_add t x.
Proof. induction t as [|l IHl r IHr v h s]; cbn [avl_add_c avl_add]; ers; [reflexivity|]. destruct (fle x v); ers; rewrite ?IHl, ?IHr; reflexivity. Qed.
Lemma avl_min_erase t : snd (avl_min_c t) = avl_min t.
Proof. induction t as [|l IHl r IHr v h s]; [reflexivity|]. cbn [avl_min_c avl_min]. ers. destruct l; [reflexivity|]. exact IHl. Qed.
Lemma avl_remove_min_erase t : snd (avl_remove_min_c t) = avl_remove_min t.
Proof.
  induction t as [|l IHl r IHr v h s]; [reflexivity|]. cbn [avl_remove_min_c avl_remove_min]. ers.
  destruct l; [reflexivity|]. ers. rewrite IHl. reflexivity.
Qed.
Lemma avl_remove_erase t x : snd (avl_remove_c t x) = avl_remove t x.
Proof.
  induction t as [|l IHl r IHr v h s]; [reflexivity|]. cbn [avl_remove_c avl_remove]. ers.
  destruct (flt x v); [ers; rewrite IHl; reflexivity|]. destruct (fgt x v); [ers; rewrite IHr; reflexivity|].
  destruct l; [reflexivity|]. destruct r as [|rl rr rv rh rs]; [reflexivity|]. ers. rewrite avl_min_erase.
  apply bind_ext'. intros m. ers. rewrite avl_remove_min_erase. reflexivity.
Qed.
Lemma avl_select_erase t : forall k, snd (avl_select_c t k) = Ok (avl_select t k).
Proof.
  induction t as [|l IHl r IHr v h s]; [reflexivity|]. intros k. cbn [avl_select_c avl_select]. ers.
  destruct (k <? asize l)%Z; [apply IHl|]. destruct (k >? asize l)%Z; [apply IHr|reflexivity].
Qed.
Lemma avl_rank_erase t x : snd (avl_rank_c t x) = Ok (avl_rank t x).
Proof.
  induction t as [|l IHl r IHr v h s]; [reflexivity|]. cbn [avl_rank_c avl_rank]. ers.
  destruct (flt x v); [apply IHl|]. destruct (fgt x v); [ers; rewrite IHr; reflexivity|reflexivity].
Qed.

Lemma rb_add_erase t x : snd (rb_add_c t x) = rb_add t x.
Proof. induction t as [|l IHl r IHr v c s]; cbn [rb_add_c rb_add]; ers; [reflexivity|]. destruct (fle x v); ers; rewrite ?IHl, ?IHr; reflexivity. Qed.
Lemma rb_contains_erase t x : snd (rb_contains_c t x) = Ok (rb_contains t x).
Proof.
  induction t as [|l IHl r IHr v c s]; [reflexivity|]. cbn [rb_contains_c rb_contains]. ers.
  destruct (feq x v); [reflexivity|]. destruct (flt x v); assumption.
Qed.
Lemma rb_min_erase t : snd (rb_min_c t) = rb_min t.
Proof. induction t as [|l IHl r IHr v c s]; [reflexivity|]. cbn [rb_min_c rb_min]. ers. destruct l; [reflexivity|]. exact IHl. Qed.
Lemma rb_remove_min_erase f : forall t, snd (rb_remove_min_c f t) = rb_remove_min f t.
Proof.
  induction f as [|f IH]; [reflexivity|]. intros t. cbn [rb_remove_min_c rb_remove_min]. ers.
  destruct t as [|l r v c s]; [reflexivity|]. destruct l as [|ll lr lv lc ls]; [reflexivity|].
  ers. apply bind_ext'. intros bb. ers. apply bind_ext'. intros [|l1 r1 v1 c1 s1]; [reflexivity|].
  ers. rewrite IH. reflexivity.
Qed.
Lemma rb_remove_erase f : forall t x, snd (rb_remove_c f t x) = rb_remove f t x.
Proof.
  induction f as [|f IH]; [reflexivity|]. intros t x. cbn [rb_remove_c rb_remove]. ers.
  rewrite rb_contains_erase. cbn [bind]. destruct (rb_contains t x); cbn [negb]; [|reflexivity].
  destruct t as [|l r v c s]; [reflexivity|]. destruct (flt x v).
  - ers. apply bind_ext'. intros bb. ers. apply bind_ext'. intros [|l1 r1 v1 c1 s1]; [reflexivity|].
    ers. rewrite IH. reflexivity.
  - ers. apply bind_ext'. intros [|l1 r1 v1 c1 s1]; [reflexivity|].
    destruct (feq x v1 && match r1 with RLeaf => true | _ => false end); [reflexivity|].
    ers. apply bind_ext'. intros bb. ers. apply bind_ext'. intros [|l2 r2 v2 c2 s2]; [reflexivity|].
    destruct (feq x v2); ers.
    + rewrite rb_min_erase. apply bind_ext'. intros m. ers. rewrite rb_remove_min_erase. reflexivity.
    + rewrite IH. reflexivity.
Qed.
Lemma rb_tree_remove_erase t x : snd (rb_tree_remove_c t x) = rb_tree_remove t x.
Proof. apply rb_remove_erase. Qed.
Lemma rb_select_erase t : forall k, snd (rb_select_c t k) = Ok (rb_select t k).
Proof.
  induction t as [|l IHl r IHr v c s]; [reflexivity|]. intros k. cbn [rb_select_c rb_select]. ers.
  destruct (k <? rsize l)%Z; [apply IHl|]. destruct (k >? rsize l)%Z; [apply IHr|reflexivity].
Qed.
Lemma rb_rank_erase t x : snd (rb_rank_c t x) = Ok (rb_rank t x).
Proof.
  induction t as [|l IHl r IHr v c s]; [reflexivity|]. cbn [rb_rank_c rb_rank]. ers.
  destruct (flt x v); [apply IHl|]. destruct (fgt x v); [ers; rewrite IHr; reflexivity|reflexivity].
Qed.

Lemma walk_prev_erase st i v : forall fuel p, snd (walk_prev_c fuel st i v p) = walk_prev fuel st i v p.
Proof.
  induction fuel as [|f IH]; intros p; [reflexivity|]. cbn [walk_prev_c walk_prev]. ers. apply bind_ext'. intros [b|]; [|reflexivity].
  destruct (flt _ _); [rewrite tick_snd; apply IH|reflexivity].
Qed.
Lemma get_prevs_erase fuel st v : forall i p, snd (get_prevs_c fuel st i v p) = get_prevs fuel st i v p.
Proof.
  induction i as [|i IH]; intros p; [reflexivity|]. cbn [get_prevs_c get_prevs]. ers. rewrite walk_prev_erase. apply bind_ext'. intros q. ers. rewrite IH. reflexivity.
Qed.
Lemma width_walk_erase st j t : forall fuel c acc, snd (width_walk_c fuel st j t c acc) = width_walk fuel st j t c acc.
Proof.
  induction fuel as [|f IH]; intros c acc; [reflexivity|]. cbn [width_walk_c width_walk]. destruct (node_equals st c t); [reflexivity|]. ers.
  destruct c as [a|]; [|reflexivity]. ers. apply bind_ext'. intros w. ers. apply bind_ext'. intros nx. apply IH.
Qed.
Lemma new_widths_erase fuel prevs x : forall n i st, snd (new_widths_c fuel n i prevs x st) = new_widths fuel n i prevs x st.
Proof.
  induction n as [|n IH]; intros i st; [reflexivity|]. cbn [new_widths_c new_widths]. ers. apply bind_ext'. intros t. ers. apply bind_ext'. intros w0. ers.
  rewrite width_walk_erase. apply bind_ext'. intros w. ers. apply bind_ext'. intros st1. ers. apply bind_ext'. intros pw. ers. apply bind_ext'. intros st2. apply IH.
Qed.
Lemma skip_add_erase s v : snd (skip_add_c s v) = skip_add s v.
Proof.
  unfold skip_add_c, skip_add. ers. rewrite get_prevs_erase. apply bind_ext'. intros prevs. cbv zeta. ers. cbn [snd]. apply bind_ext'. intros st1. ers.
  apply bind_ext'. intros st2. ers. cbn [snd]. apply bind_ext'. intros st3. ers. rewrite new_widths_erase. reflexivity.
Qed.
Lemma skip_remove_erase s v : snd (skip_remove_c s v) = skip_remove s v.
Proof.
  unfold skip_remove_c, skip_remove. ers. rewrite get_prevs_erase. apply bind_ext'. intros prevs. ers. apply bind_ext'. intros [a|]; [|reflexivity].
  destruct (feq _ _); [|reflexivity]. ers. reflexivity.
Qed.
Lemma select_walk_erase st i k : forall fuel c pos, snd (select_walk_c fuel st i k c pos) = select_walk fuel st i k c pos.
Proof.
  induction fuel as [|f IH]; intros c pos; [reflexivity|]. cbn [select_walk_c select_walk]. destruct c as [a|]; [|reflexivity]. ers. apply bind_ext'. intros w.
  destruct (_ <=? _)%Z; [|reflexivity]. ers. apply bind_ext'. intros nx. rewrite tick_snd. apply IH.
Qed.
Lemma select_levels_erase fuel st k : forall i c pos, snd (select_levels_c fuel st i k c pos) = select_levels fuel st i k c pos.
Proof.
  induction i as [|i IH]; intros c pos; [reflexivity|]. cbn [select_levels_c select_levels]. ers. rewrite select_walk_erase. apply bind_ext'. intros r. apply IH.
Qed.
Lemma skip_select_erase s k : snd (skip_select_c s k) = skip_select s k.
Proof. unfold skip_select_c, skip_select. destruct (_ || _)%bool; [reflexivity|]. ers. rewrite select_levels_erase. reflexivity. Qed.
Lemma rank_walk_erase st i v : forall fuel c r, snd (rank_walk_c fuel st i v c r) = rank_walk fuel st i v c r.
Proof.
  induction fuel as [|f IH]; intros c r; [reflexivity|]. cbn [rank_walk_c rank_walk]. ers. apply bind_ext'. intros [b|]; [|reflexivity].
  destruct (flt _ _); [|reflexivity]. ers. apply bind_ext'. intros w. rewrite tick_snd. apply IH.
Qed.
Lemma rank_levels_erase fuel st v : forall i c r, snd (rank_levels_c fuel st i v c r) = rank_levels fuel st i v c r.
Proof.
  induction i as [|i IH]; intros c r; [reflexivity|]. cbn [rank_levels_c rank_levels]. ers. rewrite rank_walk_erase. apply bind_ext'. intros x. apply IH.
Qed.
Lemma skip_rank_erase s v : snd (skip_rank_c s v) = skip_rank s v.
Proof. apply rank_levels_erase. Qed.
Lemma stat_add_erase st x : snd (stat_add_c st x) = stat_add st x.
Proof. destruct st; cbn [stat_add_c stat_add]; ers; rewrite ?avl_add_erase, ?rb_add_erase, ?skip_add_erase; reflexivity. Qed.
Lemma stat_remove_erase st x : snd (stat_remove_c st x) = stat_remove st x.
Proof. destruct st; cbn [stat_remove_c stat_remove]; ers; rewrite ?avl_remove_erase, ?rb_tree_remove_erase, ?skip_remove_erase; reflexivity. Qed.
Lemma stat_select_erase st k : snd (stat_select_c st k) = stat_select st k.
Proof. destruct st; cbn [stat_select_c stat_select]; ers; rewrite ?avl_select_erase, ?rb_select_erase, ?skip_select_erase; reflexivity. Qed.
Lemma q_push_erase q x : snd (q_push_c q x) = q_push q x.
Proof.
  unfold q_push_c, q_push. ers. apply bind_cong.
  - destruct (negb (q_window q =? 0)%Z); [|reflexivity]. ers. apply bind_cong.
    + destruct (ring_len (q_queue q) =? q_window q)%Z; [|reflexivity]. ers. apply bind_ext'. intros [y r]. ers.
      rewrite stat_remove_erase. reflexivity.
    + intros q0. ers. reflexivity.
  - intros q1. ers. rewrite stat_add_erase. reflexivity.
Qed.
Lemma sel_erase st k : snd (sel_c st k) = sel st k.
Proof. unfold sel_c, sel. ers. rewrite stat_select_erase. apply bind_ext'. intros [v|]; reflexivity. Qed.
Lemma sel2_erase {A} st k1 k2 (f : f64 -> f64 -> A) :
  snd (lo <~ sel_c st k1 ;; hi <~ sel_c st k2 ;; lift (Ok (f lo hi))) = (lo <- sel st k1 ;; hi <- sel st k2 ;; Ok (f lo hi)).
Proof. ers. rewrite sel_erase. apply bind_ext'. intros lo. ers. rewrite sel_erase. reflexivity. Qed.
Lemma q_value_erase e q phi : snd (q_value_c e q phi) = q_value e q phi.
Proof.
  unfold q_value_c, q_value. destruct (fle phi (fz 0) || fge phi (fz 1)); [reflexivity|].
  destruct (stat_size (q_stat q) =? 0)%Z; [reflexivity|]. cbv zeta.
  destruct (feq _ _); [apply sel_erase|].
  destruct (q_interp q =? 0)%Z; [rewrite sel2_erase; reflexivity|].
  destruct (q_interp q =? 1)%Z; [apply sel_erase|].
  destruct (q_interp q =? 2)%Z; [apply sel_erase|].
  destruct (q_interp q =? 3)%Z; [|rewrite sel2_erase; reflexivity].
  destruct (feq _ _); [destruct (Z.rem _ 2 =? 0)%Z; apply sel_erase|].
  destruct (flt _ _); apply sel_erase.
Qed.

Lemma h_up_erase f : forall cmp st l j, snd (h_up_c f cmp st l j) = h_up f cmp st l j.
Proof.
  induction f as [|f IH]; [reflexivity|]. intros cmp st l j. cbn [h_up_c h_up]. cbv zeta. ers.
  destruct (Nat.div2 (j - 1) =? j); [reflexivity|]. ers. apply bind_ext'. intros [|]; [|reflexivity].
  ers. apply bind_ext'. intros [st' l']. apply IH.
Qed.
Lemma h_down_erase f : forall cmp st l i n, snd (h_down_c f cmp st l i n) = h_down f cmp st l i n.
Proof.
  induction f as [|f IH]; [reflexivity|]. intros cmp st l i n. cbn [h_down_c h_down]. cbv zeta. ers.
  destruct (n <=? 2 * i + 1); [reflexivity|]. ers. apply bind_ext'. intros j. ers. apply bind_ext'. intros [|]; [|reflexivity].
  ers. apply bind_ext'. intros [st' l']. apply IH.
Qed.
Lemma h_push_erase st h a : snd (h_push_c st h a) = h_push st h a.
Proof. unfold h_push_c, h_push. cbv zeta. ers. rewrite h_up_erase. apply bind_ext'. intros [st2 l2]. reflexivity. Qed.
Lemma h_pop_erase st h : snd (h_pop_c st h) = h_pop st h.
Proof.
  unfold h_pop_c, h_pop. cbv zeta. destruct (h_items h) as [|b t]; [reflexivity|]. ers. apply bind_ext'. intros [st1 l1].
  ers. rewrite h_down_erase. apply bind_ext'. intros [[st2 l2] k]. ers. apply bind_ext'. intros [[st3 l3] c]. reflexivity.
Qed.
Lemma h_fix_erase cmp st l k n : snd (h_fix_c cmp st l k n) = h_fix cmp st l k n.
Proof.
  unfold h_fix_c, h_fix. ers. rewrite h_down_erase. apply bind_ext'. intros [[st1 l1] k'].
  destruct (k <? k'); [reflexivity|]. apply h_up_erase.
Qed.
Lemma h_update_erase st h a v : snd (h_update_c st h a v) = h_update st h a v.
Proof.
  unfold h_update_c, h_update. cbv zeta. destruct (_ <? 0)%Z; [reflexivity|]. ers. rewrite h_fix_erase.
  apply bind_ext'. intros [st2 l2]. reflexivity.
Qed.
Lemma h_remove_erase st h a : snd (h_remove_c st h a) = h_remove st h a.
Proof.
  unfold h_remove_c, h_remove. cbv zeta. destruct (_ <? 0)%Z; [reflexivity|]. destruct (h_items h) as [|b t]; [reflexivity|].
  ers. apply bind_cong.
  - destruct (negb _); [|reflexivity]. ers. apply bind_ext'. intros [st1 l1]. apply h_fix_erase.
  - intros [st2 l2]. ers. apply bind_ext'. intros [[st3 l3] c]. reflexivity.
Qed.
Lemma hm_rebalance_erase st lo hi a : snd (hm_rebalance_c st lo hi a) = hm_rebalance st lo hi a.
Proof.
  unfold hm_rebalance_c, hm_rebalance. destruct (_ <? _); [|destruct (_ <? _); [|reflexivity]]; ers; rewrite h_pop_erase;
    apply bind_ext'; intros [[st1 h1] b]; ers; rewrite h_push_erase; apply bind_ext'; intros [st2 l2]; reflexivity.
Qed.
Lemma hm_push_erase m x : snd (hm_push_c m x) = hm_push m x.
Proof.
  unfold hm_push_c, hm_push. ers. apply bind_cong.
  - destruct (negb (hm_window m =? 0)%Z && (ring_len (hm_queue m) =? hm_window m)%Z).
    + ers. apply bind_ext'. intros [a q]. cbv zeta. ers. apply bind_ext'. intros p. ers. apply bind_cong.
      * destruct (String.eqb (it_hid (hm_store m a)) (h_id (hm_low m)) && fle x p).
        { ers. rewrite h_update_erase. apply bind_ext'. intros [st1 lo1]. reflexivity. }
        destruct (negb (String.eqb (it_hid (hm_store m a)) (h_id (hm_low m))) && fgt x p).
        { ers. rewrite h_update_erase. apply bind_ext'. intros [st1 lo1]. reflexivity. }
        destruct (String.eqb (it_hid (hm_store m a)) (h_id (hm_low m)) && fgt x p);
          ers; rewrite h_remove_erase; apply bind_ext'; intros [st1 lo1]; ers; rewrite h_push_erase;
          apply bind_ext'; intros [st2 hi1]; reflexivity.
      * intros [[st1 lo1] hi1]. ers. rewrite hm_rebalance_erase. apply bind_ext'. intros [[[st2 lo2] hi2] b]. reflexivity.
    + cbv zeta. ers. apply bind_ext'. intros toLow. ers. apply bind_cong.
      * destruct toLow; ers; rewrite h_push_erase; apply bind_ext'; intros [st1 lo1]; reflexivity.
      * intros [[st1 lo1] hi1]. ers. rewrite hm_rebalance_erase. apply bind_ext'. intros [[[st2 lo2] hi2] b]. reflexivity.
  - intros [[[[[st lo] hi] a] q] nx]. ers. apply bind_ext'. intros q'. reflexivity.
Qed.

Lemma pop_while_erase cond l : snd (pop_while_c cond l) = Ok (pop_while cond l).
Proof. induction l as [|b t IH]; [reflexivity|]. cbn [pop_while_c pop_while]. ers. destruct (cond b); [exact IH|reflexivity]. Qed.
Lemma min_push_erase m x : snd (min_push_c m x) = min_push m x.
Proof.
  unfold min_push_c, mm_push_c, min_push. ers. destruct (negb (mm_window m =? 0)%Z); [|reflexivity].
  ers. apply bind_ext'. intros m1. ers. apply bind_ext'. intros q. ers. rewrite pop_while_erase. reflexivity.
Qed.
Lemma max_push_erase m x : snd (max_push_c m x) = max_push m x.
Proof.
  unfold max_push_c, mm_push_c, max_push. ers. destruct (negb (mm_window m =? 0)%Z); [|reflexivity].
  ers. apply bind_ext'. intros m1. ers. apply bind_ext'. intros q. ers. rewrite pop_while_erase. reflexivity.
Qed.
Lemma run_erase {S A} (push_c : S -> A -> cost S) push (clear : S -> res S) ops :
  (forall s x, snd (push_c s x) = push s x) -> forall s, snd (run_c push_c clear ops s) = run push clear ops s.
Proof.
  intros H. induction ops as [|[x|] t IH]; intros s; [reflexivity| |]; cbn [run_c run]; ers; rewrite ?H; apply bind_ext'; intros s'; apply IH.
Qed.
Lemma min_run_erase w ops : snd (min_run_c w ops) = min_run w ops.
Proof. unfold min_run_c, min_run. ers. apply bind_ext'. intros m. apply run_erase. apply min_push_erase. Qed.
Lemma max_run_erase w ops : snd (max_run_c w ops) = max_run w ops.
Proof. unfold max_run_c, max_run. ers. apply bind_ext'. intros m. apply run_erase. apply max_push_erase. Qed.

Section Cores.
Context {T : Type} (N : Num T).
Lemma inner_erase op term k is_ : forall s, snd (inner_c N op term k is_ s) = inner N op term k is_ s.
Proof. induction is_ as [|i t IH]; intros s; [reflexivity|]. cbn [inner_c inner]. ers. apply bind_ext'. intros c. apply IH. Qed.
Lemma outer_erase step_c step ks : (forall f k, snd (step_c f k) = step f k) ->
  forall f : nat -> T, snd (outer_c step_c ks f) = outer step ks f.
Proof. intros H. induction ks as [|k t IH]; intros f; [reflexivity|]. cbn [outer_c outer]. ers. rewrite H. apply bind_ext'. intros v. apply IH. Qed.
Lemma c_add_erase c x : snd (c_add_c N c x) = c_add N c x.
Proof. unfold c_add_c, c_add. cbv zeta. ers. apply bind_cong; [|reflexivity]. apply outer_erase. intros f k. apply inner_erase. Qed.
Lemma c_add_decay_erase c d x : snd (c_add_decay_c N c d x) = c_add_decay N c d x.
Proof. unfold c_add_decay_c, c_add_decay. cbv zeta. ers. apply bind_cong; [|reflexivity]. apply outer_erase. intros f k. apply inner_erase. Qed.
Lemma c_remove_erase c x : snd (c_remove_c N c x) = c_remove N c x.
Proof.
  unfold c_remove_c, c_remove. cbv zeta. destruct (_ >? 0)%Z; [|reflexivity]. ers. apply bind_cong; [|reflexivity].
  apply outer_erase. intros f k. apply inner_erase.
Qed.
Lemma c_push_erase c x : snd (c_push_c N c x) = c_push N c x.
Proof.
  unfold c_push_c, c_push. ers. apply bind_cong.
  - destruct (negb _); [|reflexivity]. ers. apply bind_cong; [|intros c1; ers; reflexivity].
    destruct (_ =? _)%Z; [|reflexivity]. ers. apply bind_ext'. intros [y q]. apply c_remove_erase.
  - intros c'. destruct (c_decay c'); [apply c_add_decay_erase|apply c_add_erase].
Qed.

Context {A : Type}.
Lemma upd_b_erase d term a bs : forall m : hmap, snd (upd_b_c N d term a bs m) = upd_b N term a bs m.
Proof. induction bs as [|b t IH]; intros m; [reflexivity|]. 
  change (upd_b_c N d term a (b :: t) m) with
    (steps d (f <~ lift (term a b m) ;; upd_b_c N d term a t (hput m (t_hash a) (f (hget N m (t_hash a)))))).
  ers. cbn [upd_b]. apply bind_ext'. intros f. apply IH.
Qed.
Lemma upd_a_erase d term as_ : forall m : hmap, snd (upd_a_c N d term as_ m) = upd_a N term as_ m.
Proof. induction as_ as [|a t IH]; intros m; [reflexivity|]. cbn [upd_a_c upd_a]. ers. rewrite upd_b_erase. apply bind_ext'. intros m'. apply IH. Qed.
Lemma upd_tuples_erase d term rv ts : forall m : hmap, snd (upd_tuples_c N d term rv ts m) = upd_tuples N term rv ts m.
Proof. induction ts as [|a t IH]; intros m; [reflexivity|]. cbn [upd_tuples_c upd_tuples]. ers. rewrite upd_a_erase. apply bind_ext'. intros m'. apply IH. Qed.
Lemma rem_tuples_erase k d count delta ts : forall s m : hmap, snd (rem_tuples_c N k d count delta ts s m) = rem_tuples N count delta ts s m.
Proof. induction ts as [|a t IH]; intros s m; [reflexivity|]. cbn [rem_tuples_c rem_tuples]. ers. rewrite upd_a_erase. apply bind_ext'. intros m'. ers. apply IH. Qed.
Lemma j_add_erase (c : @jcore T A) xs : snd (j_add_c N c xs) = j_add N c xs.
Proof. unfold j_add_c, j_add. cbv zeta. ers. rewrite upd_tuples_erase. reflexivity. Qed.
Lemma j_add_decay_erase (c : @jcore T A) d xs : snd (j_add_decay_c N c d xs) = j_add_decay N c d xs.
Proof. unfold j_add_decay_c, j_add_decay. cbv zeta. ers. rewrite upd_tuples_erase. reflexivity. Qed.
Lemma j_remove_erase (c : @jcore T A) xs : snd (j_remove_c N c xs) = j_remove N c xs.
Proof.
  unfold j_remove_c, j_remove. cbv zeta. destruct (_ >? 0)%Z; [|reflexivity]. ers. rewrite rem_tuples_erase.
  apply bind_ext'. intros [s m]. reflexivity.
Qed.
Lemma j_push_erase rd (c : @jcore T A) x : snd (j_push_c N rd c x) = j_push N rd c x.
Proof.
  unfold j_push_c, j_push. destruct (negb (Nat.eqb _ _)); [reflexivity|]. ers. apply bind_cong.
  - destruct (negb _); [|reflexivity]. ers. apply bind_cong; [|intros c1; ers; reflexivity].
    destruct (_ =? _)%Z; [|reflexivity]. ers. apply bind_ext'. intros [y q]. apply j_remove_erase.
  - intros c'. destruct (j_decay c'); [apply j_add_decay_erase|apply j_add_erase].
Qed.
End Cores.

Section Metrics.
Context {T : Type} (N : Num T).
Lemma m_push_erase m x : snd (m_push_c N m x) = m_push N m x.
Proof. unfold m_push_c, m_push. destruct (m_core m); [|reflexivity]. ers. rewrite c_push_erase. reflexivity. Qed.
Lemma jpush_erase c x : snd (jpush_c N c x) = jpush N c x.
Proof. apply j_push_erase. Qed.
Lemma jm_push_erase m x : snd (jm_push_c N m x) = jm_push N m x.
Proof.
  unfold jm_push_c, jm_push. destruct (jm_core m); [|reflexivity]. destruct (negb _); [reflexivity|]. ers. rewrite jpush_erase. reflexivity.
Qed.
Lemma auto_push_erase a x : snd (auto_push_c N a x) = auto_push N a x.
Proof.
  unfold auto_push_c, auto_push. destruct (jm_core (a_metric a)) as [c|]; [|reflexivity]. destruct (_ =? _)%Z.
  - ers. rewrite jpush_erase. reflexivity.
  - ers. apply bind_cong; [|intros [c1 q1]; ers; reflexivity]. destruct (_ >=? _)%Z; [|reflexivity]. ers.
    apply bind_ext'. intros [y q]. ers. rewrite jpush_erase. reflexivity.
Qed.
End Metrics.
