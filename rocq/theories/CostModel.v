(** The same functions as in the other model files, counting steps. A step is one call of
    a recursive function or one iteration of a loop; everything between two steps is a
    bounded number of operations. CostErase.v shows that forgetting the steps gives back
    the functions of the other files, so that nothing is modelled twice. *)
From Coq Require Import String.
From Verif Require Import Base F64 HistSpec RingModel MultisetSpec NumModel.
From Verif Require Import AvlModel RbModel SkipModel QuantileModel HeapModel MinMaxModel MomentModel JointModel.
Local Open Scope nat_scope.
Local Open Scope list_scope.

(** The number of steps of a call, and its outcome *)
Definition cost (A : Type) := (nat * res A)%type.
Definition lift {A} (r : res A) : cost A := (0, r).
Definition tick {A} (m : cost A) : cost A := (S (fst m), snd m).
Definition cbind {A B} (m : cost A) (k : A -> cost B) : cost B :=
  match m with
  | (n, Ok a) => let (n', r) := k a in (n + n', r)
  | (n, Err e) => (n, Err e) | (n, Panic) => (n, Panic) | (n, Hang) => (n, Hang) | (n, NoFuel) => (n, NoFuel)
  end.
Notation "x <~ e ;; k" := (cbind e (fun x => k)) (at level 60, e at next level, right associativity).
Notation "' p <~ e ;; k" := (cbind e (fun p => k)) (at level 60, p pattern, e at next level, right associativity).
Definition cmap {A B} (f : A -> B) (m : cost A) : cost B := x <~ m ;; lift (Ok (f x)).

(** ** quantile/ost/avl/node.go. Steps: calls of add, min, removeMin, remove, Select, Rank. *)
(** node.go:81-93 add *)
Fixpoint avl_add_c (n : avl) (val : f64) : cost avl :=
  tick match n with
  | ALeaf => lift (Ok (avl_node val))
  | ANode l r v h s =>
      if fle val v then l' <~ avl_add_c l val ;; lift (avl_refresh l' r v)
      else r' <~ avl_add_c r val ;; lift (avl_refresh l r' v)
  end.
(** node.go:124-130 min *)
Fixpoint avl_min_c (n : avl) : cost f64 :=
  tick match n with
  | ALeaf => lift Panic
  | ANode l _ v _ _ => match l with ALeaf => lift (Ok v) | _ => avl_min_c l end
  end.
(** node.go:132-141 removeMin *)
Fixpoint avl_remove_min_c (n : avl) : cost avl :=
  tick match n with
  | ALeaf => lift Panic
  | ANode l r v _ _ =>
      match l with
      | ALeaf => lift (Ok r)
      | _ => l' <~ avl_remove_min_c l ;; lift (avl_refresh l' r v)
      end
  end.
(** node.go:95-122 remove *)
Fixpoint avl_remove_c (n : avl) (val : f64) : cost avl :=
  tick match n with
  | ALeaf => lift (Ok ALeaf)
  | ANode l r v h s =>
      if flt val v then l' <~ avl_remove_c l val ;; lift (avl_refresh l' r v)
      else if fgt val v then r' <~ avl_remove_c r val ;; lift (avl_refresh l r' v)
      else match l, r with
           | ALeaf, _ => lift (Ok r)
           | _, ALeaf => lift (Ok l)
           | _, _ => m <~ avl_min_c r ;; r' <~ avl_remove_min_c r ;; lift (avl_refresh l r' m)
           end
  end.
(** node.go:209-222 Select *)
Fixpoint avl_select_c (n : avl) (k : Z) : cost (option f64) :=
  tick match n with
  | ALeaf => lift (Ok None)
  | ANode l r v _ _ =>
      let size := asize l in
      if (k <? size)%Z then avl_select_c l k
      else if (k >? size)%Z then avl_select_c r (k - size - 1)%Z
      else lift (Ok (Some v))
  end.
(** node.go:226-235 Rank *)
Fixpoint avl_rank_c (n : avl) (val : f64) : cost Z :=
  tick match n with
  | ALeaf => lift (Ok 0%Z)
  | ANode l r v _ _ =>
      if flt val v then avl_rank_c l val
      else if fgt val v then cmap (fun k => 1 + asize l + k)%Z (avl_rank_c r val)
      else lift (Ok (asize l))
  end.

(** ** quantile/ost/rb/node.go. Steps: calls of add, contains, min, removeMin, remove, Select, Rank. *)
(** node.go:93-102 add *)
Fixpoint rb_add_c (n : rb) (val : f64) : cost rb :=
  tick match n with
  | RLeaf => lift (Ok (rb_node val))
  | RNode l r v c s =>
      if fle val v then l' <~ rb_add_c l val ;; lift (rb_add_balance (RNode l' r v c s))
      else r' <~ rb_add_c r val ;; lift (rb_add_balance (RNode l r' v c s))
  end.
(** node.go:155-166 contains *)
Fixpoint rb_contains_c (n : rb) (val : f64) : cost bool :=
  tick match n with
  | RLeaf => lift (Ok false)
  | RNode l r v _ _ =>
      if feq val v then lift (Ok true) else if flt val v then rb_contains_c l val else rb_contains_c r val
  end.
(** node.go:148-153 min *)
Fixpoint rb_min_c (n : rb) : cost f64 :=
  tick match n with
  | RLeaf => lift Panic
  | RNode l _ v _ _ => match l with RLeaf => lift (Ok v) | _ => rb_min_c l end
  end.
(** node.go:136-146 removeMin *)
Fixpoint rb_remove_min_c (fuel : nat) (n : rb) : cost rb :=
  match fuel with
  | O => lift NoFuel
  | S f =>
      tick match n with
      | RLeaf => lift Panic
      | RNode RLeaf _ _ _ _ => lift (Ok RLeaf)
      | RNode l _ _ _ _ =>
          bb <~ lift (rb_black_black l) ;;
          n1 <~ lift (if bb : bool then rb_move_red_left n else Ok n) ;;
          match n1 with
          | RLeaf => lift Panic
          | RNode l1 r1 v1 c1 s1 =>
              l' <~ rb_remove_min_c f l1 ;; lift (rb_remove_balance (RNode l' r1 v1 c1 s1))
          end
      end
  end.
(** node.go:104-134 remove *)
Fixpoint rb_remove_c (fuel : nat) (n : rb) (val : f64) : cost rb :=
  match fuel with
  | O => lift NoFuel
  | S f =>
      tick (present <~ rb_contains_c n val ;;
      if negb present then lift (Ok n)
      else
        match n with
        | RLeaf => lift Panic
        | RNode l r v c s =>
            if flt val v then
              bb <~ lift (rb_black_black l) ;;
              n1 <~ lift (if bb : bool then rb_move_red_left n else Ok n) ;;
              match n1 with
              | RLeaf => lift Panic
              | RNode l1 r1 v1 c1 s1 =>
                  l' <~ rb_remove_c f l1 val ;; lift (rb_remove_balance (RNode l' r1 v1 c1 s1))
              end
            else
              n1 <~ lift (if is_red (rcolor l) then rb_rotate_right n else Ok n) ;;
              match n1 with
              | RLeaf => lift Panic
              | RNode l1 r1 v1 c1 s1 =>
                  if feq val v1 && match r1 with RLeaf => true | _ => false end then lift (Ok RLeaf)
                  else
                    bb <~ lift (rb_black_black r1) ;;
                    n2 <~ lift (if bb : bool then rb_move_red_right n1 else Ok n1) ;;
                    match n2 with
                    | RLeaf => lift Panic
                    | RNode l2 r2 v2 c2 s2 =>
                        if feq val v2 then
                          x <~ rb_min_c r2 ;;
                          r' <~ rb_remove_min_c f r2 ;;
                          lift (rb_remove_balance (RNode l2 r' x c2 s2))
                        else
                          r' <~ rb_remove_c f r2 val ;;
                          lift (rb_remove_balance (RNode l2 r' v2 c2 s2))
                    end
              end
        end)
  end.
(** tree.go:23-25 Remove *)
Definition rb_tree_remove_c (n : rb) (val : f64) : cost rb := rb_remove_c (S (rb_nodes n)) n val.
(** node.go:255-268 Select *)
Fixpoint rb_select_c (n : rb) (k : Z) : cost (option f64) :=
  tick match n with
  | RLeaf => lift (Ok None)
  | RNode l r v _ _ =>
      let size := rsize l in
      if (k <? size)%Z then rb_select_c l k
      else if (k >? size)%Z then rb_select_c r (k - size - 1)%Z
      else lift (Ok (Some v))
  end.
(** node.go:272-281 Rank *)
Fixpoint rb_rank_c (n : rb) (val : f64) : cost Z :=
  tick match n with
  | RLeaf => lift (Ok 0%Z)
  | RNode l r v _ _ =>
      if flt val v then rb_rank_c l val
      else if fgt val v then cmap (fun k => 1 + rsize l + k)%Z (rb_rank_c r val)
      else lift (Ok (rsize l))
  end.

(** ** quantile/skiplist/skiplist.go. Steps: iterations of loops. *)
(** skiplist.go:212-217 inner loop of getPrevs *)
Fixpoint walk_prev_c (fuel : nat) (st : nat -> snode) (i : nat) (val : f64) (prev : nat) : cost nat :=
  match fuel with
  | O => lift NoFuel
  | S f =>
      next <~ lift (get_next st prev i) ;;
      match next with
      | None => lift (Ok prev)
      | Some b => if flt (n_val (st b)) val then tick (walk_prev_c f st i val b) else lift (Ok prev)
      end
  end.
(** skiplist.go:205-223 getPrevs *)
Fixpoint get_prevs_c (fuel : nat) (st : nat -> snode) (i : nat) (val : f64) (prev : nat) : cost (nat -> nat) :=
  match i with
  | O => lift (Ok (fun _ => prev))
  | S i' =>
      p <~ tick (walk_prev_c fuel st i' val prev) ;;
      rest <~ get_prevs_c fuel st i' val p ;;
      lift (Ok (upd rest i' p))
  end.
(** skiplist.go:130-132 *)
Fixpoint width_walk_c (fuel : nat) (st : nat -> snode) (j : nat) (target : option nat) (curr : option nat) (acc : Z) : cost Z :=
  match fuel with
  | O => lift NoFuel
  | S f =>
      if node_equals st curr target then lift (Ok acc)
      else
        tick match curr with
        | None => lift Panic
        | Some a =>
            w <~ lift (get_width st a j) ;;
            nx <~ lift (get_next st a j) ;;
            width_walk_c f st j target nx (acc + w)%Z
        end
  end.
(** skiplist.go:129-134 *)
Fixpoint new_widths_c (fuel n i : nat) (prevs : nat -> nat) (x : nat) (st : nat -> snode) : cost (nat -> snode) :=
  match n with
  | O => lift (Ok st)
  | S n' =>
      target <~ tick (lift (get_next st x i)) ;;
      w0 <~ lift (get_width st x i) ;;
      w <~ width_walk_c fuel st (i - 1) target (Some x) w0 ;;
      st1 <~ lift (set_width st x i w) ;;
      pw <~ lift (get_width st1 (prevs i) i) ;;
      st2 <~ lift (set_width st1 (prevs i) i (pw - w)%Z) ;;
      new_widths_c fuel n' (S i) prevs x st2
  end.
(** skiplist.go:110-137 Add: the loops of randLevel, over the links and over the widths are
    entered level - 1, level and maxLevel - 1 times *)
Definition skip_add_c (s : skip) (val : f64) : cost skip :=
  prevs <~ get_prevs_c (sfuel s) (sk_store s) (sk_max s) val 0 ;;
  let level := skip_rand_level s in
  let x := sk_fresh s in
  let st0 := upd (sk_store s) x (SNode level (fun _ => None) (fun _ => 0%Z) val) in
  st1 <~ (level - 1 + level, link_levels level 0 prevs x st0) ;;
  st2 <~ lift (set_width st1 x 0 1%Z) ;;
  st3 <~ (sk_max s - 1, incr_widths (sk_max s - 1) 1 prevs st2) ;;
  st4 <~ new_widths_c (S (sfuel s)) (level - 1) 1 prevs x st3 ;;
  lift (Ok (Skip (sk_max s) st4 (S (sk_fresh s)) (sk_len s + 1)%Z (sk_probs s) (sk_rnd s) (S (sk_draws s)))).
(** skiplist.go:140-157 Remove: maxLevel iterations to unlink *)
Definition skip_remove_c (s : skip) (val : f64) : cost skip :=
  prevs <~ get_prevs_c (sfuel s) (sk_store s) (sk_max s) val 0 ;;
  nx <~ lift (get_next (sk_store s) (prevs 0) 0) ;;
  match nx with
  | Some a =>
      if feq (n_val (sk_store s a)) val then
        st <~ (sk_max s, unlink_levels (sk_max s) 0 prevs a (sk_store s)) ;;
        lift (Ok (Skip (sk_max s) st (sk_fresh s) (sk_len s - 1)%Z (sk_probs s) (sk_rnd s) (sk_draws s)))
      else lift (Ok s)
  | None => lift (Ok s)
  end.
(** skiplist.go:168-173 *)
Fixpoint select_walk_c (fuel : nat) (st : nat -> snode) (i : nat) (k : Z) (node : option nat) (pos : Z) : cost (option nat * Z) :=
  match fuel with
  | O => lift NoFuel
  | S f =>
      match node with
      | None => lift Panic
      | Some a =>
          w <~ lift (get_width st a i) ;;
          if (pos + w <=? k)%Z then
            nx <~ lift (get_next st a i) ;;
            tick (select_walk_c f st i k nx (pos + w)%Z)
          else lift (Ok (Some a, pos))
      end
  end.
Fixpoint select_levels_c (fuel : nat) (st : nat -> snode) (i : nat) (k : Z) (node : option nat) (pos : Z) : cost (option nat) :=
  match i with
  | O => lift (Ok node)
  | S i' =>
      r <~ tick (select_walk_c fuel st i' k node pos) ;;
      select_levels_c fuel st i' k (fst r) (snd r)
  end.
(** skiplist.go:160-176 Select *)
Definition skip_select_c (s : skip) (k : Z) : cost (option f64) :=
  if ((k <? 0) || (k >=? sk_len s))%Z then lift (Ok None)
  else
    r <~ select_levels_c (sfuel s) (sk_store s) (sk_max s) (k + 1) (Some 0) 0 ;;
    lift match r with Some a => Ok (Some (n_val (sk_store s a))) | None => Ok None end.
(** skiplist.go:182-186 *)
Fixpoint rank_walk_c (fuel : nat) (st : nat -> snode) (i : nat) (val : f64) (node : nat) (rank : Z) : cost (nat * Z) :=
  match fuel with
  | O => lift NoFuel
  | S f =>
      nx <~ lift (get_next st node i) ;;
      match nx with
      | Some b =>
          if flt (n_val (st b)) val then
            w <~ lift (get_width st node i) ;;
            tick (rank_walk_c f st i val b (rank + w)%Z)
          else lift (Ok (node, rank))
      | None => lift (Ok (node, rank))
      end
  end.
Fixpoint rank_levels_c (fuel : nat) (st : nat -> snode) (i : nat) (val : f64) (node : nat) (rank : Z) : cost Z :=
  match i with
  | O => lift (Ok rank)
  | S i' => r <~ tick (rank_walk_c fuel st i' val node rank) ;; rank_levels_c fuel st i' val (fst r) (snd r)
  end.
(** skiplist.go:179-190 Rank *)
Definition skip_rank_c (s : skip) (val : f64) : cost Z :=
  rank_levels_c (sfuel s) (sk_store s) (sk_max s) val 0 0.

(** ** quantile/quantile.go *)
Definition stat_add_c (st : stat) (x : f64) : cost stat :=
  match st with
  | StAvl t => cmap StAvl (avl_add_c t x) | StRb t => cmap StRb (rb_add_c t x) | StSkip s => cmap StSkip (skip_add_c s x)
  end.
Definition stat_remove_c (st : stat) (x : f64) : cost stat :=
  match st with
  | StAvl t => cmap StAvl (avl_remove_c t x) | StRb t => cmap StRb (rb_tree_remove_c t x)
  | StSkip s => cmap StSkip (skip_remove_c s x)
  end.
Definition stat_select_c (st : stat) (k : Z) : cost (option f64) :=
  match st with StAvl t => avl_select_c t k | StRb t => rb_select_c t k | StSkip s => skip_select_c s k end.

(** quantile.go:68-91 Push *)
Definition q_push_c (q : quant) (x : f64) : cost quant :=
  q1 <~ (if negb (q_window q =? 0)%Z then
           q0 <~ (if (ring_len (q_queue q) =? q_window q)%Z then
                    '(y, r) <~ lift (ring_get (q_queue q)) ;;
                    st <~ stat_remove_c (q_stat q) y ;;
                    lift (Ok (mkQ (q_window q) (q_interp q) r st))
                  else lift (Ok q)) ;;
           r <~ lift (ring_put (q_queue q0) x) ;;
           lift (Ok (mkQ (q_window q0) (q_interp q0) r (q_stat q0)))
         else lift (Ok q)) ;;
  st <~ stat_add_c (q_stat q1) x ;;
  lift (Ok (mkQ (q_window q1) (q_interp q1) (q_queue q1) st)).

Definition sel_c (st : stat) (k : Z) : cost f64 :=
  o <~ stat_select_c st k ;; match o with Some v => lift (Ok v) | None => lift Panic end.

(** quantile.go:94-143 Value *)
Definition q_value_c (e : env) (q : quant) (phi : f64) : cost f64 :=
  if fle phi (fz 0) || fge phi (fz 1) then lift (Err EBadQuantile)
  else
    let size := stat_size (q_stat q) in
    if (size =? 0)%Z then lift (Err ENoValues)
    else
      let raw := fmul phi (fz (size - 1)) in
      let tr := ftrunc raw in
      let idx := f2int e tr in
      if feq raw tr then sel_c (q_stat q) idx
      else
        let delta := fsub raw tr in
        if (q_interp q =? 0)%Z then
          lo <~ sel_c (q_stat q) idx ;; hi <~ sel_c (q_stat q) (idx + 1) ;;
          lift (Ok (fadd (fmul (fsub (fz 1) delta) lo) (fmul delta hi)))
        else if (q_interp q =? 1)%Z then sel_c (q_stat q) idx
        else if (q_interp q =? 2)%Z then sel_c (q_stat q) (idx + 1)
        else if (q_interp q =? 3)%Z then
          if feq delta (fdy 1 (-1)) then
            if (Z.rem idx 2 =? 0)%Z then sel_c (q_stat q) idx else sel_c (q_stat q) (idx + 1)
          else if flt delta (fdy 1 (-1)) then sel_c (q_stat q) idx
          else sel_c (q_stat q) (idx + 1)
        else
          lo <~ sel_c (q_stat q) idx ;; hi <~ sel_c (q_stat q) (idx + 1) ;;
          lift (Ok (fdiv (fadd lo hi) (fz 2))).

(** ** quantile/heap/heap.go with container/heap, and heap_median.go. Steps: iterations of
    the loops of up and down. *)
(** container/heap up *)
Fixpoint h_up_c (fuel : nat) (cmp : f64 -> f64 -> bool) (st : istore) (l : list nat) (j : nat) : cost (istore * list nat) :=
  match fuel with
  | 0 => lift NoFuel
  | S f =>
      tick (let i := Nat.div2 (j - 1) in
      if i =? j then lift (Ok (st, l))
      else
        b <~ lift (h_less cmp st l j i) ;;
        if b : bool then '(st', l') <~ lift (h_swap st l i j) ;; h_up_c f cmp st' l' i
        else lift (Ok (st, l)))
  end.
(** container/heap down *)
Fixpoint h_down_c (fuel : nat) (cmp : f64 -> f64 -> bool) (st : istore) (l : list nat) (i n : nat) : cost (istore * list nat * nat) :=
  match fuel with
  | 0 => lift NoFuel
  | S f =>
      tick (let j1 := 2 * i + 1 in
      if n <=? j1 then lift (Ok (st, l, i))
      else
        j <~ lift (if S j1 <? n then b <- h_less cmp st l (S j1) j1 ;; Ok (if b then S j1 else j1) else Ok j1) ;;
        b <~ lift (h_less cmp st l j i) ;;
        if b : bool then '(st', l') <~ lift (h_swap st l i j) ;; h_down_c f cmp st' l' j n
        else lift (Ok (st, l, i)))
  end.
(** heap.go:62-67 with up *)
Definition h_push_c (st : istore) (h : heap) (a : nat) : cost (istore * heap) :=
  let l := h_items h in
  let st1 := iupd st a (mkItem (it_val (st a)) (h_id h) (Z.of_nat (List.length l))) in
  let l1 := l ++ [a] in
  '(st2, l2) <~ h_up_c (S (List.length l1)) (h_cmp h) st1 l1 (List.length l1 - 1) ;;
  lift (Ok (st2, mkHeap (h_id h) l2 (h_cmp h))).
(** container/heap Pop *)
Definition h_pop_c (st : istore) (h : heap) : cost (istore * heap * nat) :=
  match h_items h with
  | [] => lift Panic
  | _ =>
      let n := h_len h - 1 in
      '(st1, l1) <~ lift (h_swap st (h_items h) 0 n) ;;
      '(st2, l2, _) <~ h_down_c (S (List.length l1)) (h_cmp h) st1 l1 0 n ;;
      '(st3, l3, a) <~ lift (h_pop_last st2 l2) ;;
      lift (Ok (st3, mkHeap (h_id h) l3 (h_cmp h), a))
  end.
(** container/heap Fix *)
Definition h_fix_c (cmp : f64 -> f64 -> bool) (st : istore) (l : list nat) (k n : nat) : cost (istore * list nat) :=
  '(st1, l1, k') <~ h_down_c (S (List.length l)) cmp st l k n ;;
  if k <? k' then lift (Ok (st1, l1)) else h_up_c (S (List.length l)) cmp st1 l1 k.
(** heap.go:97-100 Update *)
Definition h_update_c (st : istore) (h : heap) (a : nat) (v : f64) : cost (istore * heap) :=
  let st1 := iupd st a (set_val (st a) v) in
  let i := it_index (st1 a) in
  if (i <? 0)%Z then lift (Ok (st1, h))
  else
    '(st2, l2) <~ h_fix_c (h_cmp h) st1 (h_items h) (Z.to_nat i) (h_len h) ;;
    lift (Ok (st2, mkHeap (h_id h) l2 (h_cmp h))).
(** heap.go:103-105 Remove *)
Definition h_remove_c (st : istore) (h : heap) (a : nat) : cost (istore * heap) :=
  let i := it_index (st a) in
  if (i <? 0)%Z then lift Panic
  else match h_items h with
  | [] => lift Panic
  | _ =>
      let n := h_len h - 1 in
      let k := Z.to_nat i in
      '(st2, l2) <~ (if negb (n =? k) then
                       '(st1, l1) <~ lift (h_swap st (h_items h) k n) ;; h_fix_c (h_cmp h) st1 l1 k n
                     else lift (Ok (st, h_items h))) ;;
      '(st3, l3, _) <~ lift (h_pop_last st2 l2) ;;
      lift (Ok (st3, mkHeap (h_id h) l3 (h_cmp h)))
  end.
(** heap_median.go:113-122 rebalance *)
Definition hm_rebalance_c (st : istore) (lo hi : heap) (a : nat) : cost (istore * heap * heap * nat) :=
  if h_len lo + 1 <? h_len hi then
    '(st1, hi1, b) <~ h_pop_c st hi ;;
    '(st2, lo1) <~ h_push_c st1 lo b ;;
    lift (Ok (st2, lo1, hi1, b))
  else if h_len hi + 1 <? h_len lo then
    '(st1, lo1, b) <~ h_pop_c st lo ;;
    '(st2, hi1) <~ h_push_c st1 hi b ;;
    lift (Ok (st2, lo1, hi1, b))
  else lift (Ok (st, lo, hi, a)).
(** heap_median.go:63-111 Push *)
Definition hm_push_c (m : hmed) (x : f64) : cost hmed :=
  '(st, lo, hi, a, q, nx) <~
    (if negb (hm_window m =? 0)%Z && (ring_len (hm_queue m) =? hm_window m)%Z then
       '(a, q) <~ lift (ring_get (hm_queue m)) ;;
       let st := hm_store m in
       let low := String.eqb (it_hid (st a)) (h_id (hm_low m)) in
       p <~ lift (h_peek st (hm_low m)) ;;
       '(st1, lo1, hi1) <~
         (if low && fle x p then '(st1, lo1) <~ h_update_c st (hm_low m) a x ;; lift (Ok (st1, lo1, hm_high m))
          else if negb low && fgt x p then '(st1, hi1) <~ h_update_c st (hm_high m) a x ;; lift (Ok (st1, hm_low m, hi1))
          else if low && fgt x p then
            '(st1, lo1) <~ h_remove_c st (hm_low m) a ;;
            '(st2, hi1) <~ h_push_c (iupd st1 a (set_val (st1 a) x)) (hm_high m) a ;;
            lift (Ok (st2, lo1, hi1))
          else
            '(st1, hi1) <~ h_remove_c st (hm_high m) a ;;
            '(st2, lo1) <~ h_push_c (iupd st1 a (set_val (st1 a) x)) (hm_low m) a ;;
            lift (Ok (st2, lo1, hi1))) ;;
       '(st2, lo2, hi2, b) <~ hm_rebalance_c st1 lo1 hi1 a ;;
       lift (Ok (st2, lo2, hi2, b, q, hm_next m))
     else
       let a := hm_next m in
       let st := iupd (hm_store m) a (mkItem x "" 0%Z) in
       toLow <~ lift (if h_len (hm_low m) =? 0 then Ok true else p <- h_peek st (hm_low m) ;; Ok (fle x p)) ;;
       '(st1, lo1, hi1) <~
         (if toLow : bool then '(st1, lo1) <~ h_push_c st (hm_low m) a ;; lift (Ok (st1, lo1, hm_high m))
          else '(st1, hi1) <~ h_push_c st (hm_high m) a ;; lift (Ok (st1, hm_low m, hi1))) ;;
       '(st2, lo2, hi2, b) <~ hm_rebalance_c st1 lo1 hi1 a ;;
       lift (Ok (st2, lo2, hi2, b, hm_queue m, S (hm_next m)))) ;;
  q' <~ lift (if negb (hm_window m =? 0)%Z then ring_put q a else Ok q) ;;
  lift (Ok (mkHM (hm_window m) lo hi q' st nx)).

(** ** minmax/min.go and max.go. Steps: calls of Push, and evaluations of the loop
    condition of Push. *)
(** min.go:83-85, max.go:83-85 *)
Fixpoint pop_while_c (cond : f64 -> bool) (back_first : list f64) : cost (list f64) :=
  tick match back_first with
  | [] => lift (Ok [])
  | b :: t => if cond b then pop_while_c cond t else lift (Ok back_first)
  end.
(** min.go:58-94 and max.go:58-94 Push: [cond x b] is the loop condition, [ext] is math.Min
    or math.Max *)
Definition mm_push_c (cond : f64 -> f64 -> bool) (ext : f64 -> f64 -> f64) (m : mm) (x : f64) : cost mm :=
  tick (if negb (mm_window m =? 0)%Z then
    m1 <~ lift (if (ring_len (mm_queue m) =? mm_window m)%Z then
             '(val, q) <- ring_get (mm_queue m) ;;
             front <- dq_front (mm_deque m) ;;
             d <- (if feq front val then dq_pop_front (mm_deque m) else Ok (mm_deque m)) ;;
             Ok (mkMM (mm_window m) (mm_count m - 1) q d (mm_ext m))
           else Ok m) ;;
    q <~ lift (ring_put (mm_queue m1) x) ;;
    d <~ pop_while_c (fun b => cond b x) (rev (mm_deque m1)) ;;
    lift (Ok (mkMM (mm_window m1) (mm_count m1 + 1) q (dq_push_back (rev d) x) (mm_ext m1)))
  else
    lift (Ok (mkMM (mm_window m) (mm_count m + 1) (mm_queue m) (mm_deque m) (ext (mm_ext m) x)))).
Definition min_push_c : mm -> f64 -> cost mm := mm_push_c fgt math_min.
Definition max_push_c : mm -> f64 -> cost mm := mm_push_c flt math_max.

(** A history, adding up the steps of the calls *)
Fixpoint run_c {S A} (push : S -> A -> cost S) (clear : S -> res S) (ops : list (op A)) (s : S) : cost S :=
  match ops with
  | [] => lift (Ok s)
  | OPush x :: t => s' <~ push s x ;; run_c push clear t s'
  | OClear :: t => s' <~ tick (lift (clear s)) ;; run_c push clear t s'
  end.
Definition min_run_c (w : Z) (ops : list (op f64)) : cost mm := m <~ lift (new_min w) ;; run_c min_push_c min_clear ops m.
Definition max_run_c (w : Z) (ops : list (op f64)) : cost mm := m <~ lift (new_max w) ;; run_c max_push_c max_clear ops m.

(** ** moment/core.go. Steps: iterations of the inner and the outer loops. The lookup of a
    binomial coefficient is one operation: the cache of factorials is filled once. *)
Section Moment.
Context {T : Type} (N : Num T).
Local Notation "x +. y" := (nadd N x y) (at level 50, left associativity).
Local Notation "x -. y" := (nsub N x y) (at level 50, left associativity).
Local Notation "x *. y" := (nmul N x y) (at level 40, left associativity).
Local Notation "x /. y" := (ndiv N x y) (at level 40, left associativity).
Local Notation "# z" := (nz N z%Z) (at level 5, format "# z").

Fixpoint inner_c (op : T -> T -> T) (term : T -> nat -> T) (k : nat) (is_ : list nat) (s : T) : cost T :=
  match is_ with
  | [] => lift (Ok s)
  | i :: t => tick (c <~ lift (coef N k i) ;; inner_c op term k t (op s (term c i)))
  end.
Fixpoint outer_c (step : (nat -> T) -> nat -> cost T) (ks : list nat) (f : nat -> T) : cost (nat -> T) :=
  match ks with
  | [] => lift (Ok f)
  | k :: t => tick (v <~ step f k ;; outer_c step t (sput f k v))
  end.
(** core.go:106-123 add *)
Definition c_add_c (c : core) (x : T) : cost core :=
  let n := (c_count c + 1)%Z in
  let count := #n in
  let delta := x -. c_mean c in
  let mean := c_mean c +. delta /. count in
  let step (f : nat -> T) (k : nat) :=
    let s0 := f k +. (count -. #1) /. npow N count k *. (npow N (count -. #1) (k - 1) +. #(MathModel.sign (Z.of_nat k))) *. npow N delta k in
    inner_c (nadd N) (fun cf i => cf *. npow N (delta /. count) i *. f (k - i)) k (seq 1 (k - 2)) s0 in
  f <~ outer_c step (rev (ks_up (c_len c))) (c_sums c) ;;
  lift (Ok (mkCore mean (c_len c) f n (c_window c) (c_decay c) (c_queue c))).
(** core.go:131-156 addDecay *)
Definition c_add_decay_c (c : core) (d : T) (x : T) : cost core :=
  let n := (c_count c + 1)%Z in
  let decay := if (n =? 1)%Z then #1 else d in
  let delta := x -. c_mean c in
  let mean := c_mean c +. decay *. delta in
  let step (f : nat -> T) (k : nat) :=
    let old := (#1 -. decay) *. f k in
    let coeff := (#1 -. decay) *. npow N (#0 -. decay) k +. decay *. npow N (#1 -. decay) k in
    let old := old +. coeff *. npow N delta k in
    inner_c (nadd N) (fun cf i => cf *. npow N (decay *. delta) i *. (#1 -. decay) *. f (k - i)) k (seq 1 (k - 2)) old in
  f <~ outer_c step (rev (ks_up (c_len c))) (c_sums c) ;;
  lift (Ok (mkCore mean (c_len c) f n (c_window c) (c_decay c) (c_queue c))).
(** core.go:161-185 remove; the loop that resets the sums counts too *)
Definition c_remove_c (c : core) (x : T) : cost core :=
  let n := (c_count c - 1)%Z in
  if (n >? 0)%Z then
    let count := #n in
    let mean := c_mean c -. (x -. c_mean c) /. count in
    let delta := x -. mean in
    let step (f : nat -> T) (k : nat) :=
      let s0 := f k -. count /. npow N (count +. #1) k *. (npow N count (k - 1) +. #(MathModel.sign (Z.of_nat k))) *. npow N delta k in
      inner_c (nsub N) (fun cf i => cf *. npow N (delta /. (count +. #1)) i *. f (k - i)) k (seq 1 (k - 2)) s0 in
    f <~ outer_c step (ks_up (c_len c)) (c_sums c) ;;
    lift (Ok (mkCore mean (c_len c) f n (c_window c) (c_decay c) (c_queue c)))
  else (c_len c, Ok (mkCore #0 (c_len c) (fun _ => #0) n (c_window c) (c_decay c) (c_queue c))).
(** core.go:75-98 UnsafePush *)
Definition c_push_c (c : core) (x : T) : cost core :=
  c' <~ (if negb (c_window c =? 0)%Z then
           c1 <~ (if (ring_len (c_queue c) =? c_window c)%Z then
                    '(y, q) <~ lift (ring_get (c_queue c)) ;;
                    c_remove_c (mkCore (c_mean c) (c_len c) (c_sums c) (c_count c) (c_window c) (c_decay c) q) y
                  else lift (Ok c)) ;;
           q <~ lift (ring_put (c_queue c1) x) ;;
           lift (Ok (mkCore (c_mean c1) (c_len c1) (c_sums c1) (c_count c1) (c_window c1) (c_decay c1) q))
         else lift (Ok c)) ;;
  match c_decay c' with
  | None => c_add_c c' x
  | Some d => c_add_decay_c c' d x
  end.

(** ** joint/core.go. Steps: for every pair (a, b) of the loops one step per variable (pow,
    abs, eq, hash, multinom and sub run over the tuples), and one step per variable for
    every a (its hash); copying or resetting a map of sums is one step per key. The keys
    of both maps are the tuples below the configured ones: [keys]. *)
Context {A : Type}.
Definition vars (c : @jcore T A) : nat := List.length (j_means c).
(** The keys the maps were made with (core.go:64-75) *)
Definition nkeys (ts : list tuple) : nat :=
  List.length (nodup Z.eq_dec (flat_map (fun t => map t_hash (iter_list t false)) ts)).

Definition steps {B} (k : nat) (m : cost B) : cost B := (k + fst m, snd m).
Definition upd_b_c (d : nat) (term : tuple -> tuple -> hmap -> res (T -> T)) (a : tuple) : list tuple -> hmap -> cost hmap :=
  fix go bs m := match bs with
                 | [] => lift (Ok m)
                 | b :: t => steps d (f <~ lift (term a b m) ;; go t (hput m (t_hash a) (f (hget N m (t_hash a)))))
                 end.
Fixpoint upd_a_c (d : nat) (term : tuple -> tuple -> hmap -> res (T -> T)) (as_ : list tuple) (m : hmap) : cost hmap :=
  match as_ with
  | [] => lift (Ok m)
  | a :: t => steps d (m' <~ upd_b_c d term a (iter_list a false) (hput m (t_hash a) #0) ;; upd_a_c d term t m')
  end.
Fixpoint upd_tuples_c (d : nat) (term : tuple -> tuple -> hmap -> res (T -> T)) (reverse : bool) (ts : list tuple) (m : hmap) : cost hmap :=
  match ts with
  | [] => lift (Ok m)
  | t :: r => m' <~ upd_a_c d term (iter_list t reverse) m ;; upd_tuples_c d term reverse r m'
  end.
(** core.go:136-194 add *)
Definition j_add_c (c : @jcore T A) (xs : list T) : cost jcore :=
  let n := (j_count c + 1)%Z in
  let count := #n in
  let delta := deltas N xs (j_means c) in
  let means := add_means N (j_means c) delta (fun d => d /. count) in
  m <~ steps (vars c) (upd_tuples_c (vars c) (add_term N count delta (j_sums c)) true (j_tuples c) (j_new c)) ;;
  steps (nkeys (j_tuples c))
    (lift (Ok (mkJ means (j_tuples c) (hcopy m (j_sums c)) m n (j_window c) (j_decay c) (j_queue c)))).
(** core.go:202-266 addDecay *)
Definition j_add_decay_c (c : @jcore T A) (d : T) (xs : list T) : cost jcore :=
  let n := (j_count c + 1)%Z in
  let decay := if (n =? 1)%Z then #1 else d in
  let delta := deltas N xs (j_means c) in
  let means := add_means N (j_means c) delta (fun x => decay *. x) in
  m <~ steps (vars c) (upd_tuples_c (vars c) (decay_term N decay delta (j_sums c)) true (j_tuples c) (j_new c)) ;;
  steps (nkeys (j_tuples c))
    (lift (Ok (mkJ means (j_tuples c) (hcopy m (j_sums c)) m n (j_window c) (j_decay c) (j_queue c)))).
(** core.go:282-327: one copy of the map per tuple *)
Fixpoint rem_tuples_c (keys d : nat) (count : T) (delta : list T) (ts : list tuple) (sums new : hmap) : cost (hmap * hmap) :=
  match ts with
  | [] => lift (Ok (sums, new))
  | t :: r => m <~ upd_a_c d (rem_term N count delta sums) (iter_list t false) new ;;
              steps keys (rem_tuples_c keys d count delta r (hcopy m sums) m)
  end.
(** core.go:271-341 remove *)
Definition j_remove_c (c : @jcore T A) (xs : list T) : cost jcore :=
  let n := (j_count c - 1)%Z in
  if (n >? 0)%Z then
    let count := #n in
    let means := map (fun p => snd p -. (fst p -. snd p) /. count) (combine xs (j_means c)) in
    let delta := deltas N xs means in
    '(s, m) <~ steps (vars c) (rem_tuples_c (nkeys (j_tuples c)) (vars c) count delta (j_tuples c) (j_sums c) (j_new c)) ;;
    lift (Ok (mkJ means (j_tuples c) s m n (j_window c) (j_decay c) (j_queue c)))
  else
    (vars c + 2 * nkeys (j_tuples c),
     Ok (mkJ (map (fun _ => #0) (j_means c)) (j_tuples c) (hzero N (j_sums c)) (hzero N (j_new c)) n (j_window c) (j_decay c) (j_queue c))).
(** core.go:89-128 UnsafePush *)
Definition j_push_c (rd : A -> list T) (c : @jcore T A) (x : A) : cost jcore :=
  if negb (Nat.eqb (List.length (rd x)) (List.length (j_means c))) then lift (Err EArity)
  else
    c' <~ (if negb (j_window c =? 0)%Z then
             c1 <~ (if (ring_len (j_queue c) =? j_window c)%Z then
                      '(y, q) <~ lift (ring_get (j_queue c)) ;;
                      j_remove_c (mkJ (j_means c) (j_tuples c) (j_sums c) (j_new c) (j_count c) (j_window c) (j_decay c) q) (rd y)
                    else lift (Ok c)) ;;
             q <~ lift (ring_put (j_queue c1) x) ;;
             lift (Ok (mkJ (j_means c1) (j_tuples c1) (j_sums c1) (j_new c1) (j_count c1) (j_window c1) (j_decay c1) q))
           else lift (Ok c)) ;;
    match j_decay c' with
    | None => j_add_c c' (rd x)
    | Some d => j_add_decay_c c' d (rd x)
    end.
End Moment.

(** ** The Push methods of the metrics, which call Push of the core once *)
Section Metrics.
Context {T : Type} (N : Num T).
(** The Push methods of the eight files of moment *)
Definition m_push_c (m : @metric T) (x : T) : cost (@metric T) :=
  match m_core m with
  | None => lift (Err ECoreNotSet)
  | Some c => c' <~ c_push_c N c x ;; lift (Ok (mkM (m_kind m) (Some c')))
  end.
Definition jpush_c (c : @vcore T) (x : list T) : cost (@vcore T) := j_push_c N (fun x => x) c x.
(** cov.go:51-70, corr.go:56-75, ewmcov.go:48-67, ewmcorr.go:53-72 Push *)
Definition jm_push_c (m : @jmetric T) (xs : list T) : cost (@jmetric T) :=
  match jm_core m with
  | None => lift (Err ECoreNotSet)
  | Some c => if negb (Nat.eqb (length xs) 2) then lift (Err EArity)
              else c' <~ jpush_c c xs ;; lift (Ok (mkJM (jm_kind m) (Some c')))
  end.
(** autocov.go:70-105 and autocorr.go:70-105 Push *)
Definition auto_push_c (a : @auto T) (x : T) : cost (@auto T) :=
  match jm_core (a_metric a) with
  | None => lift (Err ECoreNotSet)
  | Some c =>
      if (a_lag a =? 0)%Z then
        c' <~ jpush_c c [x; x] ;; lift (Ok (mkA (a_lag a) (a_queue a) (mkJM (jm_kind (a_metric a)) (Some c'))))
      else
        '(c1, q1) <~ (if (ring_len (a_queue a) >=? a_lag a)%Z then
                        '(y, q) <~ lift (ring_get (a_queue a)) ;;
                        c' <~ jpush_c c [x; y] ;; lift (Ok (c', q))
                      else lift (Ok (c, a_queue a))) ;;
        q2 <~ lift (ring_put q1 x) ;;
        lift (Ok (mkA (a_lag a) q2 (mkJM (jm_kind (a_metric a)) (Some c1))))
  end.
End Metrics.
