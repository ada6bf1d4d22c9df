(** Model of quantile/heap/heap.go, of the container/heap algorithms it is used with
    (Go standard library, external), and of quantile/heap_median.go. *)
From Coq Require Import String.
From Verif Require Import Base F64 HistSpec RingModel.
Local Open Scope nat_scope.
Local Open Scope list_scope.

(** heap.go:18-27 (type Item). Items are shared by reference between the heaps and
    the queue of HeapMedian, so they live in a store addressed by natural numbers. *)
Record item := mkItem { it_val : f64; it_hid : string; it_index : Z }.
Definition istore := nat -> item.
Definition iupd (st : istore) (a : nat) (x : item) : istore := fun b => if b =? a then x else st b.
Definition set_index (x : item) (i : Z) : item := mkItem (it_val x) (it_hid x) i.
Definition set_val (x : item) (v : f64) : item := mkItem v (it_hid x) (it_index x).

(** heap.go:6-10 (type Heap); the items slice holds addresses *)
Record heap := mkHeap { h_id : string; h_items : list nat; h_cmp : f64 -> f64 -> bool }.

(** h.items[i]; out of range panics *)
Definition hget (l : list nat) (i : nat) : res nat :=
  match nth_error l i with Some a => Ok a | None => Panic end.
Fixpoint lset (l : list nat) (i : nat) (x : nat) : list nat :=
  match l, i with
  | [], _ => []
  | _ :: t, 0 => x :: t
  | a :: t, S i' => a :: lset t i' x
  end.

(** heap.go:46-48 Len *)
Definition h_len (h : heap) : nat := length (h_items h).
(** heap.go:50-52 Less *)
Definition h_less (cmp : f64 -> f64 -> bool) (st : istore) (l : list nat) (i j : nat) : res bool :=
  a <- hget l i ;; b <- hget l j ;; Ok (cmp (it_val (st a)) (it_val (st b))).
(** heap.go:54-58 Swap *)
Definition h_swap (st : istore) (l : list nat) (i j : nat) : res (istore * list nat) :=
  a <- hget l i ;; b <- hget l j ;;
  let l' := lset (lset l i b) j a in
  let st1 := iupd st b (set_index (st b) (Z.of_nat i)) in
  Ok (iupd st1 a (set_index (st1 a) (Z.of_nat j)), l').

(** container/heap up: (j-1)/2 truncates, so the parent of 0 is 0 *)
Fixpoint h_up (fuel : nat) (cmp : f64 -> f64 -> bool) (st : istore) (l : list nat) (j : nat) : res (istore * list nat) :=
  match fuel with
  | 0 => NoFuel
  | S f =>
      let i := Nat.div2 (j - 1) in
      if i =? j then Ok (st, l)
      else
        b <- h_less cmp st l j i ;;
        if b then '(st', l') <- h_swap st l i j ;; h_up f cmp st' l' i
        else Ok (st, l)
  end.

(** container/heap down, restricted to the first n items; returns the final
    position as well (the code returns whether it is greater than the start).
    Overflow of 2i+1 is not modelled. *)
Fixpoint h_down (fuel : nat) (cmp : f64 -> f64 -> bool) (st : istore) (l : list nat) (i n : nat) : res (istore * list nat * nat) :=
  match fuel with
  | 0 => NoFuel
  | S f =>
      let j1 := 2 * i + 1 in
      if n <=? j1 then Ok (st, l, i)
      else
        j <- (if S j1 <? n then b <- h_less cmp st l (S j1) j1 ;; Ok (if b then S j1 else j1) else Ok j1) ;;
        b <- h_less cmp st l j i ;;
        if b then '(st', l') <- h_swap st l i j ;; h_down f cmp st' l' j n
        else Ok (st, l, i)
  end.

(** container/heap Init: down(i, n) for i = n/2-1, ..., 0 *)
Fixpoint h_init (k : nat) (cmp : f64 -> f64 -> bool) (st : istore) (l : list nat) : res (istore * list nat) :=
  match k with
  | 0 => Ok (st, l)
  | S k' => '(st', l', _) <- h_down (S (length l)) cmp st l k' (length l) ;; h_init k' cmp st' l'
  end.

(** heap.go:62-67 (method Push) followed by up, that is heapops.Push(h, item) *)
Definition h_push (st : istore) (h : heap) (a : nat) : res (istore * heap) :=
  let l := h_items h in
  let st1 := iupd st a (mkItem (it_val (st a)) (h_id h) (Z.of_nat (length l))) in
  let l1 := l ++ [a] in
  '(st2, l2) <- h_up (S (length l1)) (h_cmp h) st1 l1 (length l1 - 1) ;;
  Ok (st2, mkHeap (h_id h) l2 (h_cmp h)).

(** heap.go:71-76 (method Pop): removes the last item *)
Definition h_pop_last (st : istore) (l : list nat) : res (istore * list nat * nat) :=
  match rev l with
  | [] => Panic
  | a :: r => Ok (iupd st a (set_index (st a) (-1)), rev r, a)
  end.

(** container/heap Pop; on an empty heap Swap(0, -1) panics *)
Definition h_pop (st : istore) (h : heap) : res (istore * heap * nat) :=
  match h_items h with
  | [] => Panic
  | _ =>
      let n := h_len h - 1 in
      '(st1, l1) <- h_swap st (h_items h) 0 n ;;
      '(st2, l2, _) <- h_down (S (length l1)) (h_cmp h) st1 l1 0 n ;;
      '(st3, l3, a) <- h_pop_last st2 l2 ;;
      Ok (st3, mkHeap (h_id h) l3 (h_cmp h), a)
  end.

(** container/heap Fix after down returned position k' from k *)
Definition h_fix (cmp : f64 -> f64 -> bool) (st : istore) (l : list nat) (k n : nat) : res (istore * list nat) :=
  '(st1, l1, k') <- h_down (S (length l)) cmp st l k n ;;
  if k <? k' then Ok (st1, l1) else h_up (S (length l)) cmp st1 l1 k.

(** heap.go:97-100 Update = set the value, then container/heap Fix. A popped item has
    index -1, for which down and up return at once. *)
Definition h_update (st : istore) (h : heap) (a : nat) (v : f64) : res (istore * heap) :=
  let st1 := iupd st a (set_val (st a) v) in
  let i := it_index (st1 a) in
  if (i <? 0)%Z then Ok (st1, h)
  else
    '(st2, l2) <- h_fix (h_cmp h) st1 (h_items h) (Z.to_nat i) (h_len h) ;;
    Ok (st2, mkHeap (h_id h) l2 (h_cmp h)).

(** heap.go:103-105 Remove = container/heap Remove(h, item.index); index -1 panics in
    Swap (or in Pop if the heap is empty) *)
Definition h_remove (st : istore) (h : heap) (a : nat) : res (istore * heap) :=
  let i := it_index (st a) in
  if (i <? 0)%Z then Panic
  else match h_items h with
  | [] => Panic
  | _ =>
      let n := h_len h - 1 in
      let k := Z.to_nat i in
      '(st2, l2) <- (if negb (n =? k) then
                       '(st1, l1) <- h_swap st (h_items h) k n ;; h_fix (h_cmp h) st1 l1 k n
                     else Ok (st, h_items h)) ;;
      '(st3, l3, _) <- h_pop_last st2 l2 ;;
      Ok (st3, mkHeap (h_id h) l3 (h_cmp h))
  end.

(** heap.go:80-82 Peek *)
Definition h_peek (st : istore) (h : heap) : res f64 :=
  a <- hget (h_items h) 0 ;; Ok (it_val (st a)).
(** heap.go:86-92 Values *)
Definition h_values (st : istore) (h : heap) : list f64 := map (fun a => it_val (st a)) (h_items h).

(** heap.go:30-44 New; the new items get the addresses from [base] on *)
Fixpoint h_alloc (st : istore) (id : string) (base i : nat) (vals : list f64) : istore :=
  match vals with
  | [] => st
  | v :: t => h_alloc (iupd st (base + i) (mkItem v id (Z.of_nat i))) id base (S i) t
  end.
Definition h_new (st : istore) (base : nat) (id : string) (vals : list f64) (cmp : f64 -> f64 -> bool) : res (istore * heap) :=
  let st1 := h_alloc st id base 0 vals in
  '(st2, l2) <- h_init (Nat.div2 (length vals)) cmp st1 (seq base (length vals)) ;;
  Ok (st2, mkHeap id l2 cmp).

(** heap_median.go:14-20 (type HeapMedian), with the item store and the next free address *)
Record hmed := mkHM { hm_window : Z; hm_low : heap; hm_high : heap; hm_queue : ring nat; hm_store : istore; hm_next : nat }.

(** heap_median.go:22-28 *)
Definition hm_fmax (x y : f64) : bool := fgt x y.
Definition hm_fmin (x y : f64) : bool := flt x y.

(** The heaps of a fresh HeapMedian: heap.New with no values *)
Definition low_empty : heap := mkHeap "low" [] hm_fmax.
Definition high_empty : heap := mkHeap "high" [] hm_fmin.

(** heap_median.go:31-42 NewHeapMedian *)
Definition new_heap_median (window : Z) : res hmed :=
  if (window <? 0)%Z then Err ENegWindow
  else Ok (mkHM window low_empty high_empty (ring_new window) (fun _ => mkItem (fz 0) "" 0%Z) 0).
(** heap_median.go:46-53 NewGlobalHeapMedian *)
Definition new_global_heap_median : hmed :=
  mkHM 0 low_empty high_empty (ring_new 0) (fun _ => mkItem (fz 0) "" 0%Z) 0.

(** heap_median.go:113-122 rebalance *)
Definition hm_rebalance (st : istore) (lo hi : heap) (a : nat) : res (istore * heap * heap * nat) :=
  if h_len lo + 1 <? h_len hi then
    '(st1, hi1, b) <- h_pop st hi ;;
    '(st2, lo1) <- h_push st1 lo b ;;
    Ok (st2, lo1, hi1, b)
  else if h_len hi + 1 <? h_len lo then
    '(st1, lo1, b) <- h_pop st lo ;;
    '(st2, hi1) <- h_push st1 hi b ;;
    Ok (st2, lo1, hi1, b)
  else Ok (st, lo, hi, a).

(** heap_median.go:63-111 Push. Peek is evaluated only where the switch reaches it: the
    first case needs low, the second not low, so exactly one Peek decides. *)
Definition hm_push (m : hmed) (x : f64) : res hmed :=
  '(st, lo, hi, a, q, nx) <-
    (if negb (hm_window m =? 0)%Z && (ring_len (hm_queue m) =? hm_window m)%Z then
       '(a, q) <- ring_get (hm_queue m) ;;
       let st := hm_store m in
       let low := String.eqb (it_hid (st a)) (h_id (hm_low m)) in
       p <- h_peek st (hm_low m) ;;
       '(st1, lo1, hi1) <-
         (if low && fle x p then '(st1, lo1) <- h_update st (hm_low m) a x ;; Ok (st1, lo1, hm_high m)
          else if negb low && fgt x p then '(st1, hi1) <- h_update st (hm_high m) a x ;; Ok (st1, hm_low m, hi1)
          else if low && fgt x p then
            '(st1, lo1) <- h_remove st (hm_low m) a ;;
            '(st2, hi1) <- h_push (iupd st1 a (set_val (st1 a) x)) (hm_high m) a ;;
            Ok (st2, lo1, hi1)
          else
            '(st1, hi1) <- h_remove st (hm_high m) a ;;
            '(st2, lo1) <- h_push (iupd st1 a (set_val (st1 a) x)) (hm_low m) a ;;
            Ok (st2, lo1, hi1)) ;;
       '(st2, lo2, hi2, b) <- hm_rebalance st1 lo1 hi1 a ;;
       Ok (st2, lo2, hi2, b, q, hm_next m)
     else
       let a := hm_next m in
       let st := iupd (hm_store m) a (mkItem x "" 0%Z) in
       toLow <- (if h_len (hm_low m) =? 0 then Ok true else p <- h_peek st (hm_low m) ;; Ok (fle x p)) ;;
       '(st1, lo1, hi1) <-
         (if toLow : bool then '(st1, lo1) <- h_push st (hm_low m) a ;; Ok (st1, lo1, hm_high m)
          else '(st1, hi1) <- h_push st (hm_high m) a ;; Ok (st1, hm_low m, hi1)) ;;
       '(st2, lo2, hi2, b) <- hm_rebalance st1 lo1 hi1 a ;;
       Ok (st2, lo2, hi2, b, hm_queue m, S (hm_next m))) ;;
  q' <- (if negb (hm_window m =? 0)%Z then ring_put q a else Ok q) ;;
  Ok (mkHM (hm_window m) lo hi q' st nx).

(** heap_median.go:125-145 Value *)
Definition hm_value (m : hmed) : res f64 :=
  let lo := hm_low m in let hi := hm_high m in let st := hm_store m in
  if h_len lo + h_len hi =? 0 then Err ENoValues
  else if h_len lo <? h_len hi then h_peek st hi
  else if h_len hi <? h_len lo then h_peek st lo
  else a <- h_peek st lo ;; b <- h_peek st hi ;; Ok (fdiv (fadd a b) (fz 2)).

(** heap_median.go:148-156 Clear; old items become unreachable *)
Definition hm_clear (m : hmed) : res hmed :=
  Ok (mkHM (hm_window m) low_empty high_empty (ring_new (hm_window m)) (hm_store m) (hm_next m)).

Definition hm_run (w : Z) (ops : list (op f64)) : res hmed := m <- new_heap_median w ;; run hm_push hm_clear ops m.
