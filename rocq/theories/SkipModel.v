(** Model of quantile/skiplist/skiplist.go (and the level bound of option.go).

    Nodes live in an explicit store indexed by addresses, because the code shares
    them between levels. Address 0 is the head node; addresses are handed out by
    a counter and never reused. Slices [next] and [width] of length [n_lvl] are
    functions on indices, with a Panic on indices out of range. The scratch slice
    [prevs] of the list is returned as a value by [getPrevs] (it is completely
    overwritten by every call, skiplist.go:205-223, and read nowhere else).
    The random source is an arbitrary sequence [sk_rnd] of float64s, the n-th call
    of rand.Float64 returning [sk_rnd n]; the probability table (math.Pow,
    skiplist.go:85-88) is an arbitrary function. Loops over pointers take fuel. *)
From Verif Require Import Base F64 OrderSpec MultisetSpec.

(** skiplist.go:21-26 Node (the flag [head] is "address = 0") *)
Record snode := SNode { n_lvl : nat; n_next : nat -> option nat; n_width : nat -> Z; n_val : f64 }.

(** skiplist.go:48-56 SkipList; the random source and the number of draws made *)
Record skip := Skip {
  sk_max : nat; sk_store : nat -> snode; sk_fresh : nat; sk_len : Z;
  sk_probs : nat -> f64; sk_rnd : nat -> f64; sk_draws : nat }.

Definition upd {A} (f : nat -> A) (k : nat) (x : A) : nat -> A := fun j => if (j =? k)%nat then x else f j.

Definition with_store (s : skip) (st : nat -> snode) : skip :=
  Skip (sk_max s) st (sk_fresh s) (sk_len s) (sk_probs s) (sk_rnd s) (sk_draws s).

(** Slice accesses a.next[i], a.width[i] *)
Definition get_next (st : nat -> snode) (a i : nat) : res (option nat) :=
  if i <? n_lvl (st a) then Ok (n_next (st a) i) else Panic.
Definition get_width (st : nat -> snode) (a i : nat) : res Z :=
  if i <? n_lvl (st a) then Ok (n_width (st a) i) else Panic.
Definition set_next (st : nat -> snode) (a i : nat) (p : option nat) : res (nat -> snode) :=
  if i <? n_lvl (st a)
  then Ok (upd st a (SNode (n_lvl (st a)) (upd (n_next (st a)) i p) (n_width (st a)) (n_val (st a))))
  else Panic.
Definition set_width (st : nat -> snode) (a i : nat) (w : Z) : res (nat -> snode) :=
  if i <? n_lvl (st a)
  then Ok (upd st a (SNode (n_lvl (st a)) (n_next (st a)) (upd (n_width (st a)) i w) (n_val (st a))))
  else Panic.

(** skiplist.go:73-82 the head node of an empty list *)
Definition empty_head (maxLevel : nat) : snode := SNode maxLevel (fun _ => None) (fun _ => 1%Z) (fz 0).

(** skiplist.go:59-91 New, after the options have been applied *)
Definition skip_new (maxLevel : nat) (probs rnd : nat -> f64) : skip :=
  Skip maxLevel (fun _ => empty_head maxLevel) 1 0 probs rnd 0.

(** skiplist.go:94-96 Size *)
Definition skip_size (s : skip) : Z := sk_len s.

(** skiplist.go:99-107 Clear: the head gets fresh slices; the other nodes become unreachable *)
Definition skip_clear (s : skip) : res skip :=
  Ok (Skip (sk_max s) (upd (sk_store s) 0 (empty_head (sk_max s))) (sk_fresh s) 0
           (sk_probs s) (sk_rnd s) (sk_draws s)).

(** skiplist.go:212-217 inner loop of getPrevs at level [i], starting at [prev] *)
Fixpoint walk_prev (fuel : nat) (st : nat -> snode) (i : nat) (val : f64) (prev : nat) : res nat :=
  match fuel with
  | O => NoFuel
  | S f =>
      next <- get_next st prev i ;;
      match next with
      | None => Ok prev
      | Some b => if flt (n_val (st b)) val then walk_prev f st i val b else Ok prev
      end
  end.

(** skiplist.go:205-223 getPrevs: levels [i-1] down to 0; result indexed by level *)
Fixpoint get_prevs (fuel : nat) (st : nat -> snode) (i : nat) (val : f64) (prev : nat) : res (nat -> nat) :=
  match i with
  | O => Ok (fun _ => prev)
  | S i' =>
      p <- walk_prev fuel st i' val prev ;;
      rest <- get_prevs fuel st i' val p ;;
      Ok (upd rest i' p)
  end.

(** Fuel for a walk along one level: more than the number of nodes ever allocated. *)
Definition sfuel (s : skip) : nat := S (sk_fresh s).

(** skiplist.go:226-233 randLevel: the loop, [left] iterations before maxLevel *)
Fixpoint rand_level (probs : nat -> f64) (r : f64) (level left : nat) : nat :=
  match left with
  | O => level
  | S k => if flt r (probs level) then rand_level probs r (S level) k else level
  end.
Definition skip_rand_level (s : skip) : nat :=
  rand_level (sk_probs s) (sk_rnd s (sk_draws s)) 1 (sk_max s - 1).

(** skiplist.go:119-122 links of the new node [x] at levels [i], ..., level-1 *)
Fixpoint link_levels (n i : nat) (prevs : nat -> nat) (x : nat) (st : nat -> snode) : res (nat -> snode) :=
  match n with
  | O => Ok st
  | S n' =>
      nx <- get_next st (prevs i) i ;;
      st1 <- set_next st x i nx ;;
      st2 <- set_next st1 (prevs i) i (Some x) ;;
      link_levels n' (S i) prevs x st2
  end.

(** skiplist.go:126-128 prevs[i].width[i]++ for i = [i], ..., [i]+[n]-1 *)
Fixpoint incr_widths (n i : nat) (prevs : nat -> nat) (st : nat -> snode) : res (nat -> snode) :=
  match n with
  | O => Ok st
  | S n' =>
      w <- get_width st (prevs i) i ;;
      st1 <- set_width st (prevs i) i (w + 1)%Z ;;
      incr_widths n' (S i) prevs st1
  end.

(** skiplist.go:33-35 equals *)
Definition node_equals (st : nat -> snode) (n m : option nat) : bool :=
  match n, m with
  | None, None => true
  | Some a, Some b => feq (n_val (st a)) (n_val (st b))
  | _, _ => false
  end.

(** skiplist.go:130-132 the walk at level i-1 computing node.width[i]; [curr] may
    become nil, and nil.width panics *)
Fixpoint width_walk (fuel : nat) (st : nat -> snode) (j : nat) (target : option nat) (curr : option nat) (acc : Z) : res Z :=
  match fuel with
  | O => NoFuel
  | S f =>
      if node_equals st curr target then Ok acc
      else
        match curr with
        | None => Panic
        | Some a =>
            w <- get_width st a j ;;
            nx <- get_next st a j ;;
            width_walk f st j target nx (acc + w)%Z
        end
  end.

(** skiplist.go:129-134 widths of the new node at levels [i], ..., [i]+[n]-1 *)
Fixpoint new_widths (fuel n i : nat) (prevs : nat -> nat) (x : nat) (st : nat -> snode) : res (nat -> snode) :=
  match n with
  | O => Ok st
  | S n' =>
      target <- get_next st x i ;;
      w0 <- get_width st x i ;;
      w <- width_walk fuel st (i - 1) target (Some x) w0 ;;
      st1 <- set_width st x i w ;;
      pw <- get_width st1 (prevs i) i ;;
      st2 <- set_width st1 (prevs i) i (pw - w)%Z ;;
      new_widths fuel n' (S i) prevs x st2
  end.

(** skiplist.go:110-137 Add *)
Definition skip_add (s : skip) (val : f64) : res skip :=
  prevs <- get_prevs (sfuel s) (sk_store s) (sk_max s) val 0 ;;
  let level := skip_rand_level s in
  let x := sk_fresh s in
  let st0 := upd (sk_store s) x (SNode level (fun _ => None) (fun _ => 0%Z) val) in
  st1 <- link_levels level 0 prevs x st0 ;;
  st2 <- set_width st1 x 0 1%Z ;;
  st3 <- incr_widths (sk_max s - 1) 1 prevs st2 ;;
  st4 <- new_widths (S (sfuel s)) (level - 1) 1 prevs x st3 ;;
  Ok (Skip (sk_max s) st4 (S (sk_fresh s)) (sk_len s + 1)%Z (sk_probs s) (sk_rnd s) (S (sk_draws s))).

(** skiplist.go:145-152 unlinking node [a] at levels [i], ..., [i]+[n]-1 *)
Fixpoint unlink_levels (n i : nat) (prevs : nat -> nat) (a : nat) (st : nat -> snode) : res (nat -> snode) :=
  match n with
  | O => Ok st
  | S n' =>
      if i <? n_lvl (st a) then
        nx <- get_next st a i ;;
        st1 <- set_next st (prevs i) i nx ;;
        pw <- get_width st1 (prevs i) i ;;
        w <- get_width st1 a i ;;
        st2 <- set_width st1 (prevs i) i (pw + (w - 1))%Z ;;
        unlink_levels n' (S i) prevs a st2
      else
        pw <- get_width st (prevs i) i ;;
        st1 <- set_width st (prevs i) i (pw - 1)%Z ;;
        unlink_levels n' (S i) prevs a st1
  end.

(** skiplist.go:140-157 Remove *)
Definition skip_remove (s : skip) (val : f64) : res skip :=
  prevs <- get_prevs (sfuel s) (sk_store s) (sk_max s) val 0 ;;
  nx <- get_next (sk_store s) (prevs 0) 0 ;;
  match nx with
  | Some a =>
      if feq (n_val (sk_store s a)) val then
        st <- unlink_levels (sk_max s) 0 prevs a (sk_store s) ;;
        Ok (Skip (sk_max s) st (sk_fresh s) (sk_len s - 1)%Z (sk_probs s) (sk_rnd s) (sk_draws s))
      else Ok s
  | None => Ok s
  end.

(** skiplist.go:168-173 inner loop of Select at level [i] *)
Fixpoint select_walk (fuel : nat) (st : nat -> snode) (i : nat) (k : Z) (node : option nat) (pos : Z) : res (option nat * Z) :=
  match fuel with
  | O => NoFuel
  | S f =>
      match node with
      | None => Panic
      | Some a =>
          w <- get_width st a i ;;
          if (pos + w <=? k)%Z then
            nx <- get_next st a i ;;
            select_walk f st i k nx (pos + w)%Z
          else Ok (Some a, pos)
      end
  end.

(** skiplist.go:167-173 the loop over levels [i-1], ..., 0 *)
Fixpoint select_levels (fuel : nat) (st : nat -> snode) (i : nat) (k : Z) (node : option nat) (pos : Z) : res (option nat) :=
  match i with
  | O => Ok node
  | S i' =>
      r <- select_walk fuel st i' k node pos ;;
      select_levels fuel st i' k (fst r) (snd r)
  end.

(** skiplist.go:160-176 Select; the value of the returned node, None for nil *)
Definition skip_select (s : skip) (k : Z) : res (option f64) :=
  if ((k <? 0) || (k >=? sk_len s))%Z then Ok None
  else
    r <- select_levels (sfuel s) (sk_store s) (sk_max s) (k + 1) (Some 0) 0 ;;
    match r with Some a => Ok (Some (n_val (sk_store s a))) | None => Ok None end.

(** skiplist.go:182-186 inner loop of Rank *)
Fixpoint rank_walk (fuel : nat) (st : nat -> snode) (i : nat) (val : f64) (node : nat) (rank : Z) : res (nat * Z) :=
  match fuel with
  | O => NoFuel
  | S f =>
      nx <- get_next st node i ;;
      match nx with
      | Some b =>
          if flt (n_val (st b)) val then
            w <- get_width st node i ;;
            rank_walk f st i val b (rank + w)%Z
          else Ok (node, rank)
      | None => Ok (node, rank)
      end
  end.

Fixpoint rank_levels (fuel : nat) (st : nat -> snode) (i : nat) (val : f64) (node : nat) (rank : Z) : res Z :=
  match i with
  | O => Ok rank
  | S i' => r <- rank_walk fuel st i' val node rank ;; rank_levels fuel st i' val (fst r) (snd r)
  end.

(** skiplist.go:179-190 Rank *)
Definition skip_rank (s : skip) (val : f64) : res Z :=
  rank_levels (sfuel s) (sk_store s) (sk_max s) val 0 0.

(** skiplist.go:193-203 String, restricted to its last line (level 0): the values
    met when following next[0] from the head *)
Fixpoint bottom_walk (fuel : nat) (st : nat -> snode) (a : nat) : res (list f64) :=
  match fuel with
  | O => NoFuel
  | S f =>
      nx <- get_next st a 0 ;;
      match nx with
      | None => Ok []
      | Some b => rest <- bottom_walk f st b ;; Ok (n_val (st b) :: rest)
      end
  end.
Definition skip_bottom (s : skip) : res (list f64) := bottom_walk (sfuel s) (sk_store s) 0.

(** A history of Add, Remove, Clear on a new list *)
Definition skip_run (maxLevel : nat) (probs rnd : nat -> f64) (ops : list sop) : res skip :=
  srun skip_add skip_remove skip_clear ops (skip_new maxLevel probs rnd).
