(** Specification of the histories of a heap. *)
From Coq Require Import String Permutation.
From Verif Require Import Base F64 OrderSpec HeapModel.
Local Open Scope nat_scope.
Local Open Scope list_scope.

(** Histories of one heap, with the items it should contain: pairs of an item's
    address and the value given to it last. Push may be given any item that is not
    in the heap, with any number as its value and anything in its other fields. *)
Definition drop_item (a : nat) (c : list (nat * f64)) : list (nat * f64) := filter (fun p => negb (fst p =? a)) c.
Inductive hreach (cmp : f64 -> f64 -> bool) : istore -> heap -> list (nat * f64) -> Prop :=
| HR_new st base id vals st' h : Forall nonnan vals -> h_new st base id vals cmp = Ok (st', h) ->
    hreach cmp st' h (combine (seq base (length vals)) vals)
| HR_push st h c a x st' h' : hreach cmp st h c -> ~ In a (map fst c) -> nonnan (it_val x) ->
    h_push (iupd st a x) h a = Ok (st', h') -> hreach cmp st' h' ((a, it_val x) :: c)
| HR_pop st h c st' h' a : hreach cmp st h c -> h_pop st h = Ok (st', h', a) -> hreach cmp st' h' (drop_item a c)
| HR_update st h c a v st' h' : hreach cmp st h c -> In a (map fst c) -> nonnan v ->
    h_update st h a v = Ok (st', h') -> hreach cmp st' h' ((a, v) :: drop_item a c)
| HR_remove st h c a st' h' : hreach cmp st h c -> In a (map fst c) ->
    h_remove st h a = Ok (st', h') -> hreach cmp st' h' (drop_item a c).

(** [h] holds exactly the items [c], each where it says it is, and no item of [c]
    comes before the one at the top. *)
Definition heap_spec (cmp : f64 -> f64 -> bool) (st : istore) (h : heap) (c : list (nat * f64)) : Prop :=
  Permutation (map (fun a => (a, it_val (st a))) (h_items h)) c /\
  (forall i a, nth_error (h_items h) i = Some a -> it_index (st a) = Z.of_nat i /\ it_hid (st a) = h_id h) /\
  (c = [] -> h_peek st h = Panic) /\
  (c <> [] -> exists t, h_peek st h = Ok t /\ In t (map snd c) /\ forall a v, In (a, v) c -> cmp v t = false).

(** The next call succeeds; Pop hands out an item no other comes before. *)
Definition heap_progress (cmp : f64 -> f64 -> bool) (st : istore) (h : heap) (c : list (nat * f64)) : Prop :=
  (forall a x, ~ In a (map fst c) -> nonnan (it_val x) -> exists st' h', h_push (iupd st a x) h a = Ok (st', h')) /\
  (c <> [] -> exists st' h' a v, h_pop st h = Ok (st', h', a) /\ In (a, v) c /\ forall b u, In (b, u) c -> cmp u v = false) /\
  (c = [] -> h_pop st h = Panic) /\
  (forall a v, In a (map fst c) -> nonnan v -> exists st' h', h_update st h a v = Ok (st', h')) /\
  (forall a, In a (map fst c) -> exists st' h', h_remove st h a = Ok (st', h')).

