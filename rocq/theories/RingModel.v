(** External containers. They are not part of /repo; this file records the
    behaviour the models assume of them (sequential use). *)
From Verif Require Import Base.

(** queue.RingBuffer of workiva/go-datastructures v1.0.50 (go.mod:11), used by
    minmax, moment, joint, quantile. NewRingBuffer rounds its size up to a power of
    two; Put blocks while the buffer is full, Get blocks while it is empty.
    Items oldest first. The disposed state is not modelled: every Dispose() in the
    repository is followed by replacing the buffer. *)
Record ring (A : Type) := mkRing { rcap : Z; ritems : list A }.
Arguments mkRing {A} rcap ritems. Arguments rcap {A} r. Arguments ritems {A} r.

Definition round_up (n : Z) : Z := if (n =? 0)%Z then 0%Z else (2 ^ Z.log2_up n)%Z.
Definition ring_new {A} (n : Z) : ring A := mkRing (round_up n) [].
Definition ring_len {A} (r : ring A) : Z := zlen (ritems r).
Definition ring_put {A} (r : ring A) (x : A) : res (ring A) :=
  if (ring_len r <? rcap r)%Z then Ok (mkRing (rcap r) (ritems r ++ [x])) else Hang.
Definition ring_get {A} (r : ring A) : res (A * ring A) :=
  match ritems r with
  | [] => Hang
  | x :: t => Ok (x, mkRing (rcap r) t)
  end.

(** deque.Deque of gammazero/deque v0.2.1 (go.mod:6), used by minmax. Front
    element first. Front/Back/PopFront/PopBack panic on an empty deque. *)
Definition dq_front {A} (d : list A) : res A := match d with [] => Panic | x :: _ => Ok x end.
Definition dq_pop_front {A} (d : list A) : res (list A) := match d with [] => Panic | _ :: t => Ok t end.
Definition dq_back {A} (d : list A) : res A := match rev d with [] => Panic | x :: _ => Ok x end.
Definition dq_pop_back {A} (d : list A) : res (list A) :=
  match rev d with [] => Panic | _ :: t => Ok (rev t) end.
Definition dq_push_back {A} (d : list A) (x : A) : list A := d ++ [x].

(** ** Facts *)
Lemma round_up_ge n : (0 <= n)%Z -> (n <= round_up n)%Z.
Proof.
  intros H. unfold round_up. destruct (Z.eqb_spec n 0); [lia|].
  destruct (Z.eq_dec n 1) as [->|]; [cbn; lia|].
  apply Z.log2_up_spec. lia.
Qed.

Lemma ring_put_ok {A} (r : ring A) x w :
  rcap r = round_up w -> (ring_len r < w)%Z ->
  ring_put r x = Ok (mkRing (rcap r) (ritems r ++ [x])).
Proof.
  intros Hc Hl. unfold ring_put. rewrite Hc.
  assert (0 <= ring_len r)%Z by (unfold ring_len, zlen; lia).
  pose proof (round_up_ge w ltac:(lia)).
  destruct (Z.ltb_spec (ring_len r) (round_up w)); [reflexivity | lia].
Qed.
