(** Outcomes of Go calls and small list utilities shared by every model file.
    Nothing in this file models repository code except where cited. *)
From Coq Require Export List Arith ZArith Lia Bool.
Export ListNotations.

(** Root cause of a returned Go [error]. The repository wraps these with
    [errors.Wrap]; the wrapping text is not modelled. *)
Inductive err :=
| ENoValues        (* "no values seen yet" *)
| ENotTracked      (* "%d is not a tracked power sum" / "not a tracked variable" *)
| ECoreNotSet      (* "Core is not set" *)
| EArity           (* wrong number of pushed values *)
| ENegWindow       (* negative window *)
| ENoWindow        (* "config Window is not set" *)
| EBadDecay        (* decay not in (0, 1) *)
| EDecayWindow     (* decay together with a nonzero window *)
| EBadPower        (* nonpositive central moment *)
| ENoConfigs       (* "no configs available to merge" *)
| EDiffWindow | EDiffDecay | EDiffVars
| EVars | ETupleLen | ETupleShort | ETupleVars | ETupleNeg | ETupleZero | EVarsUnset
| EBadQuantile     (* quantile not in (0, 1) *)
| EBadImpl | EBadInterp | EBadMaxLevel | EBadProb
| ENegLag
| ETooFew          (* "Not enough values seen" *)
| ELen             (* tuples of different lengths *)
| EMany.           (* a multierror from several metrics *)

(** Outcome of a call. [Ok]/[Err]: the Go function returned (without / with an
    error). [Panic]: Go run-time panic. [Hang]: the call blocks forever.
    [NoFuel]: artefact of the fuel used for loops whose termination is proved
    separately; every positive theorem excludes it by claiming [Ok] or [Err]. *)
Inductive res (A : Type) :=
| Ok (a : A) | Err (e : err) | Panic | Hang | NoFuel.
Arguments Ok {A} a. Arguments Err {A} e. Arguments Panic {A}.
Arguments Hang {A}. Arguments NoFuel {A}.

Definition bind {A B} (r : res A) (k : A -> res B) : res B :=
  match r with
  | Ok a => k a | Err e => Err e | Panic => Panic | Hang => Hang | NoFuel => NoFuel
  end.
Notation "x <- e ;; k" := (bind e (fun x => k)) (at level 60, e at next level, right associativity).
Notation "' p <- e ;; k" := (bind e (fun p => k)) (at level 60, p pattern, e at next level, right associativity).

Definition rmap {A B} (f : A -> B) (r : res A) : res B := x <- r ;; Ok (f x).

Definition is_ok {A} (r : res A) : bool := match r with Ok _ => true | _ => false end.

Lemma bind_ok {A B} (r : res A) (k : A -> res B) b :
  bind r k = Ok b <-> exists a, r = Ok a /\ k a = Ok b.
Proof.
  split.
  - destruct r; cbn; intros H; try discriminate. eauto.
  - intros [a [-> H]]. exact H.
Qed.

Definition zlen {A} (l : list A) : Z := Z.of_nat (length l).

(** Closes the conjuncts of a concrete case (used by the Examples only). *)
Ltac concrete :=
  cbv zeta;
  repeat match goal with |- _ /\ _ => split end;
  match goal with
  | |- Forall _ _ => repeat constructor
  | |- _ <> _ => discriminate
  | |- (_ <= _)%Z => lia
  | |- (_ < _)%Z => lia
  | |- _ => vm_compute; reflexivity
  end.

Lemma rmap_ok {A B} (f : A -> B) (r : res A) y : rmap f r = Ok y -> exists a, r = Ok a /\ f a = y.
Proof. destruct r; cbn; intros H; try discriminate. injection H as <-. eauto. Qed.
