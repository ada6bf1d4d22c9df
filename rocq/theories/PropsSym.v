(** C80: the joint metrics are symmetric in their two variables, in float64 and bit for bit. *)
From Coq Require Import Reals Lra Lia.
From Flocq Require Import Core BinarySingleNaN.
From Verif Require Import Base F64 HistSpec RingModel NumModel JointModel JointMetric PropsJoint PropsConst JointSym.
Local Open Scope nat_scope.
Local Open Scope list_scope.

(** Exchanging the coordinates of a pair. [swap_op] of JointSym reverses the slice given to Push;
    on a pair it is the exchange, and a slice of another length keeps that length. *)
Definition exchanged (ops : list (op (list f64))) : list (op (list f64)) :=
  map (fun o => match o with OPush [x; y] => OPush [y; x] | o => o end) ops.
Lemma exchanged_swap ops : (forall x, In (OPush x) ops -> length x = 2) -> exchanged ops = map swap_op ops.
Proof.
  intros H. apply map_ext_in. intros [x|] Hx; [|reflexivity]. specialize (H x Hx). destruct x as [|a [|b [|c l]]]; try discriminate H. reflexivity.
Qed.

(** For Cov, Corr, EWMCov and EWMCorr, every window and decay (also invalid ones), every history of
    Push and Clear and all values, NaN and infinities included: a user who always gives the two
    variables in the other order reads the same result, to the last bit, or the same error. *)
Theorem C80_symmetric k ops : (forall x, In (OPush x) ops -> length x = 2) ->
  (m <- jm_run FN k ops ;; jm_value FN m) = (m <- jm_run FN k (exchanged ops) ;; jm_value FN m).
Proof. intros H. rewrite (exchanged_swap ops H). exact (sw_all k ops). Qed.
Print Assumptions C80_symmetric.

(** The same when some Push gets a slice of another length: both users get the arity error. *)
Theorem C80_any_arity k ops :
  (m <- jm_run FN k ops ;; jm_value FN m) = (m <- jm_run FN k (map swap_op ops) ;; jm_value FN m).
Proof. exact (sw_all k ops). Qed.
Print Assumptions C80_any_arity.

(** Windowed correlation of (1, 2), (3, 1), (4, 7), (6, 5) with window 3: not 0 and not 1, and the same
    after the exchange. *)
Definition pts80 : list (op (list f64)) := [OPush [fz 1; fz 2]; OPush [fz 3; fz 1]; OPush [fz 4; fz 7]; OPush [fz 6; fz 5]].
Example C80_case : exchanged pts80 = [OPush [fz 2; fz 1]; OPush [fz 1; fz 3]; OPush [fz 7; fz 4]; OPush [fz 5; fz 6]] /\
  rmap fbits (m <- jm_run FN (JCorr 3) pts80 ;; jm_value FN m) = rmap fbits (m <- jm_run FN (JCorr 3) (exchanged pts80) ;; jm_value FN m) /\
  rmap fbits (m <- jm_run FN (JCorr 3) pts80 ;; jm_value FN m) <> Ok (fbits (fz 0)) /\
  rmap fbits (m <- jm_run FN (JCov 3) pts80 ;; jm_value FN m) = rmap fbits (m <- jm_run FN (JCov 3) (exchanged pts80) ;; jm_value FN m).
Proof. split; [reflexivity|]. split; [concrete|]. split; [|concrete]. vm_compute. discriminate. Qed.
