(** C82: points with a coordinate that is not finite, in the joint metrics. *)
From Coq Require Import Reals Lra Lia.
From Flocq Require Import Core BinarySingleNaN.
From Verif Require Import Base F64 FloatR HistSpec RingModel NumModel JointModel JointMetric PropsJoint PropsConst PropsQuantile PropsClear ClearProof JointSym JointNan.
Local Open Scope nat_scope.
Local Open Scope list_scope.

(** C82 is false for Cov and Corr with any window of 2 or more (and without a window): whatever came
    before, a point with a NaN or an infinity as one of its two coordinates, followed by any two or more
    points, leaves NaN, however many points follow, so also long after it left the window. *)
Theorem C82_nonfinite_refuted : forall w k ops p ps, (2 <= w)%Z \/ w = 0%Z -> k = JCov w \/ k = JCorr w ->
  length p = 2 -> (exists x, In x p /\ isfin x = false) -> 2 <= length ps ->
  (forall q, In (OPush q) ops -> length q = 2) -> (forall q, In q ps -> length q = 2) ->
  (m <- jm_run FN k (ops ++ OPush p :: map OPush ps) ;; jm_value FN m) = Ok fnan.
Proof. exact jbad_run. Qed.
Print Assumptions C82_nonfinite_refuted.

(** The same for Autocov and Autocorr with every lag: after a value that is not finite and lag + 2 or
    more further values the result is NaN, however many values follow. *)
Theorem C82_auto_refuted : forall w k lag ops x ys, (2 <= w)%Z \/ w = 0%Z -> isfin x = false -> lag + 2 <= length ys ->
  (a <- auto_run FN k (Z.of_nat lag) w (ops ++ OPush x :: map OPush ys) ;; auto_value FN a) = Ok fnan.
Proof. exact jbad_auto. Qed.
Print Assumptions C82_auto_refuted.

(** What is left of C82: Clear forgets such points, whatever was pushed before. Missing: recovery once
    the point has left the window, which is false. *)
Theorem C82_clear_partial : forall w k ops ops', (0 <= w)%Z -> k = JCov w \/ k = JCorr w -> (forall q, In (OPush q) ops -> length q = 2) ->
  (m <- jm_run FN k (ops ++ OClear :: ops') ;; jm_value FN m) = (m <- jm_run FN k ops' ;; jm_value FN m).
Proof. intros w k ops ops' Hw Hk H. destruct (pairs_run w k ops Hw Hk H) as (m & E). rewrite (jmetric_clear_fresh FN k ops ops' m E). reflexivity. Qed.
Print Assumptions C82_clear_partial.

Definition pt (a b : Z) : list f64 := [fz a; fz b].
(** Corr(2) over (1, inf), (1, 2), (3, 4), (5, 5): the window holds (3, 4) and (5, 5), whose correlation is 1. *)
Example C82_case : let ps := [pt 1 2; pt 3 4; pt 5 5] in let p := [fz 1; finf false] in
  (exists x, In x p /\ isfin x = false) /\ map (map fbits) (live 2 (hist (map OPush (p :: ps)))) = map (map fbits) [pt 3 4; pt 5 5] /\
  rmap isnan (m <- jm_run FN (JCorr 2) (map OPush (p :: ps)) ;; jm_value FN m) = Ok true /\
  rmap isnan (m <- jm_run FN (JCorr 2) (map OPush ps) ;; jm_value FN m) = Ok false /\
  rmap isnan (a <- auto_run FN ACov 1 2 (OPush fnan :: pushes [1; 2; 4; 8; 9]%Z) ;; auto_value FN a) = Ok true /\
  rmap isnan (a <- auto_run FN ACov 1 2 (pushes [1; 2; 4; 8; 9]%Z) ;; auto_value FN a) = Ok false.
Proof. cbv zeta. split; [exists (finf false); split; [right; left; reflexivity|reflexivity]|]. repeat split; concrete. Qed.
