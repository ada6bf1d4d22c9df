(** Property theorems C01, C02, C03. *)
From Verif Require Import Base F64 HistSpec OrderSpec MinMaxModel MinMaxProof.

(** C01. For every window and history, Push/Clear return normally and Value is a
    minimum of the live window (error exactly on the empty window). *)
Theorem C01_min_is_window_minimum : forall w ops,
  (0 <= w)%Z -> Forall nonnan (hist ops) ->
  exists m, min_run w ops = Ok m /\
    (hist ops = [] -> min_value m = Err ENoValues) /\
    (hist ops <> [] -> exists v, min_value m = Ok v /\ is_min (live w (hist ops)) v).
Proof. exact min_value_correct. Qed.
Print Assumptions C01_min_is_window_minimum.

Example C01_case :
  let ops := [OPush (fz 9); OClear; OPush (fz 3); OPush (fz 1); OPush (fdy (-7) (-2)); OPush (fz 2); OPush (fz 5)] in
  (0 <= 2)%Z /\ Forall nonnan (hist ops) /\ hist ops <> [] /\
  rmap fbits (m <- min_run 2 ops ;; min_value m) = Ok (fbits (fz 2)) /\
  rmap fbits (m <- min_run 0 ops ;; min_value m) = Ok (fbits (fdy (-7) (-2))) /\
  rmap fbits (m <- min_run 2 [OPush (fz 9); OClear] ;; min_value m) = Err ENoValues.
Proof. concrete. Qed.

(** C02. *)
Theorem C02_max_is_window_maximum : forall w ops,
  (0 <= w)%Z -> Forall nonnan (hist ops) ->
  exists m, max_run w ops = Ok m /\
    (hist ops = [] -> max_value m = Err ENoValues) /\
    (hist ops <> [] -> exists v, max_value m = Ok v /\ is_max (live w (hist ops)) v).
Proof. exact max_value_correct. Qed.
Print Assumptions C02_max_is_window_maximum.

Example C02_case :
  let ops := [OPush (fz 9); OClear; OPush (fz 3); OPush (fz 1); OPush (fdy 7 3); OPush (fz 2); OPush (fz 5)] in
  (0 <= 2)%Z /\ Forall nonnan (hist ops) /\ hist ops <> [] /\
  rmap fbits (m <- max_run 2 ops ;; max_value m) = Ok (fbits (fz 5)) /\
  rmap fbits (m <- max_run 0 ops ;; max_value m) = Ok (fbits (fz 56)) /\
  rmap fbits (m <- max_run 2 [OPush (fz 9); OClear] ;; max_value m) = Err ENoValues.
Proof. concrete. Qed.

(** C03 is false: a NaN that has left the window determines Value for ever. Not
    just in one history: whatever numbers came before and whatever values come after. *)
Theorem C03_nan_leaves_window_refuted : forall w ops xs,
  (0 < w)%Z -> Forall nonnan (hist ops) -> (w <= zlen xs)%Z ->
  (exists m, min_run w (ops ++ OPush fnan :: map OPush xs) = Ok m /\ min_value m = Ok fnan) /\
  (exists m, max_run w (ops ++ OPush fnan :: map OPush xs) = Ok m /\ max_value m = Ok fnan).
Proof. exact (fun w ops xs Hw Hn Hx => conj (min_nan_sticky w ops xs Hw Hn Hx) (max_nan_sticky w ops xs Hw Hn Hx)). Qed.
Print Assumptions C03_nan_leaves_window_refuted.

(** ... although the live window then holds numbers only. *)
Example C03_case :
  let ops := [OPush (fz 4); OPush fnan; OPush (fz 1); OPush (fz 2)] in
  map fbits (live 2 (hist ops)) = map fbits [fz 1; fz 2] /\ is_min [fz 1; fz 2] (fz 1) /\
  rmap fbits (m <- min_run 2 ops ;; min_value m) = Ok (fbits fnan).
Proof.
  cbv zeta. split; [concrete|]. split; [|concrete]. split.
  - left. reflexivity.
  - intros y [<-|[<-|[]]]; vm_compute; reflexivity.
Qed.

(** What holds instead (Clear is the only way to get rid of it): the NaNs pushed
    before the last Clear never matter. Missing: NaNs evicted by the window. *)
Theorem C03_nan_leaves_window_partial : forall w ops1 ops2,
  (0 <= w)%Z -> Forall nonnan (hist ops2) -> hist ops2 <> [] ->
  (exists m v, min_run w (ops1 ++ OClear :: ops2) = Ok m /\ min_value m = Ok v /\ is_min (live w (hist ops2)) v) /\
  (exists m v, max_run w (ops1 ++ OClear :: ops2) = Ok m /\ max_value m = Ok v /\ is_max (live w (hist ops2)) v).
Proof. exact minmax_clear_nan. Qed.
Print Assumptions C03_nan_leaves_window_partial.

Example C03_partial_case :
  Forall nonnan (hist [OPush (fz 1); OPush (fz 2)]) /\ hist [OPush (fz 1); OPush (fz 2)] <> [] /\
  rmap fbits (m <- min_run 2 ([OPush fnan] ++ OClear :: [OPush (fz 1); OPush (fz 2)]) ;; min_value m) = Ok (fbits (fz 1)).
Proof. concrete. Qed.
