(** Specification vocabulary for joint moments: textbook formulas over lists of points.
    A point is a list of coordinates. *)
From Coq Require Import Reals.
From Verif Require Import Base HistSpec NumModel MomentSpec.
Local Open Scope R_scope.

Definition coord (i : nat) (l : list (list R)) : list R := map (fun x => nth i x 0) l.
(** The vector of the means of the first [v] coordinates. *)
Definition jmeans (v : nat) (l : list (list R)) : list R := map (fun i => rmean (coord i l)) (seq 0 v).
(** (x_1 - c_1)^m_1 * ... * (x_k - c_k)^m_k *)
Fixpoint jprod (m : list Z) (x c : list R) : R :=
  match m, x, c with
  | k :: m', a :: x', b :: c' => (a - b) ^ Z.to_nat k * jprod m' x' c'
  | _, _, _ => 1
  end.
(** The joint central power sum for the exponents [m]. *)
Definition jsum (m : list Z) (l : list (list R)) : R := rsum (map (fun x => jprod m x (jmeans (length m) l)) l).

(** Sample covariance and Pearson correlation of pairs. *)
Definition sxy (l : list (R * R)) : R := rsum (map (fun p => (fst p - rmean (map fst l)) * (snd p - rmean (map snd l))) l).
Definition sample_cov (l : list (R * R)) : R := sxy l / (IZR (zlen l) - 1).
Definition pearson (l : list (R * R)) : R := sxy l / sqrt (csum 2 (map fst l) * csum 2 (map snd l)).
Definition pt (p : R * R) : list R := [fst p; snd p].

(** Exponentially weighted versions; the weights are those of [MomentSpec.eweight]. *)
Definition pweights {A} (d : R) (l : list A) : list R := map (eweight d (length l)) (seq 0 (length l)).
Definition ejmeans (d : R) (v : nat) (l : list (list R)) : list R := map (fun i => ewma d (coord i l)) (seq 0 v).
Definition ejsum (d : R) (m : list Z) (l : list (list R)) : R :=
  wsum (pweights d l) (map (fun x => jprod m x (ejmeans d (length m) l)) l).
Definition ewcov (d : R) (l : list (R * R)) : R :=
  wsum (pweights d l) (map (fun p => (fst p - ewma d (map fst l)) * (snd p - ewma d (map snd l))) l).
Definition ewcorr (d : R) (l : list (R * R)) : R :=
  ewcov d l / sqrt (ewmoment d 2 (map fst l) * ewmoment d 2 (map snd l)).

(** The pairs (x_t, x_{t-lag}) of a series. *)
Definition lagged {A} (lag : nat) (l : list A) : list (A * A) := combine (skipn lag l) l.

(** What the metrics are documented to return on the pairs they cover. *)
Definition cov_of (l : list (R * R)) : res xr :=
  match l with [] => Err ENoValues | [_] => Ok XNaN | _ => Ok (Fin (sample_cov l)) end.
Definition corr_of (l : list (R * R)) : res xr :=
  match l with
  | [] => Err ENoValues
  | _ => Ok (if is0 (csum 2 (map fst l) * csum 2 (map snd l)) then XNaN else Fin (pearson l))
  end.
Definition ewcov_of (d : R) (l : list (R * R)) : res xr := match l with [] => Err ENoValues | _ => Ok (Fin (ewcov d l)) end.
Definition ewcorr_of (d : R) (l : list (R * R)) : res xr :=
  match l with
  | [] => Err ENoValues
  | _ => Ok (if is0 (ewmoment d 2 (map fst l) * ewmoment d 2 (map snd l)) then XNaN else Fin (ewcorr d l))
  end.

(** Histories of real points, as seen by the code. *)
Definition pop (o : op (list R)) : op (list xr) := match o with OPush x => OPush (map Fin x) | OClear => OClear end.
Definition pops (ops : list (op (list R))) : list (op (list xr)) := map pop ops.
(** [b] is a tuple of exponents between 0 and [a]. *)
Definition tle (b a : list Z) : Prop := Forall2 (fun i k => (0 <= i <= k)%Z) b a.
(** The total degree of a tuple. *)
Definition degree (m : list Z) : Z := fold_right Z.add 0%Z m.
