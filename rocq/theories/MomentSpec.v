(** Specification vocabulary for moments: textbook formulas over lists of reals. *)
From Coq Require Import Reals.
From Verif Require Import Base HistSpec NumModel.
Local Open Scope R_scope.

Definition rsum (l : list R) : R := fold_right Rplus 0 l.
Definition rlen (l : list R) : R := IZR (zlen l).
Definition rmean (l : list R) : R := rsum l / rlen l.
(** The k-th central power sum. *)
Definition csum (k : nat) (l : list R) : R := rsum (map (fun x => (x - rmean l) ^ k) l).

(** Sample central moment, sample variance, population moments. *)
Definition sample_moment (k : nat) (l : list R) : R := csum k l / (rlen l - 1).
Definition pop_moment (k : nat) (l : list R) : R := csum k l / rlen l.
(** Adjusted Fisher-Pearson skewness and excess kurtosis. *)
Definition skewness (l : list R) : R :=
  sqrt (rlen l * (rlen l - 1)) / (rlen l - 2) * (pop_moment 3 l / (pop_moment 2 l * sqrt (pop_moment 2 l))).
Definition kurtosis (l : list R) : R := pop_moment 4 l / pop_moment 2 l ^ 2 - 3.

(** Exponential weights: of n values the i-th (from 0, oldest first) has weight
    (1-d)^(n-1) if i = 0 and d (1-d)^(n-1-i) otherwise. *)
Definition eweight (d : R) (n i : nat) : R :=
  match i with O => (1 - d) ^ (n - 1) | _ => d * (1 - d) ^ (n - 1 - i) end.
Definition wsum (ws l : list R) : R := rsum (map (fun p => fst p * snd p) (combine ws l)).
Definition eweights (d : R) (l : list R) : list R := map (eweight d (length l)) (seq 0 (length l)).
Definition ewma (d : R) (l : list R) : R := wsum (eweights d l) l.
Definition ewmoment (d : R) (k : nat) (l : list R) : R := wsum (eweights d l) (map (fun x => (x - ewma d l) ^ k) l).

(** Histories of real numbers, as seen by the code. *)
Definition fop (o : op R) : op xr := match o with OPush x => OPush (Fin x) | OClear => OClear end.
Definition fops (ops : list (op R)) : list (op xr) := map fop ops.

(** What each moment metric is documented to return on the values [l] it covers:
    an error on no values, otherwise a number where the formula is defined, and NaN
    where its denominator vanishes. *)
Definition mean_of (l : list R) : res xr := match l with [] => Err ENoValues | _ => Ok (Fin (rmean l)) end.
Definition moment_of (k : nat) (l : list R) : res xr :=
  match l with [] => Err ENoValues | [_] => Ok XNaN | _ => Ok (Fin (sample_moment k l)) end.
Definition std_of (l : list R) : res xr :=
  match l with [] => Err ENoValues | [_] => Ok XNaN | _ => Ok (Fin (sqrt (sample_moment 2 l))) end.
Definition skew_of (l : list R) : res xr :=
  match l with
  | [] => Err ENoValues
  | [_] | [_; _] => Ok XNaN
  | _ => Ok (if is0 (csum 2 l) then XNaN else Fin (skewness l))
  end.
Definition kurt_of (l : list R) : res xr :=
  match l with [] => Err ENoValues | [_] => Ok XNaN | _ => Ok (if is0 (csum 2 l) then XNaN else Fin (kurtosis l)) end.
Definition ewma_of (d : R) (l : list R) : res xr := match l with [] => Err ENoValues | _ => Ok (Fin (ewma d l)) end.
Definition ewmoment_of (d : R) (k : nat) (l : list R) : res xr := match l with [] => Err ENoValues | _ => Ok (Fin (ewmoment d k l)) end.
Definition ewmstd_of (d : R) (l : list R) : res xr := match l with [] => Err ENoValues | _ => Ok (Fin (sqrt (ewmoment d 2 l))) end.
