(** C25: the standard deviation in float64 arithmetic. *)
From Coq Require Import Reals Lra.
From Flocq Require Import Core BinarySingleNaN.
From Verif Require Import Base F64 FloatR MathModel HistSpec RingModel NumModel MomentModel MetricProof StdFloat.
Local Open Scope nat_scope.

(** Without a window, for up to 2^53 finite values of magnitude up to 2^500, no call
    fails and with two or more values Std.Value is not NaN. Missing: windows (where
    the claim is false, C25_std_nan_refuted) and larger magnitudes. *)
Theorem C25_std_partial ops : (forall x, In (OPush x) ops -> isfin x = true /\ (Rabs (B2R x) <= bpow radix2 500)%R) -> (zlen ops <= 2 ^ 53)%Z ->
  exists m, m_run FN (KStd 0) ops = Ok m /\
    (2 <= length (hist ops) -> exists v, m_value FN m = Ok v /\ isnan v = false).
Proof.
  intros Hr Hlen. destruct (std_run_ok ops Hr Hlen) as (c & E & I & L).
  exists (mkM (KStd 0) (Some c)). split.
  - rewrite m_run_eq. replace (new_core FN (kconfig (KStd 0))) with (Ok (mkCore (fz 0) 3 (fun _ => fz 0) 0 0 None (ring_new 0))) by reflexivity.
    cbn [bind]. rewrite E. reflexivity.
  - intros Hn. unfold m_value. cbn [m_core m_kind]. apply (std_value_ok c (hist ops)); [exact I|]. unfold zlen in *. lia.
Qed.
Print Assumptions C25_std_partial.

Example C25_case : rmap isnan (m <- m_run FN (KStd 0) (map OPush (map fz [5; 4; 4; 4]%Z)) ;; m_value FN m) = Ok false.
Proof. concrete. Qed.
