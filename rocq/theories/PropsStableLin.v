(** C92, continued: the default, linear, mode of Quantile. *)
From Coq Require Import ZArith Lia Bool Reals Lra List.
From Flocq Require Import Core BinarySingleNaN.
From Verif Require Import Base F64 FloatR FloatMean FloatErr HistSpec RingModel NumModel OrderSpec QuantileSpec QuantileModel QuantileProof QuantOrder QuantAcc HeapModel PropsQuantile PropsQuantOrder PropsQuantAcc PropsHeap PropsMono PropsStable.
Import ListNotations.
Local Open Scope Z_scope.

Lemma at_near eps l l' t v v' : Forall2 (fnear eps) l l' -> at_position l t v -> at_position l' t v' -> (Rabs (v - v') <= eps)%R.
Proof.
  intros H (k & lo & K & T & E) (k' & lo' & K' & T' & E').
  assert (k = k'). { destruct (Nat.lt_trichotomy k k') as [L|[L|L]]; [|exact L|]; exfalso; assert (L' : (INR (S k) <= INR k')%R \/ (INR (S k') <= INR k)%R) by (first [left; apply le_INR; lia|right; apply le_INR; lia]); rewrite !S_INR in L'; lra. }
  subst k'. destruct (kth_near eps l l' k lo lo' H K K') as (_ & _ & D). apply Rabs_le_inv in D. set (f := (t - INR k)%R) in *.
  destruct E as [[E ->]|(hi & Kh & ->)]; destruct E' as [[E' ->]|(hi' & Kh' & ->)].
  - apply Rabs_le. lra.
  - replace f with 0%R by (unfold f; lra). apply Rabs_le. lra.
  - replace f with 0%R by (unfold f; lra). apply Rabs_le. lra.
  - destruct (kth_near eps l l' (S k) hi hi' H Kh Kh') as (_ & _ & D'). apply Rabs_le_inv in D'. assert (0 <= f <= 1)%R by (unfold f; lra). apply Rabs_le. nra.
Qed.
(** The results differ by at most eps and twice the rounding error of C85: M bounds the absolute values, D the ranges of both streams. *)
Theorem C92_linear_partial : forall eps e w os ops ops' phi M D, 0 <= w -> Forall qopt_num os -> Forall qopt_valid os -> raised (fnear eps) ops ops' -> impl_cond (chosen_impl os) w ops -> impl_cond (chosen_impl os) w ops' ->
  nonnan phi -> in_range phi = true -> live w (hist ops) <> [] -> zlen (live w (hist ops)) <= 2 ^ 53 -> chosen_interp os = 0 ->
  (forall x, In x (live w (hist ops) ++ live w (hist ops')) -> (Rabs (B2R x) <= M)%R) -> (M <= bpow radix2 1020)%R ->
  (forall x y, In x (live w (hist ops)) -> In y (live w (hist ops)) -> (B2R x - B2R y <= D)%R) -> (forall x y, In x (live w (hist ops')) -> In y (live w (hist ops')) -> (B2R x - B2R y <= D)%R) ->
  exists q q' r r', q_run e w os ops = Ok q /\ q_run e w os ops' = Ok q' /\ q_value e q phi = Ok r /\ q_value e q' phi = Ok r' /\ isfin r = true /\ isfin r' = true /\
    (Rabs (B2R r - B2R r') <= eps + 2 * (8 * (bpow radix2 (-53) * M) + 4 * bpow radix2 (-1074) + bpow radix2 (-53) * IZR (zlen (live w (hist ops))) * D))%R.
Proof.
  intros eps e w os ops ops' phi M D Hw Hn Hv H Hi Hi' Np Hr Hl Hz Hm Hs HM HD HD'. destruct (near_num eps ops ops' H) as [N N']. pose proof (raised_live (fnear eps) w ops ops' H) as Hd. pose proof (F2_sym _ _ _ (fnear_sym eps) Hd) as Hd'.
  assert (Hl' : live w (hist ops') <> []) by (intros E; rewrite E in Hd; inversion Hd; congruence).
  assert (Ez : zlen (live w (hist ops')) = zlen (live w (hist ops))) by (unfold zlen; rewrite (F2_length Hd); reflexivity).
  destruct (C85_linear e w os ops phi M D Hw Hn Hv N Hi Np Hr Hl Hz Hm) as (q & r & E & Er & Fr & (v & Av) & B); [intros x Hx; split; [exact (near_fin eps _ _ x Hd Hx)|apply Hs, in_or_app; left; exact Hx]|exact HM|exact HD|].
  destruct (C85_linear e w os ops' phi M D Hw Hn Hv N' Hi' Np Hr Hl' ltac:(rewrite Ez; exact Hz) Hm) as (q' & r' & E' & Er' & Fr' & (v' & Av') & B'); [intros x Hx; split; [exact (near_fin eps _ _ x Hd' Hx)|apply Hs, in_or_app; right; exact Hx]|exact HM|exact HD'|].
  exists q, q', r, r'. do 6 (split; [assumption|]). specialize (B v Av). specialize (B' v' Av'). rewrite Ez in B', Av'. pose proof (at_near eps _ _ _ v v' Hd Av Av') as A.
  apply Rabs_le_inv in A. apply Rabs_le_inv in B. apply Rabs_le_inv in B'. apply Rabs_le. lra.
Qed.
Print Assumptions C92_linear_partial.
(** Window 3, values 5 1 4 2 against 5.25 1.25 3.75 2.25: the 3/4-quantiles are 3 and 3. *)
Example C92_linear_case : raised (fnear (B2R (fdy 1 (-2)))) (hm_ops [5; 1; 4; 2]) scase /\ impl_cond (chosen_impl []) 3 (hm_ops [5; 1; 4; 2]) /\ impl_cond (chosen_impl []) 3 scase /\ chosen_interp [] = 0 /\ in_range (fdy 3 (-2)) = true /\
  map (fun l => rmap fbits (q <- q_run env0 3 [] l ;; q_value env0 q (fdy 3 (-2)))) [hm_ops [5; 1; 4; 2]; scase] = [Ok (fbits (fz 3)); Ok (fbits (fz 3))].
Proof.
  split; [unfold scase; near_ops|]. do 2 (split; [left; reflexivity|]). repeat split; vm_compute; reflexivity.
Qed.
