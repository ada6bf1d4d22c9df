(** C51: values that are not finite. *)
From Coq Require Import Reals Lra.
From Flocq Require Import Core BinarySingleNaN.
From Verif Require Import Base F64 FloatR MathModel HistSpec RingModel NumModel MomentModel MetricProof StdFloat CoreInv NanCore.
Local Open Scope nat_scope.

(** C51 is false for Mean, Moment(p) with 2 <= p <= 65, Std, Skewness and Kurtosis with any
    window of 2 or more: whatever came before, a value that is not finite followed by any two
    or more values leaves NaN, however many values follow (so also long after it left the window). *)
Theorem C51_nonfinite_refuted : forall w k ops x ys, (2 <= w)%Z -> wkind w k -> isfin x = false -> 2 <= length ys ->
  exists m, m_run FN k (ops ++ OPush x :: map OPush ys) = Ok m /\ m_value FN m = Ok fnan.
Proof. exact bad_run. Qed.
Print Assumptions C51_nonfinite_refuted.
Example C51_case : let ys := map fz [1; 2; 3]%Z in
  isfin (finf true) = false /\ map fbits (live 2 (hist (map OPush (finf true :: ys)))) = map fbits (map fz [2; 3]%Z) /\
  rmap isnan (m <- m_run FN (KStd 2) (map OPush (finf true :: ys)) ;; m_value FN m) = Ok true /\
  rmap isnan (m <- m_run FN (KStd 2) (map OPush ys) ;; m_value FN m) = Ok false.
Proof. cbv zeta. split; [reflexivity|]. split; [concrete|]. split; concrete. Qed.

(** With a window of 1 Mean recovers at once: whatever came before, after a finite value x
    Mean.Value equals x. Missing: larger windows, where it is false. *)
Theorem C51_window1_partial : forall ops x, isfin x = true ->
  exists m v, m_run FN (KMean 1) (ops ++ [OPush x]) = Ok m /\ m_value FN m = Ok v /\ isfin v = true /\ B2R v = B2R x.
Proof.
  intros ops x Fx. destruct (run1 1 (ops ++ [OPush x]) ltac:(lia)) as (c & E & (_ & Hc & Hm) & _).
  rewrite hist_push, live_push in Hc, Hm by lia.
  assert (El : (if (zlen (live 1 (hist ops)) =? 1)%Z then tl (live 1 (hist ops)) else live 1 (hist ops)) = []).
  { pose proof (live_zlen_le 1 (hist ops) ltac:(lia)) as H. destruct (live 1 (hist ops)) as [|a [|b l]]; [reflexivity|reflexivity|unfold zlen in H; cbn [length] in H; lia]. }
  rewrite El in Hc, Hm. cbn [app] in Hc, Hm. destruct (add_mean_first x Fx) as [F V].
  exists (mkM (KMean 1) (Some c)), (c_mean c). split; [|split; [|rewrite Hm; auto]].
  - rewrite m_run_eq. replace (new_core FN (kconfig (KMean 1))) with (Ok (mkCore (fz 0) 0 (fun _ => fz 0) 0 1 None (ring_new 1))) by reflexivity.
    cbn [bind]. rewrite E. reflexivity.
  - unfold m_value. cbn [m_core m_kind kvalue]. unfold c_get_mean. rewrite Hc. reflexivity.
Qed.
Print Assumptions C51_window1_partial.
Example C51_window1_case : isfin (fz 7) = true /\
  rmap fbits (m <- m_run FN (KMean 1) ([OPush fnan; OPush (finf false)] ++ [OPush (fz 7)]) ;; m_value FN m) = Ok (fbits (fz 7)).
Proof. split; [reflexivity|]. concrete. Qed.
