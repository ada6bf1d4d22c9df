(** C98: the exponentially weighted standard deviation is at most half the range, and the latest value is not far from the average in it. *)
From Coq Require Import ZArith Lia Bool Reals Lra List.
From Verif Require Import Base HistSpec NumModel MomentModel MomentSpec RealLib MetricProof EwmProof IneqProof JointEwm PropsMoment PropsStdStable PropsEwm.
Import ListNotations.
Local Open Scope R_scope.

Lemma ewvar_one d x : ewmoment d 2 [x] = 0.
Proof. unfold ewmoment. rewrite ewma_one. unfold wsum, eweights. cbn. ring. Qed.
Lemma ewvar_range d a b l : 0 < d < 1 -> l <> [] -> (forall x, In x l -> a <= x <= b) -> ewmoment d 2 l + (ewma d l - (a + b) / 2) ^ 2 <= ((b - a) / 2) ^ 2.
Proof.
  intros Hd. induction l as [|x l IH] using rev_ind; intros Hl H; [congruence|]. destruct (H x ltac:(apply in_or_app; right; left; reflexivity)) as [H1 H2]. destruct l as [|z l].
  - cbn [app]. rewrite ewvar_one, ewma_one. nra.
  - assert (I : ewmoment d 2 (z :: l) + (ewma d (z :: l) - (a + b) / 2) ^ 2 <= ((b - a) / 2) ^ 2) by (apply IH; [discriminate|intros y Hy; apply H, in_or_app; left; exact Hy]). rewrite ewvar_push, ewma_push by discriminate.
    set (v := ewmoment d 2 (z :: l)) in *. set (m := ewma d (z :: l)) in *. clearbody v m. set (c := (a + b) / 2) in *. assert (C : (x - c) ^ 2 <= ((b - a) / 2) ^ 2) by (unfold c; nra). set (h := ((b - a) / 2) ^ 2) in *. clearbody h.
    replace ((1 - d) * (v + d * (x - m) ^ 2) + (m + d * (x - m) - c) ^ 2) with ((1 - d) * (v + (m - c) ^ 2) + d * (x - c) ^ 2) by ring. nra.
Qed.
Lemma ewvar_latest d l x : 0 < d < 1 -> d * (x - ewma d (l ++ [x])) ^ 2 <= (1 - d) * ewmoment d 2 (l ++ [x]).
Proof.
  intros Hd. destruct l as [|z l]; [cbn [app]; rewrite ewvar_one, ewma_one; lra|]. rewrite ewvar_push, ewma_push by discriminate. pose proof (ewmoment2_pos d (z :: l) Hd) as P. set (v := ewmoment d 2 (z :: l)) in *. set (m := ewma d (z :: l)) in *. clearbody v m.
  replace (d * (x - (m + d * (x - m))) ^ 2) with ((1 - d) * ((1 - d) * (d * (x - m) ^ 2))) by ring. assert (0 <= (1 - d) * v) by nra. nra.
Qed.

(** ** C98, in exact arithmetic *)
Theorem C98_range_exact_partial : forall d ops a b, 0 < d < 1 -> hist ops <> [] -> (forall x, In x (hist ops) -> a <= x <= b) ->
  exists s, mval (KEwmStd (Fin d)) ops = Ok (Fin s) /\ 0 <= s <= (b - a) / 2.
Proof.
  intros d ops a b Hd Hne H. destruct (C21_ewm d ops Hd) as (_ & _ & B). rewrite B. pose proof (ewvar_range d a b _ Hd Hne H) as R. assert (L : 0 <= (b - a) / 2) by (destruct (hist ops) as [|x l]; [congruence|destruct (H x (or_introl eq_refl)); lra]).
  exists (sqrt (ewmoment d 2 (hist ops))). split; [destruct (hist ops); [congruence|reflexivity]|]. split; [apply sqrt_pos|]. rewrite <- (sqrt_pow2 _ L). apply sqrt_le_1_alt. pose proof (pow2_ge_0 (ewma d (hist ops) - (a + b) / 2)). lra.
Qed.
Print Assumptions C98_range_exact_partial.
(** The value pushed last differs from EWMA by at most sqrt((1-d)/d) EWMStd, however extreme it is. *)
Theorem C98_latest_exact_partial : forall d ops x, 0 < d < 1 ->
  exists m s, mval (KEwma (Fin d)) (ops ++ [OPush x]) = Ok (Fin m) /\ mval (KEwmStd (Fin d)) (ops ++ [OPush x]) = Ok (Fin s) /\ 0 <= s /\ Rabs (x - m) <= sqrt ((1 - d) / d) * s.
Proof.
  intros d ops x Hd. destruct (C21_ewm d (ops ++ [OPush x]) Hd) as (A & _ & B). rewrite A, B, hist_push. pose proof (ewvar_latest d (hist ops) x Hd) as R. exists (ewma d (hist ops ++ [x])), (sqrt (ewmoment d 2 (hist ops ++ [x]))).
  split; [destruct (hist ops); reflexivity|]. split; [destruct (hist ops); reflexivity|]. split; [apply sqrt_pos|].
  assert (P : 0 <= (1 - d) / d) by (apply Rmult_le_pos; [lra|left; apply Rinv_0_lt_compat; lra]). rewrite <- sqrt_mult_alt by exact P. rewrite <- (sqrt_pow2 (Rabs _) (Rabs_pos _)), pow2_abs. apply sqrt_le_1_alt. apply (Rmult_le_reg_l d); [lra|]. eapply Rle_trans; [exact R|]. right. field. lra.
Qed.
Print Assumptions C98_latest_exact_partial.
(** Both are attained. *)
Theorem C98_sharp : forall d x, 0 < d < 1 -> 0 <= x ->
  (exists m s, mval (KEwma (Fin d)) [OPush 0; OPush x] = Ok (Fin m) /\ mval (KEwmStd (Fin d)) [OPush 0; OPush x] = Ok (Fin s) /\ Rabs (x - m) = sqrt ((1 - d) / d) * s) /\
  mval (KEwmStd (Fin (/ 2))) [OPush 0; OPush x] = Ok (Fin ((x - 0) / 2)).
Proof.
  assert (G : forall d x, ewmoment d 2 [0; x] = (1 - d) * d * x ^ 2 /\ ewma d [0; x] = d * x).
  { intros d x. change [0; x] with ([0] ++ [x]). rewrite ewvar_push, ewma_push by discriminate. rewrite ewvar_one, ewma_one. split; ring. }
  intros d x Hd Hx. split.
  - destruct (C21_ewm d [OPush 0; OPush x] Hd) as (A & _ & B). exists (ewma d [0; x]), (sqrt (ewmoment d 2 [0; x])). split; [exact A|]. split; [exact B|]. destruct (G d x) as [-> ->]. assert (P : 0 <= (1 - d) / d) by (apply Rmult_le_pos; [lra|left; apply Rinv_0_lt_compat; lra]). rewrite <- sqrt_mult_alt by exact P.
    rewrite Rabs_pos_eq by nra. replace ((1 - d) / d * ((1 - d) * d * x ^ 2)) with ((x - d * x) ^ 2) by (field; lra). rewrite sqrt_pow2 by nra. reflexivity.
  - destruct (C21_ewm (/ 2) [OPush 0; OPush x] ltac:(lra)) as (_ & _ & B). rewrite B. change (hist [OPush 0; OPush x]) with [0; x]. cbn [ewmstd_of]. destruct (G (/ 2) x) as [-> _]. f_equal. f_equal. replace ((1 - / 2) * / 2 * x ^ 2) with ((x / 2) ^ 2) by field. rewrite sqrt_pow2 by lra. lra.
Qed.
Print Assumptions C98_sharp.
(** Values 5, Clear, 1 3 9 with decay 1/4 lie between 1 and 9 *)
Example C98_case : let ops := [OPush 5; OClear; OPush 1; OPush 3; OPush 9] in hist ops = [1; 3; 9] /\ (forall x, In x (hist ops) -> 1 <= x <= 9) /\ ewma (/ 4) (hist ops) = 27 / 8 /\ ewmoment (/ 4) 2 (hist ops) = 711 / 64.
Proof.
  intros ops. assert (E : hist ops = [1; 3; 9]) by reflexivity. split; [exact E|]. rewrite E. split; [intros x [<-|[<-|[<-|[]]]]; lra|].
  change [1; 3; 9] with (([1] ++ [3]) ++ [9]). rewrite !ewvar_push, !ewma_push by discriminate. rewrite ewvar_one, ewma_one. split; field.
Qed.
