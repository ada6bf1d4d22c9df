(** C100: the ranges of the two variables bound the covariances. *)
From Coq Require Import ZArith Lia Bool Reals Lra List.
From Verif Require Import Base HistSpec NumModel MomentModel MomentSpec JointModel JointSpec RealLib MetricProof IneqProof JointValue PropsMoment PropsJoint PropsRange PropsStdStable PropsEwmRange.
Import ListNotations.
Local Open Scope R_scope.

(** Every point has its first variable between [a] and [b], and its second between [c] and [e]. *)
Definition within (a b c e : R) (l : list (R * R)) : Prop := forall p, In p l -> a <= fst p <= b /\ c <= snd p <= e.

Lemma prod_bound s u v n A B : 0 <= A -> 0 <= B -> 0 <= n -> 0 <= u -> 0 <= v -> s ^ 2 <= u * v -> 4 * u <= n * A ^ 2 -> 4 * v <= n * B ^ 2 -> 4 * Rabs s <= n * (A * B).
Proof.
  intros HA HB Hn Hu Hv H1 H2 H3. assert (H4 : (4 * u) * (4 * v) <= (n * A ^ 2) * (n * B ^ 2)) by (apply Rmult_le_compat; lra). assert (P : 0 <= n * (A * B)) by (apply Rmult_le_pos; [exact Hn|apply Rmult_le_pos; assumption]).
  apply Rsqr_incr_0_var; [|exact P]. unfold Rsqr. replace (4 * Rabs s * (4 * Rabs s)) with (16 * (Rabs s ^ 2)) by ring. rewrite pow2_abs. replace (n * (A * B) * (n * (A * B))) with (n * A ^ 2 * (n * B ^ 2)) by ring. lra.
Qed.
Lemma sxy_range a b c e l : l <> [] -> within a b c e l -> 4 * Rabs (sxy l) <= IZR (zlen l) * ((b - a) * (e - c)).
Proof.
  intros Hl H. assert (X : 4 * csum 2 (map fst l) <= rlen (map fst l) * (b - a) ^ 2) by (apply range_upper; [destruct l; [congruence|discriminate]|intros x Hx; apply in_map_iff in Hx as (p & <- & Hp); apply (H p Hp)]).
  assert (Y : 4 * csum 2 (map snd l) <= rlen (map snd l) * (e - c) ^ 2) by (apply range_upper; [destruct l; [congruence|discriminate]|intros x Hx; apply in_map_iff in Hx as (p & <- & Hp); apply (H p Hp)]).
  unfold rlen, zlen in X, Y. rewrite map_length in X, Y. assert (A : a <= b /\ c <= e) by (destruct l as [|p l]; [congruence|destruct (H p (or_introl eq_refl)); lra]).
  apply (prod_bound _ (csum 2 (map fst l)) (csum 2 (map snd l))); try lra; [apply IZR_le; unfold zlen; lia|apply csum2_nonneg|apply csum2_nonneg|apply sxy_cauchy|exact X|exact Y].
Qed.

(** ** C100, in exact arithmetic *)
Theorem C100_cov_exact_partial : forall w ops a b c e, (0 <= w)%Z -> let l := live w (hist ops) in (2 <= length l)%nat -> within a b c e l -> let N := IZR (zlen l) in
  exists v, jmval (JCov w) ops = Ok (Fin v) /\ 4 * (N - 1) * Rabs v <= N * ((b - a) * (e - c)).
Proof.
  intros w ops a b c e Hw l Hn H N. destruct (C28_cov_corr w ops Hw) as (A & _). fold l in A. exists (sample_cov l). assert (PN : 2 <= N) by (unfold N, zlen; apply IZR_le; lia). split.
  - rewrite A. destruct l as [|p [|q l']] eqn:E; cbn [length] in Hn; [lia|lia|]. reflexivity.
  - unfold sample_cov. fold N. unfold Rdiv. rewrite Rabs_mult, (Rabs_pos_eq (/ (N - 1))) by (left; apply Rinv_0_lt_compat; lra). replace (4 * (N - 1) * (Rabs (sxy l) * / (N - 1))) with (4 * Rabs (sxy l)) by (field; lra). apply sxy_range; [destruct l; [cbn in Hn; lia|discriminate]|exact H].
Qed.
Print Assumptions C100_cov_exact_partial.
Theorem C100_ewmcov_exact_partial : forall d ops a b c e, 0 < d < 1 -> hist ops <> [] -> within a b c e (hist ops) ->
  exists v, jmval (JEwmCov (Fin d)) ops = Ok (Fin v) /\ 4 * Rabs v <= (b - a) * (e - c).
Proof.
  intros d ops a b c e Hd Hl H. destruct (C29_ewm d ops Hd) as (A & _). set (l := hist ops) in *. exists (ewcov d l). split; [rewrite A; destruct l; [congruence|reflexivity]|].
  assert (A0 : a <= b /\ c <= e) by (destruct l as [|p l']; [congruence|destruct (H p (or_introl eq_refl)); lra]).
  assert (X : ewmoment d 2 (map fst l) + (ewma d (map fst l) - (a + b) / 2) ^ 2 <= ((b - a) / 2) ^ 2) by (apply ewvar_range; [exact Hd|destruct l; [congruence|discriminate]|intros x Hx; apply in_map_iff in Hx as (p & <- & Hp); apply (H p Hp)]).
  assert (Y : ewmoment d 2 (map snd l) + (ewma d (map snd l) - (c + e) / 2) ^ 2 <= ((e - c) / 2) ^ 2) by (apply ewvar_range; [exact Hd|destruct l; [congruence|discriminate]|intros x Hx; apply in_map_iff in Hx as (p & <- & Hp); apply (H p Hp)]).
  pose proof (pow2_ge_0 (ewma d (map fst l) - (a + b) / 2)). pose proof (pow2_ge_0 (ewma d (map snd l) - (c + e) / 2)). replace ((b - a) * (e - c)) with (1 * ((b - a) * (e - c))) by ring.
  apply (prod_bound _ (ewmoment d 2 (map fst l)) (ewmoment d 2 (map snd l))); try lra; [apply ewmoment2_pos; exact Hd|apply ewmoment2_pos; exact Hd|apply ewcov_cauchy; lra].
Qed.
Print Assumptions C100_ewmcov_exact_partial.
(** Attained by the points (0, 0) and (x, y). *)
Theorem C100_sharp : forall x y, 0 <= x -> 0 <= y -> within 0 x 0 y (hist [OPush (0, 0); OPush (x, y)]) /\
  (exists v, jmval (JCov 0) [OPush (0, 0); OPush (x, y)] = Ok (Fin v) /\ 4 * (2 - 1) * v = 2 * ((x - 0) * (y - 0))) /\
  exists v, jmval (JEwmCov (Fin (/ 2))) [OPush (0, 0); OPush (x, y)] = Ok (Fin v) /\ 4 * v = (x - 0) * (y - 0).
Proof.
  intros x y Hx Hy. split; [|split].
  - intros p [<-|[<-|[]]]; cbn; lra.
  - destruct (C28_cov_corr 0 [OPush (0, 0); OPush (x, y)] ltac:(lia)) as (A & _). change (live 0 (hist [OPush (0, 0); OPush (x, y)])) with [(0, 0); (x, y)] in A. exists (sample_cov [(0, 0); (x, y)]). split; [rewrite A; reflexivity|]. unfold sample_cov, sxy, rmean, rlen, zlen, rsum. cbn. field.
  - destruct (C29_ewm (/ 2) [OPush (0, 0); OPush (x, y)] ltac:(lra)) as (A & _). exists (ewcov (/ 2) [(0, 0); (x, y)]). split; [exact A|]. unfold ewcov, ewma, wsum, eweights, pweights. cbn [map length seq combine fst snd rsum fold_right eweight Nat.sub pow]. field.
Qed.
Print Assumptions C100_sharp.
(** Window 3, points (9,9) (1,2) (2,5) (4,3): the last three lie in [1,4] x [2,5] *)
Example C100_case : let ops := [OPush (9, 9); OPush (1, 2); OPush (2, 5); OPush (4, 3)] in length (live 3 (hist ops)) = 3%nat /\ within 1 4 2 5 (live 3 (hist ops)) /\ sample_cov (live 3 (hist ops)) = 1 / 3.
Proof.
  intros ops. assert (E : live 3 (hist ops) = [(1, 2); (2, 5); (4, 3)]) by reflexivity. rewrite E. split; [reflexivity|]. split; [intros p [<-|[<-|[<-|[]]]]; cbn; lra|]. unfold sample_cov, sxy, rmean, rlen, zlen, rsum. cbn. field.
Qed.
