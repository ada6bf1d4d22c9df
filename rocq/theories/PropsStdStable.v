(** C94: changing every value a little changes the standard deviations little. *)
From Coq Require Import ZArith Lia Bool Reals Lra List.
From Flocq Require Import Core.
From Verif Require Import Base HistSpec NumModel MomentModel MomentSpec RealLib MomentProof JointSpec MetricProof EwmProof JointValue JointErr JointEwm IneqProof PropsMoment PropsMono PropsStable.
Import ListNotations.
Local Open Scope R_scope.

Lemma minkowski A B C D : 0 <= A -> 0 <= B -> C ^ 2 <= A * B -> A + B - 2 * C <= D -> Rabs (sqrt A - sqrt B) <= sqrt D.
Proof.
  intros HA HB HC HD. pose proof (sqrt_sqrt A HA) as EA. pose proof (sqrt_sqrt B HB) as EB. pose proof (sqrt_pos A) as PA. pose proof (sqrt_pos B) as PB.
  assert (HC' : C <= sqrt A * sqrt B).
  { destruct (Rle_or_lt C (sqrt A * sqrt B)) as [L|L]; [exact L|]. exfalso. assert (0 <= sqrt A * sqrt B) by (apply Rmult_le_pos; assumption). assert ((sqrt A * sqrt B) * (sqrt A * sqrt B) < C * C) by nra. assert (A * B = (sqrt A * sqrt B) * (sqrt A * sqrt B)) by (rewrite <- EA at 1; rewrite <- EB at 1; ring). nra. }
  rewrite <- sqrt_Rsqr_abs. apply sqrt_le_1_alt. unfold Rsqr. nra.
Qed.
Lemma csum2_pos l : 0 <= csum 2 l.
Proof. unfold csum. generalize (rmean l) as u. intros u. induction l as [|x l IH]; unfold rsum in *; cbn [map fold_right]; [lra|]. pose proof (pow2_ge_0 (x - u)). lra. Qed.
(** The sums of squares of two lists close to each other *)
Lemma sq_near eps l l' : Forall2 (rnear eps) l l' -> rsum (map (fun p => fst p * snd p) (combine l l)) + rsum (map (fun p => fst p * snd p) (combine l' l')) - 2 * rsum (map (fun p => fst p * snd p) (combine l l')) <= rlen l * eps ^ 2.
Proof.
  intros H. induction H as [|x y l l' D _ IH]; [unfold rlen, rsum, zlen; cbn; lra|]. cbn [combine map fst snd]. rewrite !rsum_cons, rlen_cons. unfold rnear in D. apply Rabs_le_inv in D. nra.
Qed.
Lemma csum_near eps l l' : l <> [] -> Forall2 (rnear eps) l l' -> csum 2 l + csum 2 l' - 2 * cs l l' <= rlen l * eps ^ 2.
Proof.
  intros Hl H. pose proof (F2_length H) as E. assert (El : rlen l' = rlen l) by (unfold rlen, zlen; rewrite E; reflexivity). pose proof (rlen_pos l Hl) as P. rewrite <- !cs_same, (cs_alt l l), (cs_alt l' l'), (cs_alt l l') by (first [reflexivity|exact E|lra]). rewrite El.
  pose proof (sq_near eps l l' H) as S1. assert (0 <= (rsum l - rsum l') ^ 2 / rlen l) by (apply Rmult_le_pos; [apply pow2_ge_0|left; apply Rinv_0_lt_compat; exact P]).
  assert ((rsum l - rsum l') ^ 2 / rlen l = rsum l * rsum l / rlen l + rsum l' * rsum l' / rlen l - 2 * (rsum l * rsum l' / rlen l)) by (field; lra). lra.
Qed.
Lemma std_near eps l l' : 0 <= eps -> (2 <= length l)%nat -> Forall2 (rnear eps) l l' -> Rabs (sqrt (sample_moment 2 l) - sqrt (sample_moment 2 l')) <= sqrt (rlen l / (rlen l - 1)) * eps.
Proof.
  intros He Hn H. pose proof (F2_length H) as E. assert (El : rlen l' = rlen l) by (unfold rlen, zlen; rewrite E; reflexivity). assert (P : 2 <= rlen l) by (unfold rlen, zlen; apply IZR_le; lia). unfold sample_moment. rewrite El. set (n := rlen l) in *.
  assert (I : 0 < / (n - 1)) by (apply Rinv_0_lt_compat; lra). replace (sqrt (n / (n - 1)) * eps) with (sqrt (n * eps ^ 2 * / (n - 1))).
  - apply (minkowski _ _ (cs l l' * / (n - 1))).
    + apply Rmult_le_pos; [apply csum2_pos|lra].
    + apply Rmult_le_pos; [apply csum2_pos|lra].
    + pose proof (sxy_cauchy (combine l l')) as HC. rewrite comb_fst, comb_snd in HC by exact E. fold (cs l l') in HC. replace ((cs l l' * / (n - 1)) ^ 2) with (cs l l' ^ 2 * (/ (n - 1) * / (n - 1))) by ring. unfold Rdiv. replace (csum 2 l * / (n - 1) * (csum 2 l' * / (n - 1))) with (csum 2 l * csum 2 l' * (/ (n - 1) * / (n - 1))) by ring. apply Rmult_le_compat_r; [nra|exact HC].
    + pose proof (csum_near eps l l' ltac:(intros ->; cbn in Hn; lia) H) as S1. fold n in S1. unfold Rdiv. replace (csum 2 l * / (n - 1) + csum 2 l' * / (n - 1) - 2 * (cs l l' * / (n - 1))) with ((csum 2 l + csum 2 l' - 2 * cs l l') * / (n - 1)) by ring. apply Rmult_le_compat_r; [lra|exact S1].
  - replace (n * eps ^ 2 * / (n - 1)) with (n / (n - 1) * (eps * eps)) by (unfold Rdiv; ring). rewrite sqrt_mult_alt by (apply Rmult_le_pos; lra). rewrite sqrt_square by exact He. reflexivity.
Qed.
(** Exponentially weighted: together with the square of the difference of the means *)
Lemma ew_near d eps l l' : 0 < d < 1 -> l <> [] -> Forall2 (rnear eps) l l' ->
  ewmoment d 2 l + ewmoment d 2 l' - 2 * ewcov d (combine l l') + (ewma d l - ewma d l') ^ 2 <= eps ^ 2.
Proof.
  intros Hd. revert l'. induction l as [|x l IH] using rev_ind; intros l' Hl H; [congruence|]. clear Hl.
  apply Forall2_app_inv_l in H as (k & y' & H1 & H2 & ->). inversion H2 as [|? y ? t Hxy Ht]. subst. inversion Ht. subst. pose proof (F2_length H1) as E. rewrite comb_app by exact E. unfold rnear in Hxy. apply Rabs_le_inv in Hxy. destruct l as [|z l].
  - inversion H1. subst. cbn [app combine]. rewrite ewcov_one, !ewma_one. assert (M : forall u, ewmoment d 2 [u] = 0) by (intros u; unfold ewmoment; rewrite ewma_one; unfold wsum, eweights; cbn; ring). rewrite !M. nra.
  - assert (Hk : k <> []) by (intros ->; inversion H1). specialize (IH k ltac:(discriminate) H1). rewrite !ewvar_push, !ewma_push, ewcov_push by (first [assumption|discriminate|destruct k; [congruence|discriminate]]). rewrite comb_fst, comb_snd by exact E. cbn [fst snd].
    set (A := ewmoment d 2 (z :: l)) in *. set (B := ewmoment d 2 k) in *. set (C := ewcov d (combine (z :: l) k)) in *. set (u := ewma d (z :: l)) in *. set (v := ewma d k) in *. clearbody A B C u v.
    replace ((1 - d) * (A + d * (x - u) ^ 2) + (1 - d) * (B + d * (y - v) ^ 2) - 2 * ((1 - d) * C + d * (1 - d) * ((x - u) * (y - v))) + (u + d * (x - u) - (v + d * (y - v))) ^ 2)
      with ((1 - d) * (A + B - 2 * C + (u - v) ^ 2) + d * (x - y) ^ 2) by ring. assert ((x - y) ^ 2 <= eps ^ 2) by nra. nra.
Qed.
Lemma ewmoment2_pos d l : 0 < d < 1 -> 0 <= ewmoment d 2 l.
Proof.
  intros Hd. induction l as [|x l IH] using rev_ind; [unfold ewmoment, wsum, rsum; cbn; lra|]. destruct l as [|z l]; [cbn [app]; replace (ewmoment d 2 [x]) with 0 by (unfold ewmoment; rewrite ewma_one; unfold wsum, eweights; cbn; ring); lra|]. rewrite ewvar_push by discriminate. pose proof (pow2_ge_0 (x - ewma d (z :: l))) as Q. apply Rmult_le_pos; [lra|]. apply Rplus_le_le_0_compat; [exact IH|]. apply Rmult_le_pos; [lra|exact Q].
Qed.
Lemma ewstd_near d eps l l' : 0 < d < 1 -> 0 <= eps -> l <> [] -> Forall2 (rnear eps) l l' -> Rabs (sqrt (ewmoment d 2 l) - sqrt (ewmoment d 2 l')) <= eps.
Proof.
  intros Hd He Hl H. pose proof (F2_length H) as E. rewrite <- (sqrt_pow2 eps He). apply (minkowski _ _ (ewcov d (combine l l'))); [apply ewmoment2_pos; exact Hd|apply ewmoment2_pos; exact Hd| |].
  - pose proof (ewcov_cauchy d (combine l l') ltac:(lra)) as HC. rewrite comb_fst, comb_snd in HC by exact E. exact HC.
  - pose proof (ew_near d eps l l' Hd Hl H) as S1. pose proof (pow2_ge_0 (ewma d l - ewma d l')). lra.
Qed.

(** ** C94, in exact arithmetic *)
(** With n live values, Std changes by at most sqrt(n / (n-1)) eps, and EWMStd by at most eps. *)
Theorem C94_std_exact_partial : forall eps w d ops ops', (0 <= w)%Z -> 0 < d < 1 -> 0 <= eps -> raised (rnear eps) ops ops' -> let n := length (live w (hist ops)) in
  ((2 <= n)%nat -> exists a a', mval (KStd w) ops = Ok (Fin a) /\ mval (KStd w) ops' = Ok (Fin a') /\ Rabs (a - a') <= sqrt (INR n / (INR n - 1)) * eps) /\
  (hist ops <> [] -> exists b b', mval (KEwmStd (Fin d)) ops = Ok (Fin b) /\ mval (KEwmStd (Fin d)) ops' = Ok (Fin b') /\ Rabs (b - b') <= eps).
Proof.
  intros eps w d ops ops' Hw Hd He H n. pose proof (raised_live (rnear eps) w ops ops' H) as Hl. pose proof (raised_live (rnear eps) 0 ops ops' H) as Hh. change (Forall2 (rnear eps) (hist ops) (hist ops')) in Hh. split.
  - intros Hn. destruct (C20_moment_metrics w ops Hw) as (_ & _ & A & _). destruct (C20_moment_metrics w ops' Hw) as (_ & _ & B & _). rewrite A, B. unfold n in *. clear n A B. pose proof (F2_length Hl) as E. pose proof (std_near eps _ _ He Hn Hl) as S1.
    assert (X : forall l, (2 <= length l)%nat -> std_of l = Ok (Fin (sqrt (sample_moment 2 l)))) by (intros [|? [|? ?]] L; cbn [length] in L; [lia|lia|reflexivity]).
    rewrite !X by lia. eexists. eexists. split; [reflexivity|]. split; [reflexivity|]. unfold rlen, zlen in S1. rewrite <- INR_IZR_INZ in S1. exact S1.
  - intros Hne. destruct (C21_ewm d ops Hd) as (_ & _ & A). destruct (C21_ewm d ops' Hd) as (_ & _ & B). rewrite A, B. pose proof (ewstd_near d eps _ _ Hd He Hne Hh) as S1. destruct (hist ops) as [|x l]; [congruence|]. destruct (hist ops') as [|x' l']; [inversion Hh|].
    cbn [ewmstd_of]. eexists. eexists. split; [reflexivity|]. split; [reflexivity|]. exact S1.
Qed.
Print Assumptions C94_std_exact_partial.
(** The factor is needed: 0, 0 against eps, -eps. *)
Theorem C94_sharp : forall eps, 0 <= eps -> exists ops ops', raised (rnear eps) ops ops' /\ length (live 0 (hist ops)) = 2%nat /\ mval (KStd 0) ops = Ok (Fin 0) /\ mval (KStd 0) ops' = Ok (Fin (sqrt (INR 2 / (INR 2 - 1)) * eps)).
Proof.
  intros eps He. exists [OPush 0; OPush 0], [OPush eps; OPush (- eps)]. split; [unfold raised; repeat (apply Forall2_cons; [unfold rnear; apply Rabs_le; lra|]); apply Forall2_nil|]. split; [reflexivity|].
  destruct (C20_moment_metrics 0 [OPush 0; OPush 0] ltac:(lia)) as (_ & _ & A & _). destruct (C20_moment_metrics 0 [OPush eps; OPush (- eps)] ltac:(lia)) as (_ & _ & B & _). rewrite A, B. change (live 0 (hist [OPush 0; OPush 0])) with [0; 0]. change (live 0 (hist [OPush eps; OPush (- eps)])) with [eps; - eps].
  cbn [std_of]. unfold sample_moment, csum, rmean, rlen, rsum, zlen. cbn [length Z.of_nat Pos.of_succ_nat Pos.succ map fold_right INR]. split.
  - f_equal. f_equal. transitivity (sqrt 0); [|apply sqrt_0]. f_equal. field.
  - f_equal. f_equal. transitivity (sqrt ((1 + 1) / (1 + 1 - 1)) * sqrt (eps * eps)); [|rewrite sqrt_square by exact He; reflexivity]. rewrite <- sqrt_mult_alt by lra. f_equal. field.
Qed.
Print Assumptions C94_sharp.
Example C94_case : raised (rnear 1) [OPush 1; OPush 2] [OPush 0; OPush 3] /\ (2 <= length (live 2 (hist [OPush 1%R; OPush 2%R])))%nat.
Proof. split; [unfold raised; repeat (apply Forall2_cons; [unfold rnear; apply Rabs_le; lra|]); apply Forall2_nil|]. exact (le_n 2). Qed.
