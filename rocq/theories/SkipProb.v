(** Finite averages, and the expected number of records among independent heights. *)
From Coq Require Import Permutation.
From Verif Require Import Base SkipModel SkipCost.
From Coq Require Import Reals Lra.
Local Open Scope R_scope.

(** ** Specification: averages over equally likely outcomes *)
(** the average of F over the list U of equally likely outcomes *)
Definition mean {X} (U : list X) (F : X -> R) : R := fold_right Rplus 0 (map F U) / INR (length U).
Definition prob {X} (U : list X) (P : X -> bool) : R := mean U (fun u => if P u then 1 else 0).
(** the average of F over independent draws number 0, ..., D-1, each from U; the other draws are as in rho *)
Fixpoint expect {X} (U : list X) (D : nat) (F : (nat -> X) -> R) (rho : nat -> X) : R :=
  match D with O => F rho | S d => mean U (fun u => expect U d F (upd rho d u)) end.
(** the same for a list of n draws *)
Fixpoint expl {X} (U : list X) (n : nat) (G : list X -> R) : R :=
  match n with O => G [] | S k => mean U (fun u => expl U k (fun l => G (u :: l))) end.

Lemma sum_div {X} (l : list X) (F : X -> R) (c : R) : fold_right Rplus 0 (map (fun u => F u / c) l) = fold_right Rplus 0 (map F l) / c.
Proof. unfold Rdiv. induction l as [|x l IH]; cbn [map fold_right]; [ring|]. rewrite IH. ring. Qed.
Lemma sum_plus {X} (l : list X) (F G : X -> R) : fold_right Rplus 0 (map (fun u => F u + G u) l) = fold_right Rplus 0 (map F l) + fold_right Rplus 0 (map G l).
Proof. induction l as [|x l IH]; cbn [map fold_right]; [ring|]. rewrite IH. ring. Qed.
Lemma sum_zero {X} (l : list X) : fold_right Rplus 0 (map (fun _ => 0) l) = 0.
Proof. induction l as [|x l IH]; cbn [map fold_right]; [reflexivity|]. rewrite IH. ring. Qed.
Lemma sum_swap {X Y} (l : list X) (W : list Y) (F : X -> Y -> R) :
  fold_right Rplus 0 (map (fun u => fold_right Rplus 0 (map (fun w => F u w) W)) l) = fold_right Rplus 0 (map (fun w => fold_right Rplus 0 (map (fun u => F u w) l)) W).
Proof.
  induction l as [|x l IH]; cbn [map fold_right]; [rewrite sum_zero; reflexivity|]. rewrite IH, <- sum_plus. reflexivity.
Qed.

Section MEAN.
Context {X : Type} (U : list X) (HU : U <> []).
Lemma len_pos : 0 < INR (length U).
Proof. destruct U; [congruence|]. apply lt_0_INR. cbn [length]. lia. Qed.
Lemma mean_ext (F G : X -> R) : (forall u, In u U -> F u = G u) -> mean U F = mean U G.
Proof. intros H. unfold mean. rewrite (map_ext_in F G U H). reflexivity. Qed.
Lemma mean_le (F G : X -> R) : (forall u, In u U -> F u <= G u) -> mean U F <= mean U G.
Proof.
  intros H. unfold mean. apply Rmult_le_compat_r; [left; apply Rinv_0_lt_compat, len_pos|].
  clear HU. induction U as [|x l IH]; [apply Rle_refl|]. cbn [map fold_right]. apply Rplus_le_compat; [apply H; left; reflexivity|]. apply IH. intros u Hu. apply H. right. exact Hu.
Qed.
Lemma mean_plus (F G : X -> R) : mean U (fun u => F u + G u) = mean U F + mean U G.
Proof.
  unfold mean. unfold Rdiv. rewrite <- Rmult_plus_distr_r. f_equal. clear HU. induction U as [|x l IH]; cbn [map fold_right]; [ring|]. rewrite IH. ring.
Qed.
Lemma mean_scal (c : R) (F : X -> R) : mean U (fun u => c * F u) = c * mean U F.
Proof.
  unfold mean. unfold Rdiv. rewrite <- Rmult_assoc. f_equal. clear HU. induction U as [|x l IH]; cbn [map fold_right]; [ring|]. rewrite IH. ring.
Qed.
Lemma mean_const (c : R) : mean U (fun _ => c) = c.
Proof.
  assert (H : fold_right Rplus 0 (map (fun _ : X => c) U) = INR (length U) * c).
  { clear HU. induction U as [|x l IH]; [cbn; ring|]. cbn [map fold_right]. rewrite IH. cbn [length]. rewrite S_INR. ring. }
  unfold mean. rewrite H. pose proof len_pos. field. lra.
Qed.
Lemma mean_swap {Y} (W : list Y) (F : X -> Y -> R) : mean U (fun u => mean W (fun w => F u w)) = mean W (fun w => mean U (fun u => F u w)).
Proof.
  unfold mean. rewrite (sum_div U (fun u => fold_right Rplus 0 (map (fun w => F u w) W))), (sum_div W (fun w => fold_right Rplus 0 (map (fun u => F u w) U))), sum_swap.
  unfold Rdiv. rewrite !Rmult_assoc, (Rmult_comm (/ INR (length W))). reflexivity.
Qed.
Lemma expect_ext D : forall F G rho, (forall r, F r = G r) -> expect U D F rho = expect U D G rho.
Proof. induction D as [|d IH]; intros F G rho H; cbn [expect]; [apply H|]. apply mean_ext. intros u _. apply IH, H. Qed.
Lemma expect_le D : forall F G rho, (forall r, F r <= G r) -> expect U D F rho <= expect U D G rho.
Proof. induction D as [|d IH]; intros F G rho H; cbn [expect]; [apply H|]. apply mean_le. intros u _. apply IH, H. Qed.
Lemma expect_plus D : forall F G rho, expect U D (fun r => F r + G r) rho = expect U D F rho + expect U D G rho.
Proof. induction D as [|d IH]; intros F G rho; cbn [expect]; [reflexivity|]. rewrite <- mean_plus. apply mean_ext. intros u _. apply IH. Qed.
Lemma expect_const D : forall c rho, expect U D (fun _ => c) rho = c.
Proof. induction D as [|d IH]; intros c rho; cbn [expect]; [reflexivity|]. rewrite (mean_ext _ (fun _ => c)); [apply mean_const|]. intros u _. apply IH. Qed.
Lemma expl_ext n : forall F G, (forall l, F l = G l) -> expl U n F = expl U n G.
Proof. induction n as [|d IH]; intros F G H; cbn [expl]; [apply H|]. apply mean_ext. intros u _. apply IH. intros l. apply H. Qed.

(** a draw that comes first commutes with the later ones *)
Lemma expect_upd d k u : (d <= k)%nat -> forall F rho, (forall r r', (forall j, r j = r' j) -> F r = F r') ->
  expect U d F (upd rho k u) = expect U d (fun r => F (upd r k u)) rho.
Proof.
  induction d as [|d IH]; intros Hk F rho HF; cbn [expect]; [reflexivity|]. apply mean_ext. intros w _. rewrite <- IH by (try lia; exact HF).
  assert (E : forall d F r r', (forall r r', (forall j, r j = r' j) -> F r = F r') -> (forall j, r j = r' j) -> expect U d F r = expect U d F r').
  { clear. induction d as [|d IH]; intros F r r' HF H; cbn [expect]; [apply HF, H|]. apply mean_ext. intros u _. apply IH; [exact HF|]. intros j. unfold upd. destruct (j =? d)%nat; auto. }
  apply E; [exact HF|]. intros j. unfold upd. destruct (Nat.eqb_spec j d), (Nat.eqb_spec j k); try reflexivity. lia.
Qed.
Lemma expl_insert : forall (is1 : list nat) n G, (length is1 <= n)%nat ->
  expl U (S n) G = mean U (fun u => expl U n (fun l => G (firstn (length is1) l ++ u :: skipn (length is1) l))).
Proof.
  induction is1 as [|i is1 IH]; intros n G Hn; [reflexivity|]. destruct n as [|n]; [cbn in Hn; lia|]. cbn [length] in *.
  change (expl U (S (S n)) G) with (mean U (fun w => expl U (S n) (fun l => G (w :: l)))).
  rewrite (mean_ext _ (fun w => mean U (fun u => expl U n (fun l => G (w :: firstn (length is1) l ++ u :: skipn (length is1) l))))).
  2:{ intros w _. apply (IH n (fun l => G (w :: l))). lia. }
  rewrite mean_swap. apply mean_ext. intros u _. reflexivity.
Qed.
Lemma expect_map D : forall (is : list nat) (G : list X -> R) rho, NoDup is -> (forall i, In i is -> (i < D)%nat) ->
  expect U D (fun r => G (map r is)) rho = expl U (length is) G.
Proof.
  induction D as [|d IH]; intros is G rho N H.
  - destruct is as [|i is]; [reflexivity|]. specialize (H i (or_introl eq_refl)). lia.
  - cbn [expect].
    rewrite (mean_ext _ (fun u => expect U d (fun r => G (map (upd r d u) is)) rho)).
    2:{ intros u _. apply expect_upd; [lia|]. intros r r' E. f_equal. apply map_ext. exact E. }
    destruct (in_dec Nat.eq_dec d is) as [Hi|Hi].
    + apply in_split in Hi. destruct Hi as (is1 & is2 & ->). pose proof (NoDup_remove_1 _ _ _ N) as N'. pose proof (NoDup_remove_2 _ _ _ N) as Nd.
      rewrite app_length. cbn [length]. rewrite Nat.add_succ_r, (expl_insert is1 (length is1 + length is2) G) by lia. apply mean_ext. intros u _.
      rewrite <- app_length, <- (IH (is1 ++ is2) (fun l => G (firstn (length is1) l ++ u :: skipn (length is1) l)) rho N').
      * apply expect_ext. intros r. f_equal. rewrite !map_app. cbn [map].
        assert (Eu : upd r d u d = u) by (unfold upd; rewrite Nat.eqb_refl; reflexivity). rewrite Eu.
        assert (E : forall l, ~ In d l -> map (upd r d u) l = map r l).
        { intros l Hl. apply map_ext_in. intros j Hj. unfold upd. destruct (Nat.eqb_spec j d); [congruence|reflexivity]. }
        rewrite !E by (intros Hj; apply Nd, in_or_app; auto). replace (length is1) with (length (map r is1)) by apply map_length. rewrite firstn_app, Nat.sub_diag, firstn_all, skipn_app, Nat.sub_diag, skipn_all. cbn [firstn skipn app]. rewrite app_nil_r. reflexivity.
      * intros i Hi. assert (Hi' : (i < S d)%nat) by (apply H, in_or_app; apply in_app_or in Hi; destruct Hi; [left|right; right]; assumption).
        assert (i <> d) by (intros ->; exact (Nd Hi)). lia.
    + rewrite <- (IH is G rho N).
      * rewrite (mean_ext _ (fun _ => expect U d (fun r => G (map r is)) rho)); [apply mean_const|]. intros u _. apply expect_ext. intros r. f_equal.
        apply map_ext_in. intros j Hj. unfold upd. destruct (Nat.eqb_spec j d); [congruence|reflexivity].
      * intros i Hi'. specialize (H i Hi'). assert (i <> d) by congruence. lia.
Qed.

(** ** Records *)
Context (h : X -> nat) (mx : nat) (Hh : forall u, In u U -> (1 <= h u <= mx)%nat).
(** P(h > i) and P(h = i)/P(h > i) *)
Definition above (i : nat) : R := prob U (fun u => (i <? h u)%nat).
Definition ratio (i : nat) : R := prob U (fun u => (h u =? i)%nat) / above i.
Fixpoint ratios (k i : nat) : R := match k with O => 0 | S k' => ratio i + ratios k' (S i) end.
Definition top : R := prob U (fun u => (h u =? mx)%nat).
Context (Hq : forall i, (i < mx)%nat -> 0 < above i).
Definition gap (c : nat) : R := ratios (mx - c) c.
Lemma gap_step c : (c < mx)%nat -> gap c = ratio c + gap (S c).
Proof. intros H. unfold gap. replace (mx - c)%nat with (S (mx - S c)) by lia. reflexivity. Qed.
Lemma mean_gap k : forall c, (c + k = mx)%nat -> mean U (fun u => if (c <=? h u)%nat then 1 + gap (h u) - gap c else 0) = top.
Proof.
  induction k as [|k IH]; intros c Hc.
  - apply mean_ext. intros u Hu. specialize (Hh u Hu). destruct (Nat.leb_spec c (h u)), (Nat.eqb_spec (h u) mx); try lia; [|reflexivity].
    rewrite e. replace c with mx by lia. ring.
  - rewrite <- (IH (S c)) by lia. rewrite (gap_step c) by lia.
    rewrite (mean_ext _ (fun u => (if (h u =? c)%nat then 1 else 0) + ((if (S c <=? h u)%nat then 1 + gap (h u) - gap (S c) else 0) + (- ratio c) * (if (c <? h u)%nat then 1 else 0)))).
    + rewrite !mean_plus, mean_scal. fold (prob U (fun u => (h u =? c)%nat)). fold (prob U (fun u => (c <? h u)%nat)). fold (above c).
      unfold ratio. specialize (Hq c ltac:(lia)). field. lra.
    + intros u Hu. destruct (Nat.eqb_spec (h u) c) as [E|E].
      * rewrite E. rewrite (gap_step c) by lia. destruct (Nat.leb_spec c c), (Nat.leb_spec (S c) c), (Nat.ltb_spec c c); try lia. ring.
      * destruct (Nat.leb_spec c (h u)), (Nat.leb_spec (S c) (h u)), (Nat.ltb_spec c (h u)); try lia; ring.
Qed.
Lemma top_le c : (c <= mx)%nat -> top <= mean U (fun u => if (c <=? h u)%nat then 1 else 0).
Proof. intros Hc. unfold top, prob. apply mean_le. intros u Hu. cbv beta. destruct (Nat.eqb_spec (h u) mx), (Nat.leb_spec c (h u)); try lia; lra. Qed.
Lemma ratio_nonneg i : (i < mx)%nat -> 0 <= ratio i.
Proof.
  intros H. unfold ratio. apply Rmult_le_pos; [|left; apply Rinv_0_lt_compat, Hq, H].
  unfold prob. apply Rle_trans with (mean U (fun _ => 0)); [rewrite mean_const; lra|]. apply mean_le. intros u _. destruct (h u =? i)%nat; lra.
Qed.
Lemma ratios_nonneg k : forall i, (i + k <= mx)%nat -> 0 <= ratios k i.
Proof. induction k as [|k IH]; intros i H; cbn [ratios]; [lra|]. specialize (IH (S i) ltac:(lia)). pose proof (ratio_nonneg i ltac:(lia)). lra. Qed.
Lemma expl_le_mean n : forall F G, (forall l, length l = n -> (forall u, In u l -> In u U) -> F l <= G l) -> expl U n F <= expl U n G.
Proof.
  induction n as [|n IH]; intros F G H; cbn [expl]; [apply H; [reflexivity|intros u []]|]. apply mean_le. intros u Hu. apply IH. intros l Hl HlU. apply H; [cbn; lia|].
  intros w [<-|Hw]; [exact Hu|apply HlU, Hw].
Qed.
Lemma expl_plus_c n : forall c F, expl U n (fun l => c + F l) = c + expl U n F.
Proof. induction n as [|n IH]; intros c F; cbn [expl]; [reflexivity|]. rewrite <- (mean_ext (fun u => c + expl U n (fun l => F (u :: l)))) by (intros u _; symmetry; apply IH). rewrite mean_plus, mean_const. reflexivity. Qed.
Lemma recs_upper n : forall c, (c <= mx)%nat -> expl U n (fun l => INR (recs c (map h l))) <= gap c + INR n * top.
Proof.
  induction n as [|n IH]; intros c Hc.
  - cbn [expl map recs INR]. unfold gap. pose proof (ratios_nonneg (mx - c) c ltac:(lia)). lra.
  - cbn [expl map recs]. rewrite S_INR.
    apply Rle_trans with (mean U (fun u => (gap c + INR n * top) + (if (c <=? h u)%nat then 1 + gap (h u) - gap c else 0))).
    + apply mean_le. intros u Hu. specialize (Hh u Hu). destruct (Nat.leb_spec c (h u)) as [H|H].
      * rewrite (expl_ext n _ (fun l => 1 + INR (recs (h u) (map h l)))) by (intros l; rewrite S_INR; ring). rewrite expl_plus_c.
        specialize (IH (h u) ltac:(lia)). lra.
      * specialize (IH c Hc). lra.
    + rewrite mean_plus, mean_const, (mean_gap (mx - c)) by lia. lra.
Qed.
Lemma recs_lower n : forall c, (c <= mx)%nat -> INR n * top <= expl U n (fun l => INR (recs c (map h l))).
Proof.
  induction n as [|n IH]; intros c Hc.
  - cbn [expl map recs INR]. lra.
  - cbn [expl map recs]. rewrite S_INR.
    apply Rle_trans with (mean U (fun u => INR n * top + (if (c <=? h u)%nat then 1 else 0))).
    + rewrite mean_plus, mean_const. pose proof (top_le c Hc). lra.
    + apply mean_le. intros u Hu. specialize (Hh u Hu). destruct (Nat.leb_spec c (h u)) as [H|H].
      * rewrite (expl_ext n _ (fun l => 1 + INR (recs (h u) (map h l)))) by (intros l; rewrite S_INR; ring). rewrite expl_plus_c.
        specialize (IH (h u) ltac:(lia)). lra.
      * specialize (IH c Hc). lra.
Qed.
End MEAN.
