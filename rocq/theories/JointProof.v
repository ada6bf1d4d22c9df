(** Proofs about the joint core in exact arithmetic. *)
From Coq Require Import Reals Lra Permutation.
From Verif Require Import Base MathModel MathProof HistSpec RingModel NumModel MomentSpec RealLib MomentProof EwmProof JointModel JointSpec TupleProof.
Local Open Scope R_scope.

Definition below (ts : list tuple) (a : tuple) : Prop := exists t, In t ts /\ tle a t.
Definition jwf (v : nat) (ts : list tuple) : Prop := Forall (fun t => length t = v /\ fits t) ts.
Definition hash_ok (ts : list tuple) : Prop := forall a b, below ts a -> below ts b -> t_hash a = t_hash b -> a = b.
Definition tdec : forall x y : tuple, {x = y} + {x <> y} := list_eq_dec Z.eq_dec.
(** The value stored for the tuple [a]: the all-zero tuple always holds 0. *)
Definition val (L : list (R * list R)) (c : list R) (a : tuple) : R := if (degree a =? 0)%Z then 0 else jw L c a.

Lemma below_wf v ts a : jwf v ts -> below ts a -> length a = v /\ fits a.
Proof.
  intros W (t & Ht & H). unfold jwf in W. rewrite Forall_forall in W. destruct (W t Ht) as [Hl Hf]. split; [rewrite (tle_length a t H); exact Hl|].
  eapply fits_le; eassumption.
Qed.
Lemma below_down ts a b : below ts a -> tle b a -> below ts b.
Proof. intros (t & Ht & H) Hb. exists t. split; [exact Ht|]. eapply tle_trans; eassumption. Qed.

Lemma tle_dec b : forall a, {tle b a} + {~ tle b a}.
Proof.
  induction b as [|i b IH]; intros [|k a]; try (right; intros H; inversion H; fail); [left; constructor|].
  destruct (IH a) as [H|H]; [|right; intros H'; inversion H'; contradiction].
  destruct (Z_le_dec 0 i); [|right; intros H'; inversion H'; lia]. destruct (Z_le_dec i k); [|right; intros H'; inversion H'; lia].
  left. constructor; [lia|exact H].
Qed.
Lemma below_dec ts a : {below ts a} + {~ below ts a}.
Proof.
  induction ts as [|t ts IH]; [right; intros (t & [] & _)|]. destruct (tle_dec a t) as [H|H]; [left; exists t; split; [left; reflexivity|exact H]|].
  destruct IH as [Hb|Hb]; [left|right].
  - destruct Hb as (u & Hu & Ha). exists u. split; [right; exact Hu|exact Ha].
  - intros (u & [<-|Hu] & Ha); [contradiction|]. apply Hb. exists u. auto.
Qed.

Lemma below_hash_dec ts h : {exists a, below ts a /\ h = t_hash a} + {~ exists a, below ts a /\ h = t_hash a}.
Proof.
  induction ts as [|t ts IH]; [right; intros (a & (t & [] & _) & _)|].
  destruct (in_dec Z.eq_dec h (map t_hash (iter_list t false))) as [Hi|Hi].
  - left. apply in_map_iff in Hi. destruct Hi as (a & <- & Ha). apply in_iter in Ha. exists a. split; [|reflexivity]. exists t. split; [left; reflexivity|exact Ha].
  - destruct IH as [Hb|Hb]; [left|right].
    + destruct Hb as (a & (u & Hu & Ha) & E). exists a. split; [|exact E]. exists u. split; [right; exact Hu|exact Ha].
    + intros (a & (u & [<-|Hu] & Ha) & E); [|apply Hb; exists a; split; [exists u; auto|exact E]].
      apply Hi. apply in_map_iff. exists a. split; [symmetry; exact E|]. apply in_iter. exact Ha.
Qed.

(** ** Loops *)
Lemma hput_same {T} (m : @hmap T) h v : hput m h v h = Some v.
Proof. unfold hput. rewrite Z.eqb_refl. reflexivity. Qed.
Lemma hput_other {T} (m : @hmap T) h v k : k <> h -> hput m h v k = m k.
Proof. intros H. unfold hput. destruct (Z.eqb_spec k h); [contradiction|reflexivity]. Qed.

Lemma upd_b_ok term a g : forall bs m s,
  (forall b m', In b bs -> (forall h, h <> t_hash a -> m' h = m h) -> exists f, term a b m' = Ok f /\ forall s, f (Fin s) = Fin (s + g b)) ->
  m (t_hash a) = Some (Fin s) ->
  exists m', upd_b XN term a bs m = Ok m' /\ m' (t_hash a) = Some (Fin (s + rsum (map g bs))) /\ forall h, h <> t_hash a -> m' h = m h.
Proof.
  induction bs as [|b bs IH]; intros m s Ht Hm; cbn [upd_b].
  - exists m. split; [reflexivity|]. split; [|reflexivity]. rewrite Hm. unfold rsum. cbn. do 2 f_equal. ring.
  - destruct (Ht b m (or_introl eq_refl) ltac:(reflexivity)) as (f & E & Hf). rewrite E. cbn [bind].
    unfold hget at 1. rewrite Hm, Hf. fold (upd_b XN term a).
    destruct (IH (hput m (t_hash a) (Fin (s + g b))) (s + g b)) as (m' & E' & H1 & H2).
    + intros b' m' Hb' Hm'. apply Ht; [right; exact Hb'|]. intros h Hh. rewrite Hm' by exact Hh. apply hput_other. exact Hh.
    + apply hput_same.
    + exists m'. split; [exact E'|]. split.
      * rewrite H1. cbn [map]. rewrite rsum_cons. do 2 f_equal. ring.
      * intros h Hh. rewrite H2 by exact Hh. apply hput_other. exact Hh.
Qed.

Lemma upd_a_ok term V : forall as_ m,
  (forall l1 a l2 m', as_ = l1 ++ a :: l2 -> (forall d, In d l1 -> m' (t_hash d) = Some (Fin (V d))) ->
     (forall h, ~ In h (map t_hash l1) -> m' h = m h) ->
     exists m'', upd_b XN term a (iter_list a false) (hput m' (t_hash a) (Fin 0)) = Ok m'' /\ m'' (t_hash a) = Some (Fin (V a)) /\
       forall h, h <> t_hash a -> m'' h = m' h) ->
  (forall a b, In a as_ -> In b as_ -> t_hash a = t_hash b -> a = b) ->
  exists m', upd_a XN term as_ m = Ok m' /\ (forall a, In a as_ -> m' (t_hash a) = Some (Fin (V a))) /\
    (forall h, ~ In h (map t_hash as_) -> m' h = m h).
Proof.
  intros as_ m Hs Hinj.
  assert (Hgen : forall l2 l1 m', as_ = l1 ++ l2 -> (forall d, In d l1 -> m' (t_hash d) = Some (Fin (V d))) -> (forall h, ~ In h (map t_hash l1) -> m' h = m h) ->
    exists m'', upd_a XN term l2 m' = Ok m'' /\ (forall a, In a as_ -> m'' (t_hash a) = Some (Fin (V a))) /\ (forall h, ~ In h (map t_hash as_) -> m'' h = m h)).
  { induction l2 as [|a l2 IH]; intros l1 m' E H1 H2; cbn [upd_a].
    - exists m'. rewrite app_nil_r in E. subst l1. auto.
    - destruct (Hs l1 a l2 m' E H1 H2) as (m1 & E1 & Ha & Ho). cbn [nz XN]. rewrite E1. cbn [bind].
      apply (IH (l1 ++ [a])).
      + rewrite <- app_assoc. exact E.
      + intros d Hd. destruct (tdec d a) as [->|Hne]; [exact Ha|]. rewrite Ho.
        * apply H1. apply in_app_or in Hd. destruct Hd as [Hd|[<-|[]]]; [exact Hd|congruence].
        * intros Eh. apply Hne. apply Hinj; [|rewrite E; apply in_or_app; right; left; reflexivity|exact Eh].
          rewrite E. apply in_app_or in Hd. destruct Hd as [Hd|[<-|[]]]; [apply in_or_app; left; exact Hd|congruence].
      + intros h Hh. rewrite map_app in Hh. cbn [map] in Hh. rewrite Ho.
        * apply H2. intros Hin. apply Hh. apply in_or_app. left. exact Hin.
        * intros ->. apply Hh. apply in_or_app. right. left. reflexivity. }
  apply (Hgen as_ [] m); [reflexivity| |reflexivity]. intros d [].
Qed.

Lemma t_pow_ok dl b : length b = length dl -> t_pow XN (map Fin dl) b = Ok (Fin (vp b dl)).
Proof.
  intros H. unfold t_pow. rewrite map_length, H, Nat.eqb_refl. cbn [negb]. f_equal.
  assert (G : forall r, vpow_loop XN (map Fin dl) b (Fin r) = Fin (r * vp b dl)).
  { revert b H. induction dl as [|y dl IH]; intros [|k b] H r; try discriminate; cbn [map vpow_loop vp]; [f_equal; ring|].
    injection H as H. cbn [nmul npow XN xpow xmul]. rewrite IH by exact H. f_equal. ring. }
  cbn [nz XN]. rewrite G. f_equal. ring.
Qed.

(** ** The terms of one update *)
Section Terms.
Context (a : tuple) (L : list (R * list R)) (c dl : list R).
Hypothesis (Fa : fits a) (Ld : length dl = length a).
Definition Eterm (q : R) (b : tuple) : R := IZR (mbin a b) * (-1) ^ tabs b * q ^ tabs b * vp b dl * jw L c (tsub a b).

Lemma tle_len_dl b : tle b a -> length b = length dl.
Proof. intros H. rewrite (tle_length b a H). symmetry. exact Ld. Qed.

Lemma abs_cases b : tle b a -> (b = zero (length a) /\ t_abs b = 0%Z) \/ (b <> zero (length a) /\ t_abs b = Z.of_nat (tabs b) /\ (1 <= tabs b)%nat).
Proof.
  intros H. pose proof (fits_le b a H Fa) as Fb. pose proof (t_abs_tabs b Fb) as E. pose proof (tabs_degree b (fits_nonneg b Fb)) as Ed.
  destruct (tabs b) as [|n] eqn:En.
  - left. split; [|exact E]. rewrite (degree_zero b (fits_nonneg b Fb)) by lia. f_equal. apply tle_length. exact H.
  - right. split; [|split; [exact E|lia]]. intros ->. rewrite tabs_zero in En. discriminate.
Qed.
Lemma Eterm_zero q : Eterm q (zero (length a)) = jw L c a.
Proof. unfold Eterm. rewrite mbin_zero, tabs_zero, vp_zero, tsub_zero. cbn. ring. Qed.
Lemma Eterm_self q : Eterm q a = (-1) ^ tabs a * q ^ tabs a * vp a dl * jw L c (zero (length a)).
Proof. unfold Eterm. rewrite mbin_self, tsub_self. ring. Qed.
Lemma diff_pos b : tle b a -> b <> a -> (degree (tsub a b) =? 0)%Z = false.
Proof.
  intros H Hne. apply Z.eqb_neq. intros E. apply Hne. clear - H E. unfold degree in *.
  induction H as [|y x b a Hxy H IH]; cbn [tsub fold_right] in *; [reflexivity|].
  assert (0 <= fold_right Z.add 0 (tsub a b))%Z by (clear - H; induction H; cbn [tsub fold_right]; lia).
  f_equal; [lia|]. apply IH. lia.
Qed.

(** add *)
Lemma add_term_ok n sums b m : 0 <= n -> tle b a -> b <> a \/ jw L c (zero (length a)) = n ->
  (forall d, tle d a -> hget XN sums (t_hash d) = Fin (val L c d)) ->
  exists f, add_term XN (Fin (n + 1)) (map Fin dl) sums a b m = Ok f /\
    forall s, f (Fin s) = Fin (s + if (degree a =? 0)%Z then 0 else Eterm (/ (n + 1)) b + if tdec b a then (1 - / (n + 1)) ^ tabs a * vp a dl else 0).
Proof.
  intros Hn Hb HW Hs. unfold add_term. rewrite t_pow_ok by (apply tle_len_dl; exact Hb). cbn [bind]. cbv zeta.
  destruct (abs_cases b Hb) as [[-> E0]|(Hb0 & Eb & Hpos)].
  - rewrite E0. cbn [Z.eqb]. eexists. split; [reflexivity|]. intros s. rewrite (Hs a) by (apply tle_refl, fits_nonneg, Fa). cbn [nadd XN xadd]. do 2 f_equal.
    unfold val. destruct (Z.eqb_spec (degree a) 0) as [Hd|Hd]; [reflexivity|]. rewrite Eterm_zero.
    destruct (tdec _ a) as [Ea|_]; [exfalso; apply Hd; rewrite <- Ea; apply degree_zeros|ring].
  - rewrite Eb. destruct (Z.eqb_spec (Z.of_nat (tabs b)) 0) as [|_]; [lia|].
    assert (Hda : (degree a =? 0)%Z = false).
    { apply Z.eqb_neq. pose proof (tle_degree b a Hb). pose proof (tabs_degree b (tle_nonneg b a Hb)). lia. }
    rewrite Hda. destruct (t_eq b a) eqn:Et.
    + apply t_eq_spec in Et. subst b. eexists. split; [reflexivity|]. intros s. cbn [nadd nsub nmul ndiv npow nz XN xsub xpow].
      replace (n + 1 - 1) with n by ring. rewrite xdiv_fin by (apply pow_nonzero; lra). cbn [xadd xmul]. do 2 f_equal. rewrite IZR_sign, Nat2Z.id, Eterm_self.
      destruct (tdec a a) as [_|]; [|congruence]. destruct HW as [|HW]; [congruence|]. rewrite HW.
      replace (Z.to_nat (Z.of_nat (tabs a) - 1)) with (tabs a - 1)%nat by lia.
      replace (1 - / (n + 1)) with (n * / (n + 1)) by (field; lra). rewrite Rpow_mult_distr.
      replace (n ^ tabs a) with (n * n ^ (tabs a - 1)) by (destruct (tabs a); [lia|]; cbn [pow]; rewrite Nat.sub_succ, Nat.sub_0_r; reflexivity).
      rewrite pow_inv. unfold Rdiv. ring.
    + assert (Hne : b <> a) by (intros ->; rewrite (proj2 (t_eq_spec a a) eq_refl) in Et; discriminate).
      rewrite multinom_ok by assumption. cbn [bind]. rewrite t_sub_ok by assumption. cbn [bind]. eexists. split; [reflexivity|]. intros s.
      rewrite mbin_sign by assumption. rewrite (Hs (tsub a b)) by (apply tsub_le; exact Hb). unfold val. rewrite diff_pos by assumption.
      cbn [nadd nsub nmul ndiv npow nz XN xpow]. rewrite xdiv_fin by (apply pow_nonzero; lra). cbn [xadd xmul]. do 2 f_equal.
      destruct (tdec b a) as [|_]; [contradiction|]. unfold Eterm. rewrite mult_IZR, IZR_sign, Nat2Z.id, pow_inv. unfold Rdiv. ring.
Qed.

(** addDecay *)
Lemma decay_term_ok d sums b m : tle b a -> d = 1 \/ jw L c (zero (length a)) = 1 ->
  (forall e, tle e a -> hget XN sums (t_hash e) = Fin (val L c e)) ->
  exists f, decay_term XN (Fin d) (map Fin dl) sums a b m = Ok f /\
    forall s, f (Fin s) = Fin (s + if (degree a =? 0)%Z then 0 else (1 - d) * Eterm d b + if tdec b a then d * ((1 - d) ^ tabs a * vp a dl) else 0).
Proof.
  intros Hb HW Hs. unfold decay_term. rewrite t_pow_ok by (apply tle_len_dl; exact Hb). cbn [bind]. cbv zeta.
  destruct (abs_cases b Hb) as [[-> E0]|(Hb0 & Eb & Hpos)].
  - rewrite E0. cbn [Z.eqb]. eexists. split; [reflexivity|]. intros s. rewrite (Hs a) by (apply tle_refl, fits_nonneg, Fa). cbn [nadd nsub nmul nz XN xadd xsub xmul]. do 2 f_equal.
    unfold val. destruct (Z.eqb_spec (degree a) 0) as [Hd|Hd]; [ring|]. rewrite Eterm_zero.
    destruct (tdec _ a) as [Ea|_]; [exfalso; apply Hd; rewrite <- Ea; apply degree_zeros|ring].
  - rewrite Eb. destruct (Z.eqb_spec (Z.of_nat (tabs b)) 0) as [|_]; [lia|].
    assert (Hda : (degree a =? 0)%Z = false).
    { apply Z.eqb_neq. pose proof (tle_degree b a Hb). pose proof (tabs_degree b (tle_nonneg b a Hb)). lia. }
    rewrite Hda. destruct (t_eq b a) eqn:Et.
    + apply t_eq_spec in Et. subst b. eexists. split; [reflexivity|]. intros s. cbn [nadd nsub nmul ndiv npow nz XN xsub xpow xadd xmul]. do 2 f_equal.
      rewrite Nat2Z.id, Eterm_self. destruct (tdec a a) as [_|]; [|congruence]. replace (0 - d) with (- d) by ring. rewrite pow_opp.
      destruct HW as [->|HW]; [ring|]. rewrite HW. ring.
    + assert (Hne : b <> a) by (intros ->; rewrite (proj2 (t_eq_spec a a) eq_refl) in Et; discriminate).
      rewrite multinom_ok by assumption. cbn [bind]. rewrite t_sub_ok by assumption. cbn [bind]. eexists. split; [reflexivity|]. intros s.
      rewrite mbin_sign by assumption. rewrite (Hs (tsub a b)) by (apply tsub_le; exact Hb). unfold val. rewrite diff_pos by assumption.
      cbn [nadd nsub nmul ndiv npow nz XN xpow xsub xadd xmul]. do 2 f_equal.
      destruct (tdec b a) as [|_]; [contradiction|]. unfold Eterm. rewrite mult_IZR, IZR_sign, Nat2Z.id. ring.
Qed.

(** remove; here [L], [c] are the points without the removed one *)
Lemma rem_term_ok n old sums b m : 0 < n -> tle b a -> b <> a \/ jw L c (zero (length a)) = n ->
  hget XN sums (t_hash a) = Fin old ->
  (forall d, tle d a -> d <> a -> hget XN m (t_hash d) = Fin (val L c d)) ->
  exists f, rem_term XN (Fin n) (map Fin dl) sums a b m = Ok f /\
    forall s, f (Fin s) = Fin (s + if tdec b (zero (length a)) then old else - (Eterm (/ (n + 1)) b + if tdec b a then (1 - / (n + 1)) ^ tabs a * vp a dl else 0)).
Proof.
  intros Hn Hb HW Ho Hs. unfold rem_term. rewrite t_pow_ok by (apply tle_len_dl; exact Hb). cbn [bind]. cbv zeta.
  destruct (abs_cases b Hb) as [[-> E0]|(Hb0 & Eb & Hpos)].
  - rewrite E0. cbn [Z.eqb]. eexists. split; [reflexivity|]. intros s. rewrite Ho. destruct (tdec _ _) as [_|]; [reflexivity|congruence].
  - rewrite Eb. destruct (Z.eqb_spec (Z.of_nat (tabs b)) 0) as [|_]; [lia|]. destruct (tdec b (zero (length a))) as [|_]; [contradiction|].
    destruct (t_eq b a) eqn:Et.
    + apply t_eq_spec in Et. subst b. eexists. split; [reflexivity|]. intros s. cbn [nadd nsub nmul ndiv npow nz XN xadd xpow].
      rewrite xdiv_fin by (apply pow_nonzero; lra). cbn [xadd xmul xsub]. f_equal. rewrite IZR_sign, Nat2Z.id, Eterm_self.
      destruct (tdec a a) as [_|]; [|congruence]. destruct HW as [|HW]; [congruence|]. rewrite HW.
      replace (Z.to_nat (Z.of_nat (tabs a) - 1)) with (tabs a - 1)%nat by lia.
      replace (1 - / (n + 1)) with (n * / (n + 1)) by (field; lra). rewrite Rpow_mult_distr.
      replace (n ^ tabs a) with (n * n ^ (tabs a - 1)) by (destruct (tabs a); [lia|]; cbn [pow]; rewrite Nat.sub_succ, Nat.sub_0_r; reflexivity).
      rewrite pow_inv. unfold Rdiv. ring.
    + assert (Hne : b <> a) by (intros ->; rewrite (proj2 (t_eq_spec a a) eq_refl) in Et; discriminate).
      rewrite multinom_ok by assumption. cbn [bind]. rewrite t_sub_ok by assumption. cbn [bind]. eexists. split; [reflexivity|]. intros s.
      rewrite mbin_sign by assumption. rewrite (Hs (tsub a b)).
      * unfold val. rewrite diff_pos by assumption.
        cbn [nadd nsub nmul ndiv npow nz XN xpow xadd]. rewrite xdiv_fin by (apply pow_nonzero; lra). cbn [xadd xmul xsub]. f_equal.
        destruct (tdec b a) as [|_]; [contradiction|]. unfold Eterm. rewrite mult_IZR, IZR_sign, Nat2Z.id, pow_inv. unfold Rdiv. ring.
      * apply tsub_le. exact Hb.
      * intros E. apply Hb0. clear - Hb E. unfold zero. induction Hb as [|y x b a Hxy H IH]; cbn [length repeat tsub] in *; [reflexivity|].
        injection E as E1 E2. f_equal; [lia|]. apply IH. exact E2.
Qed.
End Terms.

(** ** Whole updates *)
Lemma hget_some {m : @hmap xr} {h v} : m h = Some v -> hget XN m h = v.
Proof. unfold hget. intros ->. reflexivity. Qed.

Definition sums_are (ts : list tuple) (V : tuple -> R) (m : @hmap xr) : Prop :=
  (forall a, below ts a -> m (t_hash a) = Some (Fin (V a))) /\ (forall h, m h <> None -> exists a, below ts a /\ h = t_hash a).

Lemma sums_read ts V m a : sums_are ts V m -> below ts a -> forall d, tle d a -> hget XN m (t_hash d) = Fin (V d).
Proof. intros [H _] Ha d Hd. apply hget_some. apply H. eapply below_down; eassumption. Qed.

Section Update.
Context (v : nat) (ts : list tuple) (L : list (R * list R)) (c x : list R).
Hypothesis (W : jwf v ts) (HH : hash_ok ts) (HL : Forall (fun p => length (snd p) = v) L) (Hc : length c = v) (Hx : length x = v).
Local Notation dl := (vsub x c).

Lemma dl_length : length dl = v.
Proof. unfold vsub. rewrite map2_length; congruence. Qed.

(** Generic in the term: one tuple, then all tuples. *)
Lemma upd_tuples_ok term reverse V :
  (forall a m, below ts a -> exists m', upd_b XN term a (iter_list a false) (hput m (t_hash a) (Fin 0)) = Ok m' /\
     m' (t_hash a) = Some (Fin (V a)) /\ forall h, h <> t_hash a -> m' h = m h) ->
  forall us m, incl us ts -> exists m', upd_tuples XN term reverse us m = Ok m' /\
    (forall a, below us a -> m' (t_hash a) = Some (Fin (V a))) /\ (forall h, (forall a, below us a -> h <> t_hash a) -> m' h = m h).
Proof.
  intros Hb. induction us as [|t us IH]; intros m Hi; cbn [upd_tuples].
  - exists m. split; [reflexivity|]. split; [|reflexivity]. intros a (t & [] & _).
  - assert (Hi' : incl us ts) by (intros u Hu; apply Hi; right; exact Hu).
    assert (Ht : In t ts) by (apply Hi; left; reflexivity).
    destruct (upd_a_ok term V (iter_list t reverse) m) as (m1 & E1 & A1 & O1).
    + intros l1 a l2 m' E _ _. apply Hb. exists t. split; [exact Ht|]. apply (in_iter t reverse). rewrite E. apply in_or_app. right. left. reflexivity.
    + intros a b Ha Hb'. apply HH; exists t; (split; [exact Ht|]); apply (in_iter t reverse); assumption.
    + rewrite E1. cbn [bind]. destruct (IH m1 Hi') as (m2 & E2 & A2 & O2). exists m2. split; [exact E2|]. split.
      * intros a (u & [<-|Hu] & Ha).
        -- destruct (below_dec us a) as [H|H]; [apply A2; exact H|]. rewrite O2; [apply A1; apply in_iter; exact Ha|].
           intros b Hb' E. apply H. replace a with b; [exact Hb'|]. apply HH.
           ++ destruct Hb' as (u & Hu & ?). exists u. split; [apply Hi'; exact Hu|assumption].
           ++ exists t. auto.
           ++ symmetry. exact E.
        -- apply A2. exists u. auto.
      * intros h Hh. rewrite O2.
        -- apply O1. intros Hin. apply in_map_iff in Hin. destruct Hin as (a & <- & Ha). apply in_iter in Ha. apply (Hh a); [|reflexivity].
           exists t. split; [left; reflexivity|exact Ha].
        -- intros a (u & Hu & Ha). apply Hh. exists u. split; [right; exact Hu|exact Ha].
Qed.

Lemma iter_has_self a : fits a -> In a (iter_list a false).
Proof. intros F. apply in_iter. apply tle_refl, fits_nonneg, F. Qed.

Lemma add_b_ok n sums a m : 0 <= n -> jw L c (zero v) = n -> sums_are ts (val L c) sums -> below ts a ->
  exists m', upd_b XN (add_term XN (Fin (n + 1)) (map Fin dl) sums) a (iter_list a false) (hput m (t_hash a) (Fin 0)) = Ok m' /\
     m' (t_hash a) = Some (Fin (val (L ++ [(1, x)]) (vadd c (map (Rmult (/ (n + 1))) dl)) a)) /\ forall h, h <> t_hash a -> m' h = m h.
Proof.
  intros Hn HW Hs Ha. destruct (below_wf v ts a W Ha) as [La Fa]. pose proof dl_length as Ld.
  destruct (upd_b_ok (add_term XN (Fin (n + 1)) (map Fin dl) sums) a
    (fun b => if (degree a =? 0)%Z then 0 else Eterm a L c dl (/ (n + 1)) b + if tdec b a then (1 - / (n + 1)) ^ tabs a * vp a dl else 0)
    (iter_list a false) (hput m (t_hash a) (Fin 0)) 0) as (m' & E & H1 & H2).
  - intros b m' Hb _. apply in_iter in Hb. apply add_term_ok; auto; [congruence|right; congruence|]. apply (sums_read ts); assumption.
  - apply hput_same.
  - exists m'. split; [exact E|]. split.
    + rewrite H1. do 2 f_equal. unfold val. destruct (degree a =? 0)%Z; [rewrite rsum_zero; ring|].
      rewrite rsum_except by (apply nodup_iter || apply iter_has_self; exact Fa). rewrite jw_step; try congruence.
      * unfold Eterm. ring.
      * rewrite La. exact HL.
      * apply fits_nonneg, Fa.
    + intros h Hh. rewrite H2 by exact Hh. apply hput_other. exact Hh.
Qed.

Lemma decay_b_ok d sums a m : d = 1 \/ jw L c (zero v) = 1 -> sums_are ts (val L c) sums -> below ts a ->
  exists m', upd_b XN (decay_term XN (Fin d) (map Fin dl) sums) a (iter_list a false) (hput m (t_hash a) (Fin 0)) = Ok m' /\
     m' (t_hash a) = Some (Fin (val (jscale (1 - d) L ++ [(d, x)]) (vadd c (map (Rmult d) dl)) a)) /\ forall h, h <> t_hash a -> m' h = m h.
Proof.
  intros HW Hs Ha. destruct (below_wf v ts a W Ha) as [La Fa]. pose proof dl_length as Ld.
  destruct (upd_b_ok (decay_term XN (Fin d) (map Fin dl) sums) a
    (fun b => if (degree a =? 0)%Z then 0 else (1 - d) * Eterm a L c dl d b + if tdec b a then d * ((1 - d) ^ tabs a * vp a dl) else 0)
    (iter_list a false) (hput m (t_hash a) (Fin 0)) 0) as (m' & E & H1 & H2).
  - intros b m' Hb _. apply in_iter in Hb. apply decay_term_ok; auto; [congruence|rewrite La; exact HW|]. apply (sums_read ts); assumption.
  - apply hput_same.
  - exists m'. split; [exact E|]. split.
    + rewrite H1. do 2 f_equal. unfold val. destruct (degree a =? 0)%Z; [rewrite rsum_zero; ring|].
      rewrite rsum_except by (apply nodup_iter || apply iter_has_self; exact Fa). rewrite rsum_scale.
      pose proof (jw_step L c x 0 d a) as Hstep. cbv zeta in Hstep.
      assert (Hst : jw L (vadd c (map (Rmult d) dl)) a = rsum (map (Eterm a L c dl d) (iter_list a false))).
      { rewrite jw_app, jw_one, !Rmult_0_l, !Rplus_0_r in Hstep. apply Hstep; try congruence; [rewrite La; exact HL|apply fits_nonneg, Fa]. }
      rewrite jw_app, jw_scale, jw_one, jprod_self by congruence.
      rewrite Hst. ring.
    + intros h Hh. rewrite H2 by exact Hh. apply hput_other. exact Hh.
Qed.

(** remove: [L], [c] without [x]; [old] are the values with it. *)
Lemma rem_b_ok n sums a m : 0 < n -> jw L c (zero v) = n -> below ts a ->
  hget XN sums (t_hash a) = Fin (val (L ++ [(1, x)]) (vadd c (map (Rmult (/ (n + 1))) dl)) a) ->
  (forall d, tle d a -> d <> a -> m (t_hash d) = Some (Fin (val L c d))) ->
  exists m', upd_b XN (rem_term XN (Fin n) (map Fin dl) sums) a (iter_list a false) (hput m (t_hash a) (Fin 0)) = Ok m' /\
     m' (t_hash a) = Some (Fin (val L c a)) /\ forall h, h <> t_hash a -> m' h = m h.
Proof.
  intros Hn HW Ha Ho Hs. destruct (below_wf v ts a W Ha) as [La Fa]. pose proof dl_length as Ld.
  set (old := val (L ++ [(1, x)]) (vadd c (map (Rmult (/ (n + 1))) dl)) a) in *.
  set (e := (1 - / (n + 1)) ^ tabs a * vp a dl).
  destruct (upd_b_ok (rem_term XN (Fin n) (map Fin dl) sums) a
    (fun b => if tdec b (zero (length a)) then old else - (Eterm a L c dl (/ (n + 1)) b + if tdec b a then e else 0))
    (iter_list a false) (hput m (t_hash a) (Fin 0)) 0) as (m' & E & H1 & H2).
  - intros b m' Hb Hm'. apply in_iter in Hb. apply rem_term_ok; auto; [congruence|right; congruence|].
    intros d Hd Hne. apply hget_some.
    assert (Hh : t_hash d <> t_hash a) by (intros Eh; apply Hne; apply HH; auto; eapply below_down; eassumption).
    rewrite Hm' by exact Hh. rewrite hput_other by exact Hh. apply Hs; assumption.
  - apply hput_same.
  - exists m'. split; [exact E|]. split.
    + rewrite H1. do 2 f_equal. destruct (tdec (zero (length a)) a) as [Ea|Ea].
      * (* the all-zero tuple *)
        assert (Hz : degree a = 0%Z) by (rewrite <- Ea; apply degree_zeros).
        unfold old, val. rewrite Hz. cbn [Z.eqb]. rewrite (rsum_ext _ (fun _ => 0)); [rewrite rsum_zero; ring|].
        intros b Hb. apply in_iter in Hb. destruct (tdec b (zero (length a))) as [|Hne]; [reflexivity|].
        exfalso. apply Hne. rewrite <- (tle_length _ _ Hb). apply degree_zero; [exact (tle_nonneg _ _ Hb)|].
        pose proof (tle_degree _ _ Hb). lia.
      * assert (Hz : (degree a =? 0)%Z = false).
        { apply Z.eqb_neq. intros Hz. apply Ea. symmetry. apply degree_zero; [apply fits_nonneg, Fa|exact Hz]. }
        rewrite (rsum_ext _ (fun b => -1 * (Eterm a L c dl (/ (n + 1)) b + if tdec b a then e else 0) + if tdec b (zero (length a)) then old + jw L c a else 0)).
        -- rewrite rsum_except.
           ++ rewrite rsum_scale, rsum_except by (apply nodup_iter || apply iter_has_self; exact Fa).
              assert (Eo : old = rsum (map (Eterm a L c dl (/ (n + 1))) (iter_list a false)) + e).
              { unfold old, val. rewrite Hz, jw_step; try congruence; [unfold e, Eterm; ring|rewrite La; exact HL|apply fits_nonneg, Fa]. }
              rewrite Eo. unfold val. rewrite Hz. ring.
           ++ apply nodup_iter.
           ++ apply in_iter. apply tle_zero; [reflexivity|apply fits_nonneg, Fa].
        -- intros b Hb. destruct (tdec b (zero (length a))) as [->|_]; [|ring].
           rewrite Eterm_zero. destruct (tdec (zero (length a)) a); [contradiction|]. ring.
    + intros h Hh. rewrite H2 by exact Hh. apply hput_other. exact Hh.
Qed.
End Update.

(** ** The core *)
Section Core.
Context {A : Type}.
Definition jstate (v : nat) (ts : list tuple) (V : tuple -> R) (c : list R) (n : Z) (k : @jcore xr A) : Prop :=
  j_means k = map Fin c /\ length c = v /\ j_tuples k = ts /\ sums_are ts V (j_sums k) /\ (forall h, j_new k h = j_sums k h) /\ j_count k = n.
Definition jsame (k k' : @jcore xr A) : Prop := j_window k' = j_window k /\ j_decay k' = j_decay k /\ j_queue k' = j_queue k.

Lemma deltas_ok x c : length x = length c -> deltas XN (map Fin x) (map Fin c) = map Fin (vsub x c).
Proof.
  revert c. induction x as [|a x IH]; intros [|b c] H; try discriminate; [reflexivity|]. injection H as H. unfold deltas, vsub in *.
  cbn [map combine map2]. rewrite IH by exact H. reflexivity.
Qed.
Lemma add_means_ok c dl f g : length c = length dl -> (forall d, f (Fin d) = Fin (g d)) -> add_means XN (map Fin c) (map Fin dl) f = map Fin (vadd c (map g dl)).
Proof.
  intros H Hf. revert dl H. induction c as [|a c IH]; intros [|b dl] H; try discriminate; [reflexivity|]. injection H as H. unfold add_means, vadd in *.
  cbn [map combine map2 fst snd]. rewrite Hf, IH by exact H. reflexivity.
Qed.
Lemma hcopy_same (m new sums : @hmap xr) ts V V' : sums_are ts V sums -> (forall h, new h = sums h) ->
  (forall a, below ts a -> m (t_hash a) = Some (Fin (V' a))) -> (forall h, (forall a, below ts a -> h <> t_hash a) -> m h = new h) ->
  sums_are ts V' (hcopy m sums) /\ (forall h, m h = hcopy m sums h).
Proof.
  intros [_ Hk] Hn Hm Ho.
  assert (Hnone : forall h, m h = None -> sums h = None).
  { intros h Hh. destruct (sums h) as [s|] eqn:E; [|reflexivity]. destruct (Hk h) as (a & Ha & ->); [congruence|]. rewrite (Hm a Ha) in Hh. discriminate. }
  assert (Heq : forall h, m h = hcopy m sums h) by (intros h; unfold hcopy; destruct (m h) eqn:E; [reflexivity|]; symmetry; apply Hnone; exact E).
  split; [|exact Heq]. split; [intros a Ha; rewrite <- Heq; apply Hm; exact Ha|].
  intros h Hh. rewrite <- Heq in Hh. destruct (sums h) as [s|] eqn:E; [apply Hk; congruence|].
  (* a key of m that is not a key of sums *)
  destruct (m h) as [s|] eqn:Em; [|congruence].
  assert (Hd : ~ forall a, below ts a -> h <> t_hash a) by (intros Hall; rewrite (Ho h Hall), Hn in Em; congruence).
  destruct (below_hash_dec ts h) as [H|H]; [exact H|]. exfalso. apply Hd. intros a Ha E'. apply H. exists a. auto.
Qed.

Lemma j_add_ok v ts L c n k x : jwf v ts -> hash_ok ts -> Forall (fun p => length (snd p) = v) L -> length x = v -> (0 <= n)%Z -> jw L c (zero v) = IZR n ->
  jstate v ts (val L c) c n k ->
  let c' := vadd c (map (Rmult (/ (IZR n + 1))) (vsub x c)) in
  exists k', j_add XN k (map Fin x) = Ok k' /\ jstate v ts (val (L ++ [(1, x)]) c') c' (n + 1) k' /\ jsame k k'.
Proof.
  intros W HH HL Hx Hn HW (Hm & Hc & Ht & Hs & Hnew & Hcount) c'.
  assert (Hn0 : 0 <= IZR n) by (apply IZR_le; exact Hn).
  unfold j_add. cbv zeta. rewrite Hm, Hcount, Ht, deltas_ok by congruence.
  assert (En : nz XN (n + 1) = Fin (IZR n + 1)) by (cbn; rewrite plus_IZR; reflexivity). rewrite En.
  destruct (upd_tuples_ok ts HH (add_term XN (Fin (IZR n + 1)) (map Fin (vsub x c)) (j_sums k)) true (val (L ++ [(1, x)]) c')) with (us := ts) (m := j_new k) as (m & E & H1 & H2).
  - intros a m Ha. unfold c'. apply (add_b_ok v ts); auto.
  - apply incl_refl.
  - rewrite E. cbn [bind]. eexists. split; [reflexivity|]. split; [|repeat split].
    destruct (hcopy_same m (j_new k) (j_sums k) ts _ _ Hs Hnew H1 H2) as [S1 S2].
    unfold jstate. cbn [j_means j_tuples j_sums j_new j_count]. split; [|split; [|auto]].
    + apply add_means_ok; [unfold vsub; rewrite map2_length; congruence|]. intros d. cbn [ndiv XN]. rewrite xdiv_fin by lra. f_equal. unfold Rdiv. ring.
    + unfold c', vadd. rewrite map2_length; [exact Hc|]. rewrite map_length. unfold vsub. rewrite map2_length; congruence.
Qed.

Lemma j_add_decay_ok v ts L c n d k x : jwf v ts -> hash_ok ts -> Forall (fun p => length (snd p) = v) L -> length x = v -> (0 <= n)%Z ->
  n = 0%Z \/ jw L c (zero v) = 1 -> jstate v ts (val L c) c n k ->
  let e := if (n =? 0)%Z then 1 else d in
  let c' := vadd c (map (Rmult e) (vsub x c)) in
  exists k', j_add_decay XN k (Fin d) (map Fin x) = Ok k' /\ jstate v ts (val (jscale (1 - e) L ++ [(e, x)]) c') c' (n + 1) k' /\ jsame k k'.
Proof.
  intros W HH HL Hx Hn HW (Hm & Hc & Ht & Hs & Hnew & Hcount) e c'.
  unfold j_add_decay. cbv zeta. rewrite Hm, Hcount, Ht, deltas_ok by congruence.
  assert (En : (if (n + 1 =? 1)%Z then nz XN 1 else Fin d) = Fin e).
  { unfold e. destruct (Z.eqb_spec (n + 1) 1), (Z.eqb_spec n 0); try lia; reflexivity. }
  rewrite En.
  destruct (upd_tuples_ok ts HH (decay_term XN (Fin e) (map Fin (vsub x c)) (j_sums k)) true (val (jscale (1 - e) L ++ [(e, x)]) c')) with (us := ts) (m := j_new k) as (m & E & H1 & H2).
  - intros a m Ha. unfold c'. apply (decay_b_ok v ts); auto. unfold e. destruct (Z.eqb_spec n 0); [left; reflexivity|]. right. destruct HW; [contradiction|assumption].
  - apply incl_refl.
  - rewrite E. cbn [bind]. eexists. split; [reflexivity|]. split; [|repeat split].
    destruct (hcopy_same m (j_new k) (j_sums k) ts _ _ Hs Hnew H1 H2) as [S1 S2].
    unfold jstate. cbn [j_means j_tuples j_sums j_new j_count]. split; [|split; [|auto]].
    + apply add_means_ok; [unfold vsub; rewrite map2_length; congruence|]. intros y. reflexivity.
    + unfold c', vadd. rewrite map2_length; [exact Hc|]. rewrite map_length. unfold vsub. rewrite map2_length; congruence.
Qed.

(** No two configured tuples share a tracked tuple of degree 2 or more. *)
Definition spread (ts : list tuple) : Prop := ForallOrdPairs (fun t u => forall a, tle a t -> tle a u -> (degree a <= 1)%Z) ts.

Lemma rem_tuples_ok v ts L c n x : jwf v ts -> hash_ok ts -> Forall (fun p => length (snd p) = v) L -> length c = v -> length x = v -> 0 < n -> jw L c (zero v) = n ->
  let old := val (L ++ [(1, x)]) (vadd c (map (Rmult (/ (n + 1))) (vsub x c))) in
  (forall a, below ts a -> (degree a <= 1)%Z -> old a = val L c a) -> spread ts ->
  forall us pre sums new, ts = pre ++ us -> (forall h, new h = sums h) ->
    sums_are ts (fun a => if below_dec pre a then val L c a else old a) sums ->
    exists s m, rem_tuples XN (Fin n) (map Fin (vsub x c)) us sums new = Ok (s, m) /\ sums_are ts (val L c) s /\ (forall h, m h = s h).
Proof.
  intros W HH HL Hc Hx Hn HW old Hsm Hsp. induction us as [|t us IH]; intros pre sums new E Hnew Hs; cbn [rem_tuples].
  - exists sums, new. split; [reflexivity|]. split; [|exact Hnew]. rewrite app_nil_r in E. subst pre. destruct Hs as [H1 H2]. split; [|exact H2].
    intros a Ha. rewrite (H1 a Ha). destruct (below_dec ts a); [reflexivity|contradiction].
  - assert (Ht : In t ts) by (rewrite E; apply in_or_app; right; left; reflexivity).
    destruct (upd_a_ok (rem_term XN (Fin n) (map Fin (vsub x c)) sums) (val L c) (iter_list t false) new) as (m & Em & H1 & H2).
    + intros l1 a l2 m' El Hl1 _. assert (Hat : tle a t) by (apply (in_iter t false); rewrite El; apply in_or_app; right; left; reflexivity).
      assert (Ha : below ts a) by (exists t; auto).
      apply (rem_b_ok v ts L c x W HH HL Hc Hx n sums a m' Hn HW Ha).
      * apply hget_some. rewrite (proj1 Hs a Ha). do 2 f_equal. destruct (below_dec pre a) as [(u & Hu & Hau)|_]; [|reflexivity].
        symmetry. apply Hsm; [exact Ha|]. unfold spread in Hsp. rewrite E in Hsp. clear - Hsp Hu Hau Hat.
        induction pre as [|p pre IHp]; [destruct Hu|]. cbn [app] in Hsp. inversion Hsp as [|? ? Hf Hr]; subst. destruct Hu as [->|Hu].
        -- rewrite Forall_forall in Hf. apply (Hf t); [apply in_or_app; right; left; reflexivity|exact Hau|exact Hat].
        -- apply IHp; assumption.
      * intros d Hd Hne. apply Hl1. eapply iter_prefix; eassumption.
    + intros a b Ha Hb. apply HH; exists t; (split; [exact Ht|]); apply (in_iter t false); assumption.
    + rewrite Em. cbn [bind].
      set (V' := fun a => if below_dec (pre ++ [t]) a then val L c a else old a).
      destruct (hcopy_same m new sums ts _ V' Hs Hnew) as [S1 S2].
      * intros a Ha. unfold V'. destruct (tle_dec a t) as [Hat|Hat].
        -- rewrite H1 by (apply in_iter; exact Hat). destruct (below_dec (pre ++ [t]) a) as [|Hno]; [reflexivity|]. exfalso. apply Hno. exists t.
           split; [apply in_or_app; right; left; reflexivity|exact Hat].
        -- rewrite H2.
           ++ rewrite Hnew, (proj1 Hs a Ha). do 2 f_equal. destruct (below_dec pre a) as [(u & Hu & Hau)|Hno]; destruct (below_dec (pre ++ [t]) a) as [(w & Hw & Haw)|Hno']; try reflexivity.
              ** exfalso. apply Hno'. exists u. split; [apply in_or_app; left; exact Hu|exact Hau].
              ** exfalso. apply in_app_or in Hw. destruct Hw as [Hw|[<-|[]]]; [|contradiction]. apply Hno. exists w. auto.
           ++ intros Hin. apply in_map_iff in Hin. destruct Hin as (b & Eb & Hb). apply in_iter in Hb. apply Hat.
              replace a with b; [exact Hb|]. apply HH; [exists t; auto|exact Ha|exact Eb].
      * intros h Hh. apply H2. intros Hin. apply in_map_iff in Hin. destruct Hin as (b & <- & Hb). apply in_iter in Hb. apply (Hh b); [exists t; auto|reflexivity].
      * apply (IH (pre ++ [t])); [rewrite <- app_assoc; exact E|exact S2|exact S1].
Qed.

Lemma j_remove_ok v ts L c n k x : jwf v ts -> hash_ok ts -> Forall (fun p => length (snd p) = v) L -> length x = v -> length c = v -> (0 < n)%Z -> jw L c (zero v) = IZR n ->
  let c' := vadd c (map (Rmult (/ (IZR n + 1))) (vsub x c)) in
  (forall a, below ts a -> (degree a <= 1)%Z -> val (L ++ [(1, x)]) c' a = val L c a) -> spread ts ->
  jstate v ts (val (L ++ [(1, x)]) c') c' (n + 1) k ->
  exists k', j_remove XN k (map Fin x) = Ok k' /\ jstate v ts (val L c) c n k' /\ jsame k k'.
Proof.
  intros W HH HL Hx Hc Hn HW c' Hsm Hsp (Hm & Hc' & Ht & Hs & Hnew & Hcount). unfold j_remove. cbv zeta. rewrite Hcount, Hm, Ht.
  assert (Hn0 : 0 < IZR n) by (apply IZR_lt; exact Hn).
  replace (n + 1 - 1)%Z with n by lia. destruct (Z.gtb_spec n 0) as [_|]; [|lia]. cbn [nz XN].
  assert (Em : map (fun p => nsub XN (snd p) (ndiv XN (nsub XN (fst p) (snd p)) (Fin (IZR n)))) (combine (map Fin x) (map Fin c')) = map Fin c).
  { unfold c'. clear - Hx Hc Hn0. assert (H : length x = length c) by congruence. clear Hx Hc. revert c H.
    induction x as [|a x IH]; intros [|b c] H; try discriminate; [reflexivity|]. injection H as H. unfold vadd, vsub in *.
    cbn [map map2 combine fst snd nsub ndiv XN xsub]. rewrite xdiv_fin by lra. cbn [xsub].
    rewrite IH by exact H. f_equal. f_equal. field. lra. }
  rewrite Em, deltas_ok by congruence.
  destruct (rem_tuples_ok v ts L c (IZR n) x W HH HL Hc Hx Hn0 HW Hsm Hsp ts [] (j_sums k) (j_new k) eq_refl Hnew) as (s & m & E & S1 & S2).
  - destruct Hs as [H1 H2]. split; [|exact H2]. intros a Ha. rewrite (H1 a Ha). destruct (below_dec [] a) as [(t & [] & _)|_]. reflexivity.
  - rewrite E. cbn [bind]. eexists. split; [reflexivity|]. split; [|repeat split]. unfold jstate. cbn [j_means j_tuples j_sums j_new j_count]. auto 10.
Qed.

Lemma sums_zero ts V m : sums_are ts V m -> sums_are ts (fun _ => 0) (hzero XN m).
Proof.
  intros [H1 H2]. split.
  - intros a Ha. unfold hzero. rewrite (H1 a Ha). reflexivity.
  - intros h Hh. apply H2. unfold hzero in Hh. destruct (m h); [discriminate|exact Hh].
Qed.
Lemma j_remove_last v ts V c k x : jstate v ts V c 1 k -> exists k', j_remove XN k (map Fin x) = Ok k' /\ jstate v ts (fun _ => 0) (repeat 0 v) 0 k' /\ jsame k k'.
Proof.
  intros (Hm & Hc & Ht & Hs & Hnew & Hcount). unfold j_remove. cbv zeta. rewrite Hcount. cbn [Z.sub Z.gtb Z.compare Z.add Z.opp Pos.compare Z.pos_sub].
  eexists. split; [reflexivity|]. split; [|repeat split]. unfold jstate. cbn [j_means j_tuples j_sums j_new j_count].
  split; [rewrite Hm, map_map; cbn [nz XN]; rewrite <- Hc; clear; induction c; cbn; congruence|]. split; [apply repeat_length|]. split; [exact Ht|].
  split; [eapply sums_zero; exact Hs|]. split; [|reflexivity]. intros h. unfold hzero. rewrite Hnew. reflexivity.
Qed.
Lemma j_clear_ok v ts V c n k : jstate v ts V c n k -> exists k', j_clear XN k = Ok k' /\ jstate v ts (fun _ => 0) (repeat 0 v) 0 k' /\
  j_window k' = j_window k /\ j_decay k' = j_decay k /\ j_queue k' = ring_new (j_window k).
Proof.
  intros (Hm & Hc & Ht & Hs & Hnew & Hcount). eexists. split; [reflexivity|]. split; [|repeat split]. unfold jstate. cbn [j_means j_tuples j_sums j_new j_count].
  split; [rewrite Hm, map_map; cbn [nz XN]; rewrite <- Hc; clear; induction c; cbn; congruence|]. split; [apply repeat_length|]. split; [exact Ht|].
  split; [eapply sums_zero; exact Hs|]. split; [|reflexivity]. intros h. unfold hzero. rewrite Hnew. reflexivity.
Qed.
End Core.
