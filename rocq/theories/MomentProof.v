(** Proofs about the moment core in exact arithmetic. *)
From Coq Require Import Reals Lra Permutation.
From Verif Require Import Base MathModel MathProof HistSpec RingModel NumModel MomentModel MomentSpec RealLib.
Local Open Scope R_scope.

(** ** Loops *)
Lemma inner_ext {T} (N : Num T) op t1 t2 k is_ : (forall i c, In i is_ -> t1 c i = t2 c i) -> forall s, inner N op t1 k is_ s = inner N op t2 k is_ s.
Proof.
  induction is_ as [|i l IH]; intros H s; cbn [inner]; [reflexivity|].
  destruct (coef N k i); cbn [bind]; try reflexivity. rewrite (H i) by (left; reflexivity). apply IH. intros j c Hj. apply H. right. exact Hj.
Qed.
Lemma sput_same {T} (f : nat -> T) k v : sput f k v k = v.
Proof. unfold sput. rewrite Nat.eqb_refl. reflexivity. Qed.
Lemma sput_other {T} (f : nat -> T) k v j : j <> k -> sput f k v j = f j.
Proof. intros H. unfold sput. destruct (Nat.eqb_spec j k); [contradiction|reflexivity]. Qed.

(** A descending loop whose steps read at or below their own position sees the
    old values only. *)
Lemma outer_down {T} (step : (nat -> T) -> nat -> res T) :
  (forall f g k, (forall j, (j <= k)%nat -> f j = g j) -> step f k = step g k) ->
  forall m a f, (forall k, (a <= k < a + m)%nat -> exists v, step f k = Ok v) ->
  exists f', outer step (rev (seq a m)) f = Ok f' /\ (forall k, (a <= k < a + m)%nat -> step f k = Ok (f' k)) /\
    (forall k, ~ (a <= k < a + m)%nat -> f' k = f k).
Proof.
  intros Hs. induction m as [|m IH]; intros a f Hok.
  - exists f. cbn. split; [reflexivity|]. split; [intros k Hk; lia|reflexivity].
  - rewrite seq_S, rev_app_distr. cbn [rev app outer]. destruct (Hok (a + m)%nat ltac:(lia)) as [v Hv]. rewrite Hv. cbn [bind].
    assert (Hst : forall k, (k < a + m)%nat -> step (sput f (a + m) v) k = step f k).
    { intros k Hk. apply Hs. intros j Hj. apply sput_other. lia. }
    destruct (IH a (sput f (a + m) v)) as (f' & E & H1 & H2).
    { intros k Hk. rewrite Hst by lia. apply Hok. lia. }
    exists f'. split; [exact E|]. split.
    + intros k Hk. destruct (Nat.eq_dec k (a + m)) as [->|Hne].
      * rewrite H2 by lia. rewrite sput_same. exact Hv.
      * rewrite <- H1 by lia. symmetry. apply Hst. lia.
    + intros k Hk. rewrite H2 by lia. apply sput_other. lia.
Qed.

(** An ascending loop sees the new values below. *)
Lemma outer_up {T} (step : (nat -> T) -> nat -> res T) (P : nat -> T -> Prop) :
  forall m a f, (forall k, (k < a)%nat -> P k (f k)) ->
  (forall k g, (a <= k < a + m)%nat -> (forall j, (j < k)%nat -> P j (g j)) -> (forall j, (k <= j)%nat -> g j = f j) ->
     exists v, step g k = Ok v /\ P k v) ->
  exists f', outer step (seq a m) f = Ok f' /\ (forall k, (k < a + m)%nat -> P k (f' k)) /\ (forall k, ~ (a <= k < a + m)%nat -> f' k = f k).
Proof.
  induction m as [|m IH]; intros a f H0 Hstep.
  - exists f. cbn. split; [reflexivity|]. split; [intros k Hk; apply H0; lia|reflexivity].
  - cbn [seq outer]. destruct (Hstep a f ltac:(lia) H0 ltac:(reflexivity)) as (v & Hv & Pv). rewrite Hv. cbn [bind].
    destruct (IH (S a) (sput f a v)) as (f' & E & H1 & H2).
    + intros k Hk. destruct (Nat.eq_dec k a) as [->|Hne]; [rewrite sput_same; exact Pv|]. rewrite sput_other by exact Hne. apply H0. lia.
    + intros k g Hk Hg1 Hg2. apply Hstep; [lia|exact Hg1|]. intros j Hj. rewrite Hg2 by exact Hj. apply sput_other. lia.
    + exists f'. split; [exact E|]. split; [intros k Hk; apply H1; lia|]. intros k Hk. rewrite H2 by lia. apply sput_other. lia.
Qed.

(** ** Inner loops in exact arithmetic *)
Definition ncoef (k i : nat) : R := IZR (zbin k i) * (-1) ^ i.
Lemma zbin_le_fact k i : (i <= k)%nat -> (zbin k i <= zfact k)%Z.
Proof.
  intros H. pose proof (zbin_fact k i H). pose proof (zbin_pos k i H). pose proof (zfact_pos i). pose proof (zfact_pos (k - i)). assert (0 < zfact i * zfact (k - i))%Z by nia. nia.
Qed.
Lemma coef_ok k i : (i <= k <= 20)%nat -> coef XN k i = Ok (Fin (ncoef k i)).
Proof.
  intros H. unfold coef, ncoef. rewrite binom_20 by lia. cbn [bind nz XN]. rewrite wrap_id.
  - rewrite mult_IZR, IZR_sign. reflexivity.
  - pose proof (zbin_le_fact k i ltac:(lia)). pose proof (zbin_pos k i ltac:(lia)). pose proof (zfact_20 k ltac:(lia)).
    unfold sign. destruct (Z.rem (Z.of_nat i) 2 =? 0)%Z; lia.
Qed.
Lemma coef_total k i : (i <= k <= 65)%nat -> exists c, coef XN k i = Ok c.
Proof. intros H. unfold coef. destruct (binom_65 k i H) as [b ->]. eexists. reflexivity. Qed.

Lemma inner_add k t g is_ s : (forall i, In i is_ -> (i <= k)%nat) -> (k <= 20)%nat ->
  (forall i c, In i is_ -> t (Fin c) i = Fin (c * g i)) ->
  inner XN xadd t k is_ (Fin s) = Ok (Fin (s + rsum (map (fun i => ncoef k i * g i) is_))).
Proof.
  revert s. induction is_ as [|i l IH]; intros s Hi Hk Ht; cbn [inner map].
  - unfold rsum. cbn. do 2 f_equal. ring.
  - rewrite coef_ok by (specialize (Hi i (or_introl eq_refl)); lia). cbn [bind]. rewrite Ht by (left; reflexivity).
    cbn [xadd]. rewrite IH; auto.
    + rewrite rsum_cons. do 2 f_equal. ring.
    + intros j Hj. apply Hi. right. exact Hj.
    + intros j c Hj. apply Ht. right. exact Hj.
Qed.
Lemma inner_sub k t g is_ s : (forall i, In i is_ -> (i <= k)%nat) -> (k <= 20)%nat ->
  (forall i c, In i is_ -> t (Fin c) i = Fin (c * g i)) ->
  inner XN xsub t k is_ (Fin s) = Ok (Fin (s - rsum (map (fun i => ncoef k i * g i) is_))).
Proof.
  revert s. induction is_ as [|i l IH]; intros s Hi Hk Ht; cbn [inner map].
  - unfold rsum. cbn. do 2 f_equal. ring.
  - rewrite coef_ok by (specialize (Hi i (or_introl eq_refl)); lia). cbn [bind]. rewrite Ht by (left; reflexivity).
    cbn [xsub]. rewrite IH; auto.
    + rewrite rsum_cons. do 2 f_equal. ring.
    + intros j Hj. apply Hi. right. exact Hj.
    + intros j c Hj. apply Ht. right. exact Hj.
Qed.
Lemma inner_total op t k is_ s : (forall i, In i is_ -> (i <= k)%nat) -> (k <= 65)%nat -> exists v, inner XN op t k is_ s = Ok v.
Proof.
  revert s. induction is_ as [|i l IH]; intros s Hi Hk; cbn [inner]; [eexists; reflexivity|].
  destruct (coef_total k i) as [c ->]; [specialize (Hi i (or_introl eq_refl)); lia|]. cbn [bind]. apply IH; [|exact Hk].
  intros j Hj. apply Hi. right. exact Hj.
Qed.

(** ** Power sums of a window *)
Definition ones (l : list R) : list (R * R) := map (fun x => (1, x)) l.
Lemma ones_app l1 l2 : ones (l1 ++ l2) = ones l1 ++ ones l2.
Proof. apply map_app. Qed.
Lemma csum_wpow k l : csum k l = wpow (ones l) (rmean l) k.
Proof. unfold csum, wpow, ones. rewrite map_map. apply rsum_ext. intros x _. cbn. ring. Qed.
Lemma wpow0 l a : wpow (ones l) a 0 = rlen l.
Proof.
  unfold wpow, ones. rewrite map_map. cbn [fst snd pow].
  rewrite (rsum_ext _ (fun _ => 1)) by (intros; ring). rewrite rsum_const. unfold rlen. ring.
Qed.
Lemma rlen_pos l : l <> [] -> 0 < rlen l.
Proof. intros H. unfold rlen. apply IZR_lt. destruct l; [congruence|]. unfold zlen. cbn [length]. lia. Qed.
Lemma wpow1_gen l a : wpow (ones l) a 1 = rsum l - rlen l * a.
Proof.
  unfold wpow, ones. rewrite map_map. cbn [fst snd]. rewrite (rsum_ext _ (fun x => x + - a)) by (intros; ring).
  rewrite (rsum_plus (fun x => x) (fun _ => - a)), map_id, rsum_const. unfold rlen. ring.
Qed.
Lemma wpow1 l : wpow (ones l) (rmean l) 1 = 0.
Proof.
  rewrite wpow1_gen. destruct l as [|x l]; [unfold rlen, zlen, rsum; cbn; ring|]. unfold rmean.
  pose proof (rlen_pos (x :: l) ltac:(discriminate)). field. lra.
Qed.
Lemma csum1 l : csum 1 l = 0.
Proof. rewrite csum_wpow. apply wpow1. Qed.
Lemma rlen_app l x : rlen (l ++ [x]) = rlen l + 1.
Proof. unfold rlen, zlen. rewrite app_length. cbn [length]. rewrite Nat2Z.inj_add, plus_IZR. reflexivity. Qed.
Lemma rmean_nil : rmean [] = 0.
Proof. unfold rmean, rsum. cbn. unfold Rdiv. ring. Qed.
Lemma rmean_push l x : rmean (l ++ [x]) = rmean l + (x - rmean l) / (rlen l + 1).
Proof.
  unfold rmean at 1. rewrite rlen_app, rsum_app. unfold rsum at 2. cbn [fold_right].
  destruct l as [|y l]; [rewrite rmean_nil; unfold rsum, rlen, zlen; cbn; field|].
  pose proof (rlen_pos (y :: l) ltac:(discriminate)). unfold rmean. field. lra.
Qed.

(** Pebay's update of the central sums. *)
Lemma csum_push l x k : (2 <= k)%nat ->
  let n := rlen l in let d := x - rmean l in let c := d / (n + 1) in
  csum k (l ++ [x]) = csum k l + rsum (map (fun i => ncoef k i * (c ^ i * csum (k - i) l)) (seq 1 (k - 2)))
                      + n / (n + 1) ^ k * (n ^ (k - 1) + (-1) ^ k) * d ^ k.
Proof.
  intros Hk n d c. rewrite (csum_wpow k (l ++ [x])), ones_app, wpow_app. rewrite rmean_push. fold d n c.
  rewrite wpow_expand by (try exact Hk; apply wpow1). rewrite wpow0. fold n. change (ones [x]) with [(1, x)]. rewrite wpow_one. cbn [fst snd].
  rewrite <- csum_wpow.
  rewrite (rsum_ext (fun i => IZR (zbin k i) * (- c) ^ i * wpow (ones l) (rmean l) (k - i)) (fun i => ncoef k i * (c ^ i * csum (k - i) l))).
  2:{ intros i _. rewrite <- csum_wpow, pow_opp. unfold ncoef. ring. }
  assert (Hn : 0 <= n) by (unfold n, rlen; apply IZR_le; unfold zlen; lia).
  replace (x - (rmean l + c)) with (n * c) by (unfold c, d; field; lra).
  assert (Hd : d = (n + 1) * c) by (unfold c; field; lra).
  rewrite Hd. rewrite !Rpow_mult_distr, pow_opp.
  replace (n ^ k) with (n * n ^ (k - 1)) by (destruct k; [lia|]; cbn [pow]; rewrite Nat.sub_succ, Nat.sub_0_r; reflexivity).
  field. split; [apply pow_nonzero; lra|lra] || (apply pow_nonzero; lra).
Qed.

(** ** The core without decay *)
Definition ksum (k : nat) (l : list R) (v : xr) : Prop := (2 <= k <= 20)%nat -> v = Fin (csum k l).
Definition stats (l : list R) (c : core) : Prop :=
  c_mean c = Fin (rmean l) /\ c_count c = zlen l /\ (c_len c <= 66)%nat /\
  (forall k, (k < c_len c)%nat -> ksum k l (c_sums c k)) /\ (forall k, (k < 2)%nat -> c_sums c k = Fin 0).

Definition same_params (c c' : @core xr) : Prop :=
  c_len c' = c_len c /\ c_window c' = c_window c /\ c_decay c' = c_decay c /\ c_queue c' = c_queue c.

Lemma xdiv_fin a b : b <> 0 -> xdiv (Fin a) (Fin b) = Fin (a / b).
Proof. intros H. cbn. unfold is0. destruct (Req_EM_T b 0); [contradiction|reflexivity]. Qed.

Lemma c_add_ok l c x : stats l c -> exists c', c_add XN c (Fin x) = Ok c' /\ stats (l ++ [x]) c' /\ same_params c c'.
Proof.
  intros (Hm & Hn & Hl & Hs & H01). unfold c_add. cbv zeta.
  set (n := rlen l).
  assert (Hn0 : 0 <= n) by (unfold n, rlen; apply IZR_le; unfold zlen; lia).
  assert (En : nz XN (c_count c + 1) = Fin (n + 1)) by (cbn; rewrite Hn, plus_IZR; reflexivity).
  rewrite En, Hm. cbn [nsub nadd nmul ndiv npow nz XN xsub xadd].
  set (d := x - rmean l).
  rewrite (xdiv_fin d (n + 1)) by lra. cbn [xadd].
  match goal with |- context [outer ?s _ _] => set (step := s) end.
  destruct (outer_down step) with (m := (c_len c - 2)%nat) (a := 2%nat) (f := c_sums c) as (f' & E & H1 & H2).
  - intros f g k Hfg. unfold step. rewrite (Hfg k) by lia. apply inner_ext. intros i cf Hi. apply in_seq in Hi.
    rewrite (Hfg (k - i)%nat) by lia. reflexivity.
  - intros k Hk. unfold step. apply inner_total; [|lia]. intros i Hi. apply in_seq in Hi. lia.
  - unfold ks_up. rewrite E. cbn [bind]. eexists. split; [reflexivity|]. split; [|repeat split].
    split; [|split; [|split; [|split]]]; cbn [c_mean c_count c_len c_sums].
    + rewrite rmean_push. reflexivity.
    + rewrite Hn. unfold zlen. rewrite app_length. cbn [length]. lia.
    + exact Hl.
    + intros k Hk Hk2. specialize (H1 k ltac:(lia)). unfold step in H1. rewrite (Hs k Hk ltac:(lia)) in H1.
      replace (xsub (Fin (n + 1)) (Fin 1)) with (Fin n) in H1 by (cbn; f_equal; ring). cbn [xpow] in H1.
      rewrite xdiv_fin in H1 by (apply pow_nonzero; lra). cbn [xadd xmul] in H1.
      rewrite (inner_add k _ (fun i => (d / (n + 1)) ^ i * csum (k - i) l)) in H1.
      * injection H1 as <-. f_equal. rewrite (csum_push l x k) by lia. cbv zeta. fold n d. rewrite IZR_sign. replace (n + 1 - 1) with n by ring. ring.
      * intros i Hi. apply in_seq in Hi. lia.
      * lia.
      * intros i cf Hi. apply in_seq in Hi. rewrite (Hs (k - i)%nat ltac:(lia) ltac:(lia)). cbn [xmul]. f_equal. ring.
    + intros k Hk. rewrite H2 by lia. apply H01. exact Hk.
Qed.

Lemma rlen_cons x l : rlen (x :: l) = rlen l + 1.
Proof. unfold rlen, zlen. cbn [length]. rewrite Nat2Z.inj_succ, succ_IZR. reflexivity. Qed.
Lemma rmean_perm l l' : Permutation l l' -> rmean l = rmean l'.
Proof.
  intros P. unfold rmean, rlen, zlen. rewrite (Permutation_length P). f_equal.
  induction P; auto; rewrite ?rsum_cons; try lra; congruence.
Qed.
Lemma rsum_perm l l' : Permutation l l' -> rsum l = rsum l'.
Proof. intros P. induction P; auto; rewrite ?rsum_cons; try lra; congruence. Qed.
Lemma csum_perm k l l' : Permutation l l' -> csum k l = csum k l'.
Proof. intros P. unfold csum. rewrite (rmean_perm l l' P). apply rsum_perm, Permutation_map, P. Qed.

Lemma c_remove_ok l c x : stats (x :: l) c -> exists c', c_remove XN c (Fin x) = Ok c' /\ stats l c' /\ same_params c c'.
Proof.
  intros (Hm & Hn & Hl & Hs & H01). unfold c_remove. cbv zeta.
  assert (En : (c_count c - 1)%Z = zlen l) by (rewrite Hn; unfold zlen; cbn [length]; lia). rewrite En.
  destruct (Z.gtb_spec (zlen l) 0) as [Hpos|Hle].
  - set (n := rlen l). assert (Hn0 : 0 < n) by (unfold n, rlen; apply IZR_lt; exact Hpos).
    cbn [nsub nadd nmul ndiv npow nz XN]. change (IZR (zlen l)) with n. rewrite Hm. cbn [xsub].
    rewrite xdiv_fin by lra. cbn [xsub xadd].
    assert (Pm : Permutation (l ++ [x]) (x :: l)) by (symmetry; apply Permutation_cons_append).
    assert (Em : rmean (x :: l) = rmean l + (x - rmean l) / (n + 1)).
    { rewrite <- (rmean_perm _ _ Pm), rmean_push. reflexivity. }
    assert (Emean : rmean (x :: l) - (x - rmean (x :: l)) / n = rmean l) by (rewrite Em; field; lra).
    rewrite Emean. set (d := x - rmean l).
    match goal with |- context [outer ?s _ _] => set (step := s) end.
    destruct (outer_up step (fun k v => ksum k l v /\ (k < 2 -> v = Fin 0)%nat)) with (m := (c_len c - 2)%nat) (a := 2%nat) (f := c_sums c) as (f' & E & H1 & H2).
    + intros k Hk. split; [intros Hk2; lia|]. intros _. apply H01. exact Hk.
    + intros k g Hk Hg1 Hg2. destruct (le_lt_dec k 20) as [Hk20|Hk20].
      * unfold step. rewrite (Hg2 k) by lia. rewrite (Hs k) by lia. cbn [xpow].
        rewrite (xdiv_fin d) by lra. rewrite (xdiv_fin n) by (apply pow_nonzero; lra). cbn [xsub xadd xmul].
        rewrite (inner_sub k _ (fun i => (d / (n + 1)) ^ i * csum (k - i) l)).
        -- eexists. split; [reflexivity|]. split; [|lia]. intros _. f_equal.
           rewrite <- (csum_perm k _ _ Pm), (csum_push l x k) by lia. cbv zeta. fold n d. rewrite IZR_sign. ring.
        -- intros i Hi. apply in_seq in Hi. lia.
        -- exact Hk20.
        -- intros i cf Hi. apply in_seq in Hi. rewrite (proj1 (Hg1 (k - i)%nat ltac:(lia))) by lia. cbn [xpow xmul]. f_equal. ring.
      * unfold step. destruct (inner_total xsub (fun cf i => xmul (xmul cf (xpow (xdiv (Fin d) (Fin (n + 1))) i)) (g (k - i)%nat)) k (seq 1 (k - 2))
          (xsub (g k) (xmul (xmul (xdiv (Fin n) (xpow (Fin (n + 1)) k)) (xadd (xpow (Fin n) (k - 1)) (Fin (IZR (sign (Z.of_nat k)))))) (xpow (Fin d) k)))) as [v Hv].
        -- intros i Hi. apply in_seq in Hi. lia.
        -- lia.
        -- exists v. split; [exact Hv|]. split; [intros Hk2; lia|lia].
    + unfold ks_up. rewrite E. cbn [bind]. eexists. split; [reflexivity|]. split; [|repeat split].
      split; [|split; [|split; [|split]]]; cbn [c_mean c_count c_len c_sums]; auto.
      * intros k Hk. destruct (Nat.lt_ge_cases k (2 + (c_len c - 2))) as [H|H]; [apply H1; exact H|]. intros Hk2. lia.
      * intros k Hk. rewrite H2 by lia. apply H01. exact Hk.
  - assert (l = []) as -> by (destruct l; [reflexivity|]; unfold zlen in Hle; cbn [length] in Hle; lia).
    eexists. split; [reflexivity|]. split; [|repeat split].
    split; [|split; [|split; [|split]]]; cbn [c_mean c_count c_len c_sums nz XN]; auto.
    + rewrite rmean_nil. reflexivity.
    + intros k Hk Hk2. unfold csum, rsum. cbn. reflexivity.
Qed.

(** ** The core along a history *)
Definition minv (w : Z) (h : list R) (c : core) : Prop :=
  stats (live w h) c /\ c_window c = w /\ c_decay c = None /\ rcap (c_queue c) = round_up w /\
  (w <> 0%Z -> ritems (c_queue c) = map Fin (live w h)).

Lemma live0 {A} (h : list A) : live 0 h = h.
Proof. reflexivity. Qed.

Lemma minv_push w h c x : (0 <= w)%Z -> minv w h c -> exists c', c_push XN c (Fin x) = Ok c' /\ minv w (h ++ [x]) c' /\ c_len c' = c_len c.
Proof.
  intros Hw (Hst & Ew & Ed & Rc & Rq). unfold c_push. rewrite Ew.
  destruct (Z.eqb_spec w 0) as [->|Hw0]; cbn [negb].
  - cbn [bind]. rewrite Ed. destruct (c_add_ok _ c x Hst) as (c' & E & Hst' & Hl & Hwin & Hdec & Hq). exists c'. split; [exact E|]. split; [|exact Hl].
    split; [rewrite live0 in *; exact Hst'|]. rewrite Hwin, Hdec, Hq. split; [exact Ew|]. split; [exact Ed|]. split; [exact Rc|]. congruence.
  - specialize (Rq Hw0). assert (Hw1 : (0 < w)%Z) by lia.
    assert (Erl : ring_len (c_queue c) = zlen (live w h)) by (unfold ring_len; rewrite Rq; unfold zlen; rewrite map_length; reflexivity).
    rewrite Erl. pose proof (live_push w h x Hw1) as Hp. pose proof (live_zlen_le w h ltac:(lia)) as Hle.
    destruct (Z.eqb_spec (zlen (live w h)) w) as [Hfull|Hnot].
    + destruct (live w h) as [|y l] eqn:El; [unfold zlen in Hfull; cbn in Hfull; lia|]. cbn [tl] in Hp.
      unfold ring_get. rewrite Rq. cbn [map bind].
      assert (Hst1 : stats (y :: l) (mkCore (c_mean c) (c_len c) (c_sums c) (c_count c) (c_window c) (c_decay c) (mkRing (rcap (c_queue c)) (map Fin l)))) by exact Hst.
      destruct (c_remove_ok l _ y Hst1) as (c1 & E1 & S1 & L1 & W1 & D1 & Q1). cbn [c_len c_window c_decay c_queue] in *.
      rewrite Ew in E1. rewrite E1. cbn [bind]. rewrite Q1.
      rewrite (ring_put_ok _ (Fin x) w); [|exact Rc|unfold ring_len; cbn [ritems]; unfold zlen in *; rewrite map_length; cbn [length] in Hfull; lia].
      cbn [bind c_decay ritems rcap]. rewrite D1, Ed.
      assert (Hst2 : stats l (mkCore (c_mean c1) (c_len c1) (c_sums c1) (c_count c1) (c_window c1) None (mkRing (rcap (c_queue c)) (map Fin l ++ [Fin x])))) by exact S1.
      destruct (c_add_ok l _ x Hst2) as (c2 & E2 & S2 & L2 & W2 & D2 & Q2). cbn [c_len c_window c_decay c_queue] in *.
      exists c2. split; [exact E2|]. split; [|congruence].
      split; [rewrite Hp; exact S2|]. rewrite W2, D2, Q2. cbn [rcap ritems]. split; [congruence|]. split; [reflexivity|]. split; [exact Rc|].
      intros _. rewrite Hp, map_app. reflexivity.
    + cbn [bind]. rewrite (ring_put_ok _ (Fin x) w); [|exact Rc|rewrite Erl; lia]. cbn [bind c_decay ritems rcap]. rewrite Ed.
      assert (Hst2 : stats (live w h) (mkCore (c_mean c) (c_len c) (c_sums c) (c_count c) (c_window c) None (mkRing (rcap (c_queue c)) (ritems (c_queue c) ++ [Fin x])))) by exact Hst.
      destruct (c_add_ok _ _ x Hst2) as (c2 & E2 & S2 & L2 & W2 & D2 & Q2). cbn [c_len c_window c_decay c_queue] in *.
      exists c2. split; [exact E2|]. split; [|congruence].
      split; [rewrite Hp; exact S2|]. rewrite W2, D2, Q2. cbn [rcap ritems]. split; [exact Ew|]. split; [reflexivity|]. split; [exact Rc|].
      intros _. rewrite Hp, map_app, Rq. reflexivity.
Qed.

Lemma stats_nil n w d q : (n <= 66)%nat -> stats [] (@mkCore xr (Fin 0) n (fun _ => Fin 0) 0 w d q).
Proof.
  intros H. split; [|split; [|split; [|split]]]; cbn [c_mean c_count c_len c_sums]; auto.
  - rewrite rmean_nil. reflexivity.
  - intros k Hk Hk2. unfold csum, rsum. cbn. reflexivity.
Qed.

Lemma minv_clear w h c : minv w h c -> exists c', c_clear XN c = Ok c' /\ minv w [] c' /\ c_len c' = c_len c.
Proof.
  intros ((_ & _ & Hl & _) & Ew & Ed & Rc & Rq). eexists. split; [reflexivity|]. split; [|reflexivity].
  split; [rewrite live_nil; apply stats_nil; exact Hl|]. cbn [c_window c_decay c_queue rcap ring_new ritems]. rewrite Ew, live_nil. auto.
Qed.

Lemma hist_fops ops : hist (fops ops) = map Fin (hist ops).
Proof.
  unfold hist, fops. rewrite <- fold_left_rev_right. rewrite <- (fold_left_rev_right _ ops). rewrite <- map_rev.
  induction (rev ops) as [|o l IH]; cbn [map fold_right]; [reflexivity|]. rewrite IH. destruct o; cbn [fop]; [rewrite map_app|]; reflexivity.
Qed.

Lemma core_run_ok w ops : forall c, (0 <= w)%Z -> minv w [] c -> exists c', core_run XN c (fops ops) = Ok c' /\ minv w (hist ops) c' /\ c_len c' = c_len c.
Proof.
  intros c Hw H0. unfold core_run. induction ops as [|o ops IH] using rev_ind.
  - exists c. auto.
  - destruct IH as (c1 & E & I & L). unfold fops in *. rewrite map_app, run_app, E. cbn [bind map run]. unfold hist. rewrite fold_left_app. fold (hist ops). cbn [fold_left].
    destruct o as [x|]; cbn [fop].
    + destruct (minv_push w _ c1 x Hw I) as (c2 & E2 & I2 & L2). rewrite E2. cbn [bind]. exists c2. split; [reflexivity|]. split; [exact I2|congruence].
    + destruct (minv_clear w _ c1 I) as (c2 & E2 & I2 & L2). rewrite E2. cbn [bind]. exists c2. split; [reflexivity|]. split; [exact I2|congruence].
Qed.
