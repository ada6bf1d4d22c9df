(** Proofs about QuantileModel.v. *)
From Coq Require Import Permutation Reals Lra.
From Flocq Require Import Core BinarySingleNaN.
From Verif Require Import Base F64 FloatR HistSpec OrderSpec RingModel MultisetSpec SortLib
  AvlModel AvlProof RbModel RbProof SkipModel SkipProof QuantileSpec QuantileModel.

(** ** Index arithmetic *)
Lemma phi_range phi : nonnan phi -> fle phi (fz 0) || fge phi (fz 1) = false ->
  is_finite phi = true /\ (0 < B2R phi < 1)%R.
Proof.
  intros Hn H. apply orb_false_elim in H. destruct H as [H1 H2].
  assert (Hf : is_finite phi = true).
  { destruct phi as [s|s| |s m ex Hb]; try reflexivity; [|discriminate Hn].
    destruct s; [clear - H1|clear - H2]; exfalso.
    - revert H1. vm_compute. discriminate.
    - revert H2. vm_compute. discriminate. }
  destruct (fz_exact 0 ltac:(lia)) as [F0 R0]. destruct (fz_exact 1 ltac:(lia)) as [F1 R1].
  split; [exact Hf|]. split.
  - apply Rnot_le_lt. intros Hc. rewrite <- R0 in Hc. apply fle_R in Hc; auto. congruence.
  - apply Rnot_le_lt. intros Hc. rewrite <- R1 in Hc. apply fle_R in Hc; auto. unfold fge in H2. congruence.
Qed.

Lemma index_facts e phi n : nonnan phi -> fle phi (fz 0) || fge phi (fz 1) = false -> (1 <= n <= 2 ^ 53)%Z ->
  let raw := fmul phi (fz (n - 1)) in
  let i := Zfloor (B2R raw) in
  is_finite raw = true /\ (0 <= i <= n - 1)%Z /\ (IZR i <= B2R raw < IZR i + 1)%R /\ (B2R raw <= IZR (n - 1))%R /\
  f2int e (ftrunc raw) = i /\
  (feq raw (ftrunc raw) = true <-> B2R raw = IZR i) /\
  is_finite (fsub raw (ftrunc raw)) = true /\ B2R (fsub raw (ftrunc raw)) = (B2R raw - IZR i)%R.
Proof.
  intros Hn Hr Hsz raw i. destruct (phi_range phi Hn Hr) as [Fp Rp].
  destruct (fz_exact (n - 1) ltac:(lia)) as [Fn Rn].
  assert (HN : (0 <= IZR (n - 1))%R) by (apply IZR_le; lia).
  assert (Hprod : (0 <= B2R phi * B2R (fz (n - 1)) <= IZR (n - 1))%R).
  { rewrite Rn. split; [apply Rmult_le_pos; lra|].
    rewrite <- (Rmult_1_l (IZR (n - 1))) at 2. apply Rmult_le_compat_r; lra. }
  destruct (fmul_fin phi (fz (n - 1)) (n - 1) Fp Fn) as [Fr Rr].
  { rewrite Rabs_pos_eq by lra. lra. }
  { lia. }
  fold raw in Fr, Rr.
  assert (H0 : (0 <= B2R raw)%R) by (rewrite Rr, <- rnd_0; apply rnd_le; lra).
  assert (H1 : (B2R raw <= IZR (n - 1))%R).
  { rewrite Rr, <- (rnd_fmt (IZR (n - 1))); [apply rnd_le; lra|apply fmt_IZR; lia]. }
  pose proof (Zfloor_lb (B2R raw)) as Hlb. pose proof (Zfloor_ub (B2R raw)) as Hub. fold i in Hlb, Hub.
  assert (Hi0 : (0 <= i)%Z) by (apply Zfloor_lub; exact H0).
  assert (Hi1 : (i <= n - 1)%Z) by (apply le_IZR; lra).
  destruct (nearbyint_floor raw Fr H0) as [Ft Rt]. fold (ftrunc raw) in Ft, Rt. fold i in Rt.
  assert (Hbt : Btrunc (ftrunc raw) = i).
  { rewrite Btrunc_floor by (rewrite Rt; apply IZR_le; exact Hi0). rewrite Rt. apply Zfloor_IZR. }
  destruct (fsub_fin raw (ftrunc raw) 1 Fr Ft) as [Fd Rd].
  { rewrite Rt. rewrite Rabs_pos_eq by lra. lra. }
  { lia. }
  split; [exact Fr|]. split; [lia|]. split; [lra|]. split; [exact H1|]. split.
  { unfold f2int. rewrite Ft, Hbt. destruct (Z.leb_spec (- 2 ^ 63) i); [|lia]. destruct (Z.ltb_spec i (2 ^ 63)); [|lia]. reflexivity. }
  split. { rewrite feq_R by assumption. rewrite Rt. reflexivity. }
  split; [exact Fd|]. rewrite Rd, Rt. apply rnd_fmt. apply fmt_frac; [exact H0|apply fmt_B2R].
Qed.

(** ** One query *)
Definition stat_good (st : stat) (b : list f64) : Prop :=
  stat_size st = zlen b /\ rselect_ok b (stat_select st).

Lemma good_sel st b k : stat_good st b -> (0 <= k < zlen b)%Z ->
  exists v, sel st k = Ok v /\ is_kth b (Z.to_nat k) v.
Proof.
  intros [_ H] Hk. destruct (H k) as [[_ [v [E Hv]]]|[Hn _]]; [|contradiction].
  exists v. unfold sel. rewrite E. auto.
Qed.

Lemma fhalf : is_finite (fdy 1 (-1)) = true /\ B2R (fdy 1 (-1)) = (/ 2)%R.
Proof.
  destruct (fdy_exact 1 (-1) ltac:(lia) ltac:(lia)) as [H1 [H2 _]]. split; [exact H1|]. rewrite H2.
  unfold F2R. cbn. lra.
Qed.

Lemma q_value_good e q phi b : stat_good (q_stat q) b -> interp_valid (q_interp q) = true ->
  nonnan phi -> fle phi (fz 0) || fge phi (fz 1) = false -> (1 <= zlen b <= 2 ^ 53)%Z ->
  exists r, q_value e q phi = Ok r /\ quantile_result (q_interp q) b phi r.
Proof.
  intros Hg Hiv Hn Hr Hsz. pose proof (proj1 Hg) as Hsize.
  destruct (index_facts e phi (zlen b) Hn Hr Hsz) as [Fr [Hi [Hlu [Hle [Eidx [Efeq [Fd Rd]]]]]]].
  unfold q_value. rewrite Hr, Hsize. destruct (Z.eqb_spec (zlen b) 0); [lia|].
  unfold quantile_result.
  set (raw := fmul phi (fz (zlen b - 1))) in *. set (i := Zfloor (B2R raw)) in *. rewrite Eidx.
  assert (EI : INR (Z.to_nat i) = IZR i) by (rewrite INR_IZR_INZ, Z2Nat.id by lia; reflexivity).
  destruct (good_sel (q_stat q) b i Hg ltac:(lia)) as [lo [Elo Hlo]].
  destruct (feq raw (ftrunc raw)) eqn:Ef.
  - exists lo. split; [exact Elo|]. exists (Z.to_nat i). rewrite EI. split; [exact Hlu|]. left.
    split; [|exact Hlo]. apply Efeq. reflexivity.
  - assert (Hne : B2R raw <> IZR i).
    { intros H. apply Efeq in H. discriminate. }
    assert (Hlt : (i < zlen b - 1)%Z).
    { apply lt_IZR. destruct Hlu as [H1 H2]. lra. }
    destruct (good_sel (q_stat q) b (i + 1) Hg ltac:(lia)) as [hi [Ehi Hhi]].
    replace (Z.to_nat (i + 1)) with (S (Z.to_nat i)) in Hhi by lia.
    set (d := fsub raw (ftrunc raw)) in *.
    rewrite Elo, Ehi. cbn [bind].
    assert (Hex : forall r,
      ((q_interp q = 0%Z /\ r = fadd (fmul (fsub (fz 1) d) lo) (fmul d hi)) \/
         (q_interp q = 1%Z /\ r = lo) \/ (q_interp q = 2%Z /\ r = hi) \/
         (q_interp q = 3%Z /\ ((B2R raw - IZR i < / 2)%R -> r = lo) /\ ((B2R raw - IZR i > / 2)%R -> r = hi) /\
            ((B2R raw - IZR i = / 2)%R -> (Nat.Even (Z.to_nat i) -> r = lo) /\ (Nat.Odd (Z.to_nat i) -> r = hi))) \/
         (q_interp q = 4%Z /\ r = fdiv (fadd lo hi) (fz 2))) ->
      exists r0 : f64, @Ok f64 r = Ok r0 /\
       (exists i0 : nat, (INR i0 <= B2R raw < INR i0 + 1)%R /\
    ((B2R raw = INR i0 /\ is_kth b i0 r0) \/
     (B2R raw <> INR i0 /\
      exists lo hi d, is_kth b i0 lo /\ is_kth b (S i0) hi /\
        is_finite d = true /\ B2R d = (B2R raw - INR i0)%R /\
        ((q_interp q = 0%Z /\ r0 = fadd (fmul (fsub (fz 1) d) lo) (fmul d hi)) \/
         (q_interp q = 1%Z /\ r0 = lo) \/
         (q_interp q = 2%Z /\ r0 = hi) \/
         (q_interp q = 3%Z /\ ((B2R raw - INR i0 < / 2)%R -> r0 = lo) /\ ((B2R raw - INR i0 > / 2)%R -> r0 = hi) /\
            ((B2R raw - INR i0 = / 2)%R -> (Nat.Even i0 -> r0 = lo) /\ (Nat.Odd i0 -> r0 = hi))) \/
         (q_interp q = 4%Z /\ r0 = fdiv (fadd lo hi) (fz 2))))))).
    { intros r H. exists r. split; [reflexivity|]. exists (Z.to_nat i). rewrite EI. split; [exact Hlu|]. right.
      split; [exact Hne|]. exists lo, hi, d. split; [exact Hlo|]. split; [exact Hhi|]. split; [exact Fd|]. split; [exact Rd|].
      exact H. }
    destruct (Z.eqb_spec (q_interp q) 0) as [E0|E0]; [apply Hex; auto|].
    destruct (Z.eqb_spec (q_interp q) 1) as [E1|E1]; [apply Hex; auto|].
    destruct (Z.eqb_spec (q_interp q) 2) as [E2|E2]; [apply Hex; auto|].
    destruct (Z.eqb_spec (q_interp q) 3) as [E3|E3].
    + destruct fhalf as [Fh Rh].
      destruct (feq d (fdy 1 (-1))) eqn:Ed.
      * apply feq_R in Ed; auto. rewrite Rd, Rh in Ed.
        assert (Hpar : (Z.rem i 2 =? 0)%Z = Nat.even (Z.to_nat i)).
        { rewrite Z.rem_mod_nonneg by lia. destruct (Nat.even (Z.to_nat i)) eqn:Ee.
          - apply Nat.even_spec in Ee. destruct Ee as [k Hk]. apply Z.eqb_eq.
            replace i with (Z.of_nat k * 2)%Z by lia. apply Z_mod_mult.
          - assert (Eo : Nat.odd (Z.to_nat i) = true) by (unfold Nat.odd; rewrite Ee; reflexivity).
            apply Nat.odd_spec in Eo. destruct Eo as [k Hk]. apply Z.eqb_neq.
            replace i with (1 + Z.of_nat k * 2)%Z by lia. rewrite Z_mod_plus_full. discriminate. }
        rewrite Hpar.
        assert (Hdis : Nat.Even (Z.to_nat i) -> Nat.Odd (Z.to_nat i) -> False) by (intros [a Ha] [c Hc]; lia).
        destruct (Nat.even (Z.to_nat i)) eqn:Ee.
        -- apply Nat.even_spec in Ee. apply Hex. right; right; right; left.
           repeat split; try tauto; try (intros; exfalso; lra); auto.
        -- assert (Eo : Nat.odd (Z.to_nat i) = true) by (unfold Nat.odd; rewrite Ee; reflexivity).
           apply Nat.odd_spec in Eo. apply Hex. right; right; right; left.
           repeat split; try tauto; try (intros; exfalso; lra); auto.
      * apply feq_R_false in Ed; auto. rewrite Rd, Rh in Ed.
        destruct (flt d (fdy 1 (-1))) eqn:El.
        -- apply flt_R in El; auto. rewrite Rd, Rh in El. apply Hex. right; right; right; left.
           repeat split; try tauto; try (intros; exfalso; lra).
        -- assert (El' : ~ (B2R d < B2R (fdy 1 (-1)))%R) by (rewrite <- flt_R by assumption; congruence).
           rewrite Rd, Rh in El'. apply Hex. right; right; right; left.
           repeat split; try tauto; try (intros; exfalso; lra).
    + assert (E4 : q_interp q = 4%Z).
      { unfold interp_valid in Hiv. destruct (Z.eqb_spec (q_interp q) 0); [contradiction|].
        destruct (Z.eqb_spec (q_interp q) 1); [contradiction|]. destruct (Z.eqb_spec (q_interp q) 2); [contradiction|].
        destruct (Z.eqb_spec (q_interp q) 3); [contradiction|]. cbn in Hiv. apply Z.eqb_eq. exact Hiv. }
      apply Hex. right; right; right; right. auto.
Qed.

(** ** Histories *)
(** The container operations caused by a history of pushes and clears. *)
Definition qstep (w : Z) (h : list f64) (o : op f64) : list sop :=
  match o with
  | OPush x =>
      (if (w =? 0)%Z then [] else if (zlen (live w h) =? w)%Z then
         match live w h with y :: _ => [SRemove y] | [] => [] end else []) ++ [SAdd x]
  | OClear => [SClear]
  end.
Definition qops_from (w : Z) (ops : list (op f64)) : list f64 * list sop :=
  fold_left (fun ha o => (match o with OPush x => fst ha ++ [x] | OClear => [] end, snd ha ++ qstep w (fst ha) o)) ops ([], []).
Definition qops (w : Z) (ops : list (op f64)) : list sop := snd (qops_from w ops).

Lemma qops_from_hist w ops : fst (qops_from w ops) = hist ops.
Proof.
  unfold qops_from. induction ops as [|o ops IH] using rev_ind; [reflexivity|].
  rewrite fold_left_app. cbn [fold_left fst]. rewrite IH. destruct o; [rewrite hist_push|rewrite hist_clear]; reflexivity.
Qed.

Lemma qops_snoc w ops o : qops w (ops ++ [o]) = qops w ops ++ qstep w (hist ops) o.
Proof.
  rewrite <- (qops_from_hist w). unfold qops, qops_from. rewrite fold_left_app. reflexivity.
Qed.

Lemma srun_app {S} (add remove : S -> f64 -> res S) (clear : S -> res S) ops1 ops2 s :
  srun add remove clear (ops1 ++ ops2) s = (s' <- srun add remove clear ops1 s ;; srun add remove clear ops2 s').
Proof.
  revert s. induction ops1 as [|[v|v|] ops1 IH]; intros s; cbn [app srun].
  - reflexivity.
  - destruct (add s v); cbn [bind]; auto.
  - destruct (remove s v); cbn [bind]; auto.
  - destruct (clear s); cbn [bind]; auto.
Qed.

Definition stat_run (ops : list sop) (st : stat) : res stat := srun stat_add stat_remove stat_clear ops st.

Lemma q_run_stat w interp st0 ops : (0 <= w)%Z ->
  run q_push q_clear ops (mkQ w interp (ring_new w) st0) =
  (st <- stat_run (qops w ops) st0 ;;
   Ok (mkQ w interp (mkRing (round_up w) (if (w =? 0)%Z then [] else live w (hist ops))) st)).
Proof.
  intros Hw. induction ops as [|o ops IH] using rev_ind.
  - cbn. unfold ring_new. rewrite live_nil. destruct (w =? 0)%Z; reflexivity.
  - rewrite run_app, IH, qops_snoc. unfold stat_run in *. rewrite srun_app.
    destruct (srun stat_add stat_remove stat_clear (qops w ops) st0) as [st| | | |]; try reflexivity.
    cbn [bind]. destruct o as [x|]; cbn [run].
    + unfold q_push. cbn [q_window q_queue q_stat q_interp qstep]. rewrite hist_push.
      destruct (Z.eqb_spec w 0) as [->|Hw0].
      * cbn [negb bind q_stat q_window q_interp q_queue app srun].
        destruct (stat_add st x); reflexivity.
      * cbn [negb]. unfold ring_len at 1. cbn [ritems].
        rewrite live_push by lia.
        destruct (Z.eqb_spec (zlen (live w (hist ops))) w) as [Hfull|Hnf].
        -- destruct (live w (hist ops)) as [|y t] eqn:El; [unfold zlen in Hfull; cbn in Hfull; lia|].
           cbn [ring_get ritems rcap bind app srun].
           destruct (stat_remove st y) as [st1| | | |]; try reflexivity. cbn [bind q_queue q_window q_interp q_stat].
           rewrite (ring_put_ok _ x w) by (reflexivity || (unfold ring_len, zlen in *; cbn [ritems length] in *; lia)).
           cbn [bind q_stat q_window q_interp q_queue ritems rcap tl].
           destruct (stat_add st1 x); reflexivity.
        -- cbn [bind q_queue q_window q_interp q_stat app srun].
           pose proof (live_zlen_le w (hist ops) ltac:(lia)).
           rewrite (ring_put_ok _ x w) by (reflexivity || (unfold ring_len; cbn [ritems]; lia)).
           cbn [bind q_stat q_window q_interp q_queue ritems rcap].
           destruct (stat_add st x); reflexivity.
    + unfold q_clear. cbn [q_window q_queue q_stat q_interp qstep srun]. rewrite hist_clear, live_nil.
      unfold ring_new. destruct (stat_clear st); cbn [bind]; try reflexivity. destruct (w =? 0)%Z; reflexivity.
Qed.

(** The bag of these operations is the live window. *)
Definition pushes_nonnan (ops : list (op f64)) : Prop := forall x, In (OPush x) ops -> nonnan x.

Lemma pushes_hist ops : pushes_nonnan ops -> Forall nonnan (hist ops).
Proof. intros H. apply Forall_forall. intros x Hx. apply H, hist_In, Hx. Qed.
Lemma pushes_live w ops : pushes_nonnan ops -> Forall nonnan (live w (hist ops)).
Proof.
  intros H. apply pushes_hist in H. rewrite Forall_forall in *. intros x Hx. apply H. eapply live_incl, Hx.
Qed.
Lemma pushes_app ops1 ops2 : pushes_nonnan (ops1 ++ ops2) -> pushes_nonnan ops1 /\ pushes_nonnan ops2.
Proof. intros H. split; intros x Hx; apply H; apply in_or_app; auto. Qed.

Lemma bag_app ops1 ops2 : bag (ops1 ++ ops2) = fold_left bag_step ops2 (bag ops1).
Proof. unfold bag. apply fold_left_app. Qed.

Lemma qstep_nonnan w h o : Forall nonnan h -> match o with OPush x => nonnan x | OClear => True end ->
  Forall sop_nonnan (qstep w h o).
Proof.
  intros Hh Ho. destruct o as [x|]; cbn [qstep]; [|repeat constructor].
  apply Forall_app. split; [|repeat constructor; exact Ho].
  destruct (w =? 0)%Z; [constructor|]. destruct (zlen (live w h) =? w)%Z; [|constructor].
  destruct (live w h) as [|y t] eqn:E; [constructor|]. repeat constructor. cbn.
  rewrite Forall_forall in Hh. apply Hh. apply (live_incl w). rewrite E. left. reflexivity.
Qed.

Lemma qops_nonnan w ops : pushes_nonnan ops -> Forall sop_nonnan (qops w ops).
Proof.
  induction ops as [|o ops IH] using rev_ind; intros H; [constructor|].
  apply pushes_app in H. destruct H as [H1 H2]. rewrite qops_snoc. apply Forall_app. split; [auto|].
  apply qstep_nonnan; [apply pushes_hist; exact H1|]. destruct o as [x|]; [|exact I]. apply H2. left. reflexivity.
Qed.

Lemma qops_bag w ops : (0 <= w)%Z -> pushes_nonnan ops ->
  Permutation (keys (bag (qops w ops))) (keys (live w (hist ops))).
Proof.
  intros Hw. induction ops as [|o ops IH] using rev_ind; intros H; [change (hist []) with (@nil f64); rewrite live_nil; constructor|].
  apply pushes_app in H. destruct H as [H1 H2]. specialize (IH H1).
  pose proof (bag_nonnan _ (qops_nonnan w ops H1)) as Hbn. pose proof (pushes_live w ops H1) as Hln.
  rewrite qops_snoc, bag_app. destruct o as [x|]; cbn [qstep]; [|rewrite hist_clear, live_nil; constructor].
  assert (Hx : nonnan x) by (apply H2; left; reflexivity).
  rewrite hist_push. destruct (Z.eqb_spec w 0) as [->|Hw0].
  - cbn [app fold_left bag_step]. unfold live in *. cbn [Z.eqb] in *. rewrite keys_app. cbn [keys map].
    fold (keys (hist ops)). fold (keys (bag (qops 0 ops))). rewrite <- Permutation_cons_append. constructor. exact IH.
  - rewrite live_push by lia. destruct (Z.eqb_spec (zlen (live w (hist ops))) w) as [Hf|Hnf].
    + destruct (live w (hist ops)) as [|y t] eqn:El; [unfold zlen in Hf; cbn in Hf; lia|].
      cbn [app fold_left bag_step tl]. rewrite keys_app. cbn [keys map]. fold (keys t).
      fold (keys (remove_one y (bag (qops w ops)))).
      rewrite <- Permutation_cons_append. constructor.
      rewrite remove_one_keys by (try exact Hbn; apply (Forall_inv Hln)).
      rewrite (remz_perm (fk y) _ _ IH). cbn [keys map remz]. rewrite Z.eqb_refl. reflexivity.
    + cbn [app fold_left bag_step]. rewrite keys_app. cbn [keys map].
      fold (keys (bag (qops w ops))). rewrite <- Permutation_cons_append. constructor. exact IH.
Qed.

Lemma count_eq_perm v l1 l2 : nonnan v -> Forall nonnan l1 -> Forall nonnan l2 -> Permutation (keys l1) (keys l2) ->
  count_eq v l1 = count_eq v l2.
Proof. intros. rewrite !count_eq_keys by assumption. apply Permutation_length, filter_perm. assumption. Qed.

Lemma kth_perm l1 l2 k v : Forall nonnan l1 -> Forall nonnan l2 -> Permutation (keys l1) (keys l2) ->
  is_kth l1 k v -> is_kth l2 k v.
Proof.
  intros H1 H2 HP [Hn Hk]. split; [exact Hn|].
  rewrite count_lt_keys, count_le_keys in * by assumption.
  rewrite <- !(Permutation_length (filter_perm _ _ _ HP)). exact Hk.
Qed.

Lemma perm_zlen (l1 l2 : list f64) : Permutation (keys l1) (keys l2) -> zlen l1 = zlen l2.
Proof. intros H. apply Permutation_length in H. rewrite !keys_length in H. unfold zlen. rewrite H. reflexivity. Qed.

Lemma good_perm st l1 l2 : Forall nonnan l1 -> Forall nonnan l2 -> Permutation (keys l1) (keys l2) ->
  stat_good st l1 -> stat_good st l2.
Proof.
  intros H1 H2 HP [Hs Hsel]. pose proof (perm_zlen _ _ HP) as Hz. split; [congruence|].
  intros k. rewrite <- Hz. destruct (Hsel k) as [[Hk [v [E Hv]]]|H]; [left|right; exact H].
  split; [exact Hk|]. exists v. split; [exact E|]. apply (kth_perm l1 l2); assumption.
Qed.

(** ** The three implementations *)
Lemma srun_rmap {S} (K : S -> stat) add remove clear ops : forall s,
  (forall s x, stat_add (K s) x = rmap K (add s x)) ->
  (forall s x, stat_remove (K s) x = rmap K (remove s x)) ->
  (forall s, stat_clear (K s) = rmap K (clear s)) ->
  stat_run ops (K s) = rmap K (srun add remove clear ops s).
Proof.
  unfold stat_run. induction ops as [|[v|v|] ops IH]; intros s Ha Hr Hc; cbn [srun]; [reflexivity| | |].
  - rewrite Ha. destruct (add s v); cbn [rmap bind]; try reflexivity. rewrite IH by assumption. reflexivity.
  - rewrite Hr. destruct (remove s v); cbn [rmap bind]; try reflexivity. rewrite IH by assumption. reflexivity.
  - rewrite Hc. destruct (clear s); cbn [rmap bind]; try reflexivity. rewrite IH by assumption. reflexivity.
Qed.

(** The evicted value is the only one of its kind in the window (automatic for window 0). *)
Definition evict_single (w : Z) (ops : list (op f64)) : Prop :=
  forall p x q y t, ops = p ++ OPush x :: q -> (0 < w)%Z -> zlen (live w (hist p)) = w ->
    live w (hist p) = y :: t -> count_eq y t = 0.
(** No window ever holds two equal values. *)
Definition distinct_windows (w : Z) (ops : list (op f64)) : Prop :=
  forall p q v, ops = p ++ q -> nonnan v -> count_eq v (live w (hist p)) <= 1.

Lemma snoc_split {A} (l : list A) x p y q : l ++ [x] = p ++ y :: q ->
  (q = [] /\ l = p /\ x = y) \/ exists q', q = q' ++ [x] /\ l = p ++ y :: q'.
Proof.
  revert p. induction l as [|a l IH]; intros [|b p] H; cbn in H.
  - injection H as <- <-. auto.
  - injection H as _ H. destruct p; discriminate.
  - injection H as <- <-. right. exists l. auto.
  - injection H as <- H. destruct (IH p H) as [[-> [-> ->]]|[q' [-> ->]]]; [left; auto|right; exists q'; auto].
Qed.

Lemma qops_remove_split w ops : forall p v q, qops w ops = p ++ SRemove v :: q ->
  exists ops1 x ops2 t, ops = ops1 ++ OPush x :: ops2 /\ p = qops w ops1 /\ w <> 0%Z /\
    zlen (live w (hist ops1)) = w /\ live w (hist ops1) = v :: t.
Proof.
  induction ops as [|o ops IH] using rev_ind; intros p v q E; [destruct p; discriminate|].
  assert (Hold : (exists q', qops w ops = p ++ SRemove v :: q') ->
    exists ops1 x ops2 t, ops ++ [o] = ops1 ++ OPush x :: ops2 /\ p = qops w ops1 /\ w <> 0%Z /\
    zlen (live w (hist ops1)) = w /\ live w (hist ops1) = v :: t).
  { intros [q' E']. destruct (IH _ _ _ E') as [ops1 [x [ops2 [t [-> H]]]]].
    exists ops1, x, (ops2 ++ [o]), t. split; [rewrite <- app_assoc; reflexivity|exact H]. }
  rewrite qops_snoc in E. destruct o as [x|]; cbn [qstep] in E.
  - rewrite app_assoc in E. apply snoc_split in E. destruct E as [[_ [_ E]]|[q' [-> E]]]; [discriminate|].
    destruct (Z.eqb_spec w 0) as [->|Hw0]; [rewrite app_nil_r in E; eauto|].
    destruct (Z.eqb_spec (zlen (live w (hist ops))) w) as [Hf|Hf]; [|rewrite app_nil_r in E; eauto].
    destruct (live w (hist ops)) as [|y t] eqn:El; [rewrite app_nil_r in E; eauto|].
    apply snoc_split in E. destruct E as [[-> [E1 E2]]|[q'' [-> E]]]; [|eauto].
    injection E2 as <-. exists ops, x, [], t. repeat split; auto. congruence.
  - apply snoc_split in E. destruct E as [[_ [_ E]]|[q' [-> E]]]; [discriminate|eauto].
Qed.

Lemma qops_add_split w ops : forall p v q, qops w ops = p ++ SAdd v :: q ->
  exists ops1 ops2, ops = ops1 ++ OPush v :: ops2 /\ qops w (ops1 ++ [OPush v]) = p ++ [SAdd v].
Proof.
  induction ops as [|o ops IH] using rev_ind; intros p v q E; [destruct p; discriminate|].
  assert (Hold : (exists q', qops w ops = p ++ SAdd v :: q') ->
    exists ops1 ops2, ops ++ [o] = ops1 ++ OPush v :: ops2 /\ qops w (ops1 ++ [OPush v]) = p ++ [SAdd v]).
  { intros [q' E']. destruct (IH _ _ _ E') as [ops1 [ops2 [-> H]]].
    exists ops1, (ops2 ++ [o]). split; [rewrite <- app_assoc; reflexivity|exact H]. }
  rewrite qops_snoc in E. destruct o as [x|]; cbn [qstep] in E.
  - rewrite app_assoc in E. pose proof E as E0. apply snoc_split in E. destruct E as [[-> [E1 E2]]|[q' [-> E]]].
    + injection E2 as ->. exists ops, []. split; [reflexivity|]. rewrite qops_snoc. cbn [qstep]. rewrite app_assoc. exact E0.
    + destruct (w =? 0)%Z; [rewrite app_nil_r in E; eauto|].
      destruct (zlen (live w (hist ops)) =? w)%Z; [|rewrite app_nil_r in E; eauto].
      destruct (live w (hist ops)) as [|y t]; [rewrite app_nil_r in E; eauto|].
      apply snoc_split in E. destruct E as [[_ [_ E]]|[q'' [-> E]]]; [discriminate|eauto].
  - apply snoc_split in E. destruct E as [[_ [_ E]]|[q' [-> E]]]; [discriminate|eauto].
Qed.

Lemma count_eq_self v l : nonnan v -> count_eq v (v :: l) = S (count_eq v l).
Proof. intros H. unfold count_eq. cbn [filter]. rewrite feq_key, Z.eqb_refl by assumption. reflexivity. Qed.

Lemma evict_single_removes w ops : (0 <= w)%Z -> pushes_nonnan ops -> evict_single w ops -> single_removes (qops w ops).
Proof.
  intros Hw Hn He p v q E. destruct (qops_remove_split w ops p v q E) as [ops1 [x [ops2 [t [-> [-> [Hw0 [Hz El]]]]]]]].
  apply pushes_app in Hn. destruct Hn as [Hn _].
  pose proof (pushes_live w ops1 Hn) as Hln.
  assert (Hv : nonnan v) by (rewrite El in Hln; apply (Forall_inv Hln)).
  rewrite (count_eq_perm v _ (live w (hist ops1))); auto using bag_nonnan, qops_nonnan, qops_bag.
  rewrite El, count_eq_self by exact Hv. rewrite (He ops1 x ops2 v t eq_refl ltac:(lia) Hz El). lia.
Qed.

Lemma distinct_windows_adds w ops : (0 <= w)%Z -> pushes_nonnan ops -> distinct_windows w ops -> distinct_adds (qops w ops).
Proof.
  intros Hw Hn Hd p v q E. destruct (qops_add_split w ops p v q E) as [ops1 [ops2 [-> E']]].
  assert (Hv : nonnan v) by (apply Hn; apply in_or_app; right; left; reflexivity).
  replace (ops1 ++ OPush v :: ops2) with ((ops1 ++ [OPush v]) ++ ops2) in * by (rewrite <- app_assoc; reflexivity).
  pose proof (Hd (ops1 ++ [OPush v]) ops2 v eq_refl Hv) as H.
  apply pushes_app in Hn. destruct Hn as [Hn _].
  rewrite <- (count_eq_perm v (bag (qops w (ops1 ++ [OPush v])))) in H; auto using bag_nonnan, qops_nonnan, qops_bag, pushes_live.
  rewrite E', bag_app in H. cbn [fold_left bag_step] in H. rewrite count_eq_self in H by exact Hv. lia.
Qed.

Lemma select_ok_res b (select : Z -> option f64) : select_ok b select -> rselect_ok b (fun k => Ok (select k)).
Proof.
  intros H k. destruct (H k) as [[Hk [v [E Hv]]]|[Hk E]]; [left|right]; split; auto.
  - exists v. rewrite E. auto.
  - rewrite E. reflexivity.
Qed.

Lemma avl_good ops : Forall sop_nonnan ops -> exists st, stat_run ops (StAvl ALeaf) = Ok st /\ stat_good st (bag ops).
Proof.
  intros H. destruct (avl_correct ops H) as [t [E [Hs Hsel]]]. exists (StAvl t). split.
  - rewrite (srun_rmap StAvl avl_add avl_remove avl_clear); try reflexivity. unfold avl_run in E. rewrite E. reflexivity.
  - split; [exact Hs|]. apply select_ok_res. exact Hsel.
Qed.
Lemma rb_good ops : Forall sop_nonnan ops -> single_removes ops ->
  exists st, stat_run ops (StRb RLeaf) = Ok st /\ stat_good st (bag ops).
Proof.
  intros H H1. destruct (rb_correct ops H H1) as [t [E [Hs Hsel]]]. exists (StRb t). split.
  - rewrite (srun_rmap StRb rb_add rb_tree_remove rb_clear); try reflexivity. unfold rb_run in E. rewrite E. reflexivity.
  - split; [exact Hs|]. apply select_ok_res. exact Hsel.
Qed.
Lemma skip_good mx probs rnd ops : 1 <= mx -> Forall sop_nonnan ops -> distinct_adds ops \/ mx = 1 ->
  exists st, stat_run ops (StSkip (skip_new mx probs rnd)) = Ok st /\ stat_good st (bag ops).
Proof.
  intros Hm H H1. destruct (skip_select_correct mx probs rnd ops Hm H H1) as [s [E [Hsel _]]].
  destruct (skip_correct mx probs rnd ops Hm H) as [s' [es [E' [Hs _]]]]. assert (s' = s) by congruence. subst s'.
  exists (StSkip s). split.
  - rewrite (srun_rmap StSkip skip_add skip_remove skip_clear); try reflexivity. unfold skip_run in E. rewrite E. reflexivity.
  - split; [exact Hs|exact Hsel].
Qed.

(** ** Options *)
(** What a caller may pass. *)
Definition sopt_valid (o : sopt) : Prop :=
  match o with
  | OMaxLevel n => (1 <= n <= 64)%Z
  | OProb p => flt (fz 0) p = true /\ flt p (fz 1) = true
  | ORand _ => True
  end.
Definition qopt_valid (o : qopt) : Prop :=
  match o with
  | QImpl i os => i = 0%Z \/ i = 1%Z \/ (i = 2%Z /\ Forall sopt_valid os)
  | QInterp i => (0 <= i <= 4)%Z
  end.
(** No probability is NaN. *)
Definition sopt_num (o : sopt) : Prop := match o with OProb p => nonnan p | _ => True end.
Definition qopt_num (o : qopt) : Prop := match o with QImpl _ os => Forall sopt_num os | QInterp _ => True end.

(** The last implementation / interpolation named by the options wins. *)
Definition chosen_impl (os : list qopt) : Z :=
  fold_left (fun a o => match o with QImpl i _ => i | QInterp _ => a end) os 0%Z.
Definition chosen_interp (os : list qopt) : Z :=
  fold_left (fun a o => match o with QImpl _ _ => a | QInterp i => i end) os 0%Z.

Lemma range_neg p : nonnan p -> fle p (fz 0) || fge p (fz 1) = negb (flt (fz 0) p && flt p (fz 1)).
Proof.
  intros H. assert (H0 : nonnan (fz 0)) by reflexivity. assert (H1 : nonnan (fz 1)) by (vm_compute; reflexivity).
  rewrite fle_key, fge_key, !flt_key by assumption. rewrite negb_andb.
  f_equal; [destruct (Z.leb_spec (fk p) (fk (fz 0))), (Z.ltb_spec (fk (fz 0)) (fk p))|
            destruct (Z.leb_spec (fk (fz 1)) (fk p)), (Z.ltb_spec (fk p) (fk (fz 1)))]; reflexivity || lia.
Qed.

Lemma flt_nonnan x y : flt x y = true -> nonnan x /\ nonnan y.
Proof.
  intros H. split; unfold nonnan.
  - destruct x; try reflexivity. rewrite flt_nan_l in H. discriminate.
  - destruct y; try reflexivity. change B754_nan with fnan in H. rewrite flt_nan_r in H. discriminate.
Qed.

Lemma sopt_apply_spec s o : sopt_num o -> (1 <= sp_max s <= 64)%Z ->
  (sopt_valid o /\ exists s', sopt_apply s o = Ok s' /\ (1 <= sp_max s' <= 64)%Z) \/
  (~ sopt_valid o /\ exists err, sopt_apply s o = Err err).
Proof.
  intros Hn Hs. destruct o as [n|p|r]; cbn [sopt_apply sopt_valid].
  - destruct (Z.ltb_spec n 1); cbn [orb]; [right; split; [lia|eauto]|].
    rewrite Z.gtb_ltb. destruct (Z.ltb_spec 64 n); [right; split; [lia|eauto]|].
    left. split; [lia|]. eexists. split; [reflexivity|]. cbn. lia.
  - rewrite range_neg by exact Hn. destruct (flt (fz 0) p), (flt p (fz 1)); cbn [andb negb];
      [left|right|right|right]; (split; [intuition discriminate|eauto]).
  - left. split; [exact I|]. eauto.
Qed.

Lemma sopts_apply_spec os : forall s, Forall sopt_num os -> (1 <= sp_max s <= 64)%Z ->
  (Forall sopt_valid os /\ exists s', sopts_apply s os = Ok s' /\ (1 <= sp_max s' <= 64)%Z) \/
  (~ Forall sopt_valid os /\ exists err, sopts_apply s os = Err err).
Proof.
  induction os as [|o os IH]; intros s Hn Hs; cbn [sopts_apply].
  - left. split; [constructor|]. eauto.
  - destruct (sopt_apply_spec s o (Forall_inv Hn) Hs) as [[Hv [s' [E Hs']]]|[Hv [err E]]]; rewrite E; cbn [bind].
    + destruct (IH s' (Forall_inv_tail Hn) Hs') as [[Hvs [s'' [E' Hs'']]]|[Hvs [err E']]]; rewrite E'.
      * left. split; [constructor; assumption|]. eauto.
      * right. split; [intros H; apply Hvs; exact (Forall_inv_tail H)|]. eauto.
    + right. split; [intros H; apply Hv; exact (Forall_inv H)|]. eauto.
Qed.

(** A fresh container of the given implementation. *)
Definition fresh_stat (i : Z) (st : stat) : Prop :=
  (i = 0%Z /\ st = StAvl ALeaf) \/ (i = 1%Z /\ st = StRb RLeaf) \/
  (i = 2%Z /\ exists mx probs r, 1 <= mx /\ st = StSkip (skip_new mx probs r)).

Lemma qopt_apply_spec e q o : qopt_num o ->
  (qopt_valid o /\ exists q', qopt_apply e q o = Ok q' /\ q_window q' = q_window q /\ q_queue q' = q_queue q /\
     match o with QImpl i _ => q_interp q' = q_interp q /\ fresh_stat i (q_stat q')
                | QInterp i => q_interp q' = i /\ q_stat q' = q_stat q end) \/
  (~ qopt_valid o /\ exists err, qopt_apply e q o = Err err).
Proof.
  intros Hn. destruct o as [i os|i]; cbn [qopt_apply qopt_valid].
  - unfold impl_valid, impl_init. destruct (Z.eqb_spec i 0) as [->|H0]; cbn [orb negb bind].
    { left. split; [auto|]. eexists. split; [reflexivity|]. cbn. unfold fresh_stat. auto 10. }
    destruct (Z.eqb_spec i 1) as [->|H1]; cbn [orb negb bind].
    { left. split; [auto|]. eexists. split; [reflexivity|]. cbn. unfold fresh_stat. auto 10. }
    destruct (Z.eqb_spec i 2) as [->|H2]; cbn [orb negb bind].
    { unfold skip_create.
      destruct (sopts_apply_spec os (sparams_default e) Hn ltac:(cbn; lia)) as [[Hv [s' [E Hs']]]|[Hv [err E]]]; rewrite E;
        cbn [bind rmap].
      - left. split; [auto|]. eexists. split; [reflexivity|]. cbn. repeat split; auto.
        right. right. split; [reflexivity|]. eexists _, _, _. split; [|reflexivity]. lia.
      - right. split; [intros [H|[H|[_ H]]]; [discriminate|discriminate|contradiction]|]. eauto. }
    right. split; [intuition|]. eauto.
  - unfold interp_valid.
    destruct (Z.eqb_spec i 0), (Z.eqb_spec i 1), (Z.eqb_spec i 2), (Z.eqb_spec i 3), (Z.eqb_spec i 4);
      cbn [orb negb]; try (left; split; [lia|]; eexists; split; [reflexivity|]; cbn; auto; fail).
    right. split; [lia|]. eauto.
Qed.

Lemma qopts_apply_spec e os : forall q, Forall qopt_num os ->
  (Forall qopt_valid os /\ exists q', qopts_apply e q os = Ok q' /\ q_window q' = q_window q /\ q_queue q' = q_queue q /\
     q_interp q' = fold_left (fun a o => match o with QImpl _ _ => a | QInterp i => i end) os (q_interp q) /\
     forall i, fresh_stat i (q_stat q) ->
       fresh_stat (fold_left (fun a o => match o with QImpl i _ => i | QInterp _ => a end) os i) (q_stat q')) \/
  (~ Forall qopt_valid os /\ exists err, qopts_apply e q os = Err err).
Proof.
  induction os as [|o os IH]; intros q Hn; cbn [qopts_apply fold_left].
  - left. split; [constructor|]. exists q. auto.
  - destruct (qopt_apply_spec e q o (Forall_inv Hn)) as [[Hv [q1 [E [Hw [Hq H1]]]]]|[Hv [err E]]]; rewrite E; cbn [bind].
    + destruct (IH q1 (Forall_inv_tail Hn)) as [[Hvs [q' [E' [Hw' [Hq' [Hi Hst]]]]]]|[Hvs [err E']]]; rewrite E'.
      * left. split; [constructor; assumption|]. exists q'. split; [reflexivity|]. split; [congruence|]. split; [congruence|].
        destruct o as [i sos|i]; destruct H1 as [H1 H2].
        -- split; [rewrite Hi, H1; reflexivity|]. intros i0 _. apply Hst. exact H2.
        -- split; [rewrite Hi, H1; reflexivity|]. intros i0 H0. apply Hst. rewrite H2. exact H0.
      * right. split; [intros H; apply Hvs; exact (Forall_inv_tail H)|]. eauto.
    + right. split; [intros H; apply Hv; exact (Forall_inv H)|]. eauto.
Qed.

Lemma new_quantile_spec e w os : Forall qopt_num os ->
  ((0 <= w)%Z /\ Forall qopt_valid os /\
     exists st, new_quantile e w os = Ok (mkQ w (chosen_interp os) (ring_new w) st) /\ fresh_stat (chosen_impl os) st) \/
  (~ ((0 <= w)%Z /\ Forall qopt_valid os) /\ exists err, new_quantile e w os = Err err).
Proof.
  intros Hn. unfold new_quantile. destruct (Z.ltb_spec w 0); [right; split; [lia|eauto]|].
  unfold impl_init. cbn [Z.eqb bind].
  destruct (qopts_apply_spec e os (mkQ w 0 (ring_new w) (StAvl ALeaf)) Hn) as [[Hv [q' [E [Hw [Hq [Hi Hst]]]]]]|[Hv [err E]]]; rewrite E.
  - left. split; [lia|]. split; [exact Hv|]. exists (q_stat q'). cbn in Hw, Hq, Hi. split.
    + f_equal. unfold chosen_interp. destruct q' as [w' i' r' st']. cbn [q_stat q_window q_interp q_queue] in *. congruence.
    + apply (Hst 0%Z). left. auto.
  - right. split; [tauto|]. eauto.
Qed.

Lemma valid_interp os : Forall qopt_valid os -> interp_valid (chosen_interp os) = true.
Proof.
  unfold chosen_interp. intros H.
  assert (G : forall a, interp_valid a = true ->
    interp_valid (fold_left (fun a o => match o with QImpl _ _ => a | QInterp i => i end) os a) = true).
  { induction os as [|o os IH]; intros a Ha; cbn [fold_left]; [exact Ha|].
    apply IH; [exact (Forall_inv_tail H)|]. pose proof (Forall_inv H) as Ho. destruct o as [i l|i]; [exact Ha|]. cbn in Ho.
    assert (i = 0 \/ i = 1 \/ i = 2 \/ i = 3 \/ i = 4)%Z as [-> | [-> | [-> | [-> | ->]]]] by lia; reflexivity. }
  apply G. reflexivity.
Qed.

(** ** The state after a history *)
(** When the chosen container is known to be exact on this history. *)
Definition impl_cond (i : Z) (w : Z) (ops : list (op f64)) : Prop :=
  i = 0%Z \/ (i = 1%Z /\ evict_single w ops) \/ (i = 2%Z /\ distinct_windows w ops).

Lemma q_reach e w os ops : (0 <= w)%Z -> Forall qopt_num os -> Forall qopt_valid os -> pushes_nonnan ops ->
  impl_cond (chosen_impl os) w ops ->
  exists q, q_run e w os ops = Ok q /\ q_interp q = chosen_interp os /\ stat_good (q_stat q) (live w (hist ops)).
Proof.
  intros Hw Hn Hv Hp Hc.
  destruct (new_quantile_spec e w os Hn) as [[_ [_ [st0 [E Hf]]]]|[H _]]; [|tauto].
  unfold q_run. rewrite E. cbn [bind]. rewrite q_run_stat by exact Hw.
  pose proof (qops_nonnan w ops Hp) as Hqn.
  assert (Hg : exists st, stat_run (qops w ops) st0 = Ok st /\ stat_good st (bag (qops w ops))).
  { destruct Hc as [H|[[H H']|[H H']]]; rewrite H in Hf.
    - destruct Hf as [[_ ->]|[[Hf _]|[Hf _]]]; try discriminate. apply avl_good. exact Hqn.
    - destruct Hf as [[Hf _]|[[_ ->]|[Hf _]]]; try discriminate. apply rb_good; auto using evict_single_removes.
    - destruct Hf as [[Hf _]|[[Hf _]|[_ [mx [pr [r [Hm ->]]]]]]]; try discriminate.
      apply skip_good; auto using distinct_windows_adds. }
  destruct Hg as [st [Es Hg]]. rewrite Es. cbn [bind]. eexists. split; [reflexivity|]. split; [reflexivity|]. cbn [q_stat].
  apply (good_perm st (bag (qops w ops))); auto using bag_nonnan, pushes_live, qops_bag.
Qed.

Definition in_range (phi : f64) : bool := flt (fz 0) phi && flt phi (fz 1).

Lemma good_value e q b phi : stat_good (q_stat q) b -> interp_valid (q_interp q) = true -> nonnan phi ->
  (in_range phi = false -> q_value e q phi = Err EBadQuantile) /\
  (in_range phi = true -> b = [] -> q_value e q phi = Err ENoValues) /\
  (in_range phi = true -> b <> [] -> (zlen b <= 2 ^ 53)%Z ->
     exists r, q_value e q phi = Ok r /\ quantile_result (q_interp q) b phi r).
Proof.
  intros Hg Hi Hn. pose proof (range_neg phi Hn) as Hr. unfold in_range. split; [|split].
  - intros H. unfold q_value. rewrite Hr, H. reflexivity.
  - intros H ->. unfold q_value. rewrite Hr, H, (proj1 Hg). reflexivity.
  - intros H Hb Hz. apply q_value_good; auto; [rewrite Hr, H; reflexivity|].
    destruct b; [congruence|]. unfold zlen in *. cbn [length] in *. lia.
Qed.

Lemma quantile_correct e w os ops : (0 <= w)%Z -> Forall qopt_num os -> Forall qopt_valid os -> pushes_nonnan ops ->
  impl_cond (chosen_impl os) w ops ->
  exists q, q_run e w os ops = Ok q /\ forall phi, nonnan phi ->
    (in_range phi = false -> q_value e q phi = Err EBadQuantile) /\
    (in_range phi = true -> live w (hist ops) = [] -> q_value e q phi = Err ENoValues) /\
    (in_range phi = true -> live w (hist ops) <> [] -> (zlen (live w (hist ops)) <= 2 ^ 53)%Z ->
       exists r, q_value e q phi = Ok r /\ quantile_result (chosen_interp os) (live w (hist ops)) phi r).
Proof.
  intros Hw Hn Hv Hp Hc. destruct (q_reach e w os ops Hw Hn Hv Hp Hc) as [q [E [Hi Hg]]].
  exists q. split; [exact E|]. intros phi Hphi. rewrite <- Hi. apply good_value; auto.
  rewrite Hi. apply valid_interp. exact Hv.
Qed.

(** ** Median and IQR *)
Lemma chosen_snoc os o : chosen_impl (os ++ [o]) = match o with QImpl i _ => i | QInterp _ => chosen_impl os end /\
  chosen_interp (os ++ [o]) = match o with QImpl _ _ => chosen_interp os | QInterp i => i end.
Proof. unfold chosen_impl, chosen_interp. rewrite !fold_left_app. cbn [fold_left]. destruct o; auto. Qed.

Lemma half_index n : (0 <= n <= 2 ^ 53)%Z -> B2R (fmul (fdy 1 (-1)) (fz n)) = (IZR n / 2)%R.
Proof.
  intros Hn. destruct fhalf as [Fh Rh]. destruct (fz_exact n ltac:(lia)) as [Fn Rn].
  assert (H0 : (0 <= IZR n)%R) by (apply IZR_le; lia).
  destruct (fmul_fin (fdy 1 (-1)) (fz n) n Fh Fn) as [_ H].
  { rewrite Rh, Rn, Rabs_pos_eq by lra. lra. }
  { lia. }
  rewrite H, Rh, Rn. replace (/ 2 * IZR n)%R with (F2R (Float radix2 n (-1))).
  - rewrite rnd_fmt by (apply fmt_F2R; lia). unfold F2R. cbn. lra.
  - unfold F2R. cbn. lra.
Qed.

Lemma median_of_quantile b r : b <> [] -> (zlen b <= 2 ^ 53)%Z -> quantile_result 4 b (fdy 1 (-1)) r -> median_result b r.
Proof.
  intros Hb Hz [i [Hi H]]. assert (Hl : (1 <= zlen b)%Z) by (destruct b; [congruence|]; unfold zlen; cbn [length]; lia).
  rewrite half_index in * by lia. unfold zlen in *. rewrite INR_IZR_INZ in *.
  split.
  - intros [k Hk]. assert (Ek : Nat.div2 (length b) = k) by (rewrite Hk, Nat.add_1_r; apply Nat.div2_succ_double).
    rewrite Ek. rewrite Hk in *.
    replace (IZR (Z.of_nat (2 * k + 1) - 1) / 2)%R with (IZR (Z.of_nat k)) in *.
    2:{ replace (Z.of_nat (2 * k + 1) - 1)%Z with (2 * Z.of_nat k)%Z by lia. rewrite mult_IZR. lra. }
    assert (Eik : i = k).
    { destruct Hi as [H1 H2]. apply le_IZR in H1. rewrite <- plus_IZR in H2. apply lt_IZR in H2. lia. }
    subst i. destruct H as [[_ H]|[H _]]; [exact H|congruence].
  - intros [k Hk]. assert (Ek : Nat.div2 (length b) = k) by (rewrite Hk; apply Nat.div2_double).
    rewrite Ek. rewrite Hk in *.
    assert (Hr2 : (IZR (Z.of_nat (2 * k) - 1) / 2)%R = (IZR (Z.of_nat k) - / 2)%R).
    { rewrite minus_IZR. replace (Z.of_nat (2 * k)) with (2 * Z.of_nat k)%Z by lia. rewrite mult_IZR. lra. }
    rewrite Hr2 in *.
    assert (Eik : i = k - 1).
    { destruct Hi as [H1 H2]. assert (IZR (Z.of_nat i) < IZR (Z.of_nat k))%R by lra. apply lt_IZR in H0.
      assert (IZR (Z.of_nat k) < IZR (Z.of_nat i + 2))%R by (rewrite plus_IZR; lra). apply lt_IZR in H3. lia. }
    subst i. destruct H as [[H _]|[_ [lo [hi [d [Hlo [Hhi [_ [_ H]]]]]]]]].
    + exfalso. rewrite Nat2Z.inj_sub, minus_IZR in H by lia. cbn in H. lra.
    + exists lo, hi. split; [exact Hlo|]. replace (S (k - 1)) with k in Hhi by lia. split; [exact Hhi|].
      destruct H as [[H _]|[[H _]|[[H _]|[[H _]|[_ H]]]]]; try discriminate. exact H.
Qed.

Lemma phi_const m e : (1 <= m)%Z -> (m < 2 ^ (- e))%Z -> (e < 0)%Z -> (m <= 2 ^ 53)%Z -> (-1074 <= e)%Z ->
  nonnan (fdy m e) /\ in_range (fdy m e) = true.
Proof.
  intros H1 H2 He Hm He2. destruct (fdy_exact m e ltac:(lia) ltac:(lia)) as [F [R _]].
  destruct (fz_exact 0 ltac:(lia)) as [F0 R0]. destruct (fz_exact 1 ltac:(lia)) as [F1 R1].
  split; [apply fin_nonnan; exact F|]. unfold in_range. apply andb_true_intro.
  assert (Hp : (0 < bpow radix2 e)%R) by apply bpow_gt_0.
  split; apply flt_R; auto; rewrite R, ?R0, ?R1; unfold F2R; cbn [Fnum Fexp].
  - apply Rmult_lt_0_compat; [apply IZR_lt; lia|exact Hp].
  - apply IZR_lt in H2. change (2 ^ (- e))%Z with (Zpower radix2 (- e)) in H2. rewrite IZR_Zpower in H2 by lia.
    apply Rmult_lt_compat_r with (r := bpow radix2 e) in H2; [|exact Hp].
    rewrite <- bpow_plus in H2. replace (- e + e)%Z with 0%Z in H2 by lia. exact H2.
Qed.

Lemma median_correct e w os ops : (0 <= w)%Z -> Forall qopt_num os -> Forall qopt_valid os -> pushes_nonnan ops ->
  impl_cond (chosen_impl os) w ops ->
  exists q, median_run e w os ops = Ok q /\
    (live w (hist ops) = [] -> median_value e q = Err ENoValues) /\
    (live w (hist ops) <> [] -> (zlen (live w (hist ops)) <= 2 ^ 53)%Z ->
       exists r, median_value e q = Ok r /\ median_result (live w (hist ops)) r).
Proof.
  intros Hw Hn Hv Hp Hc. destruct (chosen_snoc os (QInterp 4)) as [C1 C2].
  destruct (quantile_correct e w (os ++ [QInterp 4]) ops Hw) as [q [E H]]; auto.
  - apply Forall_app. split; [exact Hn|]. repeat constructor.
  - apply Forall_app. split; [exact Hv|]. repeat constructor; cbn; lia.
  - rewrite C1. exact Hc.
  - exists q. split; [exact E|]. destruct (phi_const 1 (-1)) as [P1 P2]; try lia.
    destruct (H _ P1) as [_ [H1 H2]]. rewrite C2 in H2. split; [intros; apply H1; assumption|].
    intros Hb Hz. destruct (H2 P2 Hb Hz) as [r [Er Hr]]. exists r. split; [exact Er|]. apply median_of_quantile; assumption.
Qed.

Lemma iqr_correct e w os ops : (0 <= w)%Z -> Forall qopt_num os -> Forall qopt_valid os -> pushes_nonnan ops ->
  impl_cond (chosen_impl os) w ops ->
  exists q, iqr_run e w os ops = Ok q /\
    (live w (hist ops) = [] -> iqr_value e q = Err ENoValues) /\
    (live w (hist ops) <> [] -> (zlen (live w (hist ops)) <= 2 ^ 53)%Z ->
       exists q25 q75, iqr_value e q = Ok (fsub q75 q25) /\
         quantile_result 4 (live w (hist ops)) (fdy 1 (-2)) q25 /\ quantile_result 4 (live w (hist ops)) (fdy 3 (-2)) q75).
Proof.
  intros Hw Hn Hv Hp Hc. destruct (chosen_snoc os (QInterp 4)) as [C1 C2].
  destruct (quantile_correct e w (os ++ [QInterp 4]) ops Hw) as [q [E H]]; auto.
  - apply Forall_app. split; [exact Hn|]. repeat constructor.
  - apply Forall_app. split; [exact Hv|]. repeat constructor; cbn; lia.
  - rewrite C1. exact Hc.
  - exists q. split; [exact E|]. destruct (phi_const 1 (-2)) as [P1 P2]; try lia. destruct (phi_const 3 (-2)) as [P3 P4]; try lia.
    destruct (H _ P1) as [_ [H1 H2]]. destruct (H _ P3) as [_ [H3 H4]]. rewrite C2 in H2, H4. unfold iqr_value. split.
    + intros Hb. rewrite (H1 P2 Hb). reflexivity.
    + intros Hb Hz. destruct (H2 P2 Hb Hz) as [r [Er Hr]]. destruct (H4 P4 Hb Hz) as [r' [Er' Hr']].
      exists r, r'. rewrite Er, Er'. auto.
Qed.

(** ** Results are unique up to numeric equality *)
Definition sim (x y : f64) : Prop := x = y \/ (exists s s', x = B754_zero s /\ y = B754_zero s').

Lemma sim_num x y : sim x y -> num_eq x y.
Proof.
  intros [->|[s [s' [-> ->]]]]; unfold num_eq.
  - destruct (isnan y) eqn:H; [right; auto|left]. rewrite feq_key by assumption. apply Z.eqb_refl.
  - left. reflexivity.
Qed.

Lemma fk_sim x y : nonnan x -> nonnan y -> fk x = fk y -> sim x y.
Proof.
  intros Hx Hy H.
  assert (Hfin : forall s m e H, is_finite (B754_finite s m e H : f64) = true) by reflexivity.
  destruct x as [s|s| |s m e B]; destruct y as [s'|s'| |s' m' e' B']; try discriminate.
  - right. eauto.
  - exfalso. revert H. unfold fk, fval. generalize (Z.pow_pos_nonneg 2 2098 ltac:(lia) ltac:(lia)).
    generalize (2 ^ 2098)%Z. intros z Hz. destruct s'; cbn; lia.
  - exfalso. pose proof (B2R_fk _ (Hfin s' m' e' B')) as E. rewrite <- H in E. unfold fk, fval in E.
    rewrite Rmult_0_l in E. apply (B2R_Bsign_inj) with (prec:=53%Z) (emax:=1024%Z) (y:=B754_zero s') in E; try reflexivity. discriminate.
  - exfalso. revert H. unfold fk, fval. generalize (Z.pow_pos_nonneg 2 2098 ltac:(lia) ltac:(lia)).
    generalize (2 ^ 2098)%Z. intros z Hz. destruct s; cbn; lia.
  - left. revert H. unfold fk, fval. generalize (Z.pow_pos_nonneg 2 2098 ltac:(lia) ltac:(lia)).
    generalize (2 ^ 2098)%Z. intros z Hz. destruct s, s'; cbn; intros; try reflexivity; lia.
  - exfalso. revert H. unfold fk, fval. pose proof (finite_bound s' m' e' B') as Hb. revert Hb.
    generalize (2 ^ 2098)%Z (cond_Zopp s' (Z.pos m' * 2 ^ (e' + 1074)))%Z. intros z z' Hz. destruct s; cbn; lia.
  - exfalso. pose proof (B2R_fk _ (Hfin s m e B)) as E. rewrite H in E. unfold fk, fval in E.
    rewrite Rmult_0_l in E. apply (B2R_Bsign_inj) with (prec:=53%Z) (emax:=1024%Z) (y:=B754_zero s) in E; try reflexivity. discriminate.
  - exfalso. revert H. unfold fk, fval. pose proof (finite_bound s m e B) as Hb. revert Hb.
    generalize (2 ^ 2098)%Z (cond_Zopp s (Z.pos m * 2 ^ (e + 1074)))%Z. intros z z' Hz. destruct s'; cbn; lia.
  - left. apply B2R_inj; try reflexivity. rewrite !B2R_fk by reflexivity. rewrite H. reflexivity.
Qed.

Lemma kth_unique b k x y : Forall nonnan b -> is_kth b k x -> is_kth b k y -> sim x y.
Proof.
  intros Hb [Hx [H1 H2]] [Hy [H3 H4]]. apply fk_sim; auto.
  assert (Hlt : forall u v, nonnan u -> nonnan v -> (fk u < fk v)%Z -> count_le u b <= count_lt v b).
  { intros u v Hu Hv Huv. unfold count_le, count_lt. clear - Hb Hu Hv Huv. induction b as [|a b IH]; [reflexivity|].
    pose proof (Forall_inv Hb) as Ha. specialize (IH (Forall_inv_tail Hb)). cbn [filter].
    rewrite (fle_key a u), (flt_key a v) by assumption.
    destruct (Z.leb_spec (fk a) (fk u)), (Z.ltb_spec (fk a) (fk v)); cbn [length]; lia. }
  destruct (Z.lt_trichotomy (fk x) (fk y)) as [H|[H|H]]; [|exact H|].
  - apply Hlt in H; auto. lia.
  - apply Hlt in H; auto. lia.
Qed.

Lemma sim_fmul c x y : sim x y -> sim (fmul c x) (fmul c y).
Proof.
  intros [->|[s [s' [-> ->]]]]; [left; reflexivity|].
  destruct c; try (left; reflexivity); right; eexists _, _; split; reflexivity.
Qed.
Lemma sim_fadd x y x' y' : sim x x' -> sim y y' -> sim (fadd x y) (fadd x' y').
Proof.
  assert (G1 : forall s y, sim (fadd (B754_zero s) y) y).
  { intros s y0. destruct y0 as [s'|s'| |]; try (left; reflexivity). right.
    unfold fadd, Bplus. destruct (eqb s s'); eexists _, _; split; reflexivity. }
  assert (G2 : forall s x, sim (fadd x (B754_zero s)) x).
  { intros s x0. destruct x0 as [s'|s'| |]; try (left; reflexivity). right.
    unfold fadd, Bplus. destruct (eqb s' s); eexists _, _; split; reflexivity. }
  assert (Sy : forall a b, sim a b -> sim b a).
  { intros a b [->|[s [s' [-> ->]]]]; [left; reflexivity|right; eauto]. }
  assert (Tr : forall a b c, sim a b -> sim b c -> sim a c).
  { intros a b c [E|[s [s' [E E']]]] [F|[t [t' [F F']]]]; subst; try (left; reflexivity); right; eauto. }
  intros Hx Hy. apply Tr with (fadd x' y).
  - destruct Hx as [->|[s [s' [-> ->]]]]; [left; reflexivity|]. apply Tr with y; [apply G1|apply Sy, G1].
  - destruct Hy as [->|[s [s' [-> ->]]]]; [left; reflexivity|]. apply Tr with x'; [apply G2|apply Sy, G2].
Qed.
Lemma sim_fdiv c x y : sim x y -> sim (fdiv x c) (fdiv y c).
Proof.
  intros [->|[s [s' [-> ->]]]]; [left; reflexivity|].
  destruct c; try (left; reflexivity); right; eexists _, _; split; reflexivity.
Qed.

Lemma quantile_unique mode b phi r1 r2 : Forall nonnan b ->
  quantile_result mode b phi r1 -> quantile_result mode b phi r2 -> num_eq r1 r2.
Proof.
  intros Hb [i [Hi H1]] [j [Hj H2]]. apply sim_num.
  assert (E : i = j).
  { assert (INR i < INR j + 1)%R by lra. assert (INR j < INR i + 1)%R by lra.
    rewrite <- S_INR in *. apply INR_lt in H. apply INR_lt in H0. lia. }
  subst j. set (x := B2R (fmul phi (fz (zlen b - 1)))) in *.
  destruct H1 as [[E1 H1]|[E1 [lo [hi [d [Hlo [Hhi [Fd [Rd H1]]]]]]]]];
  destruct H2 as [[E2 H2]|[E2 [lo' [hi' [d' [Hlo' [Hhi' [Fd' [Rd' H2]]]]]]]]]; try congruence.
  { eapply kth_unique; eassumption. }
  assert (Slo : sim lo lo') by (eapply kth_unique; eassumption).
  assert (Shi : sim hi hi') by (eapply kth_unique; eassumption).
  assert (Ed : d = d').
  { assert (Hnz : forall z : f64, is_finite z = true -> B2R z = (x - INR i)%R -> is_finite_strict z = true).
    { intros z Hz Ez. destruct z; try discriminate; [|reflexivity]. cbn in Ez. lra. }
    apply B2R_inj; auto. congruence. }
  subst d'.
  destruct H1 as [[M H1]|[[M H1]|[[M H1]|[[M H1]|[M H1]]]]]; subst mode;
  destruct H2 as [[M2 H2]|[[M2 H2]|[[M2 H2]|[[M2 H2]|[M2 H2]]]]]; try discriminate M2.
  - subst. apply sim_fadd; apply sim_fmul; assumption.
  - subst; assumption.
  - subst; assumption.
  - destruct H1 as [A1 [A2 A3]], H2 as [B1 [B2 B3]].
    destruct (Rtotal_order (x - INR i) (/ 2)) as [H|[H|H]].
    + rewrite A1, B1 by assumption. assumption.
    + destruct (A3 H) as [A4 A5], (B3 H) as [B4 B5]. destruct (Nat.Even_or_Odd i) as [Ev|Od].
      * rewrite A4, B4 by assumption. assumption.
      * rewrite A5, B5 by assumption. assumption.
    + rewrite A2, B2 by assumption. assumption.
  - subst. apply sim_fdiv. apply sim_fadd; assumption.
Qed.

(** Two option lists that only differ in the implementation. *)
Lemma impl_unobservable e w os1 os2 ops : (0 <= w)%Z -> Forall qopt_num os1 -> Forall qopt_num os2 ->
  Forall qopt_valid os1 -> Forall qopt_valid os2 -> pushes_nonnan ops ->
  chosen_interp os1 = chosen_interp os2 ->
  impl_cond (chosen_impl os1) w ops -> impl_cond (chosen_impl os2) w ops -> (zlen (live w (hist ops)) <= 2 ^ 53)%Z ->
  exists q1 q2, q_run e w os1 ops = Ok q1 /\ q_run e w os2 ops = Ok q2 /\
    forall phi, nonnan phi -> res_rel num_eq (q_value e q1 phi) (q_value e q2 phi).
Proof.
  intros Hw N1 N2 V1 V2 Hp Hi C1 C2 Hz.
  destruct (quantile_correct e w os1 ops Hw N1 V1 Hp C1) as [q1 [E1 Q1]].
  destruct (quantile_correct e w os2 ops Hw N2 V2 Hp C2) as [q2 [E2 Q2]].
  exists q1, q2. split; [exact E1|]. split; [exact E2|]. intros phi Hphi.
  destruct (Q1 phi Hphi) as [A1 [A2 A3]]. destruct (Q2 phi Hphi) as [B1 [B2 B3]].
  destruct (in_range phi) eqn:Hr.
  - destruct (live w (hist ops)) as [|a l] eqn:El.
    + rewrite A2, B2 by reflexivity. reflexivity.
    + destruct (A3 eq_refl ltac:(discriminate) Hz) as [r1 [-> R1]]. destruct (B3 eq_refl ltac:(discriminate) Hz) as [r2 [-> R2]].
      cbn [res_rel]. rewrite Hi in R1. eapply quantile_unique; [|exact R1|exact R2]. rewrite <- El. apply pushes_live. exact Hp.
  - rewrite A1, B1 by reflexivity. reflexivity.
Qed.

(** Value(NaN) passes the range check and goes on. *)
Lemma nan_no_error e q err : stat_size (q_stat q) <> 0%Z ->
  (forall k x, stat_select (q_stat q) k <> Err x) -> q_value e q fnan <> Err err.
Proof.
  intros Hs Hk. unfold q_value. change (fle fnan (fz 0)) with false. change (fge fnan (fz 1)) with (fle (fz 1) fnan).
  rewrite fle_nan_r. cbn [orb]. apply Z.eqb_neq in Hs. rewrite Hs.
  assert (G : forall k x, sel (q_stat q) k <> Err x).
  { intros k x. unfold sel. specialize (Hk k). destruct (stat_select (q_stat q) k) as [[v|]|x'| | |]; cbn [bind]; try discriminate.
    intros H. apply (Hk x'). reflexivity. }
  assert (G2 : forall k k' f x, (lo <- sel (q_stat q) k ;; hi <- sel (q_stat q) k' ;; Ok (f lo hi : f64)) <> Err x).
  { intros k k' f x. pose proof (G k) as Gk. pose proof (G k') as Gk'.
    destruct (sel (q_stat q) k) as [u|x'| | |]; cbn [bind]; try discriminate; [|intros _; exact (Gk x' eq_refl)].
    destruct (sel (q_stat q) k') as [u'|x'| | |]; cbn [bind]; try discriminate. intros _; exact (Gk' x' eq_refl). }
  repeat match goal with |- (if ?c then _ else _) <> _ => destruct c end;
    try apply G; try apply G2.
  all: match goal with |- (let idx := _ in _) <> _ => cbv zeta end.
  all: repeat match goal with |- (if ?c then _ else _) <> _ => destruct c end; try apply G.
Qed.

Lemma reject_out_of_range e q phi : nonnan phi -> ~ (flt (fz 0) phi = true /\ flt phi (fz 1) = true) ->
  q_value e q phi = Err EBadQuantile.
Proof.
  intros Hn H. unfold q_value. rewrite range_neg by exact Hn.
  destruct (flt (fz 0) phi), (flt phi (fz 1)); cbn [andb negb]; try reflexivity. exfalso. auto.
Qed.
