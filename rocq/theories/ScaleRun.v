(** Mean and sum of squares of a stream multiplied by a power of two. Nothing here models repository code. *)
From Coq Require Import ZArith Lia Bool Reals Lra List.
From Flocq Require Import Core BinarySingleNaN.
From Verif Require Import Base F64 FloatR HistSpec RingModel PowFloat StdFloat RealLib NumModel MomentModel CoreInv FloatErr SelfArith ScaleArith ScaleStep ScaleSum TwoCores.
Import ListNotations.
Local Open Scope R_scope.
Local Notation b2 := (bpow radix2).

Section Run.
Variable s : Z.
Hypothesis Hs : (-100 <= s <= 100)%Z.
Variable nmax : nat.
Hypothesis Hnmax : (Z.of_nat nmax <= 2 ^ 40)%Z.
Definition B0 : R := b2 100.
Lemma HB0 : b2 (-400) <= B0 <= b2 400. Proof. split; apply bpow_le; lia. Qed.
(** The values: zero, or between 2^-100 and 2^100 *)
Definition okv (x : f64) : Prop := is_finite x = true /\ low (-100) (B2R x) /\ Rabs (B2R x) <= b2 100.
Lemma okv_inB x : okv x -> inB B0 x. Proof. intros (F & _ & U). split; assumption. Qed.
Lemma okv_all l : Forall okv l -> Forall (inB B0) l. Proof. intros H. eapply Forall_impl; [|exact H]. exact okv_inB. Qed.
(** Multiplying by 2^s *)
Definition gs (x : f64) : f64 := fmul x (fdy 1 s).
Lemma gs_sc x : okv x -> sc s x (gs x).
Proof.
  intros (F & L & U). destruct (fdy_exact 1 s ltac:(lia) ltac:(lia)) as (F2 & E2 & _). assert (E2' : B2R (fdy 1 s) = b2 s) by (rewrite E2; unfold F2R; cbn [Fnum Fexp]; ring).
  assert (M : mid (B2R x)) by (split; [eapply low_le; [|exact L]; lia|eapply Rle_trans; [exact U|apply bpow_le; lia]]). destruct (mid_ok _ s ltac:(lia) M) as (H & _ & U').
  destruct (fmul_b x (fdy 1 s) 1000 F F2 ltac:(lia)) as [Fm Em]; [rewrite E2'; exact U'|]. split; [exact F|]. split; [exact Fm|]. unfold gs. rewrite Em, E2', rnd_scale by exact H. rewrite rnd_B2R. reflexivity.
Qed.
(** The mean is zero or at least about 2^-196 / length *)
Definition KK (t : nat) : R := b2 (-196) * (1 - 2 * INR t * eps).
Lemma KK_step t : KK (S t) <= KK t * (1 - 2 * eps).
Proof.
  unfold KK. rewrite S_INR. pose proof (bpow_gt_0 radix2 (-196)) as P. assert (0 < eps) by apply bpow_gt_0. pose proof (pos_INR t). assert (0 <= INR t * eps) by nra. apply Rle_trans with (b2 (-196) * ((1 - 2 * INR t * eps) * (1 - 2 * eps))); [|lra].
  apply Rmult_le_compat_l; nra.
Qed.
Lemma KK_bounds t : (Z.of_nat t <= 2 ^ 42)%Z -> b2 (-197) <= KK t <= b2 (-196).
Proof.
  intros H. unfold KK. pose proof (bpow_gt_0 radix2 (-197)) as P. assert (E : b2 (-196) = 2 * b2 (-197)) by apply (b2_half (-196)). rewrite E. assert (T : 0 <= INR t * eps <= / 1000).
  { split; [apply Rmult_le_pos; [apply pos_INR|apply bpow_ge_0]|]. rewrite INR_IZR_INZ. apply IZR_le in H. apply Rle_trans with (IZR (2 ^ 42) * eps); [apply Rmult_le_compat_r; [apply bpow_ge_0|exact H]|]. rewrite eps_val. change (IZR (2 ^ 42)) with 4398046511104. lra. }
  nra.
Qed.
Definition lowm (t : nat) (l : list f64) (c : @core f64) : Prop := B2R (c_mean c) = 0 \/ KK t <= INR (length l) * Rabs (B2R (c_mean c)).
Definition rel (t : nat) (l : list f64) (c d : @core f64) : Prop :=
  c_len d = c_len c /\ c_count d = c_count c /\ sc s (c_mean c) (c_mean d) /\ sc (2 * s) (c_sums c 2) (c_sums d 2) /\ grid (-640) (B2R (c_sums c 2)) /\ lowm t l c.
Definition QQ (n : nat) (l : list f64) (c d : @core f64) : Prop := Q2 B0 n l c /\ rel (2 * n) l c d.
Definition RR (n : nat) (l : list f64) (c d : @core f64) : Prop := R2 B0 n l c /\ rel (2 * n + 1) l c d.

Lemma lowm_low t l c : (Z.of_nat t <= 2 ^ 42)%Z -> (length l <= nmax)%nat -> lowm t l c -> low (-240) (B2R (c_mean c)).
Proof.
  intros Ht Hl [Z|K]; [left; exact Z|right]. destruct (KK_bounds t Ht) as [K1 _]. assert (N : 0 <= INR (length l) <= b2 41).
  { split; [apply pos_INR|]. rewrite INR_IZR_INZ. change (b2 41) with (IZR (2 ^ 41)). apply IZR_le. lia. }
  pose proof (Rabs_pos (B2R (c_mean c))) as P. destruct (Rle_lt_dec (b2 (-240)) (Rabs (B2R (c_mean c)))) as [?|C]; [assumption|exfalso].
  assert (INR (length l) * Rabs (B2R (c_mean c)) <= b2 41 * b2 (-240)) by (apply Rmult_le_compat; lra). rewrite <- bpow_plus in H. assert (b2 (41 + -240) < b2 (-197)) by (apply bpow_lt; lia). lra.
Qed.
Lemma rel_le t l c d : (Z.of_nat (S t) <= 2 ^ 42)%Z -> rel t l c d -> rel (S t) l c d.
Proof.
  intros Ht (H1 & H2 & H3 & H4 & H5 & [Z|K]); repeat (split; [assumption|]); [left; exact Z|right]. eapply Rle_trans; [|exact K]. eapply Rle_trans; [apply KK_step|]. destruct (KK_bounds t ltac:(lia)) as [K1 _]. pose proof (bpow_gt_0 radix2 (-197)). assert (0 < eps) by apply bpow_gt_0. nra.
Qed.
Lemma QQ_RR n l c d : (n < nmax)%nat -> QQ n l c d -> RR n l c d.
Proof. intros Hn [H1 H2]. split; [apply (Q2_R2 B0 HB0 nmax); [exact Hnmax|lia|exact H1]|]. replace (2 * n + 1)%nat with (S (2 * n)) by lia. apply rel_le; [lia|exact H2]. Qed.

(** Upper bounds *)
Lemma R2_up n l c : (n <= nmax)%nat -> Forall okv l -> R2 B0 n l c -> Rabs (B2R (c_mean c)) <= b2 101 /\ Rabs (B2R (c_sums c 2)) <= b2 300.
Proof.
  intros Hn Hl ((_ & Hln & _ & _ & H5 & _) & _ & _ & H6). apply okv_all in Hl. split.
  - assert (E : b2 101 = 2 * B0) by apply (b2_half 101). rewrite E. pose proof (rmean_bound B0 HB0 l Hl) as M. assert (0 < B0) by apply bpow_gt_0. apply Rabs_le_inv in M. apply Rabs_le_inv in H5. apply Rabs_le. lra.
  - pose proof (csum2_bound B0 HB0 l Hl) as M. assert (N : 0 <= INR n <= b2 40). { split; [apply pos_INR|]. rewrite INR_IZR_INZ. change (b2 40) with (IZR (2 ^ 40)). apply IZR_le. lia. }
    assert (N' : INR (length l) <= INR n) by (apply le_INR; exact Hln). pose proof (pos_INR (length l)). unfold EB in H6. set (X := B0 * B0) in *. assert (EX : X = b2 200) by (unfold X, B0; rewrite <- bpow_plus; reflexivity).
    assert (PX : 0 < X) by (rewrite EX; apply bpow_gt_0). assert (E40 : b2 40 = 1099511627776) by (change (b2 40) with (IZR (2 ^ 40)); reflexivity).
    assert (U : Rabs (B2R (c_sums c 2)) <= 2 ^ 99 * X).
    { rewrite eps_val in H6. apply Rabs_le_inv in H6. rewrite E40 in N. assert (INR n * INR n <= 1099511627776 * 1099511627776) by nra.
      assert (A : (800 * (INR n * INR n) + 420 * INR n + 400) * (/ 9007199254740992 * X) <= 2 ^ 98 * X). { rewrite <- Rmult_assoc. apply Rmult_le_compat_r; [lra|]. lra. }
      assert (A2 : 4 * INR (length l) * X <= 2 ^ 98 * X) by (apply Rmult_le_compat_r; lra). apply Rabs_le. lra. }
    eapply Rle_trans; [exact U|]. rewrite EX. assert (E99 : 2 ^ 99 = b2 99) by (rewrite (pow_IZR 2 99); reflexivity). rewrite E99, <- bpow_plus. apply bpow_le. lia.
Qed.
Lemma QQ_rem n y l c d : (n < nmax)%nat -> Forall okv (y :: l) -> QQ n (y :: l) c d ->
  exists c' d', c_remove FN c y = Ok c' /\ c_remove FN d (gs y) = Ok d' /\ RR n l c' d' /\ same_par c c' /\ same_par d d'.
Proof.
  intros Hn Hf [H1 H2]. pose proof (Q2_R2 B0 HB0 nmax Hnmax n _ c ltac:(lia) H1) as HR. destruct (R2_up n _ c ltac:(lia) Hf HR) as [Um Us].
  destruct (Q2_rem B0 HB0 nmax Hnmax n y l c Hn (okv_all _ Hf) H1) as (c' & E & HR' & P). destruct H2 as (L & C & Sm & Ss & Gs & Lw).
  destruct H1 as ((L66 & Hln & Hc & _) & L3 & _). cbn [length] in Hln. destruct (c_remove_any FN d (gs y) ltac:(rewrite L; exact L66)) as (d' & E' & P' & Cd & Md). destruct (c_remove_any FN c y L66) as (c'' & E'' & _ & Cc & Mc). rewrite E in E''. injection E'' as <-.
  exists c', d'. do 2 (split; [assumption|]). split; [|split; assumption]. split; [exact HR'|]. destruct P as (P1 & _). destruct P' as (P1' & _). inversion Hf as [|? ? Hy Hl]; subst.
  assert (Hn1 : (c_count c - 1 = zlen l)%Z) by (rewrite Hc; unfold zlen; cbn [length]; lia). rewrite C, Hn1 in *. unfold rel. rewrite P1, P1', Cd, Cc. split; [exact L|]. split; [reflexivity|].
  destruct (Z.gtb_spec (zlen l) 0) as [Hpos|Hz].
  - pose proof (lowm_low (2 * n) (y :: l) c ltac:(lia) ltac:(cbn [length]; lia) Lw) as Lm. destruct Hy as (Fy & Ly & Uy). pose proof (gs_sc y (conj Fy (conj Ly Uy))) as Sy.
    assert (Hnn : (1 <= zlen l <= 2 ^ 41)%Z) by (unfold zlen in *; lia).
    destruct (rem_mean_sc s Hs y (gs y) (c_mean c) (c_mean d) Sy Sm Ly Uy Lm Um (zlen l) Hnn) as (Sm' & N1 & Z1). rewrite <- Mc, <- Md in Sm'. rewrite <- Mc in N1, Z1. split; [exact Sm'|].
    assert (Lw' : lowm (2 * n + 1) l c').
    { destruct (Req_dec (B2R (c_mean c')) 0) as [Z|NZ]; [left; exact Z|right]. destruct (Req_dec (B2R y) 0) as [Zy|Ny].
      - specialize (Z1 Zy). rewrite <- INR_IZR_INZ in Z1 || (unfold zlen in Z1; rewrite <- INR_IZR_INZ in Z1). eapply Rle_trans; [|exact Z1]. replace (2 * n + 1)%nat with (S (2 * n)) by lia. eapply Rle_trans; [apply KK_step|].
        apply Rmult_le_compat_r; [rewrite eps_val; lra|]. destruct Lw as [Z|K].
        + exfalso. apply NZ. destruct Sm' as (Fm & _). pose proof (zero_step s Hs y (gs y) (c_mean c) (c_mean d) Sy Sm Ly Uy Lm Um (zlen l) Hnn Zy) as [Eq _]. rewrite Mc. unfold rem_mean. cbn [nsub ndiv nz FN].
          rewrite Z in Eq. unfold Rdiv in Eq. rewrite Rmult_0_l, rnd_0, Ropp_0 in Eq. destruct (quot_sc s Hs y (gs y) (c_mean c) (c_mean d) Sy Sm Ly Uy Lm Um (zlen l) Hnn) as ((Fq & _) & _).
          apply (zsub (c_mean c) _); split; try assumption. apply Sm.
        + eapply Rle_trans; [exact K|]. cbn [length]. rewrite S_INR. lra.
      - destruct (N1 Ny) as [?|G]; [contradiction|]. assert (1 <= INR (length l)) by (apply (le_INR 1); unfold zlen in Hpos; lia). destruct (KK_bounds (2 * n + 1) ltac:(lia)) as [_ K2]. pose proof (Rabs_pos (B2R (c_mean c'))). nra. }
    assert (Um' : Rabs (B2R (c_mean c')) <= b2 101) by (apply (R2_up n l c' ltac:(lia) Hl HR')).
    assert (Lm' : low (-240) (B2R (c_mean c'))) by (apply (lowm_low (2 * n + 1) l c'); [lia|lia|exact Lw']).
    destruct (delta_sc s Hs y (gs y) (c_mean c') (c_mean d') Sy Sm' Ly Uy Lm' Um') as (Sd & _ & Ld & Ud).
    assert (Hc0 : (0 < c_count c - 1)%Z) by lia. assert (Hd0 : (0 < c_count d - 1)%Z) by lia.
    rewrite (c_remove_sum2 0 c c' y L3 Hc0 E), (c_remove_sum2 0 d d' (gs y) ltac:(rewrite L; exact L3) Hd0 E'). rewrite C, Hn1.
    destruct (fz_real (zlen l) ltac:(lia)) as [Fa Ea]. destruct (add1_real 0 (zlen l) ltac:(lia)) as [Fb Eb].
    destruct (coeff_low (fz (zlen l)) (fadd (fz (zlen l)) (fz 1)) (zlen l + 1) Fa Fb ltac:(rewrite Ea; f_equal; lia) Eb ltac:(unfold zlen in *; lia)) as (Fc & Lc & Uc).
    destruct (acc_sub s Hs _ _ _ _ _ Sd Ld Ud Ss Gs Us Fc Lc Uc) as [Sa Ga]. split; [exact Sa|]. split; [exact Ga|exact Lw'].
  - assert (Z0 : (c_count c - 1 >? 0)%Z = false) by lia. unfold c_remove in E, E'. rewrite C in E'. rewrite Z0 in E, E'. injection E as <-. injection E' as <-. cbn [c_mean c_sums nz FN].
    split; [apply sc_zero|]. split; [apply sc_zero|]. change (B2R (fz 0)) with 0. split; [apply grid_0|]. left. reflexivity.
Qed.
Lemma RR_add n l x c d : (n < nmax)%nat -> Forall okv l -> okv x -> RR n l c d ->
  exists c' d', c_add FN c x = Ok c' /\ c_add FN d (gs x) = Ok d' /\ QQ (S n) (l ++ [x]) c' d' /\ same_par c c' /\ same_par d d'.
Proof.
  intros Hn Hf Hx [H1 H2]. destruct (R2_up n _ c ltac:(lia) Hf H1) as [Um Us].
  destruct (R2_add B0 HB0 nmax Hnmax n l x c Hn (okv_all _ Hf) (okv_inB x Hx) H1) as (c' & E & HQ' & P). destruct H2 as (L & C & Sm & Ss & Gs & Lw).
  destruct H1 as ((L66 & Hln & Hc & _) & L3 & _). destruct (c_add_any FN d (gs x) ltac:(rewrite L; exact L66)) as (d' & E' & P' & Cd & Md). destruct (c_add_any FN c x L66) as (c'' & E'' & _ & Cc & Mc). rewrite E in E''. injection E'' as <-.
  exists c', d'. do 2 (split; [assumption|]). split; [|split; assumption]. split; [exact HQ'|]. destruct P as (P1 & _). destruct P' as (P1' & _).
  rewrite C in *. unfold rel. rewrite P1, P1', Cd, Cc. split; [exact L|]. split; [reflexivity|]. set (k := (c_count c + 1)%Z) in *.
  assert (Hk : (1 <= k <= 2 ^ 41)%Z) by (unfold k; rewrite Hc; unfold zlen; lia). assert (Ek : IZR k = INR (length l) + 1) by (unfold k; rewrite Hc, plus_IZR; unfold zlen; rewrite <- INR_IZR_INZ; reflexivity).
  pose proof (lowm_low (2 * n + 1) l c ltac:(lia) ltac:(lia) Lw) as Lm. pose proof (gs_sc x Hx) as Sx. destruct Hx as (Fx & Lx & Ux).
  destruct (add_mean_sc s Hs x (gs x) (c_mean c) (c_mean d) Sx Sm Lx Ux Lm Um k Hk) as (Sm' & N1 & Z1). rewrite <- Mc, <- Md in Sm'. rewrite <- Mc in N1, Z1. split; [exact Sm'|].
  destruct (delta_sc s Hs x (gs x) (c_mean c) (c_mean d) Sx Sm Lx Ux Lm Um) as (Sd & _ & Ld & Ud).
  rewrite (c_add_sum2 0 c c' x L3 E), (c_add_sum2 0 d d' (gs x) ltac:(rewrite L; exact L3) E'). rewrite C. fold k.
  destruct (fz_real k ltac:(lia)) as [Fb Eb]. destruct (sub1_real 0 k ltac:(lia)) as [Fa Ea].
  destruct (coeff_low (fsub (fz k) (fz 1)) (fz k) k Fa Fb Ea Eb Hk) as (Fc & Lc & Uc).
  destruct (acc_add s Hs _ _ _ _ _ Sd Ld Ud Ss Gs Us Fc Lc Uc) as [Sa Ga]. split; [exact Sa|]. split; [exact Ga|].
  destruct (Req_dec (B2R (c_mean c')) 0) as [Z|NZ]; [left; exact Z|right]. rewrite app_length. cbn [length]. rewrite plus_INR. cbn [INR]. rewrite <- Ek. destruct (Req_dec (B2R x) 0) as [Zx|Nx].
  - specialize (Z1 Zx). eapply Rle_trans; [|exact Z1]. replace (2 * S n)%nat with (S (2 * n + 1)) by lia. eapply Rle_trans; [apply KK_step|].
    apply Rmult_le_compat_r; [rewrite eps_val; lra|]. destruct Lw as [Z|K].
    + exfalso. apply NZ. pose proof (zero_step s Hs x (gs x) (c_mean c) (c_mean d) Sx Sm Lx Ux Lm Um k Hk Zx) as [Eq _]. rewrite Mc. unfold add_mean. cbn [nadd nsub ndiv nz FN].
      rewrite Z in Eq. unfold Rdiv in Eq. rewrite Rmult_0_l, rnd_0, Ropp_0 in Eq. destruct (quot_sc s Hs x (gs x) (c_mean c) (c_mean d) Sx Sm Lx Ux Lm Um k Hk) as ((Fq & _) & _).
      apply (zadd (c_mean c) _); split; try assumption. apply Sm.
    + eapply Rle_trans; [exact K|]. rewrite Ek. lra.
  - destruct (N1 Nx) as [?|G]; [contradiction|]. assert (1 <= IZR k) by (apply (IZR_le 1); lia). destruct (KK_bounds (2 * S n) ltac:(lia)) as [_ K2]. pose proof (Rabs_pos (B2R (c_mean c'))). nra.
Qed.
Lemma QQ_nil (c d : @core f64) : c_len c = 3%nat -> c_len d = 3%nat -> c_mean c = nz FN 0 -> (forall k, c_sums c k = nz FN 0) -> c_count c = 0%Z ->
  c_mean d = nz FN 0 -> (forall k, c_sums d k = nz FN 0) -> c_count d = 0%Z -> QQ 0 [] c d.
Proof.
  intros L L' M Sc C M' Sd C'. split; [apply (Q2_nil B0 0); try assumption; rewrite L; lia|]. unfold rel. rewrite L, L', M, M', Sc, Sd, C, C'. cbn [nz FN]. repeat (split; [reflexivity || apply sc_zero|]).
  change (B2R (fz 0)) with 0. split; [apply grid_0|]. left. rewrite M. reflexivity.
Qed.
Lemma scaled_run w ops : (0 <= w)%Z -> (forall x, In (OPush x) ops -> okv x) -> (length ops <= nmax)%nat -> let c0 := mkCore (fz 0) 3 (fun _ => fz 0) 0 w None (ring_new w) in
  exists c d, core_run FN c0 ops = Ok c /\ core_run FN c0 (mapped gs ops) = Ok d /\ QQ (length (hist ops)) (live w (hist ops)) c d.
Proof.
  intros Hw Hops Hlen c0. destruct (core_run_winv2 FN gs okv nmax (fun l => l = 3%nat) (fun n l c d => QQ n l c d /\ c_len c = 3%nat /\ c_len d = 3%nat) (fun n l c d => RR n l c d /\ c_len c = 3%nat /\ c_len d = 3%nat)) with (w := w) (c0 := c0) (d0 := c0) (ops := ops) as (c & d & E & E' & ((I & _) & _)); try assumption.
  - intros ? ? ? ? (_ & H). exact H.
  - intros ? ? ? ? ? ? ? ? ? ? H. exact H.
  - intros ? ? ? ? ? ? ? ? ? ? H. exact H.
  - intros n l c d Hn [H1 H2]. split; [apply QQ_RR; assumption|exact H2].
  - intros n y l c d Hn Hf [H1 [H2 H3]]. destruct (QQ_rem n y l c d Hn Hf H1) as (c' & d' & A1 & A2 & A3 & A4 & A5). exists c', d'. repeat (split; [assumption|]). split; [|split; assumption]. split; [assumption|]. destruct A4 as (-> & _), A5 as (-> & _). auto.
  - intros n l x c d Hn Hf Hx [H1 [H2 H3]]. destruct (RR_add n l x c d Hn Hf Hx H1) as (c' & d' & A1 & A2 & A3 & A4 & A5). exists c', d'. repeat (split; [assumption|]). split; [|split; assumption]. split; [assumption|]. destruct A4 as (-> & _), A5 as (-> & _). auto.
  - intros c d L L' M Sc C M' Sd C'. split; [apply QQ_nil; assumption|auto].
  - split; [rewrite live_nil; split; [apply QQ_nil; reflexivity|split; reflexivity]|]. rewrite live_nil. split; repeat split.
  - exists c, d. auto.
Qed.
End Run.
