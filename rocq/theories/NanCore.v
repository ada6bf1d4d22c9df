(** What a NaN or an infinity does to the moment core in float64 arithmetic. Nothing here models repository code. *)
From Coq Require Import ZArith Lia Bool Reals Lra List.
From Flocq Require Import Core BinarySingleNaN.
From Verif Require Import Base F64 FloatR HistSpec RingModel MathModel NumModel MomentModel MomentProof MetricProof StdFloat CoreInv FloatErr.
Import ListNotations.
Local Open Scope Z_scope.

Lemma nan_of (x : f64) : isnan x = true -> x = fnan.
Proof. destruct x; try discriminate. reflexivity. Qed.
Lemma fadd_nan_l x : fadd fnan x = fnan. Proof. destruct x; reflexivity. Qed.
Lemma fadd_nan_r x : fadd x fnan = fnan. Proof. destruct x; reflexivity. Qed.
Lemma fsub_nan_l x : fsub fnan x = fnan. Proof. destruct x; reflexivity. Qed.
Lemma fsub_nan_r x : fsub x fnan = fnan. Proof. destruct x; reflexivity. Qed.
Lemma fmul_nan_l x : fmul fnan x = fnan. Proof. destruct x; reflexivity. Qed.
Lemma fmul_nan_r x : fmul x fnan = fnan. Proof. destruct x; reflexivity. Qed.
Lemma fdiv_nan_l x : fdiv fnan x = fnan. Proof. destruct x; reflexivity. Qed.
Lemma fsqrt_nan : fsqrt fnan = fnan. Proof. reflexivity. Qed.

Lemma fpow_nan k : (1 <= k)%nat -> fpow fnan k = fnan.
Proof. intros H. destruct k as [|[|k]]; [lia|reflexivity|reflexivity]. Qed.

(** The float64 of a positive number is positive. *)
Lemma fz_sign n : 0 < n -> Bsign (fz n) = false /\ isnan (fz n) = false.
Proof.
  intros Hn. unfold fz, fdy. pose proof (binary_normalize_correct 53 1024 _ _ mode_NE n 0 false) as H. cbv zeta in H.
  assert (Hp : (0 < F2R (Float radix2 n 0))%R) by (apply F2R_gt_0; exact Hn).
  set (x := binary_normalize 53 1024 _ _ mode_NE n 0 false) in *. destruct (Rlt_bool _ _).
  - destruct H as (_ & F & S). rewrite Rcompare_Gt in S by exact Hp. split; [exact S|]. destruct x; try discriminate F; reflexivity.
  - rewrite Rlt_bool_false in H by lra. change (binary_overflow 53 1024 mode_NE false) with (SpecFloat.S754_infinity false) in H.
    destruct x; try discriminate H. injection H as ->. split; reflexivity.
Qed.
(** A mean that is not finite becomes NaN with the next value, and is not finite once such a value has been added. *)
Lemma add_mean_nan m x n : isfin m = false -> 0 < n -> add_mean FN m x n = fnan.
Proof.
  intros Hm Hn. unfold add_mean. cbn [nadd ndiv nsub nz FN]. destruct (fz_sign n Hn) as [S N]. generalize dependent (fz n). intros d S N.
  destruct m as [?|s| |? ? ? ?]; try discriminate Hm; [|apply fadd_nan_l].
  destruct x as [sx|sx| |sx mx ex Hx]; destruct d as [sd|sd| |sd md ed Hd]; try discriminate N; cbn [Bsign] in S; subst; destruct s; try destruct sx; reflexivity.
Qed.
Lemma add_mean_inf m x n : isfin x = false -> isfin (add_mean FN m x n) = false.
Proof.
  intros Hx. unfold add_mean. cbn [nadd ndiv nsub nz FN]. generalize (fz n). intros d.
  destruct x as [?|s| |? ? ? ?]; try discriminate Hx.
  - destruct d as [sd|sd| |sd md ed Hd]; destruct m as [sm|sm| |sm mm em Hm]; destruct s; try destruct sd; try destruct sm; reflexivity.
  - rewrite fsub_nan_l, fdiv_nan_l, fadd_nan_r. reflexivity.
Qed.
Lemma rem_mean_inf m x n : isfin m = false -> 0 < n -> isfin (rem_mean FN m x n) = false.
Proof.
  intros Hm Hn. unfold rem_mean. cbn [nadd ndiv nsub nz FN]. destruct (fz_sign n Hn) as [S N]. generalize dependent (fz n). intros d S N.
  destruct m as [?|s| |? ? ? ?]; try discriminate Hm; [|rewrite fsub_nan_l; reflexivity].
  destruct x as [sx|sx| |sx mx ex Hx]; destruct d as [sd|sd| |sd md ed Hd]; try discriminate N; cbn [Bsign] in S; subst; destruct s; try destruct sx; reflexivity.
Qed.
Lemma rem_mean_nan x n : rem_mean FN fnan x n = fnan.
Proof. unfold rem_mean. cbn [nsub ndiv FN]. apply fsub_nan_l. Qed.

(** ** The sums *)
Lemma inner_nan op t k is_ s : (forall y, op fnan y = fnan) -> forall v, s = fnan -> inner FN op t k is_ s = Ok v -> v = fnan.
Proof.
  intros Hop. revert s. induction is_ as [|i l IH]; intros s v -> E; cbn [inner] in E; [congruence|].
  apply bind_ok in E. destruct E as (c & _ & E). rewrite Hop in E. eapply IH; [reflexivity|exact E].
Qed.
Lemma outer_all {T} (step : (nat -> T) -> nat -> res T) (P : T -> Prop) ks : (forall f k v, In k ks -> step f k = Ok v -> P v) ->
  forall f g, outer step ks f = Ok g -> forall k, In k ks -> P (g k).
Proof.
  intros H. induction ks as [|j ks IH]; intros f g E k Hk; [destruct Hk|]. cbn [outer] in E. apply bind_ok in E. destruct E as (v & Ev & E).
  destruct (in_dec Nat.eq_dec k ks) as [Hin|Hout].
  - apply (IH (fun f k v Hk => H f k v (or_intror Hk)) _ _ E k Hin).
  - destruct Hk as [->|Hk]; [|contradiction]. rewrite (outer_other _ _ _ _ _ Hout E), sput_same. exact (H _ _ _ (or_introl eq_refl) Ev).
Qed.
(** If the mean is NaN, adding a value turns all sums into NaN. *)
Lemma c_add_nan c x c' : c_mean c = fnan -> c_add FN c x = Ok c' -> forall k, (2 <= k < c_len c)%nat -> c_sums c' k = fnan.
Proof.
  intros Hm E k Hk. unfold c_add in E. cbv zeta in E. apply bind_ok in E. destruct E as (g & E & E'). injection E' as <-. cbn [c_sums].
  eapply (outer_all _ (fun v => v = fnan)) with (2 := E).
  - clear - Hm. intros f k v Hk Ev. apply in_rev, in_seq in Hk. eapply inner_nan; [|reflexivity|].
    2:{ cbn [nadd nsub nmul ndiv npow nz FN] in Ev. rewrite Hm, fsub_nan_r, fpow_nan, fmul_nan_r, fadd_nan_r in Ev by lia. exact Ev. }
    apply fadd_nan_l.
  - rewrite <- in_rev. apply in_seq. lia.
Qed.

(** ** Pushes *)
(** [c_push] without decay: the oldest value leaves if the window is full, then the new one is added. *)
Lemma c_push_split (c c' : @core f64) x : c_decay c = None -> c_push FN c x = Ok c' -> exists c1 c2,
  (c1 = c \/ exists y q, ring_len (c_queue c) = c_window c /\ c_window c <> 0 /\ c_remove FN (reparam c (c_window c) (c_decay c) q) y = Ok c1) /\
  c_mean c2 = c_mean c1 /\ c_len c2 = c_len c1 /\ c_count c2 = c_count c1 /\ c_add FN c2 x = Ok c'.
Proof.
  intros Hd E. unfold c_push in E. apply bind_ok in E. destruct E as (c2 & E1 & E2).
  destruct (Z.eqb_spec (c_window c) 0) as [Hw|Hw]; cbn [negb] in E1.
  - injection E1 as <-. rewrite Hd in E2. exists c, c. auto 6.
  - apply bind_ok in E1. destruct E1 as (c1 & E1 & E3). apply bind_ok in E3. destruct E3 as (q & Eq & E3). injection E3 as <-. cbn [c_decay] in E2.
    destruct (Z.eqb_spec (ring_len (c_queue c)) (c_window c)) as [Hf|Hf].
    + apply bind_ok in E1. destruct E1 as ((y & q') & Eg & Er). fold (reparam c (c_window c) (c_decay c) q') in Er.
      assert (Hd1 : c_decay c1 = None).
      { unfold c_remove in Er. cbv zeta in Er. destruct (_ >? 0); [apply bind_ok in Er; destruct Er as (? & _ & Er)|]; injection Er as <-; exact Hd. }
      rewrite Hd1 in E2. exists c1. eexists. split; [right; exists y, q'; auto|]. split; [|split; [|split; [|exact E2]]]; reflexivity.
    + injection E1 as <-. rewrite Hd in E2. exists c. eexists. split; [left; reflexivity|]. split; [|split; [|split; [|exact E2]]]; reflexivity.
Qed.
(** Cores reached from a new one: only the bookkeeping is known. *)
Definition Qb (len : nat) (n : nat) (l : list f64) (c : @core f64) : Prop := c_len c = len /\ c_count c = zlen l.
Lemma any_run len w ops : (len <= 66)%nat -> 0 <= w ->
  exists c, core_run FN (mkCore (fz 0) len (fun _ => fz 0) 0 w None (ring_new w)) ops = Ok c /\ winv (Qb len) w (hist ops) c.
Proof.
  intros Hlen Hw.
  apply (core_run_winv FN (fun _ => True) (length ops) (fun l => l = len) (Qb len) (Qb len)).
  - intros ? ? ? H. apply H.
  - intros ? ? ? ? ? ? H. exact H.
  - intros ? ? ? ? ? ? H. exact H.
  - auto.
  - intros n y l c _ _ [H1 H2]. destruct (c_remove_any FN c y ltac:(lia)) as (c' & E & P & Ec & _). exists c'. split; [exact E|]. split; [|exact P].
    destruct P as (P & _). split; [congruence|]. rewrite Ec, H2. unfold zlen. cbn [length]. lia.
  - intros n l x c _ _ _ [H1 H2]. destruct (c_add_any FN c x ltac:(lia)) as (c' & E & P & Ec & _). exists c'. split; [exact E|]. split; [|exact P].
    destruct P as (P & _). split; [congruence|]. rewrite Ec, H2. unfold zlen. rewrite app_length. cbn [length]. lia.
  - intros c H1 _ _ H3. split; assumption.
  - exact Hw.
  - split; [rewrite live_nil; split; reflexivity|]. rewrite live_nil. repeat split.
  - auto.
  - apply le_n.
Qed.
Lemma any_push len w h c x : (len <= 66)%nat -> 0 <= w -> winv (Qb len) w h c -> exists c', c_push FN c x = Ok c' /\ winv (Qb len) w (h ++ [x]) c'.
Proof.
  intros Hlen Hw I. apply (winv_push FN (fun _ => True) (S (length h)) (Qb len) (Qb len)).
  - intros ? ? ? ? ? ? H. exact H.
  - intros ? ? ? ? ? ? H. exact H.
  - auto.
  - intros n y l c' _ _ [H1 H2]. destruct (c_remove_any FN c' y ltac:(lia)) as (c2 & E & P & Ec & _). exists c2. split; [exact E|]. split; [|exact P].
    destruct P as (P & _). split; [congruence|]. rewrite Ec, H2. unfold zlen. cbn [length]. lia.
  - intros n l y c' _ _ _ [H1 H2]. destruct (c_add_any FN c' y ltac:(lia)) as (c2 & E & P & Ec & _). exists c2. split; [exact E|]. split; [|exact P].
    destruct P as (P & _). split; [congruence|]. rewrite Ec, H2. unfold zlen. rewrite app_length. cbn [length]. lia.
  - exact Hw.
  - lia.
  - apply Forall_forall. auto.
  - exact Logic.I.
  - exact I.
Qed.
(** How bad the state is: 1: the mean is not finite, 2: it is NaN, 3: and so are the sums. *)
Definition bad (d : nat) (c : @core f64) : Prop :=
  ((1 <= d)%nat -> isfin (c_mean c) = false) /\ ((2 <= d)%nat -> c_mean c = fnan) /\ ((3 <= d)%nat -> forall k, (2 <= k < c_len c)%nat -> c_sums c k = fnan).
Lemma live_zlen_nonneg {A} (l : list A) : 0 <= zlen l. Proof. unfold zlen. lia. Qed.
Lemma push_bad len w h c x c' d : (len <= 66)%nat -> w <> 1 -> 0 <= w -> winv (Qb len) w h c -> c_push FN c x = Ok c' ->
  bad d c -> (d = 0%nat -> isfin x = false) -> bad (S d) c'.
Proof.
  intros Hlen Hw1 Hw0 ((Hl & Hc) & Ew & Ed & Rc & Rq) E (B1 & B2 & B3) Hx. destruct (c_push_split c c' x Ed E) as (c1 & c2 & H & M2 & L2 & C2 & Ea).
  assert (Hz := live_zlen_nonneg (live w h)).
  assert (H1 : c_len c1 = len /\ 0 <= c_count c1 /\ ((1 <= d)%nat -> isfin (c_mean c1) = false) /\ ((2 <= d)%nat -> c_mean c1 = fnan)).
  { destruct H as [->|(y & q & Hf & Hw & Er)]; [rewrite Hl, Hc; auto|].
    destruct (c_remove_any FN (reparam c (c_window c) (c_decay c) q) y) as (c1' & Er' & (P & _) & Cr & Mr); [cbn [reparam c_len]; lia|].
    assert (c1' = c1) by congruence. subst c1'. cbn [reparam c_len c_count c_mean] in *.
    unfold ring_len in Hf. rewrite Rq in Hf by congruence. fold (zlen (live w h)) in Hf.
    destruct (Z.gtb_spec (c_count c - 1) 0) as [Hp|Hp]; [|lia]. rewrite P, Mr. split; [exact Hl|]. split; [lia|].
    split; intros Hd; [apply rem_mean_inf; [auto|lia]|]. rewrite (B2 Hd). apply rem_mean_nan. }
  destruct H1 as (L1 & C1 & M1 & N1). rewrite <- M2 in M1, N1. rewrite <- C2 in C1. rewrite <- L2 in L1. clear M2 C2 L2 H.
  destruct (c_add_any FN c2 x ltac:(lia)) as (c'' & E' & (P & _) & Cc & Mc). assert (c'' = c') by congruence. subst c''.
  split; [|split].
  - intros _. rewrite Mc. destruct d as [|d]; [apply add_mean_inf; auto|]. rewrite add_mean_nan; [reflexivity|apply M1; lia|lia].
  - intros Hd. rewrite Mc. apply add_mean_nan; [apply M1; lia|lia].
  - intros Hd k Hk. apply (c_add_nan c2 x c'); [apply N1; lia|exact Ea|]. rewrite <- P. exact Hk.
Qed.
(** Any history, then a value that is not finite, then values. *)
Lemma bad_pushes len w ys : forall h c d, (len <= 66)%nat -> w <> 1 -> 0 <= w -> winv (Qb len) w h c -> bad d c -> (1 <= d)%nat ->
  exists c', run (c_push FN) (c_clear FN) (map OPush ys) c = Ok c' /\ winv (Qb len) w (h ++ ys) c' /\ bad (d + length ys) c'.
Proof.
  induction ys as [|y ys IH]; intros h c d Hlen Hw1 Hw0 I Hb Hd.
  - exists c. rewrite app_nil_r, Nat.add_0_r. auto.
  - destruct (any_push len w h c y Hlen Hw0 I) as (c1 & E & I1). cbn [map run]. rewrite E. cbn [bind].
    destruct (IH (h ++ [y]) c1 (S d) Hlen Hw1 Hw0 I1) as (c' & E' & I' & B'); [apply (push_bad len w h c y c1 d); auto; lia|lia|].
    exists c'. split; [exact E'|]. rewrite <- app_assoc in I'. split; [exact I'|]. cbn [length]. rewrite Nat.add_succ_r. exact B'.
Qed.

(** ** The metrics with a window *)
Inductive wkind (w : Z) : @kind f64 -> Prop :=
| wk_mean : wkind w (KMean w)
| wk_moment p : 2 <= p <= 65 -> wkind w (KMoment p w)
| wk_std : wkind w (KStd w)
| wk_skew : wkind w (KSkew w)
| wk_kurt : wkind w (KKurt w).
Lemma wkind_core w k : 0 <= w -> wkind w k -> exists len, (len <= 66)%nat /\
  new_core FN (kconfig k) = Ok (mkCore (fz 0) len (fun _ => fz 0) 0 w None (ring_new w)) /\
  match k with KMean _ => True | KMoment p _ => p < Z.of_nat len | KStd _ => (3 <= len)%nat | KSkew _ => (4 <= len)%nat | _ => (5 <= len)%nat end.
Proof.
  intros Hw Hk. destruct (Z.ltb_spec w 0) as [?|Hlt]; [lia|].
  assert (Hv : (w <? 0) = false) by (apply Z.ltb_ge; lia).
  destruct Hk as [|p Hp| | |].
  1: exists 0%nat. 2: exists (Z.to_nat (p + 1)). 3: exists 3%nat. 4: exists 4%nat. 5: exists 5%nat.
  all: split; [lia|]; unfold new_core; cbv zeta; unfold validate; cbn [set_defaults kconfig cf_window cf_decay cf_sums sums_of existsb]; rewrite Hv.
  2: replace (p <=? 0) with false by (symmetry; apply Z.leb_gt; lia).
  all: cbn [bind orb Z.leb Z.compare].
  2: { unfold max_sum. cbn [fold_left]. replace (p >? -1) with true by (symmetry; apply Z.gtb_lt; lia). split; [reflexivity|lia]. }
  all: split; [reflexivity|lia || exact Logic.I].
Qed.
Lemma sum_nan c p : c_count c <> 0 -> 2 <= p < Z.of_nat (c_len c) -> bad 3 c -> c_get_sum c p = Ok fnan.
Proof.
  intros Hc Hp (_ & _ & B). unfold c_get_sum. destruct (Z.eqb_spec (c_count c) 0); [contradiction|].
  destruct (Z.leb_spec p 0); [lia|]. destruct (Z.geb_spec p (Z.of_nat (c_len c))); [lia|]. cbn [orb]. rewrite B by lia. reflexivity.
Qed.
Lemma moment_nan c p : c_count c <> 0 -> 2 <= p < Z.of_nat (c_len c) -> bad 3 c -> moment_value FN c p = Ok fnan.
Proof. intros Hc Hp B. unfold moment_value. rewrite (sum_nan c p Hc Hp B). cbn [bind ndiv FN]. rewrite fdiv_nan_l. reflexivity. Qed.
Lemma bad_value w k c len : wkind w k -> c_len c = len -> c_count c <> 0 -> bad 3 c ->
  match k with KMean _ => True | KMoment p _ => p < Z.of_nat len | KStd _ => (3 <= len)%nat | KSkew _ => (4 <= len)%nat | _ => (5 <= len)%nat end ->
  kvalue FN k c = Ok fnan.
Proof.
  intros Hk Hl Hc B Hlen. assert (M : c_mean c = fnan) by (apply B; lia). destruct Hk as [|p Hp| | |]; cbn [kvalue].
  - unfold c_get_mean. destruct (Z.eqb_spec (c_count c) 0); [contradiction|]. rewrite M. reflexivity.
  - apply moment_nan; [exact Hc|lia|exact B].
  - rewrite moment_nan by (try exact Hc; try exact B; lia). reflexivity.
  - unfold c_get_count. destruct (Z.eqb_spec (c_count c) 0); [contradiction|]. rewrite !moment_nan by (try exact Hc; try exact B; lia).
    cbn [bind nmul ndiv FN]. rewrite fmul_nan_l, fmul_nan_r, fdiv_nan_l. reflexivity.
  - unfold c_get_count. destruct (Z.eqb_spec (c_count c) 0); [contradiction|]. rewrite !moment_nan by (try exact Hc; try exact B; lia).
    cbn [bind nmul ndiv nsub FN]. rewrite fmul_nan_l, fdiv_nan_l, fsub_nan_l. reflexivity.
Qed.
Lemma bad_run w k ops x ys : 2 <= w -> wkind w k -> isfin x = false -> (2 <= length ys)%nat ->
  exists m, m_run FN k (ops ++ OPush x :: map OPush ys) = Ok m /\ m_value FN m = Ok fnan.
Proof.
  intros Hw Hk Hx Hys. destruct (wkind_core w k ltac:(lia) Hk) as (len & Hlen & En & Hp).
  destruct (any_run len w ops Hlen ltac:(lia)) as (c & E & I). destruct (any_push len w (hist ops) c x Hlen ltac:(lia) I) as (c1 & E1 & I1).
  assert (B1 : bad 1 c1) by (apply (push_bad len w (hist ops) c x c1 0); auto; try lia; split; [|split]; intros; lia).
  destruct (bad_pushes len w ys (hist ops ++ [x]) c1 1 Hlen ltac:(lia) ltac:(lia) I1 B1 (le_n 1)) as (c2 & E2 & I2 & B2).
  exists (mkM k (Some c2)). split.
  - rewrite m_run_eq, En. cbn [bind]. unfold core_run. rewrite run_app. unfold core_run in E. rewrite E. cbn [bind run]. rewrite E1. cbn [bind]. rewrite E2. reflexivity.
  - unfold m_value. cbn [m_core m_kind]. destruct I2 as ((L2 & C2) & _). apply (bad_value w k c2 len); auto.
    + rewrite C2. destruct ys as [|y ys] using rev_ind; [cbn in Hys; lia|]. rewrite app_assoc, live_push by lia. unfold zlen. rewrite app_length. cbn [length]. lia.
    + destruct B2 as (P1 & P2 & P3). split; [|split]; intros; [apply P1|apply P2|apply P3]; try lia.
Qed.

(** ** Window 1 *)
Definition Q1 (n : nat) (l : list f64) (c : @core f64) : Prop :=
  c_len c = 0%nat /\ c_count c = zlen l /\ match l with [] => c_mean c = fz 0 | [x] => c_mean c = add_mean FN (fz 0) x 1 | _ => True end.
Definition R1 (n : nat) (l : list f64) (c : @core f64) : Prop :=
  c_len c = 0%nat /\ c_count c = zlen l /\ match l with [] => c_mean c = fz 0 | _ => True end.
Lemma run1 w ops : 0 <= w -> exists c, core_run FN (mkCore (fz 0) 0 (fun _ => fz 0) 0 w None (ring_new w)) ops = Ok c /\ winv Q1 w (hist ops) c.
Proof.
  intros Hw.
  apply (core_run_winv FN (fun _ => True) (length ops) (fun l => l = 0%nat) Q1 R1).
  - intros ? ? ? H. apply H.
  - intros ? ? ? ? ? ? H. exact H.
  - intros ? ? ? ? ? ? H. exact H.
  - intros n l c _ (H1 & H2 & H3). split; [exact H1|]. split; [exact H2|]. destruct l; auto.
  - intros n y l c _ _ (H1 & H2 & H3). destruct (c_remove_any FN c y ltac:(lia)) as (c' & E & P & Ec & Em). exists c'. split; [exact E|]. split; [|exact P].
    destruct P as (P & _). assert (Hc : c_count c - 1 = zlen l) by (rewrite H2; unfold zlen; cbn [length]; lia). rewrite Hc in *.
    split; [congruence|]. split; [exact Ec|]. destruct l; [|exact Logic.I]. exact Em.
  - intros n l x c _ _ _ (H1 & H2 & H3). destruct (c_add_any FN c x ltac:(lia)) as (c' & E & P & Ec & Em). exists c'. split; [exact E|]. split; [|exact P].
    destruct P as (P & _). split; [congruence|]. split; [rewrite Ec, H2; unfold zlen; rewrite app_length; cbn [length]; lia|].
    destruct l as [|y [|z l]]; [|exact Logic.I|exact Logic.I]. cbn [app]. rewrite Em, H2, H3. reflexivity.
  - intros c H1 H2 _ H3. split; [exact H1|]. split; [exact H3|exact H2].
  - exact Hw.
  - split; [rewrite live_nil; repeat split|]. rewrite live_nil. repeat split.
  - auto.
  - apply le_n.
Qed.
Lemma add_mean_first x : isfin x = true -> isfin (add_mean FN (fz 0) x 1) = true /\ B2R (add_mean FN (fz 0) x 1) = B2R x.
Proof.
  intros Fx. unfold add_mean, isfin in *. cbn [nadd ndiv nsub nz FN]. change (fz 0) with (B754_zero false : f64).
  assert (Es : B2R (fsub x (B754_zero false)) = B2R x /\ is_finite (fsub x (B754_zero false)) = true) by (destruct x as [[|]|?| |? ? ? ?]; try discriminate Fx; split; reflexivity).
  destruct Es as [Es Fs]. destruct (fz_real 1 ltac:(lia)) as [F1 E1]. pose proof (Bdiv_correct 53 1024 _ _ mode_NE (fsub x (B754_zero false)) (fz 1)) as H.
  rewrite E1 in H. specialize (H ltac:(lra)). rewrite Es in H. unfold Rdiv in H. rewrite Rinv_1, Rmult_1_r in H.
  fold (rnd (B2R x)) in H. rewrite rnd_fmt in H by apply fmt_B2R. rewrite Rlt_bool_true in H by (apply abs_B2R_lt_emax). destruct H as (Eq & Fq & _). rewrite Fs in Fq.
  unfold fdiv. set (q := Bdiv mode_NE _ _) in *. clearbody q. destruct q as [[|]|?| |? ? ? ?]; try discriminate Fq; split; auto.
Qed.
