(** C92: changing every value a little changes a metric of location no more than that. *)
From Coq Require Import ZArith Lia Bool Reals Lra List.
From Flocq Require Import Core BinarySingleNaN.
From Verif Require Import Base F64 FloatR FloatMean HistSpec RingModel MathModel NumModel OrderSpec MinMaxModel MomentModel MomentSpec MetricProof EwmProof QuantileSpec QuantileModel QuantileProof QuantOrder HeapModel PropsMinMax PropsMoment PropsQuantile PropsQuantOrder PropsHeap PropsMedianAcc PropsMono PropsEwm.
Import ListNotations.
Local Open Scope Z_scope.

(** Both finite, and no further apart than [eps] *)
Definition fnear (eps : R) (x y : f64) : Prop := isfin x = true /\ isfin y = true /\ (Rabs (B2R x - B2R y) <= eps)%R.
Definition rnear (eps : R) (x y : R) : Prop := (Rabs (x - y) <= eps)%R.

Lemma fnear_sym eps x y : fnear eps x y -> fnear eps y x.
Proof. intros (A & B & C). repeat split; auto. rewrite Rabs_minus_sym. exact C. Qed.
Lemma F2_sym {A} (P : A -> A -> Prop) l l' : (forall x y, P x y -> P y x) -> Forall2 P l l' -> Forall2 P l' l.
Proof. intros S H. induction H; constructor; auto. Qed.
Lemma near_nonnan eps l l' : Forall2 (fnear eps) l l' -> Forall nonnan l /\ Forall nonnan l'.
Proof. intros H. induction H as [|x y l l' (Fx & Fy & _) _ [I1 I2]]; split; constructor; auto; apply fin_nonnan; assumption. Qed.
Lemma near_num eps ops ops' : raised (fnear eps) ops ops' -> pushes_nonnan ops /\ pushes_nonnan ops'.
Proof.
  intros H. unfold pushes_nonnan. split; (induction H as [|a b l l' Ho Hl IH]; intros x Hx; [destruct Hx|]; destruct Hx as [Hx|Hx]; [subst; first [destruct b as [y|]|destruct a as [y|]]; try contradiction; destruct Ho as (F1 & F2 & _); apply fin_nonnan; assumption|apply IH, Hx]).
Qed.
Lemma near_fin eps l l' x : Forall2 (fnear eps) l l' -> In x l -> isfin x = true.
Proof. intros H. induction H as [|a b l l' (Fa & _) _ IH]; [intros []|]. intros [<-|Hx]; auto. Qed.
Lemma exists_near eps l l' x : Forall2 (fnear eps) l l' -> In x l -> exists y, In y l' /\ fnear eps x y.
Proof. intros H. induction H as [|a b l l' Hab _ IH]; [intros []|]. intros [Hy|Hy]; [subst; exists b; split; [left; reflexivity|exact Hab]|]. destruct (IH Hy) as (y & Hx & Hxy). exists y. split; [right; exact Hx|exact Hxy]. Qed.
(** A k-th smallest value is one of the values, so it is finite. *)
Lemma kth_fin eps l l' k u : Forall2 (fnear eps) l l' -> is_kth l k u -> isfin u = true.
Proof.
  intros H Hk. destruct (near_nonnan eps l l' H) as [N _]. destruct (kth_between l k u N Hk) as ((a & Ha & Ea) & c & Hc & Ec). exact (fin_between a u c (near_fin eps l l' a H Ha) (near_fin eps l l' c H Hc) Ea Ec).
Qed.
Lemma fle_B x y : isfin x = true -> isfin y = true -> fle x y = true <-> (B2R x <= B2R y)%R.
Proof. exact (fle_R x y). Qed.
Lemma flt_B x y : isfin x = true -> isfin y = true -> (B2R x < B2R y)%R -> flt x y = true.
Proof.
  intros Fx Fy H. rewrite flt_key by (apply fin_nonnan; assumption). apply Z.ltb_lt. destruct (Z.le_gt_cases (fk y) (fk x)) as [L|L]; [|exact L]. pose proof (key_fin_le y x Fy Fx L). lra.
Qed.
Lemma kth_near1 eps l l' k u v : Forall2 (fnear eps) l l' -> is_kth l k u -> is_kth l' k v -> (B2R u <= B2R v + eps)%R.
Proof.
  intros H Ku Kv. pose proof (kth_fin eps l l' k u H Ku) as Fu. pose proof (kth_fin eps l' l k v (F2_sym _ l l' (fnear_sym eps) H) Kv) as Fv. destruct (Rle_or_lt (B2R u) (B2R v + eps)) as [L|L]; [exact L|]. exfalso.
  assert (C : (count_le v l' <= count_lt u l)%nat).
  { clear Ku Kv. unfold count_le, count_lt. induction H as [|x y l l' (Fx & Fy & D) _ IH]; cbn [filter length]; [lia|]. destruct (fle y v) eqn:E; [|destruct (flt x u); cbn [length]; lia].
    apply fle_B in E; [|assumption|assumption]. apply Rabs_le_inv in D. rewrite (flt_B x u Fx Fu) by lra. cbn [length]. lia. }
  destruct Ku as (_ & K1 & _). destruct Kv as (_ & _ & K2). lia.
Qed.
Lemma kth_near eps l l' k u v : Forall2 (fnear eps) l l' -> is_kth l k u -> is_kth l' k v -> fnear eps u v.
Proof.
  intros H Ku Kv. pose proof (F2_sym _ l l' (fnear_sym eps) H) as H'. split; [exact (kth_fin eps l l' k u H Ku)|]. split; [exact (kth_fin eps l' l k v H' Kv)|].
  pose proof (kth_near1 eps l l' k u v H Ku Kv). pose proof (kth_near1 eps l' l k v u H' Kv Ku). apply Rabs_le. lra.
Qed.
Lemma result_near eps mode l l' phi r r' : Forall2 (fnear eps) l l' -> mode = 1 \/ mode = 2 \/ mode = 3 -> quantile_result mode l phi r -> quantile_result mode l' phi r' -> fnear eps r r'.
Proof.
  intros H Hm Q Q'. assert (Ez : zlen l' = zlen l) by (unfold zlen; rewrite (F2_length H); reflexivity).
  unfold quantile_result in Q, Q'. rewrite Ez in Q'. cbv zeta in Q, Q'. set (raw := fmul phi (fz (zlen l - 1))) in *.
  destruct Q as (i & Hi & Q). destruct Q' as (j & Hj & Q').
  assert (i = j). { destruct (Nat.lt_trichotomy i j) as [L|[L|L]]; [|exact L|]; exfalso; assert (L' : (INR (S i) <= INR j)%R \/ (INR (S j) <= INR i)%R) by (first [left; apply le_INR; lia|right; apply le_INR; lia]); rewrite !S_INR in L'; lra. }
  subst j. pose proof (fun k u v => kth_near eps l l' k u v H) as K.
  destruct Q as [[E Ku]|(E & lo & hi & d & Klo & Khi & Fd & Ed & Q)].
  - destruct Q' as [[_ Kv]|(E' & _)]; [exact (K i r r' Ku Kv)|contradiction].
  - destruct Q' as [[E' _]|(_ & lo' & hi' & d' & Klo' & Khi' & Fd' & Ed' & Q')]; [contradiction|].
    destruct Q as [[M Er]|[[M Er]|[[M Er]|[(M & A1 & A2 & A3)|[M Er]]]]]; destruct Q' as [[M' Er']|[[M' Er']|[[M' Er']|[(M' & B1 & B2 & B3)|[M' Er']]]]]; try lia; try (rewrite Er, Er'; eauto).
    destruct (Rtotal_order (B2R raw - INR i) (/ 2)) as [T|[T|T]]; [rewrite (A1 T), (B1 T); eauto| |rewrite (A2 T), (B2 T); eauto].
    destruct (A3 T) as [A4 A5]. destruct (B3 T) as [B4 B5]. destruct (Nat.Even_or_Odd i) as [P|P]; [rewrite (A4 P), (B4 P); eauto|rewrite (A5 P), (B5 P); eauto].
Qed.
Lemma median_near eps l l' m m' : Forall2 (fnear eps) l l' -> real_median l m -> real_median l' m' -> (Rabs (m - m') <= eps)%R.
Proof.
  intros H [O E] [O' E']. rewrite <- (F2_length H) in O', E'. destruct (Nat.Even_or_Odd (length l)) as [P|P].
  - destruct (E P) as (lo & hi & K1 & K2 & ->). destruct (E' P) as (lo' & hi' & K3 & K4 & ->). destruct (kth_near eps l l' _ _ _ H K1 K3) as (_ & _ & D1). destruct (kth_near eps l l' _ _ _ H K2 K4) as (_ & _ & D2). apply Rabs_le_inv in D1. apply Rabs_le_inv in D2. apply Rabs_le. lra.
  - destruct (O P) as (x & K1 & ->). destruct (O' P) as (y & K2 & ->). exact (proj2 (proj2 (kth_near eps l l' _ _ _ H K1 K2))).
Qed.

(** ** C92 *)
(** Min and Max with any window. *)
Theorem C92_min_max : forall eps w ops ops', 0 <= w -> raised (fnear eps) ops ops' -> hist ops <> [] ->
  exists m m' n n' a a' b b', min_run w ops = Ok m /\ min_run w ops' = Ok m' /\ max_run w ops = Ok n /\ max_run w ops' = Ok n' /\
    min_value m = Ok a /\ min_value m' = Ok a' /\ fnear eps a a' /\ max_value n = Ok b /\ max_value n' = Ok b' /\ fnear eps b b'.
Proof.
  intros eps w ops ops' Hw H Hne. pose proof (raised_live (fnear eps) w ops ops' H) as Hl. pose proof (raised_live (fnear eps) 0 ops ops' H) as Hh. change (Forall2 (fnear eps) (hist ops) (hist ops')) in Hh. destruct (near_nonnan eps _ _ Hh) as [N N'].
  assert (Hne' : hist ops' <> []) by (intros E; rewrite E in Hh; inversion Hh; congruence). pose proof (F2_sym _ _ _ (fnear_sym eps) Hl) as Hl'.
  destruct (C01_min_is_window_minimum w ops Hw N) as (m & Em & _ & Vm). destruct (C01_min_is_window_minimum w ops' Hw N') as (m' & Em' & _ & Vm'). destruct (C02_max_is_window_maximum w ops Hw N) as (n & En & _ & Vn). destruct (C02_max_is_window_maximum w ops' Hw N') as (n' & En' & _ & Vn').
  destruct (Vm Hne) as (a & Ea & Ia & La). destruct (Vm' Hne') as (a' & Ea' & Ia' & La'). destruct (Vn Hne) as (b & Eb & Ib & Lb). destruct (Vn' Hne') as (b' & Eb' & Ib' & Lb').
  exists m, m', n, n', a, a', b, b'. do 6 (split; [assumption|]). split; [|split; [assumption|split; [assumption|]]].
  - destruct (exists_near eps _ _ a Hl Ia) as (y & Iy & Fa & Fy & Dy). destruct (exists_near eps _ _ a' Hl' Ia') as (x & Ix & Fa' & Fx & Dx). specialize (La x Ix). specialize (La' y Iy).
    apply fle_B in La; [|assumption|assumption]. apply fle_B in La'; [|assumption|assumption]. apply Rabs_le_inv in Dy. apply Rabs_le_inv in Dx. split; [exact Fa|]. split; [exact Fa'|]. apply Rabs_le. lra.
  - destruct (exists_near eps _ _ b Hl Ib) as (y & Iy & Fa & Fy & Dy). destruct (exists_near eps _ _ b' Hl' Ib') as (x & Ix & Fa' & Fx & Dx). specialize (Lb x Ix). specialize (Lb' y Iy). change (fle x b = true) in Lb. change (fle y b' = true) in Lb'.
    apply fle_B in Lb; [|assumption|assumption]. apply fle_B in Lb'; [|assumption|assumption]. apply Rabs_le_inv in Dy. apply Rabs_le_inv in Dx. split; [exact Fa|]. split; [exact Fa'|]. apply Rabs_le. lra.
Qed.
Print Assumptions C92_min_max.
(** Quantile in the modes lower, higher and nearest, under the storage conditions of C11. *)
Theorem C92_quantile_partial : forall eps e w os ops ops' phi, 0 <= w -> Forall qopt_num os -> Forall qopt_valid os -> raised (fnear eps) ops ops' -> impl_cond (chosen_impl os) w ops -> impl_cond (chosen_impl os) w ops' ->
  nonnan phi -> in_range phi = true -> live w (hist ops) <> [] -> zlen (live w (hist ops)) <= 2 ^ 53 -> chosen_interp os = 1 \/ chosen_interp os = 2 \/ chosen_interp os = 3 ->
  exists q q' r r', q_run e w os ops = Ok q /\ q_run e w os ops' = Ok q' /\ q_value e q phi = Ok r /\ q_value e q' phi = Ok r' /\ fnear eps r r'.
Proof.
  intros eps e w os ops ops' phi Hw Hn Hv H Hi Hi' Np Hr Hl Hz Hm. destruct (near_num eps ops ops' H) as [N N']. pose proof (raised_live (fnear eps) w ops ops' H) as Hd.
  assert (Hl' : live w (hist ops') <> []) by (intros E; rewrite E in Hd; inversion Hd; congruence).
  destruct (quantile_ok e w os ops phi Hw Hn Hv N Hi Np Hr Hl Hz) as (q & r & E & Er & Q).
  destruct (quantile_ok e w os ops' phi Hw Hn Hv N' Hi' Np Hr Hl' ltac:(unfold zlen in *; rewrite <- (F2_length Hd); exact Hz)) as (q' & r' & E' & Er' & Q').
  exists q, q', r, r'. do 4 (split; [assumption|]). exact (result_near eps (chosen_interp os) _ _ phi r r' Hd Hm Q Q').
Qed.
Print Assumptions C92_quantile_partial.
(** Median, and HeapMedian without a window: up to the one rounding of each result, for values up to 2^1022. *)
Theorem C92_median_partial : forall eps e w os ops ops', 0 <= w -> Forall qopt_num os -> Forall qopt_valid os -> raised (fnear eps) ops ops' -> impl_cond (chosen_impl os) w ops -> impl_cond (chosen_impl os) w ops' ->
  live w (hist ops) <> [] -> zlen (live w (hist ops)) <= 2 ^ 53 -> (forall x, In x (live w (hist ops) ++ live w (hist ops')) -> (Rabs (B2R x) <= bpow radix2 1022)%R) ->
  exists q q' r r' t t', median_run e w os ops = Ok q /\ median_run e w os ops' = Ok q' /\ median_value e q = Ok r /\ median_value e q' = Ok r' /\ nearest_to t r /\ nearest_to t' r' /\ (Rabs (t - t') <= eps)%R.
Proof.
  intros eps e w os ops ops' Hw Hn Hv H Hi Hi' Hl Hz Hs. destruct (near_num eps ops ops' H) as [N N']. pose proof (raised_live (fnear eps) w ops ops' H) as Hd. pose proof (F2_sym _ _ _ (fnear_sym eps) Hd) as Hd'.
  assert (Hl' : live w (hist ops') <> []) by (intros E; rewrite E in Hd; inversion Hd; congruence).
  destruct (C87_median_partial e w os ops Hw Hn Hv N Hi Hl Hz) as (q & r & E & Er & (t & Ht) & R); [intros x Hx; split; [exact (near_fin eps _ _ x Hd Hx)|apply Hs, in_or_app; left; exact Hx]|].
  destruct (C87_median_partial e w os ops' Hw Hn Hv N' Hi' Hl' ltac:(unfold zlen in *; rewrite <- (F2_length Hd); exact Hz)) as (q' & r' & E' & Er' & (t' & Ht') & R'); [intros x Hx; split; [exact (near_fin eps _ _ x Hd' Hx)|apply Hs, in_or_app; right; exact Hx]|].
  exists q, q', r, r', t, t'. do 4 (split; [assumption|]). split; [exact (R t Ht)|]. split; [exact (R' t' Ht')|]. exact (median_near eps _ _ t t' Hd Ht Ht').
Qed.
Print Assumptions C92_median_partial.
Theorem C92_heap_median_partial : forall eps ops ops', raised (fnear eps) ops ops' -> hist ops <> [] -> (forall x, In x (hist ops ++ hist ops') -> (Rabs (B2R x) <= bpow radix2 1022)%R) ->
  exists h h' r r' t t', hm_run 0 ops = Ok h /\ hm_run 0 ops' = Ok h' /\ hm_value h = Ok r /\ hm_value h' = Ok r' /\ nearest_to t r /\ nearest_to t' r' /\ (Rabs (t - t') <= eps)%R.
Proof.
  intros eps ops ops' H Hl Hs. destruct (near_num eps ops ops' H) as [N N']. pose proof (raised_live (fnear eps) 0 ops ops' H) as Hd. change (Forall2 (fnear eps) (hist ops) (hist ops')) in Hd. pose proof (F2_sym _ _ _ (fnear_sym eps) Hd) as Hd'.
  assert (Hl' : hist ops' <> []) by (intros E; rewrite E in Hd; inversion Hd; congruence).
  destruct (C87_heap_median_partial ops N Hl) as (q & r & E & Er & (t & Ht) & R); [intros x Hx; split; [exact (near_fin eps _ _ x Hd Hx)|apply Hs, in_or_app; left; exact Hx]|].
  destruct (C87_heap_median_partial ops' N' Hl') as (q' & r' & E' & Er' & (t' & Ht') & R'); [intros x Hx; split; [exact (near_fin eps _ _ x Hd' Hx)|apply Hs, in_or_app; right; exact Hx]|].
  exists q, q', r, r', t, t'. do 4 (split; [assumption|]). split; [exact (R t Ht)|]. split; [exact (R' t' Ht')|]. exact (median_near eps _ _ t t' Hd Ht Ht').
Qed.
Print Assumptions C92_heap_median_partial.
(** Mean and EWMA in exact arithmetic. *)
Lemma rsum_near eps l l' : Forall2 (rnear eps) l l' -> (Rabs (rsum l - rsum l') <= IZR (zlen l) * eps)%R.
Proof.
  intros H. induction H as [|x y l l' Hx _ IH]; [unfold zlen; cbn; rewrite Rminus_0_r, Rabs_R0; lra|]. unfold zlen in *. cbn [length rsum fold_right] in *. rewrite Nat2Z.inj_succ, succ_IZR. unfold rnear, rsum in *. apply Rabs_le_inv in Hx. apply Rabs_le_inv in IH. apply Rabs_le. lra.
Qed.
Lemma ewma_near d eps l l' : (0 < d < 1)%R -> (0 <= eps)%R -> Forall2 (rnear eps) l l' -> (Rabs (ewma d l - ewma d l') <= eps)%R.
Proof.
  intros Hd He. revert l'. induction l as [|x l IH] using rev_ind; intros l' H.
  - inversion H. subst. rewrite Rminus_diag_eq, Rabs_R0 by reflexivity. exact He.
  - apply Forall2_app_inv_l in H as (k & y' & H1 & H2 & ->). inversion H2 as [|? y ? t Hxy Ht]. subst. inversion Ht. subst. specialize (IH k H1). destruct l as [|z l].
    + inversion H1. subst. unfold rnear in Hxy. cbn [app]. replace (ewma d [x]) with x by (cbn; unfold ewma, wsum, eweights; cbn; unfold eweight; cbn; lra). replace (ewma d [y]) with y by (cbn; unfold ewma, wsum, eweights; cbn; unfold eweight; cbn; lra). exact Hxy.
    + assert (k <> []) by (intros ->; inversion H1). rewrite !ewma_push by (first [assumption|discriminate]). unfold rnear in Hxy. apply Rabs_le_inv in Hxy. apply Rabs_le_inv in IH. apply Rabs_le. nra.
Qed.
Theorem C92_mean_exact_partial : forall eps w d ops ops', 0 <= w -> (0 < d < 1)%R -> raised (rnear eps) ops ops' -> hist ops <> [] ->
  (exists a a', mval (KMean w) ops = Ok (Fin a) /\ mval (KMean w) ops' = Ok (Fin a') /\ (Rabs (a - a') <= eps)%R) /\
  (exists b b', mval (KEwma (Fin d)) ops = Ok (Fin b) /\ mval (KEwma (Fin d)) ops' = Ok (Fin b') /\ (Rabs (b - b') <= eps)%R).
Proof.
  intros eps w d ops ops' Hw Hd H Hne. pose proof (raised_live (rnear eps) w ops ops' H) as Hl. pose proof (raised_live (rnear eps) 0 ops ops' H) as Hh. change (Forall2 (rnear eps) (hist ops) (hist ops')) in Hh. split.
  - destruct (C20_moment_metrics w ops Hw) as (A & _). destruct (C20_moment_metrics w ops' Hw) as (B & _). rewrite A, B. destruct (live w (hist ops)) as [|x l] eqn:E; [exfalso; apply Hne; apply (live_empty w); assumption|].
    destruct (live w (hist ops')) as [|x' l'] eqn:E'; [inversion Hl|]. cbn [mean_of]. eexists. eexists. split; [reflexivity|]. split; [reflexivity|]. pose proof (rsum_near eps _ _ Hl) as S1. unfold rmean, rlen. assert (Z : zlen (x' :: l') = zlen (x :: l)) by (unfold zlen; rewrite (F2_length Hl); reflexivity). rewrite Z.
    assert (P : (0 < IZR (zlen (x :: l)))%R) by (apply IZR_lt; unfold zlen; cbn [length]; lia). set (n := IZR (zlen (x :: l))) in *. replace (rsum (x :: l) / n - rsum (x' :: l') / n)%R with ((rsum (x :: l) - rsum (x' :: l')) * / n)%R by (field; lra).
    rewrite Rabs_mult, (Rabs_pos_eq (/ n)) by (left; apply Rinv_0_lt_compat; exact P). apply (Rmult_le_reg_r n); [exact P|]. rewrite Rmult_assoc, Rinv_l, Rmult_1_r by lra. lra.
  - destruct (C21_ewm d ops Hd) as (A & _). destruct (C21_ewm d ops' Hd) as (B & _). rewrite A, B. destruct (hist ops) as [|x l] eqn:E; [contradiction|]. destruct (hist ops') as [|x' l'] eqn:E'; [inversion Hh|].
    cbn [ewma_of]. eexists. eexists. split; [reflexivity|]. split; [reflexivity|]. apply (ewma_near d eps); [exact Hd| |exact Hh]. inversion Hh as [|? ? ? ? D _]. subst. unfold rnear in D. pose proof (Rabs_pos (x - x')). lra.
Qed.
Print Assumptions C92_mean_exact_partial.

(** In float64 Mean and EWMA can change by more: a change of one value by one unit in the last place can change the result by four times as much. HeapMedian with a window can change by any amount, as it may lose another value (C18). *)
Definition nearb (e x y : f64) : bool := isfin e && isfin x && isfin y && (Z.abs (fk x - fk y) <=? fk e).
Definition farb (e x y : f64) : bool := isfin e && isfin x && isfin y && (fk e <? Z.abs (fk x - fk y)).
Lemma diff_key (x y : f64) : isfin x = true -> isfin y = true -> Rabs (B2R x - B2R y) = (IZR (Z.abs (fk x - fk y)) * bpow radix2 (-1074))%R.
Proof. intros Fx Fy. rewrite (B2R_fk x Fx), (B2R_fk y Fy), <- Rmult_minus_distr_r, <- minus_IZR, Rabs_mult, <- abs_IZR, (Rabs_pos_eq (bpow _ _)) by apply bpow_ge_0. reflexivity. Qed.
Lemma nearb_ok e x y : nearb e x y = true -> fnear (B2R e) x y.
Proof.
  unfold nearb. intros H. apply andb_prop in H as [H K]. apply andb_prop in H as [H Fy]. apply andb_prop in H as [Fe Fx]. split; [exact Fx|]. split; [exact Fy|]. rewrite (diff_key x y Fx Fy), (B2R_fk e Fe). apply Rmult_le_compat_r; [apply bpow_ge_0|]. apply IZR_le, Z.leb_le, K.
Qed.
Lemma farb_ok e x y : farb e x y = true -> isfin x = true /\ isfin y = true /\ (B2R e < Rabs (B2R x - B2R y))%R.
Proof.
  unfold farb. intros H. apply andb_prop in H as [H K]. apply andb_prop in H as [H Fy]. apply andb_prop in H as [Fe Fx]. split; [exact Fx|]. split; [exact Fy|]. rewrite (diff_key x y Fx Fy), (B2R_fk e Fe). apply Rmult_lt_compat_r; [apply bpow_gt_0|]. apply IZR_lt, Z.ltb_lt, K.
Qed.
Lemma both_far e (a b : res f64) : (match a, b with Ok x, Ok y => farb e x y | _, _ => false end) = true -> exists x y, a = Ok x /\ b = Ok y /\ (B2R e < Rabs (B2R x - B2R y))%R.
Proof. destruct a as [x| | | |]; try discriminate. destruct b as [y| | | |]; try discriminate. intros H. exists x, y. destruct (farb_ok e x y H) as (_ & _ & L). auto. Qed.
Ltac near_ops := unfold raised, hm_ops; cbn [map]; repeat (apply Forall2_cons; [apply nearb_ok; vm_compute; reflexivity|]); apply Forall2_nil.
Theorem C92_float_refuted : exists eps ops ops' eps2 e e' d, raised (fnear eps) ops ops' /\ raised (fnear eps2) e e' /\ decay_ok d /\
  (exists a a', (m <- m_run FN (KMean 0) ops ;; m_value FN m) = Ok a /\ (m <- m_run FN (KMean 0) ops' ;; m_value FN m) = Ok a' /\ (eps < Rabs (B2R a - B2R a'))%R) /\
  (exists b b', (m <- m_run FN (KEwma d) e ;; m_value FN m) = Ok b /\ (m <- m_run FN (KEwma d) e' ;; m_value FN m) = Ok b' /\ (eps2 < Rabs (B2R b - B2R b'))%R).
Proof.
  exists (B2R (fdy 1 (-52))), (map OPush [fdy 6195526582907739 (-52); fdy 6814478870972586 (-49)]), (map OPush [fdy 6195526582907740 (-52); fdy 6814478870972586 (-49)]), (B2R (fdy 1 (-51))), (map OPush [fz 0; fz 2; fz 9]), (map OPush [fz 0; fdy 4503599627370497 (-51); fz 9]), (fdy 8106479329266893 (-53)).
  split; [near_ops|]. split; [near_ops|]. split; [split; vm_compute; reflexivity|]. split; apply both_far; vm_compute; reflexivity.
Qed.
Print Assumptions C92_float_refuted.
Theorem C92_heap_median_window_refuted : exists eps w ops ops' r r', 0 < w /\ raised (fnear eps) ops ops' /\
  (m <- hm_run w ops ;; hm_value m) = Ok r /\ (m <- hm_run w ops' ;; hm_value m) = Ok r' /\ (eps < Rabs (B2R r - B2R r'))%R.
Proof.
  destruct (both_far (fz 1) (m <- hm_run 2 (hm_ops [10; 10; 0; 0]) ;; hm_value m) (m <- hm_run 2 (hm_ops [10; 11; 0; 0]) ;; hm_value m)) as (r & r' & A & B & C); [vm_compute; reflexivity|].
  exists (B2R (fz 1)), 2, (hm_ops [10; 10; 0; 0]), (hm_ops [10; 11; 0; 0]), r, r'. split; [lia|]. split; [near_ops|]. split; [exact A|]. split; [exact B|exact C].
Qed.
Print Assumptions C92_heap_median_window_refuted.
(** Window 3, values 5 1 4 2 against 5.25 1.25 3.75 2.25, a quarter apart: Max 4 and 3.75, lower 3/4-quantile 2 and 2.25, Median 2 and 2.25. *)
Definition scase : list (op f64) := map OPush [fdy 21 (-2); fdy 5 (-2); fdy 15 (-2); fdy 9 (-2)].
Example C92_case : raised (fnear (B2R (fdy 1 (-2)))) (hm_ops [5; 1; 4; 2]) scase /\ Forall in22 (hist (hm_ops [5; 1; 4; 2]) ++ hist scase) /\ impl_cond (chosen_impl [QInterp 1]) 3 (hm_ops [5; 1; 4; 2]) /\ impl_cond (chosen_impl [QInterp 1]) 3 scase /\
  map (fun l => rmap fbits (m <- max_run 3 l ;; max_value m)) [hm_ops [5; 1; 4; 2]; scase] = [Ok (fbits (fz 4)); Ok (fbits (fdy 15 (-2)))] /\
  map (fun l => rmap fbits (q <- q_run env0 3 [QInterp 1] l ;; q_value env0 q (fdy 3 (-2)))) [hm_ops [5; 1; 4; 2]; scase] = [Ok (fbits (fz 2)); Ok (fbits (fdy 9 (-2)))] /\
  map (fun l => rmap fbits (q <- median_run env0 3 [] l ;; median_value env0 q)) [hm_ops [5; 1; 4; 2]; scase] = [Ok (fbits (fz 2)); Ok (fbits (fdy 9 (-2)))].
Proof.
  split; [unfold scase; near_ops|]. split; [apply Forall_in22b; vm_compute; reflexivity|]. do 2 (split; [left; reflexivity|]). repeat split; vm_compute; reflexivity.
Qed.
Example C92_exact_case : raised (rnear 1) [OPush 1%R; OClear; OPush 2%R] [OPush 0%R; OClear; OPush 3%R].
Proof. unfold raised. repeat (apply Forall2_cons; [first [exact I|unfold rnear; apply Rabs_le; lra]|]). apply Forall2_nil. Qed.
