(** Calls that neither panic nor block, whatever the values (C52). *)
From Coq Require Import List Lia.
From Flocq Require Import Core BinarySingleNaN.
From Verif Require Import Base F64 HistSpec RingModel MathModel MathProof NumModel MomentModel MetricProof CoreInv JointModel JointSpec TupleProof JointMetric MinMaxModel.
Local Open Scope Z_scope.

(** One push into a queue that holds the live values *)
Lemma win_step {A} w h (x : A) q : 0 < w -> rcap q = round_up w -> ritems q = live w h ->
  (ring_len q =? w) = true /\ (exists y l q', ring_get q = Ok (y, q') /\ live w h = y :: l /\ ring_put q' x = Ok (mkRing (rcap q) (live w (h ++ [x]))) /\ zlen (live w (h ++ [x])) = zlen (live w h)) \/
  (ring_len q =? w) = false /\ ring_put q x = Ok (mkRing (rcap q) (live w (h ++ [x]))) /\ zlen (live w (h ++ [x])) = zlen (live w h) + 1.
Proof.
  intros Hw Rc Rq. assert (Erl : ring_len q = zlen (live w h)) by (unfold ring_len; rewrite Rq; reflexivity).
  rewrite Erl. pose proof (live_push w h x Hw) as Hp. pose proof (live_zlen_le w h Hw) as Hle.
  destruct (Z.eqb_spec (zlen (live w h)) w) as [Hfull|Hnot].
  - left. split; [reflexivity|]. destruct (live w h) as [|y l] eqn:El; [unfold zlen in Hfull; cbn in Hfull; lia|]. cbn [tl] in Hp.
    exists y, l, (mkRing (rcap q) l). split; [unfold ring_get; rewrite Rq; reflexivity|]. split; [reflexivity|].
    rewrite (ring_put_ok _ x w); [|exact Rc|unfold ring_len; cbn [ritems]; unfold zlen in *; cbn [length] in Hfull; lia].
    rewrite Hp. split; [reflexivity|]. unfold zlen. rewrite app_length. cbn [length]. lia.
  - right. split; [reflexivity|]. rewrite (ring_put_ok _ x w); [|exact Rc|rewrite Erl; lia]. rewrite Hp, Rq. split; [reflexivity|].
    unfold zlen. rewrite app_length. cbn [length]. lia.
Qed.
Lemma zlen_snoc {A} (l : list A) x : zlen (l ++ [x]) = zlen l + 1.
Proof. unfold zlen. rewrite app_length. cbn [length]. lia. Qed.
Lemma zlen_nil_iff {A} (l : list A) : zlen l = 0 <-> l = [].
Proof. unfold zlen. destruct l; cbn [length]; split; intros H; try reflexivity; try congruence; lia. Qed.
Lemma live_0 {A} (h : list A) : live 0 h = h. Proof. reflexivity. Qed.

(** ** Min, Max *)
Section MinMax.
Variable push : mm -> f64 -> res mm.
Variable cond : f64 -> f64 -> bool.
Variable ext : f64 -> f64 -> f64.
Hypothesis push_eq : forall m x, push m x =
  if negb (mm_window m =? 0)%Z then
    m1 <- (if (ring_len (mm_queue m) =? mm_window m)%Z then
             '(val, q) <- ring_get (mm_queue m) ;;
             front <- dq_front (mm_deque m) ;;
             d <- (if feq front val then dq_pop_front (mm_deque m) else Ok (mm_deque m)) ;;
             Ok (mkMM (mm_window m) (mm_count m - 1) q d (mm_ext m))
           else Ok m) ;;
    q <- ring_put (mm_queue m1) x ;;
    let d := rev (pop_while (fun b => cond b x) (rev (mm_deque m1))) in
    Ok (mkMM (mm_window m1) (mm_count m1 + 1) q (dq_push_back d x) (mm_ext m1))
  else
    Ok (mkMM (mm_window m) (mm_count m + 1) (mm_queue m) (mm_deque m) (ext (mm_ext m) x)).
Definition mtot (w : Z) (h : list f64) (m : mm) : Prop :=
  mm_window m = w /\ mm_count m = zlen (live w h) /\ rcap (mm_queue m) = round_up w /\ (w <> 0 -> ritems (mm_queue m) = live w h /\ (h <> [] -> mm_deque m <> [])).
Lemma mtot_push w h m x : 0 <= w -> mtot w h m -> exists m', push m x = Ok m' /\ mtot w (h ++ [x]) m'.
Proof.
  intros Hw (Ew & Ec & Rc & Rq). rewrite push_eq, Ew. destruct (Z.eqb_spec w 0) as [->|Hw0]; cbn [negb].
  - eexists. split; [reflexivity|]. split; [reflexivity|]. cbn [mm_count mm_queue mm_deque]. rewrite Ec, !live_0, zlen_snoc. split; [reflexivity|]. split; [exact Rc|]. congruence.
  - destruct (Rq Hw0) as [Rq1 Rq2]. assert (Hne : forall d : list f64, dq_push_back d x <> []) by (intros d H; apply app_eq_nil in H; destruct H; discriminate).
    destruct (win_step w h x (mm_queue m) ltac:(lia) Rc Rq1) as [(E & y & l & q' & G & El & P & L)|(E & P & L)]; rewrite E.
    + rewrite G. cbn [bind]. assert (Hh : h <> []) by (intros ->; rewrite live_nil in El; discriminate). specialize (Rq2 Hh).
      destruct (mm_deque m) as [|a d]; [congruence|]. cbn [dq_front dq_pop_front bind].
      assert (K : forall d', exists m', (q <- ring_put q' x ;; let d := rev (pop_while (fun b => cond b x) (rev d')) in
        Ok (mkMM w (mm_count m - 1 + 1) q (dq_push_back d x) (mm_ext m))) = Ok m' /\ mtot w (h ++ [x]) m').
      { intros d'. rewrite P. cbn [bind]. eexists. split; [reflexivity|]. split; [reflexivity|]. cbn [mm_count mm_queue mm_deque rcap ritems].
        split; [rewrite L; lia|]. split; [exact Rc|]. intros _. split; [reflexivity|]. intros _. apply Hne. }
      destruct (feq a y); cbn [bind mm_queue mm_deque mm_window mm_count mm_ext]; apply K.
    + cbn [bind]. rewrite P. cbn [bind]. eexists. split; [reflexivity|]. split; [exact Ew|]. cbn [mm_count mm_queue mm_deque rcap ritems].
      split; [rewrite L; lia|]. split; [exact Rc|]. intros _. split; [reflexivity|]. intros _. apply Hne.
Qed.
Lemma mtot_init w e : mtot w [] (mkMM w 0 (ring_new w) [] e).
Proof. split; [reflexivity|]. rewrite live_nil. split; [reflexivity|]. split; [reflexivity|]. intros _. split; [reflexivity|congruence]. Qed.
Lemma mtot_value w h m : mtot w h m -> 0 <= w ->
  let v := if (mm_count m =? 0)%Z then Err ENoValues else if (mm_window m =? 0)%Z then Ok (mm_ext m) else dq_front (mm_deque m) in
  match live w h with [] => v = Err ENoValues | _ => exists r, v = Ok r end.
Proof.
  intros (Ew & Ec & Rc & Rq) Hw. cbv zeta. rewrite Ec, Ew. destruct (live w h) as [|y l] eqn:El; [reflexivity|].
  destruct (Z.eqb_spec (zlen (y :: l)) 0) as [H|_]; [apply zlen_nil_iff in H; discriminate|].
  destruct (Z.eqb_spec w 0) as [|Hw0]; [eauto|]. destruct (Rq Hw0) as [_ H].
  destruct (mm_deque m); [exfalso; apply H; [intros ->; rewrite live_nil in El; discriminate|reflexivity]|]. eexists. reflexivity.
Qed.
End MinMax.
Lemma min_total w ops : 0 <= w -> exists m, min_run w ops = Ok m /\ match live w (hist ops) with [] => min_value m = Err ENoValues | _ => exists v, min_value m = Ok v end.
Proof.
  intros Hw. unfold min_run, new_min. destruct (Z.ltb_spec w 0); [lia|]. cbn [bind].
  destruct (run_inv min_push min_clear (mtot w) (mkMM w 0 (ring_new w) [] (finf false))) with (ops := ops) as (m & E & I).
  - apply mtot_init.
  - intros h s x. apply (mtot_push min_push fgt math_min); [reflexivity|exact Hw].
  - intros h s (Ew & _). unfold min_clear. eexists. split; [reflexivity|]. rewrite Ew. apply mtot_init.
  - exists m. split; [exact E|]. exact (mtot_value w _ m I Hw).
Qed.
Lemma max_total w ops : 0 <= w -> exists m, max_run w ops = Ok m /\ match live w (hist ops) with [] => max_value m = Err ENoValues | _ => exists v, max_value m = Ok v end.
Proof.
  intros Hw. unfold max_run, new_max. destruct (Z.ltb_spec w 0); [lia|]. cbn [bind].
  destruct (run_inv max_push max_clear (mtot w) (mkMM w 0 (ring_new w) [] (finf true))) with (ops := ops) as (m & E & I).
  - apply mtot_init.
  - intros h s x. apply (mtot_push max_push flt math_max); [reflexivity|exact Hw].
  - intros h s (Ew & _). unfold max_clear. eexists. split; [reflexivity|]. rewrite Ew. apply mtot_init.
  - exists m. split; [exact E|]. exact (mtot_value w _ m I Hw).
Qed.

(** ** The moment core, in any arithmetic *)
Section Moment.
Context {T : Type} (N : Num T).
Definition ctot (len : nat) (w : Z) (d : option T) (h : list T) (c : core) : Prop :=
  c_len c = len /\ c_window c = w /\ c_decay c = d /\ c_count c = zlen (live w h) /\ rcap (c_queue c) = round_up w /\ (w <> 0 -> ritems (c_queue c) = live w h).
Lemma ctot_add len w d h c x : (len <= 66)%nat -> c_len c = len -> c_window c = w -> c_decay c = d -> c_count c + 1 = zlen (live w (h ++ [x])) ->
  rcap (c_queue c) = round_up w -> (w <> 0 -> ritems (c_queue c) = live w (h ++ [x])) ->
  exists c', match c_decay c with None => c_add N c x | Some d => c_add_decay N c d x end = Ok c' /\ ctot len w d (h ++ [x]) c'.
Proof.
  intros Hlen El Ew Ed Ec Rc Rq. destruct (c_decay c) as [d0|] eqn:E0.
  - destruct (c_add_decay_any N c d0 x ltac:(lia)) as (c' & E & (P1 & P2 & P3 & P4) & P5 & _). exists c'. split; [exact E|].
    unfold ctot. rewrite P1, P2, P3, P4, P5. repeat (split; [first [assumption|congruence]|]). exact Rq.
  - destruct (c_add_any N c x ltac:(lia)) as (c' & E & (P1 & P2 & P3 & P4) & P5 & _). exists c'. split; [exact E|].
    unfold ctot. rewrite P1, P2, P3, P4, P5. repeat (split; [first [assumption|congruence]|]). exact Rq.
Qed.
Lemma ctot_push len w d h c x : (len <= 66)%nat -> 0 <= w -> ctot len w d h c -> exists c', c_push N c x = Ok c' /\ ctot len w d (h ++ [x]) c'.
Proof.
  intros Hlen Hw (El & Ew & Ed & Ec & Rc & Rq). unfold c_push. rewrite Ew. destruct (Z.eqb_spec w 0) as [->|Hw0]; cbn [negb].
  - cbn [bind]. apply ctot_add; auto; [|congruence]. rewrite Ec, !live_0, zlen_snoc. reflexivity.
  - destruct (win_step w h x (c_queue c) ltac:(lia) Rc (Rq Hw0)) as [(E & y & l & q' & G & Elv & P & L)|(E & P & L)]; rewrite E.
    + rewrite G. cbn [bind].
      destruct (c_remove_any N (mkCore (c_mean c) (c_len c) (c_sums c) (c_count c) w (c_decay c) q') y) as (c1 & E1 & (P1 & P2 & P3 & P4) & P5 & _); [cbn [c_len]; lia|].
      rewrite E1. cbn [bind]. rewrite P4. cbn [c_queue c_len c_window c_decay c_count] in *. rewrite P. cbn [bind].
      apply ctot_add; cbn [c_queue c_len c_window c_decay c_count rcap ritems]; auto; try congruence. lia.
    + cbn [bind]. rewrite P. cbn [bind]. apply ctot_add; cbn [c_queue c_len c_window c_decay c_count rcap ritems]; auto. lia.
Qed.
Lemma ctot_init len w d f : ctot len w d [] (mkCore (nz N 0) len f 0 w d (ring_new w)).
Proof. unfold ctot. rewrite live_nil. repeat split. Qed.
Lemma ctot_run len w d f ops : (len <= 66)%nat -> 0 <= w -> exists c, core_run N (mkCore (nz N 0) len f 0 w d (ring_new w)) ops = Ok c /\ ctot len w d (hist ops) c.
Proof.
  intros Hlen Hw. unfold core_run. apply run_inv; [apply ctot_init| |].
  - intros h s x. apply ctot_push; assumption.
  - intros h s (El & Ew & Ed & _). eexists. split; [reflexivity|]. rewrite El, Ew, Ed. apply ctot_init.
Qed.

(** The largest power a metric tracks, and its window *)
Definition korder (k : @kind T) : Z := match k with KMean _ | KEwma _ => 0 | KMoment p _ | KEwmMoment p _ => p | KStd _ | KEwmStd _ => 2 | KSkew _ => 3 | KKurt _ => 4 end.
Definition kwindow (k : @kind T) : Z := match k with KMean w | KMoment _ w | KStd w | KSkew w | KKurt w => w | _ => 0 end.
Lemma new_core_total k c : new_core N (kconfig k) = Ok c -> korder k <= 65 ->
  0 <= kwindow k /\ 0 <= korder k /\ exists len d f, c = mkCore (nz N 0) len f 0 (kwindow k) d (ring_new (kwindow k)) /\ (len <= 66)%nat /\ (Z.of_nat len = korder k + 1 \/ korder k = 0).
Proof.
  intros E Hk. unfold new_core in E. cbv zeta in E. apply bind_ok in E. destruct E as (u & V & E). destruct u. rewrite (validate_ok N) in V. destruct V as ((w & Hw & Hw0 & _) & Hs).
  rewrite Hw in E. injection E as <-. rewrite set_defaults_sums in *.
  assert (Ew : w = kwindow k) by (destruct k; cbn in Hw; injection Hw as <-; reflexivity). subst w. split; [exact Hw0|].
  assert (Ho : 0 <= korder k) by (destruct k; cbn [korder kconfig sums_of cf_sums] in *; try lia; specialize (Hs _ (or_introl eq_refl)); lia). split; [exact Ho|].
  eexists _, _, _. split; [reflexivity|]. assert (Hm : max_sum (sums_of (kconfig k)) = korder k \/ korder k = 0 /\ max_sum (sums_of (kconfig k)) = -1).
  { destruct k; cbn [korder kconfig sums_of cf_sums]; try (right; split; reflexivity); try (left; reflexivity); left; unfold max_sum; cbn [fold_left];
      specialize (Hs _ (or_introl eq_refl)); rewrite (Z.gtb_ltb _ (-1)); destruct (Z.ltb_spec (-1) k); lia. }
  destruct Hm as [->|[H1 ->]]; lia.
Qed.
(** Push, Clear and Value of the eight metrics *)
Lemma moment_total k c ops : new_core N (kconfig k) = Ok c -> korder k <= 65 ->
  exists m, m_run N k ops = Ok m /\ match live (kwindow k) (hist ops) with [] => m_value N m = Err ENoValues | _ => exists v, m_value N m = Ok v end.
Proof.
  intros E Hk. destruct (new_core_total k c E Hk) as (Hw & Ho & len & d & f & -> & Hlen & Hl).
  destruct (ctot_run len (kwindow k) d f ops Hlen Hw) as (c' & E' & (El & _ & _ & Ec & _)).
  exists (mkM k (Some c')). split; [rewrite m_run_eq, E; cbn [bind]; rewrite E'; reflexivity|].
  unfold m_value. cbn [m_core m_kind].
  assert (Hs : forall p, 1 <= p <= korder k -> c_get_sum c' p = match live (kwindow k) (hist ops) with [] => Err ENoValues | _ => Ok (c_sums c' (Z.to_nat p)) end).
  { intros p Hp. unfold c_get_sum. rewrite Ec. destruct (live (kwindow k) (hist ops)) as [|y l]; [reflexivity|].
    destruct (Z.eqb_spec (zlen (y :: l)) 0) as [H|_]; [apply zlen_nil_iff in H; discriminate|].
    destruct (Z.leb_spec p 0); [lia|]. rewrite El. destruct (Z.geb_spec p (Z.of_nat len)); [lia|]. reflexivity. }
  assert (Hm : c_get_mean c' = match live (kwindow k) (hist ops) with [] => Err ENoValues | _ => Ok (c_mean c') end).
  { unfold c_get_mean. rewrite Ec. destruct (live (kwindow k) (hist ops)) as [|y l]; [reflexivity|].
    destruct (Z.eqb_spec (zlen (y :: l)) 0) as [H|_]; [apply zlen_nil_iff in H; discriminate|]. reflexivity. }
  assert (Hc : (c_get_count c' =? 0) = match live (kwindow k) (hist ops) with [] => true | _ => false end).
  { unfold c_get_count. rewrite Ec. destruct (live (kwindow k) (hist ops)) as [|y l]; [reflexivity|].
    destruct (Z.eqb_spec (zlen (y :: l)) 0) as [H|_]; [apply zlen_nil_iff in H; discriminate|]. reflexivity. }
  assert (Hp : forall p w, k = KMoment p w -> 1 <= p).
  { intros p w ->. unfold new_core in E. cbv zeta in E. apply bind_ok in E. destruct E as (u & V & _). destruct u. rewrite (validate_ok N) in V. destruct V as (_ & V). specialize (V p (or_introl eq_refl)). lia. }
  assert (Hq : forall p d0, k = KEwmMoment p d0 -> 1 <= p).
  { intros p d0 ->. unfold new_core in E. cbv zeta in E. apply bind_ok in E. destruct E as (u & V & _). destruct u. rewrite (validate_ok N) in V. destruct V as (_ & V). specialize (V p (or_introl eq_refl)). lia. }
  destruct k; cbn [kvalue korder kwindow] in *; unfold moment_value; rewrite ?Hc, ?Hm, ?Hs by (try lia; try (specialize (Hp _ _ eq_refl); lia); try (specialize (Hq _ _ eq_refl); lia));
    destruct (live _ (hist ops)); cbn [bind]; eauto.
Qed.
End Moment.

(** ** The joint core, in any arithmetic *)
Section Joint.
Context {T : Type} (N : Num T).
Definition small (v : nat) (t : tuple) : Prop := length t = v /\ Forall (fun k => 0 <= k <= 65) t.
Lemma small_le v b a : tle b a -> small v a -> small v b.
Proof. intros H [L F]. split; [rewrite (tle_length b a H); exact L|]. clear L. revert F. induction H; intros F; inversion F; subst; constructor; auto. lia. Qed.
Lemma multinom_any v a b : tle b a -> small v a -> exists r, multinom a b = Ok r.
Proof.
  intros H [_ F]. unfold multinom. rewrite (tle_length b a H), Nat.eqb_refl. cbn [negb]. generalize 1. revert F.
  induction H as [|x y b a Hxy H IH]; intros F r; [eexists; reflexivity|]. inversion F as [|? ? Hy F']; subst. cbn [multinom_loop].
  destruct (binom_65 (Z.to_nat y) (Z.to_nat x)) as [u E]; [lia|]. rewrite !Z2Nat.id in E by lia. rewrite E. cbn [bind]. apply IH. exact F'.
Qed.
Lemma t_sub_any a b : tle b a -> exists r, t_sub a b = Ok r.
Proof. intros H. unfold t_sub. rewrite (tle_length b a H), Nat.eqb_refl. eexists. reflexivity. Qed.
Lemma t_pow_any v x b : length x = v -> length b = v -> exists r, t_pow N x b = Ok r.
Proof. intros L1 L2. unfold t_pow. rewrite L1, L2, Nat.eqb_refl. eexists. reflexivity. Qed.
Definition term_total (v : nat) (term : tuple -> tuple -> @hmap T -> res (T -> T)) : Prop := forall a b m, small v a -> tle b a -> exists f, term a b m = Ok f.
Lemma add_term_any v count delta sums : length delta = v -> term_total v (add_term N count delta sums).
Proof. intros L a b m Ha Hb. pose proof (small_le _ b a Hb Ha) as [Lb _]. unfold add_term. destruct (t_pow_any v delta b L Lb) as [dp E1]. rewrite E1. cbn [bind]. cbv zeta. destruct (t_abs b =? 0); [eauto|]. destruct (t_eq b a); [eauto|].
  destruct (multinom_any v a b Hb Ha) as [mn E2]. rewrite E2. cbn [bind]. destruct (t_sub_any a b Hb) as [df E3]. rewrite E3. cbn [bind]. eauto. Qed.
Lemma decay_term_any v d delta sums : length delta = v -> term_total v (decay_term N d delta sums).
Proof. intros L a b m Ha Hb. pose proof (small_le _ b a Hb Ha) as [Lb _]. unfold decay_term. destruct (t_pow_any v delta b L Lb) as [dp E1]. rewrite E1. cbn [bind]. cbv zeta. destruct (t_abs b =? 0); [eauto|]. destruct (t_eq b a); [eauto|].
  destruct (multinom_any v a b Hb Ha) as [mn E2]. rewrite E2. cbn [bind]. destruct (t_sub_any a b Hb) as [df E3]. rewrite E3. cbn [bind]. eauto. Qed.
Lemma rem_term_any v count delta sums : length delta = v -> term_total v (rem_term N count delta sums).
Proof. intros L a b m Ha Hb. pose proof (small_le _ b a Hb Ha) as [Lb _]. unfold rem_term. destruct (t_pow_any v delta b L Lb) as [dp E1]. rewrite E1. cbn [bind]. cbv zeta. destruct (t_abs b =? 0); [eauto|]. destruct (t_eq b a); [eauto|].
  destruct (multinom_any v a b Hb Ha) as [mn E2]. rewrite E2. cbn [bind]. destruct (t_sub_any a b Hb) as [df E3]. rewrite E3. cbn [bind]. eauto. Qed.
Lemma upd_b_any v term a bs : term_total v term -> small v a -> (forall b, In b bs -> tle b a) -> forall m, exists m', upd_b N term a bs m = Ok m'.
Proof.
  intros Ht Ha. induction bs as [|b bs IH]; intros Hb m; cbn [upd_b]; [eauto|]. destruct (Ht a b m Ha (Hb b (or_introl eq_refl))) as [f E]. rewrite E. cbn [bind].
  apply IH. intros c Hc. apply Hb. right. exact Hc.
Qed.
Lemma upd_a_any v term as_ : term_total v term -> (forall a, In a as_ -> small v a) -> forall m, exists m', upd_a N term as_ m = Ok m'.
Proof.
  intros Ht. induction as_ as [|a as_ IH]; intros Ha m; cbn [upd_a]; [eauto|].
  destruct (upd_b_any v term a (iter_list a false) Ht (Ha a (or_introl eq_refl)) (fun b Hb => proj1 (in_iter a false b) Hb) (hput m (t_hash a) (nz N 0))) as [m' E].
  rewrite E. cbn [bind]. apply IH. intros c Hc. apply Ha. right. exact Hc.
Qed.
Lemma iter_small v t r a : small v t -> In a (iter_list t r) -> small v a.
Proof. intros Ht Ha. eapply small_le; [|exact Ht]. apply in_iter in Ha. exact Ha. Qed.
Lemma upd_tuples_any v term r ts : term_total v term -> Forall (small v) ts -> forall m, exists m', upd_tuples N term r ts m = Ok m'.
Proof.
  intros Ht. induction ts as [|t ts IH]; intros F m; cbn [upd_tuples]; [eauto|]. inversion F as [|? ? F1 F2]; subst.
  destruct (upd_a_any v term (iter_list t r) Ht (fun a Ha => iter_small v t r a F1 Ha) m) as [m' E]. rewrite E. cbn [bind]. apply IH. exact F2.
Qed.
Lemma rem_tuples_any v count delta ts : length delta = v -> Forall (small v) ts -> forall s m, exists r, rem_tuples N count delta ts s m = Ok r.
Proof.
  intros L. induction ts as [|t ts IH]; intros F s m; cbn [rem_tuples]; [eauto|]. inversion F as [|? ? F1 F2]; subst.
  destruct (upd_a_any _ _ (iter_list t false) (rem_term_any (length delta) count delta s eq_refl) (fun a Ha => iter_small _ t false a F1 Ha) m) as [m' E]. rewrite E. cbn [bind]. apply IH. exact F2.
Qed.
(** The bookkeeping *)
Definition jpar (v : nat) (ts : list tuple) (w : Z) (d : option T) (c : @vcore T) : Prop :=
  length (j_means c) = v /\ j_tuples c = ts /\ j_window c = w /\ j_decay c = d.
Lemma combine_len {A B} (l : list A) (m : list B) n : length l = n -> length m = n -> length (combine l m) = n.
Proof. intros H1 H2. rewrite combine_length. lia. Qed.
Lemma j_add_any v ts w d c x : Forall (small v) ts -> jpar v ts w d c -> length x = v ->
  exists c', match j_decay c with None => j_add N c x | Some d => j_add_decay N c d x end = Ok c' /\ jpar v ts w d c' /\ j_count c' = j_count c + 1 /\ j_queue c' = j_queue c.
Proof.
  intros F (Lm & Et & Ew & Ed) Lx. assert (Ld : length (deltas N x (j_means c)) = v) by (unfold deltas; rewrite map_length; apply combine_len; assumption).
  assert (La : forall f, length (add_means N (j_means c) (deltas N x (j_means c)) f) = v) by (intros f; unfold add_means; rewrite map_length; apply combine_len; assumption).
  destruct (j_decay c) as [d0|] eqn:E0.
  - unfold j_add_decay. cbv zeta. rewrite Et.
    destruct (upd_tuples_any v _ true ts (decay_term_any v (if j_count c + 1 =? 1 then nz N 1 else d0) (deltas N x (j_means c)) (j_sums c) Ld) F (j_new c)) as [m E]. rewrite E. cbn [bind].
    eexists. split; [reflexivity|]. unfold jpar. cbn [j_means j_tuples j_window j_decay j_count j_queue]. rewrite La, E0. auto.
  - unfold j_add. cbv zeta. rewrite Et.
    destruct (upd_tuples_any v _ true ts (add_term_any v (nz N (j_count c + 1)) (deltas N x (j_means c)) (j_sums c) Ld) F (j_new c)) as [m E]. rewrite E. cbn [bind].
    eexists. split; [reflexivity|]. unfold jpar. cbn [j_means j_tuples j_window j_decay j_count j_queue]. rewrite La, E0. auto.
Qed.
Lemma j_remove_any v ts w d c x : Forall (small v) ts -> jpar v ts w d c -> length x = v ->
  exists c', j_remove N c x = Ok c' /\ jpar v ts w d c' /\ j_count c' = j_count c - 1 /\ j_queue c' = j_queue c.
Proof.
  intros F (Lm & Et & Ew & Ed) Lx. unfold j_remove. cbv zeta. destruct (j_count c - 1 >? 0).
  - set (means := map _ (combine x (j_means c))). assert (Lm' : length means = v) by (unfold means; rewrite map_length; apply combine_len; assumption).
    assert (Ld : length (deltas N x means) = v) by (unfold deltas; rewrite map_length; apply combine_len; assumption). rewrite Et.
    destruct (rem_tuples_any v (nz N (j_count c - 1)) (deltas N x means) ts Ld F (j_sums c) (j_new c)) as [[s m] E]. rewrite E. cbn [bind].
    eexists. split; [reflexivity|]. unfold jpar. cbn [j_means j_tuples j_window j_decay j_count j_queue]. auto.
  - eexists. split; [reflexivity|]. unfold jpar. cbn [j_means j_tuples j_window j_decay j_count j_queue]. rewrite map_length. auto.
Qed.
Definition jtot (v : nat) ts w d (h : list (list T)) (c : @vcore T) : Prop :=
  jpar v ts w d c /\ j_count c = zlen (live w h) /\ rcap (j_queue c) = round_up w /\ (w <> 0 -> ritems (j_queue c) = live w h) /\ Forall (fun x => length x = v) h.
Lemma jtot_push v ts w d h c x : Forall (small v) ts -> 0 <= w -> length x = v -> jtot v ts w d h c -> exists c', jpush N c x = Ok c' /\ jtot v ts w d (h ++ [x]) c'.
Proof.
  intros F Hw Lx (Hp & Ec & Rc & Rq & Fh). unfold jpush, j_push. pose proof Hp as (Lm & Et & Ew & Ed). rewrite Lx, Lm, Nat.eqb_refl, Ew. cbn [negb].
  assert (Fh' : Forall (fun x => length x = v) (h ++ [x])) by (apply Forall_app; auto).
  assert (K : forall c0, jpar v ts w d c0 -> j_count c0 + 1 = zlen (live w (h ++ [x])) -> rcap (j_queue c0) = round_up w -> (w <> 0 -> ritems (j_queue c0) = live w (h ++ [x])) ->
    exists c', match j_decay c0 with None => j_add N c0 x | Some d => j_add_decay N c0 d x end = Ok c' /\ jtot v ts w d (h ++ [x]) c').
  { intros c0 P1 P2 P3 P4. destruct (j_add_any v ts w d c0 x F P1 Lx) as (c' & E & P & C & Q). exists c'. split; [exact E|]. unfold jtot. rewrite C, Q. auto. }
  destruct (Z.eqb_spec w 0) as [->|Hw0]; cbn [negb].
  - cbn [bind]. apply K; auto; [|congruence]. rewrite Ec, !live_0, zlen_snoc. reflexivity.
  - destruct (win_step w h x (j_queue c) ltac:(lia) Rc (Rq Hw0)) as [(E & y & l & q' & G & Elv & P & L)|(E & P & L)]; rewrite E.
    + rewrite G. cbn [bind].
      assert (Ly : length y = v) by (rewrite Forall_forall in Fh; apply Fh; apply (live_incl w); rewrite Elv; left; reflexivity).
      destruct (j_remove_any v ts w d (mkJ (j_means c) (j_tuples c) (j_sums c) (j_new c) (j_count c) w (j_decay c) q') y F) as (c1 & E1 & (P1 & P2 & P3 & P4) & C & Q);
        [unfold jpar; cbn [j_means j_tuples j_window j_decay]; auto|exact Ly|].
      rewrite E1. cbn [bind]. rewrite Q. cbn [j_queue j_count] in *. rewrite P. cbn [bind].
      apply K; unfold jpar; cbn [j_means j_tuples j_window j_decay j_queue j_count rcap ritems]; auto. lia.
    + cbn [bind]. rewrite P. cbn [bind]. apply K; unfold jpar; cbn [j_means j_tuples j_window j_decay j_queue j_count rcap ritems]; auto. lia.
Qed.
Lemma jtot_nil v ts w d (c : @vcore T) : jpar v ts w d c -> j_count c = 0 -> rcap (j_queue c) = round_up w -> ritems (j_queue c) = [] -> jtot v ts w d [] c.
Proof. intros H1 H2 H3 H4. unfold jtot. rewrite live_nil. auto. Qed.
Lemma jtot_clear v ts w d h c : jtot v ts w d h c -> exists c', j_clear N c = Ok c' /\ jtot v ts w d [] c'.
Proof.
  intros ((Lm & Et & Ew & Ed) & _). eexists. split; [reflexivity|]. apply jtot_nil; cbn [j_count j_queue]; try reflexivity; [|rewrite Ew; reflexivity].
  unfold jpar. cbn [j_means j_tuples j_window j_decay]. rewrite map_length. auto.
Qed.
(** Every accepted configuration with exponents up to 65 *)
Lemma jcore_total cfg c0 ops : @jnew_core T N (list T) cfg = Ok c0 -> Forall (Forall (fun k => k <= 65)) (jsums_of cfg) ->
  (forall x, In (OPush x) ops -> length x = length (j_means c0)) ->
  exists c, jcore_run N c0 ops = Ok c /\ exists w, jf_window cfg = Some w /\ jtot (length (j_means c0)) (jsums_of cfg) w (jf_decay cfg) (hist ops) c.
Proof.
  intros E0 F Hx. destruct (jnew_core_spec N (A := list T) cfg) as [H1 H2]. destruct (jvalidate_spec N cfg) as [[V _]|[V _]].
  2:{ destruct (H2 V) as [e E]. congruence. }
  destruct (H1 V) as (w & Ew & E). rewrite E in E0. injection E0 as <-. cbn [j_means] in *. rewrite repeat_length in *.
  destruct V as ((w' & Hw' & Hw0 & _) & Hv & v & Fv & Hv1 & Hv2). assert (w' = w) by congruence. subst w'.
  assert (Ev : jsums_of cfg = [] \/ vars_of cfg = v).
  { unfold vars_of. destruct (jf_vars cfg) as [u|]; [right; apply Hv2; reflexivity|]. destruct (jsums_of cfg) as [|t ts]; [left; reflexivity|]. right. apply Forall_inv in Fv. exact (proj1 Fv). }
  assert (Fs : Forall (small (Z.to_nat (vars_of cfg))) (jsums_of cfg)).
  { rewrite Forall_forall in *. intros t Ht. destruct Ev as [Ev|Ev]; [rewrite Ev in Ht; destruct Ht|]. destruct (Fv t Ht) as [L [_ [P _]]]. split; [rewrite Ev; unfold zlen in L; lia|].
    specialize (F t Ht). rewrite Forall_forall in *. intros k Hk. split; [apply P; exact Hk|apply F; exact Hk]. }
  destruct (run_inv_on (jpush N) (j_clear N) (fun x => length x = Z.to_nat (vars_of cfg)) (jtot (Z.to_nat (vars_of cfg)) (jsums_of cfg) w (jf_decay cfg))
    (mkJ (repeat (nz N 0) (Z.to_nat (vars_of cfg))) (jsums_of cfg) (init_keys N (jsums_of cfg)) (init_keys N (jsums_of cfg)) 0 w (jf_decay cfg) (ring_new w))) with (ops := ops) as (c & Ec & I).
  - apply jtot_nil; try reflexivity. unfold jpar. cbn [j_means j_tuples j_window j_decay]. rewrite repeat_length. auto.
  - intros h s x H Hl. apply jtot_push; auto.
  - intros h s. apply jtot_clear.
  - exact Hx.
  - exists c. split; [exact Ec|]. exists w. auto.
Qed.
End Joint.
(** ** The joint metrics *)
Section JointValue.
Context {T : Type} (N : Num T).
(** Keys of the sums map are never lost *)
Definition keeps (m m' : @hmap T) : Prop := forall k, m k <> None -> m' k <> None.
Lemma keeps_trans a b c : keeps a b -> keeps b c -> keeps a c.
Proof. unfold keeps. auto. Qed.
Lemma keeps_put m k (v : T) : keeps m (hput m k v).
Proof. intros i H. unfold hput. destruct (i =? k); [discriminate|exact H]. Qed.
Lemma keeps_copy n (m : @hmap T) : keeps m (hcopy n m).
Proof. intros i H. unfold hcopy. destruct (n i); [discriminate|exact H]. Qed.
Lemma keeps_zero (m : @hmap T) : keeps m (hzero N m).
Proof. intros i H. unfold hzero. destruct (m i); [discriminate|contradiction]. Qed.
Lemma rem_keeps count delta ts : forall s m s' m', rem_tuples N count delta ts s m = Ok (s', m') -> keeps s s'.
Proof.
  induction ts as [|t ts IH]; intros s m s' m'; cbn [rem_tuples].
  - intros E. injection E as <- <-. intros k H. exact H.
  - intros E. apply bind_ok in E. destruct E as (m1 & _ & E). eapply keeps_trans; [|exact (IH _ _ _ _ E)]. apply keeps_copy.
Qed.
Lemma add_keeps (c c' : @vcore T) x : match j_decay c with None => j_add N c x | Some d => j_add_decay N c d x end = Ok c' -> keeps (j_sums c) (j_sums c').
Proof.
  destruct (j_decay c); unfold j_add, j_add_decay; cbv zeta; intros E; apply bind_ok in E; destruct E as (m & _ & E); injection E as <-; apply keeps_copy.
Qed.
Lemma remove_keeps (c c' : @vcore T) x : j_remove N c x = Ok c' -> keeps (j_sums c) (j_sums c').
Proof.
  unfold j_remove. cbv zeta. destruct (j_count c - 1 >? 0); intros E.
  - apply bind_ok in E. destruct E as ([s m] & E1 & E). injection E as <-. exact (rem_keeps _ _ _ _ _ _ _ E1).
  - injection E as <-. apply keeps_zero.
Qed.
Lemma push_keeps (c c' : @vcore T) x : jpush N c x = Ok c' -> keeps (j_sums c) (j_sums c').
Proof.
  unfold jpush, j_push. destruct (negb _); [discriminate|]. intros E. apply bind_ok in E. destruct E as (c1 & E1 & E2).
  apply (keeps_trans _ (j_sums c1)); [|exact (add_keeps _ _ _ E2)]. destruct (negb _).
  - apply bind_ok in E1. destruct E1 as (c2 & E1 & E3). apply bind_ok in E3. destruct E3 as (q & _ & E3). injection E3 as <-. cbn [j_sums].
    destruct (_ =? _).
    + apply bind_ok in E1. destruct E1 as ([y q'] & _ & E1). exact (remove_keeps _ _ _ E1).
    + injection E1 as <-. intros k H. exact H.
  - injection E1 as <-. intros k H. exact H.
Qed.
Lemma run_keeps ops : forall (c c' : @vcore T), jcore_run N c ops = Ok c' -> keeps (j_sums c) (j_sums c').
Proof.
  unfold jcore_run. induction ops as [|o ops IH]; intros c c' E; cbn [run] in E.
  - injection E as <-. intros k H. exact H.
  - destruct o as [x|]; apply bind_ok in E; destruct E as (c1 & E1 & E).
    + exact (keeps_trans _ _ _ (push_keeps _ _ _ E1) (IH _ _ E)).
    + injection E1 as <-. apply (keeps_trans _ (hzero N (j_sums c))); [apply keeps_zero|exact (IH _ _ E)].
Qed.
(** The metrics' own powers are in the map from the start *)
Lemma jk_init (k : @jkind T) c : @jnew_core T N (list T) (jkconfig k) = Ok c ->
  length (j_means c) = 2%nat /\ j_sums c (t_hash [1; 1]) <> None /\ (match k with JCorr _ | JEwmCorr _ => True | _ => False end -> j_sums c (t_hash [2; 0]) <> None /\ j_sums c (t_hash [0; 2]) <> None).
Proof.
  intros E0. destruct (jnew_core_spec N (A := list T) (jkconfig k)) as [H1 H2]. destruct (jvalidate_spec N (jkconfig k)) as [[V _]|[V _]].
  2:{ destruct (H2 V) as [e E]. congruence. }
  destruct (H1 V) as (w & Ew & E). rewrite E in E0. injection E0 as <-. cbn [j_means j_sums].
  destruct k; (split; [reflexivity|]); (split; [vm_compute; discriminate|]); intros []; split; vm_compute; discriminate.
Qed.
Definition jwindow (k : @jkind T) : Z := match k with JCov w | JCorr w => w | _ => 0 end.
Lemma jcore_value {B} k c0 c (h : list B) w : @jnew_core T N (list T) (jkconfig k) = Ok c0 -> keeps (j_sums c0) (j_sums c) -> j_count c = zlen (live w h) ->
  match live w h with [] => jvalue N k c = Err ENoValues | _ => exists v, jvalue N k c = Ok v end.
Proof.
  intros E K Ec. destruct (jk_init k c0 E) as (_ & K1 & K2).
  assert (G : forall t, j_sums c (t_hash t) <> None -> match live w h with [] => j_get_sum c t = Err ENoValues | _ => exists s, j_get_sum c t = Ok s end).
  { intros t H. unfold j_get_sum. rewrite Ec. destruct (live w h) as [|y l]; [reflexivity|].
    destruct (Z.eqb_spec (zlen (y :: l)) 0) as [Hz|_]; [apply zlen_nil_iff in Hz; discriminate|]. destruct (j_sums c (t_hash t)); [eauto|contradiction]. }
  pose proof (G _ (K _ K1)) as G1.
  assert (G2 : match k with JCorr _ | JEwmCorr _ => True | _ => False end -> match live w h with [] => True | _ => exists a b, j_get_sum c [2; 0] = Ok a /\ j_get_sum c [0; 2] = Ok b end).
  { intros Hk. destruct (K2 Hk) as [K3 K4]. pose proof (G _ (K _ K3)) as G3. pose proof (G _ (K _ K4)) as G4. destruct (live w h); [exact I|]. destruct G3 as [s3 G3], G4 as [s4 G4]. eauto. }
  destruct k; cbn [jvalue]; unfold corr_value; destruct (live w h);
    first [rewrite G1; reflexivity | destruct G1 as [s G1]; rewrite G1; cbn [bind]; first [destruct (G2 I) as (s2 & s3 & -> & ->); cbn [bind]; eauto | eauto]].
Qed.
Lemma jm_run_total k ops : (exists c, @jnew_core T N (list T) (jkconfig k) = Ok c) -> (forall x, In (OPush x) ops -> length x = 2%nat) ->
  exists m, jm_run N k ops = Ok m /\ match live (jwindow k) (hist ops) with [] => jm_value N m = Err ENoValues | _ => exists v, jm_value N m = Ok v end.
Proof.
  intros (c0 & E0) Hx. pose proof (jk_init k c0 E0) as (L0 & _).
  destruct (jcore_total N (jkconfig k) c0 ops E0) as (c & Ec & w & Ew & (_ & Hc & _)).
  { destruct k; repeat constructor; lia. }
  { rewrite L0. exact Hx. }
  assert (w = jwindow k) by (destruct k; cbn in Ew; injection Ew as <-; reflexivity). subst w.
  exists (mkJM k (Some c)). split; [|exact (jcore_value k c0 c (hist ops) _ E0 (run_keeps ops c0 c Ec) Hc)].
  unfold jm_run, jm_init, new_jmetric. cbn [jm_kind]. rewrite E0. cbn [bind].
  clear E0 L0 Hc Ew. revert c0 c Ec Hx. unfold jcore_run. induction ops as [|o ops IH]; intros c0 c Ec Hx; cbn [run] in *; [injection Ec as <-; reflexivity|].
  destruct o as [x|]; cbn [jm_push jm_clear jm_core jm_kind].
  - rewrite (Hx x (or_introl eq_refl)), Nat.eqb_refl. cbn [negb]. apply bind_ok in Ec. destruct Ec as (c1 & E1 & Ec). rewrite E1. cbn [bind]. apply IH; [exact Ec|]. intros y Hy. apply Hx. right. exact Hy.
  - apply bind_ok in Ec. destruct Ec as (c1 & E1 & Ec). rewrite E1. cbn [bind]. apply IH; [exact Ec|]. intros y Hy. apply Hx. right. exact Hy.
Qed.
End JointValue.

(** ** Autocov, Autocorr *)
Lemma zlen_live {A} w (h : list A) : 0 < w -> zlen (live w h) = Z.min w (zlen h).
Proof.
  intros Hw. induction h as [|x h IH] using rev_ind; [rewrite live_nil; unfold zlen; cbn; lia|].
  pose proof (live_push w h x Hw) as Hp. rewrite zlen_snoc, Hp, zlen_snoc. clear Hp. destruct (Z.eqb_spec (zlen (live w h)) w) as [E|E]; [|lia].
  destruct (live w h) as [|y l]; [unfold zlen in E; cbn in E; lia|]. cbn [tl]. unfold zlen in *. cbn [length] in *. lia.
Qed.
Section Auto.
Context {T : Type} (N : Num T).
Definition atot (k : @akind) (lag w : Z) (c0 : @vcore T) ts d (h : list T) (a : auto) : Prop :=
  exists c hp, a_lag a = lag /\ rcap (a_queue a) = round_up lag /\ (lag <> 0 -> ritems (a_queue a) = live lag h) /\
    a_metric a = mkJM (match k with ACov => JCov w | ACorr => JCorr w end) (Some c) /\ jtot 2 ts w d hp c /\ zlen hp = Z.max 0 (zlen h - lag) /\ keeps (j_sums c0) (j_sums c).
Lemma atot_push k lag w c0 ts d h a x : 0 <= lag -> 0 <= w -> Forall (small 2) ts -> atot k lag w c0 ts d h a -> exists a', auto_push N a x = Ok a' /\ atot k lag w c0 ts d (h ++ [x]) a'.
Proof.
  intros Hl Hw F (c & hp & El & Rc & Rq & Em & J & Hz & K). unfold auto_push. rewrite Em, El. cbn [jm_core jm_kind].
  assert (P : forall y, exists c', jpush N c [x; y] = Ok c' /\ jtot 2 ts w d (hp ++ [[x; y]]) c' /\ keeps (j_sums c0) (j_sums c')).
  { intros y. destruct (jtot_push N 2 ts w d hp c [x; y] F Hw eq_refl J) as (c' & E & J'). exists c'. split; [exact E|]. split; [exact J'|]. exact (keeps_trans _ _ _ K (push_keeps N _ _ _ E)). }
  destruct (Z.eqb_spec lag 0) as [E0|Hl0].
  - destruct (P x) as (c' & -> & J' & K'). cbn [bind]. eexists. split; [reflexivity|]. exists c', (hp ++ [[x; x]]). cbn [a_lag a_queue a_metric].
    repeat (split; [first [assumption|reflexivity]|]). split; [congruence|]. split; [reflexivity|]. split; [exact J'|]. split; [|exact K']. rewrite !zlen_snoc, Hz. pose proof (Zle_0_nat (length h)). unfold zlen in *. lia.
  - assert (Hlag : 0 < lag) by lia. pose proof (zlen_live lag h Hlag) as Hll. assert (Erl : ring_len (a_queue a) = zlen (live lag h)) by (unfold ring_len; rewrite (Rq Hl0); reflexivity).
    destruct (win_step lag h x (a_queue a) Hlag Rc (Rq Hl0)) as [(E & y & l & q' & G & Elv & Pq & L)|(E & Pq & L)]; rewrite Z.geb_leb.
    + apply Z.eqb_eq in E. rewrite E, Z.leb_refl, G. cbn [bind]. destruct (P y) as (c' & -> & J' & K'). cbn [bind]. rewrite Pq. cbn [bind].
      eexists. split; [reflexivity|]. exists c', (hp ++ [[x; y]]). cbn [a_lag a_queue a_metric rcap ritems].
      split; [reflexivity|]. split; [exact Rc|]. split; [reflexivity|]. split; [reflexivity|]. split; [exact J'|]. split; [|exact K']. rewrite !zlen_snoc, Hz. lia.
    + apply Z.eqb_neq in E. destruct (Z.leb_spec lag (ring_len (a_queue a))); [lia|]. cbn [bind]. rewrite Pq. cbn [bind].
      eexists. split; [reflexivity|]. exists c, hp. cbn [a_lag a_queue a_metric rcap ritems].
      split; [reflexivity|]. split; [exact Rc|]. split; [reflexivity|]. split; [reflexivity|]. split; [exact J|]. split; [|exact K]. rewrite !zlen_snoc, Hz. lia.
Qed.
Lemma auto_total k lag w ops : 0 <= lag -> 0 <= w ->
  exists a, auto_run N k lag w ops = Ok a /\ (if zlen (hist ops) <=? lag then auto_value N a = Err ETooFew else exists v, auto_value N a = Ok v).
Proof.
  intros Hl Hw. unfold auto_run, new_auto. destruct (Z.ltb_spec lag 0); [lia|]. cbn [bind]. unfold auto_init, jm_init, new_jmetric. cbn [a_metric a_lag a_queue jm_kind].
  set (jk := match k with ACov => JCov w | ACorr => JCorr w end).
  assert (V : jcfg_valid N (jkconfig jk)).
  { subst jk. unfold jcfg_valid. destruct k; cbn [jkconfig jf_window jf_decay jf_vars jsums_of jf_sums];
      (split; [exists w; split; [reflexivity|split; [exact Hw|discriminate]]|]); (split; [discriminate|]); exists 2; (split; [|split; discriminate]);
      repeat constructor; cbn; try lia. }
  destruct (proj1 (jnew_core_spec N (A := list T) (jkconfig jk)) V) as (w' & Ew & E0). assert (w' = w) by (subst jk; destruct k; cbn in Ew; congruence). subst w'.
  set (c0 := mkJ _ _ _ _ _ _ _ _) in E0. rewrite E0. cbn [bind].
  assert (F : Forall (small 2) (jsums_of (jkconfig jk))) by (subst jk; unfold small; destruct k; repeat constructor; lia).
  assert (I0 : forall c, jtot 2 (jsums_of (jkconfig jk)) w (jf_decay (jkconfig jk)) [] c -> keeps (j_sums c0) (j_sums c) -> atot k lag w c0 (jsums_of (jkconfig jk)) (jf_decay (jkconfig jk)) [] (mkA lag (ring_new lag) (mkJM jk (Some c)))).
  { intros c J K. exists c, []. cbn [a_lag a_queue a_metric]. rewrite live_nil. repeat (split; [first [assumption|reflexivity]|]). split; [unfold zlen; cbn [length]; lia|exact K]. }
  destruct (run_inv (auto_push N) (auto_clear N) (atot k lag w c0 (jsums_of (jkconfig jk)) (jf_decay (jkconfig jk))) (mkA lag (ring_new lag) (mkJM jk (Some c0)))) with (ops := ops) as (a & Ea & (c & hp & A1 & A2 & A3 & A4 & A5 & A6 & A7)).
  - apply I0; [|intros i Hi; exact Hi]. apply jtot_nil; try reflexivity. unfold jpar. cbn [j_means j_tuples j_window j_decay]. subst jk. destruct k; repeat split.
  - intros h s x. apply atot_push; assumption.
  - intros h s (c & hp & A1 & A2 & A3 & A4 & A5 & A6 & A7). unfold auto_clear. rewrite A4. cbn [jm_core jm_kind]. destruct (jtot_clear N _ _ _ _ _ _ A5) as (c' & E & J). pose proof E as E'. injection E' as <-.
    rewrite E. cbn [bind]. eexists. split; [reflexivity|]. rewrite A1. apply I0; [exact J|]. exact (keeps_trans _ _ _ A7 (keeps_zero N _)).
  - exists a. split; [exact Ea|]. unfold auto_value, jm_value. rewrite A4. cbn [jm_core jm_kind]. destruct A5 as (_ & Ec & _).
    pose proof (jcore_value N jk c0 c hp w E0 A7 Ec) as V'. unfold j_get_count. rewrite Ec.
    destruct (Z.leb_spec (zlen (hist ops)) lag) as [Hz|Hz].
    + assert (hp = []) as -> by (apply zlen_nil_iff; lia). rewrite live_nil. reflexivity.
    + destruct (live w hp) as [|y l] eqn:El; [apply live_empty in El; [|exact Hw]; subst hp; unfold zlen in A6 at 1; cbn [length] in A6; lia|].
      destruct (Z.eqb_spec (zlen (y :: l)) 0) as [Hq|_]; [apply zlen_nil_iff in Hq; discriminate|]. subst jk. destruct k; exact V'.
Qed.
End Auto.
