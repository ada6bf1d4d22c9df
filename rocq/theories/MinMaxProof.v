(** Proofs about MinMaxModel.v. *)
From Verif Require Import Base F64 HistSpec OrderSpec RingModel MinMaxModel.
From Flocq Require Import Core BinarySingleNaN.

(** Both metrics are the same algorithm up to the comparison [pop] (pop the back
    element) and the combination [comb]. *)
Definition gpush (pop : f64 -> f64 -> bool) (comb : f64 -> f64 -> f64) (m : mm) (x : f64) : res mm :=
  if negb (mm_window m =? 0)%Z then
    m1 <- (if (ring_len (mm_queue m) =? mm_window m)%Z then
             '(val, q) <- ring_get (mm_queue m) ;;
             front <- dq_front (mm_deque m) ;;
             d <- (if feq front val then dq_pop_front (mm_deque m) else Ok (mm_deque m)) ;;
             Ok (mkMM (mm_window m) (mm_count m - 1) q d (mm_ext m))
           else Ok m) ;;
    q <- ring_put (mm_queue m1) x ;;
    let d := rev (pop_while (fun b => pop b x) (rev (mm_deque m1))) in
    Ok (mkMM (mm_window m1) (mm_count m1 + 1) q (dq_push_back d x) (mm_ext m1))
  else
    Ok (mkMM (mm_window m) (mm_count m + 1) (mm_queue m) (mm_deque m) (comb (mm_ext m) x)).

Lemma min_push_g m x : min_push m x = gpush fgt math_min m x.
Proof. reflexivity. Qed.
Lemma max_push_g m x : max_push m x = gpush flt math_max m x.
Proof. reflexivity. Qed.

Section Generic.
Variable pop : f64 -> f64 -> bool.
Variable comb : f64 -> f64 -> f64.
Variable init : f64.
Variable K : f64 -> Z. (* order key: smaller is better *)
Hypothesis pop_key : forall b x, nonnan b -> nonnan x -> pop b x = (K x <? K b)%Z.
Hypothesis feq_K : forall a b, nonnan a -> nonnan b -> feq a b = (K a =? K b)%Z.
(* the combination returns one of its arguments, of smallest key *)
Hypothesis comb_spec : forall a b, nonnan a -> nonnan b ->
  (comb a b = a \/ comb a b = b) /\ (K (comb a b) <= K a)%Z /\ (K (comb a b) <= K b)%Z.
Hypothesis init_nonnan : nonnan init.
Hypothesis init_worst : forall x, nonnan x -> comb init x = x.

(** Elements that are at least as good as everything pushed after them. *)
Fixpoint best (l : list f64) : list f64 :=
  match l with
  | [] => []
  | x :: t => if forallb (fun y => K x <=? K y)%Z t then x :: best t else best t
  end.

Lemma best_incl l x : In x (best l) -> In x l.
Proof.
  induction l as [|a t IH]; cbn; [auto|].
  destruct (forallb _ t); cbn; intuition.
Qed.

Lemma best_nonempty l : l <> [] -> best l <> [].
Proof.
  induction l as [|a t IH]; [congruence|]. intros _. cbn.
  destruct (forallb _ t) eqn:E; [discriminate|].
  destruct t as [|b t]; [discriminate E|]. apply IH. discriminate.
Qed.

(** The head of [best l] has the least key of [l]. *)
Lemma best_head l : l <> [] ->
  exists v t, best l = v :: t /\ In v l /\ forall y, In y l -> (K v <= K y)%Z.
Proof.
  induction l as [|a l IH]; [congruence|]. intros _. cbn [best].
  destruct (forallb (fun y => K a <=? K y)%Z l) eqn:E.
  - exists a, (best l). split; [reflexivity|]. split; [left; reflexivity|].
    rewrite forallb_forall in E. intros y [->|Hy]; [lia|]. specialize (E y Hy). lia.
  - destruct l as [|b l]; [discriminate E|].
    destruct IH as [v [t [Hb [Hi Hm]]]]; [discriminate|].
    exists v, t. split; [exact Hb|]. split; [right; exact Hi|].
    intros y [<-|Hy]; [|auto].
    assert (Hex : exists z, In z (b :: l) /\ (K z < K a)%Z).
    { clear - E. set (l0 := b :: l) in *. clearbody l0. clear b l. rename l0 into l. induction l as [|z l IH]; [discriminate|]. cbn in E.
      destruct (Z.leb_spec (K a) (K z)); [|exists z; split; [left; reflexivity|lia]].
      cbn in E. destruct (IH E) as [z' [Hz Hk]]. exists z'. split; [right; exact Hz|exact Hk]. }
    destruct Hex as [z [Hz Hk]]. specialize (Hm z Hz). lia.
Qed.

(** [best l] has nondecreasing keys. *)
Lemma best_sorted l a t : best l = a :: t -> forall y, In y t -> (K a <= K y)%Z.
Proof.
  revert a t. induction l as [|x l IH]; intros a t; cbn; [discriminate|].
  destruct (forallb _ l) eqn:E.
  - intros H y Hy. injection H as <- <-. rewrite forallb_forall in E.
    specialize (E y (best_incl _ _ Hy)). lia.
  - apply IH.
Qed.

(** Eviction of the oldest element. *)
Lemma best_evict v t : nonnan v -> Forall nonnan t ->
  exists f b, best (v :: t) = f :: b /\
  (if feq f v then b else f :: b) = best t.
Proof.
  intros Hv Ht. cbn [best]. destruct (forallb (fun y => K v <=? K y)%Z t) eqn:E.
  - exists v, (best t). split; [reflexivity|]. rewrite feq_K by assumption.
    rewrite Z.eqb_refl. reflexivity.
  - destruct t as [|b t]; [discriminate E|].
    assert (Hh : exists f r, best (b :: t) = f :: r /\ In f (b :: t) /\
                 forall y, In y (b :: t) -> (K f <= K y)%Z) by (apply best_head; discriminate).
    destruct Hh as [f [r [Hb [Hi Hm]]]]. exists f, r. split; [exact Hb|].
    assert (Hf : nonnan f) by (rewrite Forall_forall in Ht; auto).
    rewrite feq_K by assumption.
    assert (Hlt : (K f < K v)%Z).
    { assert (Hex : exists z, In z (b :: t) /\ (K z < K v)%Z).
      { clear - E. revert E. generalize (b :: t). intros l E.
        induction l as [|z l IH]; [discriminate|]. cbn in E.
        destruct (Z.leb_spec (K v) (K z)); [|exists z; split; [left; reflexivity|lia]].
        cbn in E. destruct (IH E) as [z' [Hz Hk]]. exists z'. split; [right; exact Hz|exact Hk]. }
      destruct Hex as [z [Hz Hk]]. specialize (Hm z Hz). lia. }
    destruct (Z.eqb_spec (K f) (K v)); [lia|]. symmetry. exact Hb.
Qed.

(** Appending a new element. *)
Lemma best_snoc l x : best (l ++ [x]) = filter (fun b => K b <=? K x)%Z (best l) ++ [x].
Proof.
  induction l as [|a l IH]; cbn; [reflexivity|].
  rewrite forallb_app. cbn. rewrite andb_true_r.
  destruct (forallb (fun y => K a <=? K y)%Z l) eqn:E; cbn.
  - destruct (K a <=? K x)%Z; cbn; rewrite IH; reflexivity.
  - exact IH.
Qed.

Lemma sorted_pop l x :
  nonnan x -> Forall nonnan l ->
  (forall i j a b, nth_error l i = Some a -> nth_error l j = Some b -> i <= j -> (K a <= K b)%Z) ->
  rev (pop_while (fun b => pop b x) (rev l)) = filter (fun b => K b <=? K x)%Z l.
Proof.
  intros Hx. induction l as [|b l IH] using rev_ind; intros Hn Hs; [reflexivity|].
  rewrite rev_app_distr. cbn [rev app pop_while].
  rewrite Forall_app in Hn. destruct Hn as [Hl Hb]. inversion Hb as [|? ? Hb' _]; subst.
  rewrite pop_key by assumption. rewrite filter_app. cbn [filter].
  assert (Hs' : forall i j a b, nth_error l i = Some a -> nth_error l j = Some b -> i <= j -> (K a <= K b)%Z).
  { intros i j a c Hi Hj. apply (Hs i j a c); (rewrite nth_error_app1; [assumption|]);
      apply nth_error_Some; congruence. }
  destruct (Z.ltb_spec (K x) (K b)) as [Hlt|Hge].
  - destruct (Z.leb_spec (K b) (K x)); [lia|]. rewrite app_nil_r. apply IH; assumption.
  - destruct (Z.leb_spec (K b) (K x)); [|lia].
    cbn [rev]. rewrite rev_involutive. f_equal.
    assert (Hall : forall a, In a l -> (K a <= K b)%Z).
    { intros a Ha. apply In_nth_error in Ha. destruct Ha as [i Hi].
      apply (Hs i (length l) a b).
      - rewrite nth_error_app1; [exact Hi|]. apply nth_error_Some; congruence.
      - rewrite nth_error_app2 by lia. rewrite Nat.sub_diag. reflexivity.
      - assert (i < length l) by (apply nth_error_Some; congruence). lia. }
    clear - Hall H. induction l as [|a l IH]; [reflexivity|]. cbn.
    specialize (Hall a (or_introl eq_refl)) as Ha.
    destruct (Z.leb_spec (K a) (K x)); [|lia]. f_equal. apply IH.
    intros c Hc. apply Hall. right. exact Hc.
Qed.

Lemma best_nth l i j a b :
  nth_error (best l) i = Some a -> nth_error (best l) j = Some b -> i <= j -> (K a <= K b)%Z.
Proof.
  revert i j. induction l as [|x l IH]; intros i j; cbn.
  - destruct i; discriminate.
  - destruct (forallb _ l) eqn:E; [|apply IH].
    destruct i as [|i]; destruct j as [|j]; cbn; intros Hi Hj Hij.
    + assert (a = b) by congruence. subst. lia.
    + injection Hi as <-. apply nth_error_In in Hj. apply best_incl in Hj.
      rewrite forallb_forall in E. specialize (E _ Hj). lia.
    + lia.
    + apply (IH i j); [assumption|assumption|lia].
Qed.

(** State invariant for history [h]. *)
Record MInv (w : Z) (h : list f64) (m : mm) : Prop := {
  mi_win : mm_window m = w;
  mi_cap : rcap (mm_queue m) = round_up w;
  mi_items : (w <> 0)%Z -> ritems (mm_queue m) = live w h;
  mi_count : mm_count m = zlen (live w h);
  mi_ne : (w <> 0)%Z -> h <> [] -> mm_deque m <> [];
  mi_deque : (w <> 0)%Z -> Forall nonnan h -> mm_deque m = best (live w h);
  mi_ext0 : h = [] -> mm_deque m = [] /\ mm_ext m = init;
  mi_ext : w = 0%Z -> Forall nonnan h -> h <> [] ->
           In (mm_ext m) h /\ forall y, In y h -> (K (mm_ext m) <= K y)%Z }.

Lemma MInv_init w : (0 <= w)%Z -> MInv w [] (mkMM w 0 (ring_new w) [] init).
Proof.
  intros Hw. constructor; cbn [mm_window mm_count mm_queue mm_deque mm_ext]; auto; try congruence.
  - intros _. rewrite live_nil. reflexivity.
  - rewrite live_nil. reflexivity.
  - intros _ _. rewrite live_nil. reflexivity.
Qed.

Lemma Forall_live w h : Forall nonnan h -> Forall nonnan (live w h).
Proof.
  rewrite !Forall_forall. intros H x Hx. apply H. eapply live_incl. eassumption.
Qed.

Lemma MInv_push w h m x : (0 <= w)%Z -> MInv w h m ->
  exists m', gpush pop comb m x = Ok m' /\ MInv w (h ++ [x]) m'.
Proof.
  intros Hw I. destruct I. unfold gpush. rewrite mi_win0.
  destruct (Z.eqb_spec w 0) as [Hz|Hnz]; cbn [negb].
  - eexists. split; [reflexivity|]. revert mi_win0. subst w. intros mi_win0.
    constructor; cbn [mm_window mm_count mm_queue mm_deque mm_ext]; auto; try lia.
    + rewrite mi_count0. unfold live, zlen. cbn [Z.eqb]. rewrite app_length. cbn [length]. lia.
    + intros He. destruct h; discriminate.
    + intros _ Hn _. rewrite Forall_app in Hn. destruct Hn as [Hn Hx].
      pose proof (Forall_inv Hx) as Hx'.
      destruct h as [|a h'].
      * destruct (mi_ext1 eq_refl) as [_ ->]. rewrite init_worst by assumption.
        cbn. split; [auto|]. intros y [->|[]]. lia.
      * destruct (mi_ext2 eq_refl Hn ltac:(discriminate)) as [Hin Hmin].
        assert (Hne : nonnan (mm_ext m)) by (rewrite Forall_forall in Hn; auto).
        destruct (comb_spec (mm_ext m) x Hne Hx') as [Hc [H1 H2]].
        split.
        -- apply in_or_app. destruct Hc as [->| ->]; [left; exact Hin|right; left; reflexivity].
        -- intros y Hy. apply in_app_or in Hy. destruct Hy as [Hy|[<-|[]]]; [|lia].
           specialize (Hmin y Hy). lia.
  - specialize (mi_items0 Hnz). specialize (mi_ne0 Hnz). specialize (mi_deque0 Hnz).
    unfold ring_len. rewrite mi_items0.
    pose proof (live_push w h x ltac:(lia)) as Hpush.
    destruct (Z.eqb_spec (zlen (live w h)) w) as [Hfull|Hnf].
    + unfold ring_get. rewrite mi_items0.
      destruct (live w h) as [|v t] eqn:El; [unfold zlen in Hfull; cbn in Hfull; lia|].
      assert (Hh : h <> []). { intros ->. rewrite live_nil in El. discriminate. }
      destruct (mm_deque m) as [|f d] eqn:Ed; [exfalso; apply mi_ne0; auto|].
      cbn [bind dq_front]. cbn [bind dq_pop_front].
      set (d' := if feq f v then d else f :: d).
      assert (Hd : (if feq f v then Ok d else Ok (f :: d)) = Ok d')
        by (unfold d'; destruct (feq f v); reflexivity).
      cbn [dq_pop_front] in *. rewrite Hd. cbn [bind mm_queue mm_deque mm_window mm_count mm_ext].
      rewrite (ring_put_ok _ x w); cbn [rcap ritems]; [|exact mi_cap0|].
      2:{ unfold ring_len. cbn [ritems]. unfold zlen in *. cbn [length] in Hfull. lia. }
      cbn [bind mm_queue mm_deque mm_window mm_count mm_ext].
      eexists. split; [reflexivity|].
      cbn [tl] in Hpush.
      constructor; cbn [mm_window mm_count mm_queue mm_deque mm_ext rcap ritems]; auto; try congruence.
      * rewrite Hpush, mi_count0. unfold zlen. rewrite app_length. cbn [length]. lia.
      * intros _ _. unfold dq_push_back. intros H. apply app_eq_nil in H. destruct H; discriminate.
      * intros _ Hn. rewrite Forall_app in Hn. destruct Hn as [Hn Hx].
        pose proof (Forall_inv Hx) as Hx'.
        specialize (mi_deque0 Hn).
        pose proof (Forall_live w h Hn) as Hl. rewrite El in Hl.
        pose proof (Forall_inv Hl) as Hv. pose proof (Forall_inv_tail Hl) as Ht.
        destruct (best_evict v t Hv Ht) as [f' [b' [Hb Hif]]].
        rewrite Hb in mi_deque0. injection mi_deque0 as -> ->.
        unfold dq_push_back, d'. rewrite Hif, Hpush, best_snoc. f_equal.
        apply sorted_pop; [exact Hx' | |apply best_nth].
        rewrite Forall_forall in *. intros y Hy. apply Ht. apply best_incl. exact Hy.
      * intros He. apply app_eq_nil in He. destruct He; discriminate.
    + cbn [bind]. rewrite (ring_put_ok _ x w); [|exact mi_cap0|].
      2:{ unfold ring_len. rewrite mi_items0. pose proof (live_zlen_le w h ltac:(lia)). lia. }
      cbn [bind]. eexists. split; [reflexivity|].
      constructor; cbn [mm_window mm_count mm_queue mm_deque mm_ext rcap ritems]; auto; try congruence.
      * rewrite Hpush, mi_count0. unfold zlen. rewrite app_length. cbn [length]. lia.
      * intros _ _. unfold dq_push_back. intros H. apply app_eq_nil in H. destruct H; discriminate.
      * intros _ Hn. rewrite Forall_app in Hn. destruct Hn as [Hn Hx].
        pose proof (Forall_inv Hx) as Hx'.
        rewrite (mi_deque0 Hn). unfold dq_push_back. rewrite Hpush, best_snoc. f_equal.
        pose proof (Forall_live _ _ Hn : Forall nonnan (live w h)) as Hl.
        apply sorted_pop; [exact Hx' | |apply best_nth].
        rewrite Forall_forall in *. intros y Hy. apply Hl. apply best_incl. exact Hy.
      * intros He. apply app_eq_nil in He. destruct He; discriminate.
Qed.

Definition gvalue (m : mm) : res f64 :=
  if (mm_count m =? 0)%Z then Err ENoValues
  else if (mm_window m =? 0)%Z then Ok (mm_ext m)
  else dq_front (mm_deque m).

Lemma gvalue_spec w h m : (0 <= w)%Z -> MInv w h m ->
  (h = [] -> gvalue m = Err ENoValues) /\
  (h <> [] -> exists v, gvalue m = Ok v) /\
  (h <> [] -> Forall nonnan h ->
     exists v, gvalue m = Ok v /\ In v (live w h) /\ forall y, In y (live w h) -> (K v <= K y)%Z).
Proof.
  intros Hw I. destruct I. unfold gvalue. rewrite mi_count0.
  split; [|split].
  - intros ->. rewrite live_nil. reflexivity.
  - intros Hne. destruct (Z.eqb_spec (zlen (live w h)) 0) as [E|E].
    + exfalso. apply Hne. apply (live_empty w); [lia|].
      unfold zlen in E. destruct (live w h); [reflexivity|cbn in E; lia].
    + rewrite mi_win0. destruct (Z.eqb_spec w 0) as [Hz|Hnz]; [eauto|].
      specialize (mi_ne0 Hnz Hne). destruct (mm_deque m); [congruence|cbn; eauto].
  - intros Hne Hn. destruct (Z.eqb_spec (zlen (live w h)) 0) as [E|E].
    + exfalso. apply Hne. apply (live_empty w); [lia|].
      unfold zlen in E. destruct (live w h); [reflexivity|cbn in E; lia].
    + rewrite mi_win0. destruct (Z.eqb_spec w 0) as [Hz|Hnz].
      * exists (mm_ext m). split; [reflexivity|]. clear mi_win0 mi_cap0. subst w. unfold live. cbn [Z.eqb].
        apply mi_ext2; auto.
      * rewrite (mi_deque0 Hnz Hn).
        destruct (best_head (live w h)) as [v [t [Hb [Hi Hm]]]].
        { intros He. rewrite He in E. cbn in E. lia. }
        exists v. rewrite Hb. cbn. auto.
Qed.
End Generic.

(** ** Min *)

Lemma isnan_zero_fz : nonnan (fz 0).
Proof. reflexivity. Qed.

Lemma fle_K a b : nonnan a -> nonnan b -> (fk a <= fk b)%Z -> fle a b = true.
Proof. intros Ha Hb H. rewrite fle_key by assumption. apply Z.leb_le. exact H. Qed.

Lemma fk_le_inf x : nonnan x -> (- 2 ^ 2098 <= fk x <= 2 ^ 2098)%Z.
Proof.
  assert (Hp : (0 < 2 ^ 2098)%Z) by (apply Z.pow_pos_nonneg; lia).
  intros Hx. destruct x as [s|s| |s m e H]; try discriminate Hx.
  - change (fk _) with 0%Z. lia.
  - unfold fk, fval. destruct s; unfold cond_Zopp; lia.
  - pose proof (finite_bound s _ _ H). unfold fk, fval. lia.
Qed.

Lemma math_min_spec a b : nonnan a -> nonnan b ->
  (math_min a b = a \/ math_min a b = b) /\ (fk (math_min a b) <= fk a)%Z /\ (fk (math_min a b) <= fk b)%Z.
Proof.
  intros Ha Hb. unfold math_min.
  destruct (is_inf a true || is_inf b true) eqn:Ei.
  - pose proof (fk_le_inf a Ha). pose proof (fk_le_inf b Hb).
    assert (Hk : fk (finf true) = (- 2 ^ 2098)%Z) by reflexivity.
    rewrite Hk. split; [|lia].
    apply orb_true_iff in Ei. destruct Ei as [E|E].
    + left. destruct a as [|s| |]; try discriminate. destruct s; [reflexivity|discriminate].
    + right. destruct b as [|s| |]; try discriminate. destruct s; [reflexivity|discriminate].
  - unfold nonnan in *. rewrite Ha, Hb. cbn [orb].
    destruct (feq a (fz 0) && feq a b) eqn:E.
    + apply andb_prop in E. destruct E as [_ E]. rewrite feq_key in E by assumption.
      apply Z.eqb_eq in E. destruct (signbit a); split; auto; lia.
    + rewrite flt_key by assumption. destruct (Z.ltb_spec (fk a) (fk b)); split; auto; lia.
Qed.

Lemma math_min_init x : nonnan x -> math_min (finf false) x = x.
Proof.
  intros Hx. destruct (math_min_spec (finf false) x eq_refl Hx) as [[H|H] [H1 H2]]; [|exact H].
  rewrite H in *. pose proof (fk_le_inf x Hx).
  assert (Hk : fk (finf false) = (2 ^ 2098)%Z) by reflexivity. rewrite Hk in *.
  destruct x as [s|s| |s m e Hb].
  - change (fk (B754_zero s)) with 0%Z in *.
    assert (Hp : (0 < 2 ^ 2098)%Z) by (apply Z.pow_pos_nonneg; lia). lia.
  - destruct s; [|exact H]. unfold fk, fval, cond_Zopp in *.
    assert (Hp : (0 < 2 ^ 2098)%Z) by (apply Z.pow_pos_nonneg; lia). lia.
  - discriminate Hx.
  - pose proof (finite_bound s _ _ Hb). unfold fk, fval in *. lia.
Qed.

Definition min_inv := MInv (finf false) fk.

Lemma min_reach w ops : (0 <= w)%Z ->
  exists m, min_run w ops = Ok m /\ min_inv w (hist ops) m.
Proof.
  intros Hw. unfold min_run, new_min. destruct (Z.ltb_spec w 0); [lia|]. cbn [bind].
  apply (run_inv _ _ (fun h m => min_inv w h m)).
  - apply MInv_init. exact Hw.
  - intros h s x I. rewrite min_push_g. eapply MInv_push; eauto.
    + intros a b Ha Hb. apply fgt_key; assumption.
    + intros a b Ha Hb. apply feq_key; assumption.
    + exact math_min_spec.
    + exact math_min_init.
  - intros h s I. unfold min_clear. eexists. split; [reflexivity|].
    destruct I. rewrite mi_win0. apply MInv_init. exact Hw.
Qed.

Lemma min_value_correct w ops : (0 <= w)%Z -> Forall nonnan (hist ops) ->
  exists m, min_run w ops = Ok m /\
    (hist ops = [] -> min_value m = Err ENoValues) /\
    (hist ops <> [] -> exists v, min_value m = Ok v /\ is_min (live w (hist ops)) v).
Proof.
  intros Hw Hn. destruct (min_reach w ops Hw) as [m [Hr I]]. exists m. split; [exact Hr|].
  destruct (gvalue_spec (finf false) fk w (hist ops) m Hw I) as [H1 [_ H3]].
  split; [exact H1|]. intros Hne. destruct (H3 Hne Hn) as [v [Hv [Hi Hm]]].
  exists v. split; [exact Hv|]. split; [exact Hi|].
  intros y Hy. rewrite Forall_forall in Hn.
  apply fle_K; [apply Hn; eapply live_incl; eassumption | apply Hn; eapply live_incl; eassumption|].
  apply Hm; exact Hy.
Qed.

(** ** Max *)
Lemma math_max_spec a b : nonnan a -> nonnan b ->
  (math_max a b = a \/ math_max a b = b) /\ (fk a <= fk (math_max a b))%Z /\ (fk b <= fk (math_max a b))%Z.
Proof.
  intros Ha Hb. unfold math_max.
  destruct (is_inf a false || is_inf b false) eqn:Ei.
  - pose proof (fk_le_inf a Ha). pose proof (fk_le_inf b Hb).
    assert (Hk : fk (finf false) = (2 ^ 2098)%Z) by reflexivity.
    rewrite Hk. split; [|lia].
    apply orb_true_iff in Ei. destruct Ei as [E|E].
    + left. destruct a as [|s| |]; try discriminate. destruct s; [discriminate|reflexivity].
    + right. destruct b as [|s| |]; try discriminate. destruct s; [discriminate|reflexivity].
  - unfold nonnan in *. rewrite Ha, Hb. cbn [orb].
    destruct (feq a (fz 0) && feq a b) eqn:E.
    + apply andb_prop in E. destruct E as [_ E]. rewrite feq_key in E by assumption.
      apply Z.eqb_eq in E. destruct (signbit a); split; auto; lia.
    + rewrite fgt_key by assumption. destruct (Z.ltb_spec (fk b) (fk a)); split; auto; lia.
Qed.

Lemma math_max_init x : nonnan x -> math_max (finf true) x = x.
Proof.
  intros Hx. destruct (math_max_spec (finf true) x eq_refl Hx) as [[H|H] [H1 H2]]; [|exact H].
  rewrite H in *. pose proof (fk_le_inf x Hx).
  assert (Hk : fk (finf true) = (- 2 ^ 2098)%Z) by reflexivity. rewrite Hk in *.
  assert (Hp : (0 < 2 ^ 2098)%Z) by (apply Z.pow_pos_nonneg; lia).
  destruct x as [s|s| |s m e Hb].
  - change (fk (B754_zero s)) with 0%Z in *. lia.
  - destruct s; [exact H|]. unfold fk, fval, cond_Zopp in *. lia.
  - discriminate Hx.
  - pose proof (finite_bound s _ _ Hb). unfold fk, fval in *. lia.
Qed.

Definition max_inv := MInv (finf true) (fun x => (- fk x)%Z).

Lemma max_reach w ops : (0 <= w)%Z ->
  exists m, max_run w ops = Ok m /\ max_inv w (hist ops) m.
Proof.
  intros Hw. unfold max_run, new_max. destruct (Z.ltb_spec w 0); [lia|]. cbn [bind].
  apply (run_inv _ _ (fun h m => max_inv w h m)).
  - apply MInv_init. exact Hw.
  - intros h s x I. rewrite max_push_g. eapply MInv_push; eauto.
    + intros a b Ha Hb. rewrite flt_key by assumption.
      destruct (Z.ltb_spec (fk a) (fk b)); destruct (Z.ltb_spec (- fk b) (- fk a)); lia.
    + intros a b Ha Hb. rewrite feq_key by assumption.
      destruct (Z.eqb_spec (fk a) (fk b)); destruct (Z.eqb_spec (- fk a) (- fk b)); lia.
    + intros a b Ha Hb. destruct (math_max_spec a b Ha Hb) as [H1 [H2 H3]]. split; [exact H1|lia].
    + exact math_max_init.
  - intros h s I. unfold max_clear. eexists. split; [reflexivity|].
    destruct I. rewrite mi_win0. apply MInv_init. exact Hw.
Qed.

Lemma max_value_correct w ops : (0 <= w)%Z -> Forall nonnan (hist ops) ->
  exists m, max_run w ops = Ok m /\
    (hist ops = [] -> max_value m = Err ENoValues) /\
    (hist ops <> [] -> exists v, max_value m = Ok v /\ is_max (live w (hist ops)) v).
Proof.
  intros Hw Hn. destruct (max_reach w ops Hw) as [m [Hr I]]. exists m. split; [exact Hr|].
  destruct (gvalue_spec _ _ w (hist ops) m Hw I) as [H1 [_ H3]].
  split; [exact H1|]. intros Hne. destruct (H3 Hne Hn) as [v [Hv [Hi Hm]]].
  exists v. split; [exact Hv|]. split; [exact Hi|].
  intros y Hy. rewrite Forall_forall in Hn.
  unfold fge. apply fle_K; [apply Hn; eapply live_incl; eassumption | apply Hn; eapply live_incl; eassumption|].
  specialize (Hm y Hy). cbn in Hm. lia.
Qed.

(** ** A NaN in a windowed metric *)
Section NaN.
Variable pop : f64 -> f64 -> bool.
Variable comb : f64 -> f64 -> f64.
Variable init : f64.
Variable K : f64 -> Z.
Hypothesis pop_key : forall b x, nonnan b -> nonnan x -> pop b x = (K x <? K b)%Z.
Hypothesis feq_K : forall a b, nonnan a -> nonnan b -> feq a b = (K a =? K b)%Z.
Hypothesis pop_nan_l : forall x, pop fnan x = false.
Hypothesis pop_nan_r : forall x, pop x fnan = false.

Lemma pop_while_nan x p r :
  exists r', rev (pop_while (fun b => pop b x) (rev (p ++ fnan :: r))) = p ++ fnan :: r'.
Proof.
  rewrite rev_app_distr. cbn [rev]. rewrite <- app_assoc. cbn [app].
  induction r as [|y r IH] using rev_ind.
  - cbn [rev app pop_while]. rewrite pop_nan_l. cbn [rev]. rewrite rev_involutive.
    exists []. reflexivity.
  - rewrite rev_app_distr. cbn [rev app pop_while]. destruct (pop y x); [exact IH|].
    cbn [rev]. rewrite rev_app_distr. cbn [rev]. rewrite rev_involutive.
    rewrite rev_involutive. exists (r ++ [y]). rewrite <- !app_assoc. reflexivity.
Qed.

Definition nan_pos (w : Z) (a b : list f64) (m : mm) : Prop :=
  mm_window m = w /\ rcap (mm_queue m) = round_up w /\
  ritems (mm_queue m) = live w (a ++ fnan :: b) /\ mm_count m = zlen (live w (a ++ fnan :: b)) /\
  exists r, mm_deque m = best K (lastn (Z.to_nat w - 1 - length b) a) ++ fnan :: r.

Lemma lastn_nan_eq (n : nat) (a b : list f64) :
  n <= length a + 1 + length b -> length b < n ->
  lastn n (a ++ fnan :: b) = lastn (n - 1 - length b) a ++ fnan :: b.
Proof.
  intros H Hb. unfold lastn. rewrite app_length. cbn [length].
  replace (length a + S (length b) - n) with (length a - (n - 1 - length b)) by lia.
  rewrite skipn_app. f_equal.
  replace (length a - (n - 1 - length b) - length a) with 0 by lia. reflexivity.
Qed.

Lemma lastn_cons_tl {A} (l : list A) k v t : lastn k l = v :: t -> k <= length l -> lastn (k - 1) l = t.
Proof.
  unfold lastn. intros H Hk.
  assert (Hl : length (skipn (length l - k) l) = S (length t)) by (rewrite H; reflexivity).
  rewrite skipn_length in Hl.
  replace (length l - (k - 1)) with (S (length l - k)) by lia.
  assert (Hgen : forall j (m : list A), skipn (S j) m = tl (skipn j m)).
  { induction j as [|j IH]; intros [|y m]; try reflexivity.
    change (skipn (S (S j)) (y :: m)) with (skipn (S j) m). rewrite IH. reflexivity. }
  rewrite Hgen, H. reflexivity.
Qed.

Lemma lastn_0 {A} (l : list A) : lastn 0 l = [].
Proof. unfold lastn. rewrite Nat.sub_0_r. apply skipn_all. Qed.

Lemma nan_pos_step w a b m x : (0 < w)%Z -> Forall nonnan a -> nan_pos w a b m ->
  exists m', gpush pop comb m x = Ok m' /\ nan_pos w a (b ++ [x]) m'.
Proof.
  intros Hw Ha [Hwin [Hcap [Hit [Hc [r Hd]]]]].
  unfold gpush. rewrite Hwin. destruct (Z.eqb_spec w 0) as [?|_]; [lia|]. cbn [negb].
  unfold ring_len. rewrite Hit.
  pose proof (live_push w (a ++ fnan :: b) x Hw) as Hpush.
  rewrite <- app_assoc in Hpush. cbn [app] in Hpush.
  assert (Hlen : length (b ++ [x]) = S (length b)) by (rewrite app_length; cbn; lia).
  assert (Hlw : zlen (live w (a ++ fnan :: b)) = Z.min w (Z.of_nat (length a + 1 + length b))).
  { unfold live, zlen. destruct (Z.eqb_spec w 0); [lia|]. rewrite lastn_length, app_length. cbn [length]. lia. }
  destruct (Z.eqb_spec (zlen (live w (a ++ fnan :: b))) w) as [Hfull|Hnf].
  - unfold ring_get. rewrite Hit.
    destruct (live w (a ++ fnan :: b)) as [|v t] eqn:El; [unfold zlen in Hfull; cbn in Hfull; lia|].
    assert (Hev : exists f d, mm_deque m = f :: d /\ exists r2,
      (if feq f v then d else f :: d) = best K (lastn (Z.to_nat w - 1 - length (b ++ [x])) a) ++ fnan :: r2).
    { rewrite Hlen. remember (Z.to_nat w - 1 - length b) as k eqn:Ek.
      destruct k as [|k].
      - rewrite lastn_0 in Hd. cbn [best app] in Hd. exists fnan, r. split; [exact Hd|].
        replace (Z.to_nat w - 1 - S (length b)) with 0 by lia.
        rewrite lastn_0. exists r. rewrite feq_nan_l. reflexivity.
      - assert (Hl2 : lastn (Z.to_nat w) (a ++ fnan :: b) = lastn (S k) a ++ fnan :: b).
        { rewrite Ek. apply lastn_nan_eq; lia. }
        unfold live in El. destruct (Z.eqb_spec w 0); [lia|]. rewrite Hl2 in El.
        destruct (lastn (S k) a) as [|v' t'] eqn:Ela.
        { apply (f_equal (@length f64)) in Ela. rewrite lastn_length in Ela. cbn [length] in Ela. exfalso. lia. }
        injection El as -> _.
        assert (Hnn : Forall nonnan (v :: t')).
        { rewrite <- Ela. rewrite Forall_forall in *. intros y Hy. apply Ha. eapply lastn_incl. eassumption. }
        destruct (best_evict K feq_K v t' (Forall_inv Hnn) (Forall_inv_tail Hnn)) as [f [d [Hb Hif]]].
        exists f, (d ++ fnan :: r). rewrite Hd, Hb. split; [reflexivity|].
        assert (Ht : lastn (Z.to_nat w - 1 - S (length b)) a = t').
        { replace (Z.to_nat w - 1 - S (length b)) with (S k - 1) by lia.
          eapply lastn_cons_tl; [exact Ela|lia]. }
        rewrite Ht, <- Hif. exists r. destruct (feq f v); reflexivity. }
    destruct Hev as [f [d [Hmd [r2 Hr2]]]]. rewrite Hmd. cbn [bind dq_front dq_pop_front].
    assert (Hif : (if feq f v then Ok d else Ok (f :: d)) = Ok (if feq f v then d else f :: d))
      by (destruct (feq f v); reflexivity).
    rewrite Hif, Hr2. cbn [bind mm_queue mm_deque mm_window mm_count mm_ext].
    rewrite (ring_put_ok _ x w); cbn [rcap ritems]; [|exact Hcap|].
    2:{ unfold ring_len. cbn [ritems]. unfold zlen in *. cbn [length] in Hfull. lia. }
    cbn [bind]. destruct (pop_while_nan x (best K (lastn (Z.to_nat w - 1 - length (b ++ [x])) a)) r2) as [r3 Hr3].
    rewrite Hr3.
    eexists. split; [reflexivity|]. unfold nan_pos.
    cbn [mm_queue mm_deque mm_window mm_count mm_ext rcap ritems].
    rewrite Hpush. cbn [tl]. repeat split; auto.
    + rewrite Hc. unfold zlen. rewrite app_length. cbn [length]. lia.
    + exists (r3 ++ [x]). unfold dq_push_back. rewrite <- app_assoc. reflexivity.
  - cbn [bind]. rewrite (ring_put_ok _ x w); [|exact Hcap|].
    2:{ unfold ring_len. rewrite Hit. lia. }
    cbn [bind]. rewrite Hd.
    destruct (pop_while_nan x (best K (lastn (Z.to_nat w - 1 - length b) a)) r) as [r3 Hr3].
    rewrite Hr3. eexists. split; [reflexivity|]. unfold nan_pos.
    cbn [mm_queue mm_deque mm_window mm_count mm_ext rcap ritems].
    rewrite Hpush, Hit. repeat split; auto.
    + rewrite Hc. unfold zlen. rewrite app_length. cbn [length]. lia.
    + exists (r3 ++ [x]). unfold dq_push_back. rewrite <- app_assoc. cbn [app].
      rewrite Hlen. rewrite !(lastn_all _ a) by lia. reflexivity.
Qed.

Hypothesis comb_spec : forall a b, nonnan a -> nonnan b ->
  (comb a b = a \/ comb a b = b) /\ (K (comb a b) <= K a)%Z /\ (K (comb a b) <= K b)%Z.

Lemma nan_pos_first w a m : (0 < w)%Z -> Forall nonnan a -> MInv init K w a m ->
  exists m', gpush pop comb m fnan = Ok m' /\ nan_pos w a [] m'.
Proof.
  intros Hw Ha I. destruct I.
  assert (Hnz : w <> 0%Z) by lia.
  specialize (mi_items0 Hnz). specialize (mi_ne0 Hnz). specialize (mi_deque0 Hnz Ha).
  unfold gpush. rewrite mi_win0. destruct (Z.eqb_spec w 0) as [?|_]; [lia|]. cbn [negb].
  unfold ring_len. rewrite mi_items0.
  pose proof (live_push w a fnan Hw) as Hpush.
  assert (Hlw : zlen (live w a) = Z.min w (Z.of_nat (length a))).
  { unfold live, zlen. destruct (Z.eqb_spec w 0); [lia|]. rewrite lastn_length. lia. }
  assert (Hpw : forall l, pop_while (fun b => pop b fnan) l = l).
  { intros [|y l]; cbn; [reflexivity|]. rewrite pop_nan_r. reflexivity. }
  destruct (Z.eqb_spec (zlen (live w a)) w) as [Hfull|Hnf].
  - unfold ring_get. rewrite mi_items0.
    destruct (live w a) as [|v t] eqn:El; [unfold zlen in Hfull; cbn in Hfull; lia|].
    assert (Hn : Forall nonnan (v :: t)).
    { rewrite <- El. rewrite Forall_forall in *. intros y Hy. apply Ha. eapply live_incl. eassumption. }
    destruct (best_evict K feq_K v t (Forall_inv Hn) (Forall_inv_tail Hn)) as [f [d [Hb Hif]]].
    rewrite mi_deque0, Hb. cbn [bind dq_front dq_pop_front].
    assert (Hif2 : (if feq f v then Ok d else Ok (f :: d)) = Ok (if feq f v then d else f :: d))
      by (destruct (feq f v); reflexivity).
    rewrite Hif2, Hif. cbn [bind mm_queue mm_deque mm_window mm_count mm_ext].
    rewrite (ring_put_ok _ fnan w); cbn [rcap ritems]; [|exact mi_cap0|].
    2:{ unfold ring_len. cbn [ritems]. unfold zlen in *. cbn [length] in Hfull. lia. }
    cbn [bind]. rewrite Hpw, rev_involutive. eexists. split; [reflexivity|]. unfold nan_pos.
    cbn [mm_queue mm_deque mm_window mm_count mm_ext rcap ritems].
    rewrite Hpush. cbn [tl]. repeat split; auto.
    + rewrite mi_count0. unfold zlen. rewrite app_length. cbn [length]. lia.
    + exists []. unfold dq_push_back. f_equal. f_equal.
      cbn [length]. rewrite Nat.sub_0_r. symmetry. eapply lastn_cons_tl.
      * unfold live in El. destruct (Z.eqb_spec w 0); [lia|]. exact El.
      * unfold zlen in *. lia.
  - cbn [bind]. rewrite (ring_put_ok _ fnan w); [|exact mi_cap0|].
    2:{ unfold ring_len. rewrite mi_items0. lia. }
    cbn [bind]. rewrite Hpw, rev_involutive, mi_deque0. eexists. split; [reflexivity|]. unfold nan_pos.
    cbn [mm_queue mm_deque mm_window mm_count mm_ext rcap ritems].
    rewrite Hpush, mi_items0. repeat split; auto.
    + rewrite mi_count0. unfold zlen. rewrite app_length. cbn [length]. lia.
    + exists []. unfold dq_push_back. f_equal. f_equal. cbn [length]. rewrite Nat.sub_0_r.
      rewrite (lastn_all _ a) by lia. unfold live. destruct (Z.eqb_spec w 0); [lia|].
      apply lastn_all. lia.
Qed.

Lemma nan_pos_value w a b m : (0 < w)%Z -> nan_pos w a b m -> (w <= zlen b)%Z ->
  gvalue m = Ok fnan.
Proof.
  intros Hw [Hwin [Hcap [Hit [Hc [r Hd]]]]] Hb. unfold gvalue.
  unfold zlen in Hb. rewrite Hc. destruct (Z.eqb_spec (zlen (live w (a ++ fnan :: b))) 0) as [E|_].
  - unfold zlen, live in E. destruct (Z.eqb_spec w 0); [lia|].
    rewrite lastn_length, app_length in E. cbn in E. lia.
  - rewrite Hwin. destruct (Z.eqb_spec w 0); [lia|]. rewrite Hd.
    replace (Z.to_nat w - 1 - length b) with 0 by lia. rewrite lastn_0. reflexivity.
Qed.
End NaN.

Lemma run_pushes_nan (push : mm -> f64 -> res mm) (clear : mm -> res mm) (Q : list f64 -> mm -> Prop) :
  (forall b m x, Q b m -> exists m', push m x = Ok m' /\ Q (b ++ [x]) m') ->
  forall xs b m, Q b m -> exists m', run push clear (map OPush xs) m = Ok m' /\ Q (b ++ xs) m'.
Proof.
  intros Hs. induction xs as [|x xs IH]; intros b m HQ; cbn [map run].
  - exists m. rewrite app_nil_r. auto.
  - destruct (Hs b m x HQ) as [m1 [H1 Q1]]. rewrite H1. cbn [bind].
    destruct (IH _ _ Q1) as [m2 [H2 Q2]]. exists m2. split; [exact H2|].
    rewrite <- app_assoc in Q2. exact Q2.
Qed.

(** After any history [ops] whose values since the last Clear are numbers, one
    NaN followed by at least [w] values (whatever they are). *)
Lemma min_nan_sticky w ops xs : (0 < w)%Z -> Forall nonnan (hist ops) -> (w <= zlen xs)%Z ->
  exists m, min_run w (ops ++ OPush fnan :: map OPush xs) = Ok m /\ min_value m = Ok fnan.
Proof.
  intros Hw Hn Hx. destruct (min_reach w ops ltac:(lia)) as [m0 [Hr I]].
  unfold min_run in *. destruct (new_min w) as [mi| | | |]; try discriminate Hr. cbn [bind] in *.
  rewrite run_app, Hr. cbn [bind run].
  destruct (nan_pos_first fgt math_min (finf false) fk
              (fun a b Ha Hb => feq_key a b Ha Hb) flt_nan_l
              w (hist ops) m0 Hw Hn I) as [m1 [H1 Q1]].
  rewrite min_push_g, H1. cbn [bind].
  destruct (run_pushes_nan min_push min_clear (nan_pos fk w (hist ops))) with (xs := xs) (b := @nil f64) (m := m1)
    as [m2 [H2 Q2]].
  - intros b m x HQ. rewrite min_push_g. apply nan_pos_step; auto.
    + intros a c Ha Hc. apply feq_key; assumption.
    + intros y. apply flt_nan_r.
  - exact Q1.
  - exists m2. split; [exact H2|]. cbn [app] in Q2. exact (nan_pos_value fk w _ _ _ Hw Q2 Hx).
Qed.

Lemma max_nan_sticky w ops xs : (0 < w)%Z -> Forall nonnan (hist ops) -> (w <= zlen xs)%Z ->
  exists m, max_run w (ops ++ OPush fnan :: map OPush xs) = Ok m /\ max_value m = Ok fnan.
Proof.
  intros Hw Hn Hx. destruct (max_reach w ops ltac:(lia)) as [m0 [Hr I]].
  unfold max_run in *. destruct (new_max w) as [mi| | | |]; try discriminate Hr. cbn [bind] in *.
  rewrite run_app, Hr. cbn [bind run].
  assert (HfK : forall a b, nonnan a -> nonnan b -> feq a b = (- fk a =? - fk b)%Z).
  { intros a b Ha Hb. rewrite feq_key by assumption.
    destruct (Z.eqb_spec (fk a) (fk b)); destruct (Z.eqb_spec (- fk a) (- fk b)); lia. }
  destruct (nan_pos_first flt math_max (finf true) (fun x => (- fk x)%Z) HfK flt_nan_r
              w (hist ops) m0 Hw Hn I) as [m1 [H1 Q1]].
  rewrite max_push_g, H1. cbn [bind].
  destruct (run_pushes_nan max_push max_clear (nan_pos (fun x => (- fk x)%Z) w (hist ops))) with (xs := xs) (b := @nil f64) (m := m1)
    as [m2 [H2 Q2]].
  - intros b m x HQ. rewrite max_push_g. apply nan_pos_step; auto.
  - exact Q1.
  - exists m2. split; [exact H2|]. cbn [app] in Q2. exact (nan_pos_value _ w _ _ _ Hw Q2 Hx).
Qed.

Lemma hist_after_clear {A} (ops1 ops2 : list (op A)) : hist (ops1 ++ OClear :: ops2) = hist ops2.
Proof. rewrite hist_app. reflexivity. Qed.

Lemma minmax_clear_nan w ops1 ops2 :
  (0 <= w)%Z -> Forall nonnan (hist ops2) -> hist ops2 <> [] ->
  (exists m v, min_run w (ops1 ++ OClear :: ops2) = Ok m /\ min_value m = Ok v /\ is_min (live w (hist ops2)) v) /\
  (exists m v, max_run w (ops1 ++ OClear :: ops2) = Ok m /\ max_value m = Ok v /\ is_max (live w (hist ops2)) v).
Proof.
  intros Hw Hn Hne. rewrite <- (hist_after_clear ops1 ops2) in *. split.
  - destruct (min_value_correct w _ Hw Hn) as [m [Hr [_ H]]]. destruct (H Hne) as [v [Hv Hm]].
    exists m, v. auto.
  - destruct (max_value_correct w _ Hw Hn) as [m [Hr [_ H]]]. destruct (H Hne) as [v [Hv Hm]].
    exists m, v. auto.
Qed.
