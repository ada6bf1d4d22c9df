(** Facts about exponent tuples and the multivariate expansion of shifted power sums. *)
From Coq Require Import Reals Lra Binomial Permutation.
From Verif Require Import Base MathModel MathProof HistSpec NumModel MomentSpec RealLib JointModel JointSpec.
Local Open Scope Z_scope.

(** ** Arithmetic of tuples *)
Definition tabs (b : tuple) : nat := fold_right (fun k s => (Z.to_nat k + s)%nat) 0%nat b.
Fixpoint tsub (a b : tuple) : tuple := match a, b with x :: a', y :: b' => (x - y) :: tsub a' b' | _, _ => [] end.
Fixpoint mbin (a b : tuple) : Z := match a, b with x :: a', y :: b' => zbin (Z.to_nat x) (Z.to_nat y) * mbin a' b' | _, _ => 1 end.
Definition fits (t : tuple) : Prop := Forall (fun k => 0 <= k <= 20) t /\ degree t <= 62.
Definition zero (n : nat) : tuple := repeat 0 n.

Lemma tle_length b a : tle b a -> length b = length a.
Proof. intros H. induction H; cbn; congruence. Qed.
Lemma tle_refl a : Forall (fun k => 0 <= k) a -> tle a a.
Proof. induction a as [|k a IH]; intros H; [constructor|]. inversion H; subst. constructor; [lia|]. apply IH. assumption. Qed.
Lemma tle_trans a b c : tle a b -> tle b c -> tle a c.
Proof.
  intros H. revert c. induction H as [|x y a b Hxy H IH]; intros c Hc; inversion Hc; subst; constructor; [lia|]. apply IH. assumption.
Qed.
Lemma tle_nonneg b a : tle b a -> Forall (fun k => 0 <= k) b.
Proof. intros H. induction H; constructor; auto. lia. Qed.
Lemma tle_zero n a : length a = n -> Forall (fun k => 0 <= k) a -> tle (zero n) a.
Proof. intros <- H. unfold zero. induction H; cbn; constructor; auto. lia. Qed.
Lemma tle_degree b a : tle b a -> 0 <= degree b <= degree a.
Proof. intros H. unfold degree. induction H; cbn [fold_right]; lia. Qed.
Lemma fits_le b a : tle b a -> fits a -> fits b.
Proof.
  intros H [F D]. split.
  - clear D. revert F. induction H; intros F; inversion F; subst; constructor; auto. lia.
  - pose proof (tle_degree b a H). lia.
Qed.
Lemma fits_nonneg a : fits a -> Forall (fun k => 0 <= k) a.
Proof. intros [F _]. eapply Forall_impl; [|exact F]. cbn. lia. Qed.
Lemma tabs_degree b : Forall (fun k => 0 <= k) b -> Z.of_nat (tabs b) = degree b.
Proof. intros H. induction H; unfold tabs, degree in *; cbn [fold_right]; lia. Qed.

Lemma fold_abs_eq b s : Forall (fun k => 0 <= k) b -> 0 <= s -> s + degree b < 2 ^ 63 -> fold_left (fun s i => wrap (s + i)) b s = s + degree b.
Proof.
  intros H. revert s. induction H as [|k b Hk H IH]; intros s Hs Hb; unfold degree in *; cbn [fold_left fold_right] in *; [lia|].
  assert (0 <= fold_right Z.add 0 b) by (clear - H; induction H; cbn; lia).
  rewrite wrap_id by lia. rewrite IH; lia.
Qed.
Lemma t_abs_eq b : Forall (fun k => 0 <= k) b -> degree b < 2 ^ 63 -> t_abs b = degree b.
Proof. intros H Hb. unfold t_abs. rewrite fold_abs_eq by (auto; lia). lia. Qed.
Lemma t_abs_tabs b : fits b -> t_abs b = Z.of_nat (tabs b).
Proof. intros F. pose proof (fits_nonneg b F) as Hn. rewrite tabs_degree by exact Hn. apply t_abs_eq; [exact Hn|]. destruct F. lia. Qed.
Lemma degree_zero b : Forall (fun k => 0 <= k) b -> degree b = 0 -> b = zero (length b).
Proof.
  intros H. unfold degree, zero. induction H as [|k b Hk H IH]; cbn [fold_right length repeat]; intros E; [reflexivity|].
  assert (0 <= fold_right Z.add 0 b) by (clear - H; induction H; cbn; lia). f_equal; [lia|]. apply IH. lia.
Qed.
Lemma degree_zeros n : degree (zero n) = 0.
Proof. unfold degree, zero. induction n; cbn [repeat fold_right]; lia. Qed.

Lemma t_eq_spec b : forall a, t_eq b a = true <-> b = a.
Proof.
  induction b as [|x b IH]; intros [|y a]; cbn [t_eq]; split; intros H; try discriminate; try reflexivity.
  - apply andb_true_iff in H. destruct H as [H1 H2]. apply Z.eqb_eq in H1. apply IH in H2. congruence.
  - injection H as -> ->. rewrite Z.eqb_refl. apply IH. reflexivity.
Qed.
Lemma t_sub_ok a b : tle b a -> fits a -> t_sub a b = Ok (tsub a b).
Proof.
  intros H [F _]. unfold t_sub. rewrite (tle_length b a H), Nat.eqb_refl. cbn [negb]. f_equal.
  induction H; cbn [t_sub_loop tsub]; [reflexivity|]. inversion F; subst. rewrite wrap_id by lia. f_equal. auto.
Qed.
Lemma tsub_le a b : tle b a -> tle (tsub a b) a.
Proof. intros H. induction H; cbn [tsub]; constructor; auto. lia. Qed.
Lemma tsub_zero a : tsub a (zero (length a)) = a.
Proof. unfold zero. induction a as [|x a IH]; cbn [length repeat tsub]; [reflexivity|]. f_equal; [lia|exact IH]. Qed.
Lemma tsub_self a : tsub a a = zero (length a).
Proof. unfold zero. induction a as [|x a IH]; cbn [length repeat tsub]; [reflexivity|]. f_equal; [lia|exact IH]. Qed.
Lemma tsub_degree a b : tle b a -> degree (tsub a b) = degree a - degree b.
Proof. intros H. unfold degree. induction H; cbn [tsub fold_right]; lia. Qed.

Lemma zbin_pow2 n : forall k, zbin n k <= 2 ^ Z.of_nat n.
Proof.
  induction n as [|n IH]; intros [|k]; cbn [zbin]; try (cbn; lia).
  - rewrite Nat2Z.inj_succ, Z.pow_succ_r by lia. pose proof (IH k). pose proof (IH (S k)). lia.
Qed.
Lemma mbin_bound b a : tle b a -> 0 < mbin a b <= 2 ^ degree a.
Proof.
  intros H. unfold degree. induction H as [|y x b a Hxy H IH]; cbn [mbin fold_right]; [cbn; lia|].
  pose proof (zbin_pow2 (Z.to_nat x) (Z.to_nat y)) as H1. pose proof (zbin_pos (Z.to_nat x) (Z.to_nat y) ltac:(lia)).
  assert (0 <= fold_right Z.add 0 a) by (clear - H; induction H; cbn; lia).
  rewrite Z.pow_add_r by lia. rewrite Z2Nat.id in H1 by lia. nia.
Qed.
Lemma multinom_loop_ok b a : tle b a -> forall r, Forall (fun k => 0 <= k <= 20) a -> 0 < r -> forall D, 0 <= D -> r <= 2 ^ D -> D + degree a <= 62 ->
  multinom_loop a b r = Ok (r * mbin a b).
Proof.
  intros H. unfold degree. induction H as [|y x b a Hxy H IH]; intros r F Hr D HD HrD HS; cbn [multinom_loop mbin fold_right] in *; [f_equal; lia|].
  inversion F; subst.
  assert (0 <= fold_right Z.add 0 a) by (clear - H; induction H; cbn; lia).
  assert (E : binom x y = Ok (zbin (Z.to_nat x) (Z.to_nat y))).
  { rewrite <- (binom_20 (Z.to_nat x) (Z.to_nat y)) by lia. rewrite !Z2Nat.id by lia. reflexivity. }
  rewrite E. cbn [bind].
  pose proof (zbin_pow2 (Z.to_nat x) (Z.to_nat y)) as H1. pose proof (zbin_pos (Z.to_nat x) (Z.to_nat y) ltac:(lia)). rewrite Z2Nat.id in H1 by lia.
  assert (HB : r * zbin (Z.to_nat x) (Z.to_nat y) <= 2 ^ (D + x)) by (rewrite Z.pow_add_r by lia; nia).
  assert (2 ^ (D + x) <= 2 ^ 62) by (apply Z.pow_le_mono_r; lia).
  rewrite wrap_id by nia. rewrite (IH (r * zbin (Z.to_nat x) (Z.to_nat y)) ltac:(assumption) ltac:(apply Z.mul_pos_pos; lia) (D + x)) by lia. f_equal. ring.
Qed.
Lemma multinom_ok b a : tle b a -> fits a -> multinom a b = Ok (mbin a b).
Proof.
  intros H [F D]. unfold multinom. rewrite (tle_length b a H), Nat.eqb_refl. cbn [negb].
  rewrite (multinom_loop_ok b a H 1 F ltac:(lia) 0); try lia. f_equal. ring.
Qed.
Lemma mbin_sign b a : tle b a -> fits a -> wrap (mbin a b * sign (Z.of_nat (tabs b))) = mbin a b * sign (Z.of_nat (tabs b)).
Proof.
  intros H [_ D]. pose proof (mbin_bound b a H). assert (2 ^ degree a <= 2 ^ 62) by (apply Z.pow_le_mono_r; lia).
  apply wrap_id. unfold sign. destruct (_ =? _); lia.
Qed.
Lemma mbin_zero a : mbin a (zero (length a)) = 1.
Proof.
  unfold zero. induction a as [|x a IH]; cbn [length repeat mbin]; [reflexivity|]. rewrite IH. change (Z.to_nat 0) with 0%nat. destruct (Z.to_nat x); reflexivity.
Qed.
Lemma mbin_self a : mbin a a = 1.
Proof. induction a as [|x a IH]; cbn [mbin]; [reflexivity|]. rewrite IH, zbin_diag. reflexivity. Qed.
Lemma tabs_zero n : tabs (zero n) = 0%nat.
Proof. unfold tabs, zero. induction n; cbn [repeat fold_right]; [reflexivity|]. rewrite IHn. reflexivity. Qed.

(** ** The iteration *)
Lemma iter_snoc t k r : iter_list (t ++ [k]) r = flat_map (fun i => map (fun xs => xs ++ [i]) (iter_list t r)) (if r then rev (upto k) else upto k).
Proof. unfold iter_list. rewrite rev_app_distr. reflexivity. Qed.
Lemma in_upto k i : In i (upto k) <-> 0 <= i <= k.
Proof.
  unfold upto. rewrite in_map_iff. split.
  - intros (n & <- & Hn). apply in_seq in Hn. lia.
  - intros H. exists (Z.to_nat i). split; [lia|]. apply in_seq. lia.
Qed.
Lemma tle_snoc_inv b a k : tle b (a ++ [k]) -> exists b' i, b = b' ++ [i] /\ tle b' a /\ 0 <= i <= k.
Proof.
  intros H. apply Forall2_app_inv_r in H. destruct H as (b' & bi & H1 & H2 & ->). inversion H2 as [|i k' bi' l' Hi Hn]; subst. inversion Hn; subst.
  exists b', i. auto.
Qed.
Lemma tle_snoc b a i k : tle b a -> 0 <= i <= k -> tle (b ++ [i]) (a ++ [k]).
Proof. intros H Hi. apply Forall2_app; [exact H|]. constructor; [exact Hi|constructor]. Qed.
Lemma tle_snoc_iff b a i k : tle (b ++ [i]) (a ++ [k]) <-> tle b a /\ 0 <= i <= k.
Proof.
  split; [|intros [H1 H2]; apply tle_snoc; assumption]. intros H. apply tle_snoc_inv in H. destruct H as (b' & j & E & H1 & H2).
  apply app_inj_tail in E. destruct E as [<- <-]. auto.
Qed.

Lemma in_iter t r : forall b, In b (iter_list t r) <-> tle b t.
Proof.
  induction t as [|k t IH] using rev_ind; intros b.
  - cbn. split; [intros [<-|[]]; constructor|intros H; inversion H; auto].
  - rewrite iter_snoc, in_flat_map. split.
    + intros (i & Hi & Hb). apply in_map_iff in Hb. destruct Hb as (b' & <- & Hb'). apply IH in Hb'. apply tle_snoc; [exact Hb'|].
      destruct r; [rewrite <- in_rev in Hi|]; apply in_upto in Hi; exact Hi.
    + intros H. apply tle_snoc_inv in H. destruct H as (b' & i & -> & H1 & H2). exists i. split.
      * destruct r; [rewrite <- in_rev|]; apply in_upto; exact H2.
      * apply in_map_iff. exists b'. split; [reflexivity|]. apply IH. exact H1.
Qed.

Lemma nodup_upto k : NoDup (upto k).
Proof. apply FinFun.Injective_map_NoDup; [intros x y H; lia|apply seq_NoDup]. Qed.
Lemma nodup_app {A} (l1 l2 : list A) : NoDup l1 -> NoDup l2 -> (forall x, In x l1 -> In x l2 -> False) -> NoDup (l1 ++ l2).
Proof.
  intros H1 H2 H. induction H1 as [|x l Hx H1 IH]; [exact H2|]. cbn. constructor.
  - rewrite in_app_iff. intros [?|Hin]; [contradiction|]. apply (H x); [left; reflexivity|exact Hin].
  - apply IH. intros y Hy. apply H. right. exact Hy.
Qed.
Lemma nodup_iter t : NoDup (iter_list t false).
Proof.
  induction t as [|k t IH] using rev_ind; [cbn; constructor; [intros []|constructor]|]. rewrite iter_snoc.
  generalize (nodup_upto k). generalize (upto k). intros l Hl. induction Hl as [|i l Hi Hl IHl]; cbn [flat_map]; [constructor|].
  apply nodup_app; [|exact IHl|].
  - apply FinFun.Injective_map_NoDup; [|exact IH]. intros x y E. apply app_inj_tail in E. apply E.
  - intros b Hb Hb'. apply in_map_iff in Hb. destruct Hb as (b1 & <- & _). apply in_flat_map in Hb'. destruct Hb' as (j & Hj & Hb').
    apply in_map_iff in Hb'. destruct Hb' as (b2 & E & _). apply app_inj_tail in E. destruct E as [_ ->]. contradiction.
Qed.

Lemma split_app {A} (l1 l2 A1 B1 : list A) x : A1 ++ B1 = l1 ++ x :: l2 ->
  (exists t, A1 = l1 ++ x :: t) \/ (exists t, l1 = A1 ++ t /\ B1 = t ++ x :: l2).
Proof.
  revert A1. induction l1 as [|y l1 IH]; intros [|a A1] E; cbn [app] in *.
  - right. exists []. auto.
  - injection E as -> E. left. exists A1. reflexivity.
  - right. exists (y :: l1). auto.
  - injection E as -> E. destruct (IH A1 E) as [[t ->]|[t [-> ->]]]; [left|right]; exists t; auto.
Qed.
Lemma map_split {A B} (f : A -> B) l l1 l2 y : map f l = l1 ++ y :: l2 -> exists p1 x p2, l = p1 ++ x :: p2 /\ l1 = map f p1 /\ y = f x.
Proof.
  revert l1. induction l as [|a l IH]; intros [|b l1] E; cbn [map app] in *; try discriminate.
  - injection E as E1 E2. exists [], a, l. auto.
  - injection E as E1 E2. destruct (IH l1 E2) as (p1 & x & p2 & -> & -> & ->). exists (a :: p1), x, p2. subst b. auto.
Qed.

(** In ascending order every smaller tuple comes before. *)
Lemma iter_prefix t : forall l1 a l2, iter_list t false = l1 ++ a :: l2 -> forall d, tle d a -> d <> a -> In d l1.
Proof.
  induction t as [|k t IH] using rev_ind; intros l1 a l2 E d Hd Hne.
  - cbn in E. destruct l1 as [|? [|]]; cbn in E; try discriminate. injection E as <- <-. inversion Hd; subst. congruence.
  - rewrite iter_snoc in E.
    assert (Hgen : forall n l1 a l2, flat_map (fun i => map (fun xs => xs ++ [i]) (iter_list t false)) (map Z.of_nat (seq 0 n)) = l1 ++ a :: l2 ->
              forall d, tle d a -> d <> a -> In d l1).
    { clear l1 a l2 E d Hd Hne. induction n as [|n IHn]; intros l1 a l2 E d Hd Hne; [destruct l1; discriminate|].
      rewrite seq_S, map_app, flat_map_app in E. cbn [map flat_map] in E. rewrite app_nil_r in E.
      apply split_app in E. destruct E as [[u E]|[u [-> E]]].
      - eapply IHn; eassumption.
      - apply map_split in E. destruct E as (p1 & p & p2 & Ep & -> & ->).
        apply tle_snoc_inv in Hd. destruct Hd as (d' & j & -> & Hd' & Hj). apply in_or_app.
        assert (Hp : tle p t) by (rewrite <- (in_iter t false), Ep; apply in_or_app; right; left; reflexivity).
        destruct (Z.eq_dec j (Z.of_nat n)) as [->|Hjn].
        + right. apply in_map_iff. exists d'. split; [reflexivity|]. eapply IH; [exact Ep|exact Hd'|]. intros ->. apply Hne. reflexivity.
        + left. apply in_flat_map. exists j. split.
          * apply in_map_iff. exists (Z.to_nat j). split; [lia|]. apply in_seq. lia.
          * apply in_map_iff. exists d'. split; [reflexivity|]. apply in_iter. eapply tle_trans; eassumption. }
    eapply Hgen; eassumption.
Qed.

(** ** Products of powers *)
Local Open Scope R_scope.
Fixpoint vp (b : tuple) (s : list R) : R := match b, s with k :: b', y :: s' => y ^ Z.to_nat k * vp b' s' | _, _ => 1 end.
Fixpoint map2 (f : R -> R -> R) (x y : list R) : list R := match x, y with a :: x', b :: y' => f a b :: map2 f x' y' | _, _ => [] end.
Definition vadd := map2 Rplus.
Definition vsub := map2 Rminus.

Lemma map2_length f x : forall y, length x = length y -> length (map2 f x y) = length x.
Proof. induction x as [|a x IH]; intros [|b y] H; cbn; auto; discriminate || (f_equal; apply IH; injection H as H; exact H). Qed.
Lemma vp_snoc b : forall s k y, length b = length s -> vp (b ++ [k]) (s ++ [y]) = vp b s * y ^ Z.to_nat k.
Proof.
  induction b as [|i b IH]; intros [|z s] k y H; try discriminate; cbn [app vp]; [ring|]. injection H as H. rewrite IH by exact H. ring.
Qed.
Lemma jprod_snoc a : forall x c k y z, length a = length x -> length a = length c -> jprod (a ++ [k]) (x ++ [y]) (c ++ [z]) = jprod a x c * (y - z) ^ Z.to_nat k.
Proof.
  induction a as [|i a IH]; intros [|u x] [|w c] k y z Hx Hc; try discriminate; cbn [app jprod]; [ring|]. injection Hx as Hx. injection Hc as Hc.
  rewrite IH by assumption. ring.
Qed.
Lemma vadd_snoc c : forall s z w, length c = length s -> vadd (c ++ [z]) (s ++ [w]) = vadd c s ++ [z + w].
Proof. induction c as [|u c IH]; intros [|v s] z w H; try discriminate; [reflexivity|]. injection H as H. cbn [app]. unfold vadd in *. cbn [map2]. rewrite IH by exact H. reflexivity. Qed.
Lemma mbin_snoc a : forall b k i, length a = length b -> mbin (a ++ [k]) (b ++ [i]) = (mbin a b * zbin (Z.to_nat k) (Z.to_nat i))%Z.
Proof.
  induction a as [|x a IH]; intros [|y b] k i H; try discriminate; cbn [app mbin]; [ring|]. injection H as H. rewrite IH by exact H. ring.
Qed.
Lemma tsub_snoc a : forall b k i, length a = length b -> tsub (a ++ [k]) (b ++ [i]) = tsub a b ++ [(k - i)%Z].
Proof. induction a as [|x a IH]; intros [|y b] k i H; try discriminate; [reflexivity|]. injection H as H. cbn [app tsub]. rewrite IH by exact H. reflexivity. Qed.
Lemma tabs_snoc b i : tabs (b ++ [i]) = (tabs b + Z.to_nat i)%nat.
Proof. unfold tabs. induction b as [|x b IH]; cbn [app fold_right]; [lia|]. rewrite IH. lia. Qed.
Lemma rsum_flat {A B} (f : B -> R) (g : A -> list B) l : rsum (map f (flat_map g l)) = rsum (map (fun i => rsum (map f (g i))) l).
Proof. induction l as [|x l IH]; cbn [flat_map map]; [reflexivity|]. rewrite map_app, rsum_app, rsum_cons, IH. reflexivity. Qed.
Lemma snoc_length {A} (x : list A) n : length x = S n -> exists x' y, x = x' ++ [y] /\ length x' = n.
Proof.
  intros H. destruct (exists_last (l := x)) as (x' & y & ->); [intros ->; discriminate|]. exists x', y. split; [reflexivity|].
  rewrite app_length in H. cbn in H. lia.
Qed.

Lemma jprod_expand a : forall x c s, length x = length a -> length c = length a -> length s = length a -> Forall (fun k => (0 <= k)%Z) a ->
  jprod a x (vadd c s) = rsum (map (fun b => IZR (mbin a b) * (-1) ^ tabs b * vp b s * jprod (tsub a b) x c) (iter_list a false)).
Proof.
  induction a as [|k a IH] using rev_ind; intros x c s Hx Hc Hs Hn.
  - cbn. unfold rsum. cbn. ring.
  - rewrite app_length in Hx, Hc, Hs. cbn [length] in *. rewrite Nat.add_1_r in *.
    destruct (snoc_length x _ Hx) as (x' & y & -> & Lx). destruct (snoc_length c _ Hc) as (c' & z & -> & Lc).
    destruct (snoc_length s _ Hs) as (s' & w & -> & Ls). apply Forall_app in Hn. destruct Hn as [Hn Hk]. inversion Hk as [|? ? Hk0 _]; subst.
    rewrite vadd_snoc by congruence. rewrite jprod_snoc by (unfold vadd; rewrite ?map2_length; congruence).
    rewrite (IH x' c' s') by assumption. rewrite iter_snoc, rsum_flat.
    set (E := fun b => IZR (mbin a b) * (-1) ^ tabs b * vp b s' * jprod (tsub a b) x' c').
    rewrite (rsum_ext _ (fun i => rsum (map E (iter_list a false)) * (IZR (zbin (Z.to_nat k) (Z.to_nat i)) * (- w) ^ Z.to_nat i * (y - z) ^ Z.to_nat (k - i)))).
    + rewrite rsum_scale. f_equal. replace (y - (z + w)) with (- w + (y - z)) by ring. rewrite binomial, sum_f_list.
      unfold upto. rewrite map_map. replace (Z.to_nat (k + 1)) with (S (Z.to_nat k)) by lia. apply rsum_ext. intros i Hi. apply in_seq in Hi.
      rewrite C_zbin by lia. rewrite Nat2Z.id. replace (Z.to_nat (k - Z.of_nat i)) with (Z.to_nat k - i)%nat by lia. ring.
    + intros i Hi. apply in_upto in Hi. rewrite map_map, Rmult_comm, <- rsum_scale. apply rsum_ext. intros b Hb. apply in_iter in Hb.
      pose proof (tle_length _ _ Hb) as Lb. unfold E.
      rewrite mbin_snoc, tabs_snoc, vp_snoc, tsub_snoc by congruence.
      rewrite jprod_snoc by (rewrite ?(tle_length _ _ (tsub_le _ _ Hb)); congruence).
      rewrite mult_IZR, pow_add, (pow_opp w). ring.
Qed.

Lemma vp_scale q b : forall s, length b = length s -> vp b (map (Rmult q) s) = q ^ tabs b * vp b s.
Proof.
  induction b as [|k b IH]; intros [|y s] H; try discriminate; cbn [map vp tabs fold_right]; [cbn; ring|]. injection H as H.
  fold (tabs b). rewrite IH by exact H. rewrite Rpow_mult_distr, pow_add. ring.
Qed.
Lemma jprod_self q a : forall x c, length x = length a -> length c = length a ->
  jprod a x (vadd c (map (Rmult q) (vsub x c))) = (1 - q) ^ tabs a * vp a (vsub x c).
Proof.
  induction a as [|k a IH]; intros [|y x] [|z c] Hx Hc; try discriminate; cbn [jprod vsub vadd map2 map vp tabs fold_right]; [ring|].
  injection Hx as Hx. injection Hc as Hc. fold (tabs a). unfold vadd, vsub in *. rewrite IH by assumption.
  replace (y - (z + q * (y - z))) with ((1 - q) * (y - z)) by ring. rewrite Rpow_mult_distr, pow_add. ring.
Qed.
Lemma vp_zero n s : vp (zero n) s = 1.
Proof. unfold zero. revert s. induction n as [|n IH]; intros [|y s]; cbn [repeat vp]; try reflexivity. rewrite IH. cbn. ring. Qed.
Lemma jprod_zero n x c : jprod (zero n) x c = 1.
Proof. unfold zero. revert x c. induction n as [|n IH]; intros [|y x] [|z c]; cbn [repeat jprod]; try reflexivity. rewrite IH. cbn. ring. Qed.

(** ** Weighted points *)
Definition jw (L : list (R * list R)) (c : list R) (a : tuple) : R := rsum (map (fun p => fst p * jprod a (snd p) c) L).
Lemma jw_app L1 L2 c a : jw (L1 ++ L2) c a = jw L1 c a + jw L2 c a.
Proof. unfold jw. rewrite map_app. apply rsum_app. Qed.
Lemma jw_one w x c a : jw [(w, x)] c a = w * jprod a x c.
Proof. unfold jw, rsum. cbn. ring. Qed.
Definition jscale (q : R) (L : list (R * list R)) : list (R * list R) := map (fun p => (q * fst p, snd p)) L.
Lemma jw_scale q L c a : jw (jscale q L) c a = q * jw L c a.
Proof. unfold jw, jscale. rewrite map_map, <- rsum_scale. apply rsum_ext. intros [w x] _. cbn. ring. Qed.

Lemma jw_step L c x w q a : Forall (fun p => length (snd p) = length a) L -> length c = length a -> length x = length a -> Forall (fun k => (0 <= k)%Z) a ->
  let d := vsub x c in
  jw (L ++ [(w, x)]) (vadd c (map (Rmult q) d)) a =
  rsum (map (fun b => IZR (mbin a b) * (-1) ^ tabs b * q ^ tabs b * vp b d * jw L c (tsub a b)) (iter_list a false)) + w * ((1 - q) ^ tabs a * vp a d).
Proof.
  intros HL Hc Hx Hn d. rewrite jw_app, jw_one. unfold d at 2. rewrite jprod_self by assumption. f_equal.
  assert (Ld : length d = length a) by (unfold d, vsub; rewrite map2_length; congruence).
  unfold jw.
  rewrite (rsum_ext _ (fun p => rsum (map (fun b => fst p * (IZR (mbin a b) * (-1) ^ tabs b * vp b (map (Rmult q) d) * jprod (tsub a b) (snd p) c)) (iter_list a false))) L).
  2:{ intros p Hp. rewrite rsum_scale. f_equal. rewrite Forall_forall in HL. apply jprod_expand; auto. rewrite map_length. exact Ld. }
  rewrite rsum_swap. apply rsum_ext. intros b Hb. apply in_iter in Hb. rewrite <- rsum_scale. apply rsum_ext. intros p _.
  rewrite vp_scale by (rewrite (tle_length _ _ Hb); congruence). ring.
Qed.

Lemma rsum_except {A} (dec : forall x y : A, {x = y} + {x <> y}) (f : A -> R) a e l : NoDup l -> In a l ->
  rsum (map (fun b => f b + (if dec b a then e else 0)) l) = rsum (map f l) + e.
Proof.
  intros Hn Ha. rewrite rsum_plus. f_equal. induction Hn as [|x l Hx Hn IH]; [destruct Ha|]. cbn [map]. rewrite rsum_cons.
  destruct Ha as [->|Ha].
  - destruct (dec a a) as [_|]; [|congruence]. rewrite (rsum_ext _ (fun _ => 0)); [rewrite rsum_zero; ring|]. intros y Hy. destruct (dec y a) as [->|]; [contradiction|reflexivity].
  - destruct (dec x a) as [->|]; [contradiction|]. rewrite IH by exact Ha. ring.
Qed.
