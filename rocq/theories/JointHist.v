(** The joint core along a history, in exact arithmetic. *)
From Coq Require Import Reals Lra Permutation.
From Verif Require Import Base MathModel MathProof HistSpec RingModel NumModel MomentSpec RealLib MomentProof EwmProof JointModel JointSpec TupleProof JointProof.
Local Open Scope R_scope.

Definition pts (l : list (list R)) : list (R * list R) := map (fun x => (1, x)) l.

(** ** Vectors *)
Lemma nth_map2 f x : forall y i, length x = length y -> (i < length x)%nat -> nth i (map2 f x y) 0 = f (nth i x 0) (nth i y 0).
Proof.
  induction x as [|a x IH]; intros [|b y] i H Hi; try discriminate; [cbn in Hi; lia|]. injection H as H. destruct i as [|i]; [reflexivity|].
  cbn [map2 nth]. apply IH; [exact H|]. cbn in Hi. lia.
Qed.
Lemma nth_jm (f : nat -> R) v i : (i < v)%nat -> nth i (map f (seq 0 v)) 0 = f i.
Proof. intros H. rewrite (nth_indep _ 0 (f 0%nat)) by (rewrite map_length, seq_length; exact H). rewrite map_nth, seq_nth by exact H. reflexivity. Qed.
Lemma shift_eq (f g : nat -> R) v q x : length x = v -> (forall i, (i < v)%nat -> g i = f i + q * (nth i x 0 - f i)) ->
  map g (seq 0 v) = vadd (map f (seq 0 v)) (map (Rmult q) (vsub x (map f (seq 0 v)))).
Proof.
  intros Hx H. assert (Lf : length (map f (seq 0 v)) = v) by (rewrite map_length, seq_length; reflexivity).
  assert (Ls : length (vsub x (map f (seq 0 v))) = v) by (unfold vsub; rewrite map2_length; congruence).
  assert (La : length (vadd (map f (seq 0 v)) (map (Rmult q) (vsub x (map f (seq 0 v))))) = v).
  { unfold vadd. rewrite map2_length; [exact Lf|]. rewrite (map_length (Rmult q)), Ls. exact Lf. }
  apply (nth_ext _ _ 0 0); [rewrite map_length, seq_length, La; reflexivity|]. intros i Hi. rewrite map_length, seq_length in Hi.
  rewrite nth_jm by exact Hi. rewrite H by exact Hi. unfold vadd. rewrite nth_map2; [|rewrite (map_length (Rmult q)), Ls; exact Lf|rewrite Lf; exact Hi].
  rewrite nth_jm by exact Hi. f_equal.
  rewrite (nth_indep (map (Rmult q) _) 0 (q * 0)) by (rewrite (map_length (Rmult q)), Ls; exact Hi). rewrite (map_nth (Rmult q)). f_equal.
  unfold vsub. rewrite nth_map2; [|congruence|rewrite Hx; exact Hi]. rewrite nth_jm by exact Hi. reflexivity.
Qed.

Lemma coord_app i l1 l2 : coord i (l1 ++ l2) = coord i l1 ++ coord i l2.
Proof. apply map_app. Qed.
Lemma rlen_coord i l : rlen (coord i l) = IZR (zlen l).
Proof. unfold rlen, coord, zlen. rewrite map_length. reflexivity. Qed.
Lemma jmeans_length v l : length (jmeans v l) = v.
Proof. unfold jmeans. rewrite map_length, seq_length. reflexivity. Qed.
Lemma jmeans_push v l x : length x = v -> jmeans v (l ++ [x]) = vadd (jmeans v l) (map (Rmult (/ (IZR (zlen l) + 1))) (vsub x (jmeans v l))).
Proof.
  intros Hx. unfold jmeans. apply shift_eq; [exact Hx|]. intros i _. rewrite coord_app. cbn [coord map]. rewrite rmean_push, rlen_coord. unfold Rdiv. ring.
Qed.
Lemma jmeans_nil v : jmeans v [] = repeat 0 v.
Proof.
  unfold jmeans. generalize 0%nat at 1. induction v as [|v IH]; intros s; cbn [seq map repeat]; [reflexivity|]. rewrite IH. f_equal. cbn [coord map]. apply rmean_nil.
Qed.
Lemma jmeans_perm v l l' : Permutation l l' -> jmeans v l = jmeans v l'.
Proof. intros P. unfold jmeans. apply map_ext. intros i. apply rmean_perm. apply Permutation_map. exact P. Qed.

Lemma jw_total l c v : jw (pts l) c (zero v) = IZR (zlen l).
Proof. unfold jw, pts. rewrite map_map. cbn [fst snd]. rewrite (rsum_ext _ (fun _ => 1)) by (intros; rewrite jprod_zero; ring). rewrite rsum_const. ring. Qed.
Lemma jw_perm L L' c a : Permutation L L' -> jw L c a = jw L' c a.
Proof. intros P. apply rsum_perm. apply Permutation_map. exact P. Qed.
Lemma val_perm L L' c a : Permutation L L' -> val L c a = val L' c a.
Proof. intros P. unfold val. rewrite (jw_perm L L' c a P). reflexivity. Qed.
Lemma jsum_jw v l a : length a = v -> jsum a l = jw (pts l) (jmeans v l) a.
Proof. intros <-. unfold jsum, jw, pts. rewrite map_map. apply rsum_ext. intros x _. cbn. ring. Qed.

(** Tuples of degree one pick a coordinate. *)
Lemma degree_one a : Forall (fun k => (0 <= k)%Z) a -> degree a = 1%Z -> exists i, (i < length a)%nat /\ forall x c, length x = length a -> length c = length a ->
  jprod a x c = nth i x 0 - nth i c 0.
Proof.
  intros H. induction H as [|k a Hk H IH]; unfold degree in *; cbn [fold_right]; intros E; [discriminate|].
  assert (0 <= fold_right Z.add 0 a)%Z by (clear - H; induction H; cbn; lia).
  destruct (Z.eq_dec k 0) as [->|Hk0].
  - destruct IH as (i & Hi & HP); [lia|]. exists (S i). split; [cbn; lia|]. intros [|y x] [|z c] Hx Hc; try discriminate. cbn [jprod nth].
    rewrite HP by (cbn in *; lia). change (Z.to_nat 0) with 0%nat. rewrite pow_O. ring.
  - exists 0%nat. split; [cbn; lia|]. intros [|y x] [|z c] Hx Hc; try discriminate. cbn [jprod nth]. assert (k = 1%Z) as -> by lia.
    rewrite (degree_zero a H) by (unfold degree; lia). rewrite jprod_zero. change (Z.to_nat 1) with 1%nat. rewrite pow_1. ring.
Qed.
Lemma jw_degree_one v l a : length a = v -> Forall (fun k => (0 <= k)%Z) a -> degree a = 1%Z -> Forall (fun x => length x = v) l ->
  jw (pts l) (jmeans v l) a = 0.
Proof.
  intros Hl Hn Hd HL. destruct (degree_one a Hn Hd) as (i & Hi & HP). unfold jw, pts. rewrite map_map. cbn [fst snd]. rewrite Forall_forall in HL.
  rewrite (rsum_ext _ (fun x => nth i x 0 + - nth i (jmeans v l) 0)).
  - rewrite rsum_plus, rsum_const. unfold jmeans. rewrite nth_jm by lia. fold (coord i l). pose proof (wpow1 (coord i l)) as H1. rewrite wpow1_gen, rlen_coord in H1. unfold coord in *. lra.
  - intros x Hx. rewrite HP; [ring|rewrite (HL x Hx); congruence|rewrite jmeans_length; congruence].
Qed.
Lemma val_small v l a : length a = v -> Forall (fun k => (0 <= k)%Z) a -> (degree a <= 1)%Z -> Forall (fun x => length x = v) l ->
  val (pts l) (jmeans v l) a = 0.
Proof.
  intros Hl Hn Hd HL. unfold val. destruct (Z.eqb_spec (degree a) 0); [reflexivity|]. apply jw_degree_one; auto.
  assert (0 <= degree a)%Z by (clear - Hn; unfold degree; induction Hn; cbn [fold_right]; lia). lia.
Qed.

(** ** Windowed and unbounded cores *)
Definition vok (v : nat) (l : list (list R)) : Prop := Forall (fun x => length x = v) l.
Lemma vok_pts v l : vok v l -> Forall (fun p => length (snd p) = v) (pts l).
Proof. intros H. unfold pts. apply Forall_map. exact H. Qed.
Definition jst (v : nat) (ts : list tuple) (l : list (list R)) (k : @vcore xr) : Prop :=
  jstate v ts (val (pts l) (jmeans v l)) (jmeans v l) (zlen l) k.

Lemma sums_ext ts V V' m : (forall a, below ts a -> V a = V' a) -> sums_are ts V m -> sums_are ts V' m.
Proof. intros H [H1 H2]. split; [|exact H2]. intros a Ha. rewrite (H1 a Ha), (H a Ha). reflexivity. Qed.
Lemma jstate_ext {A} v ts V V' c c' n n' (k : @jcore xr A) : (forall a, below ts a -> V a = V' a) -> c = c' -> n = n' -> jstate v ts V c n k -> jstate v ts V' c' n' k.
Proof.
  intros HV -> -> (H1 & H2 & H3 & H4 & H5 & H6). unfold jstate. repeat (split; [assumption|]). split; [eapply sums_ext; eassumption|]. auto.
Qed.
Lemma jst_nil v ts k : jstate v ts (fun _ => 0) (repeat 0 v) 0 k -> jst v ts [] k.
Proof.
  apply jstate_ext; [|symmetry; apply jmeans_nil|reflexivity]. intros a _. unfold val. destruct (degree a =? 0)%Z; reflexivity.
Qed.

Lemma jst_add v ts l k x : jwf v ts -> hash_ok ts -> vok v l -> length x = v -> jst v ts l k ->
  exists k', j_add XN k (map Fin x) = Ok k' /\ jst v ts (l ++ [x]) k' /\ jsame k k'.
Proof.
  intros W HH HL Hx S. destruct (j_add_ok v ts (pts l) (jmeans v l) (zlen l) k x) as (k' & E & S' & J); auto.
  - apply vok_pts. exact HL.
  - unfold zlen. lia.
  - apply jw_total.
  - exists k'. split; [exact E|]. split; [|exact J]. unfold jst. rewrite <- jmeans_push in S' by exact Hx.
    eapply jstate_ext; [|reflexivity| |exact S'].
    + intros a _. unfold pts. rewrite map_app. reflexivity.
    + unfold zlen. rewrite app_length. cbn [length]. lia.
Qed.
Lemma jst_remove v ts l k x : jwf v ts -> hash_ok ts -> spread ts -> vok v (x :: l) -> jst v ts (x :: l) k ->
  exists k', j_remove XN k (map Fin x) = Ok k' /\ jst v ts l k' /\ jsame k k'.
Proof.
  intros W HH Hsp HL S. inversion HL as [|? ? Hx Hl]; subst. destruct l as [|y l].
  - destruct (j_remove_last (length x) ts _ _ k x S) as (k' & E & S' & J). exists k'. split; [exact E|]. split; [|exact J]. apply jst_nil. exact S'.
  - set (l' := y :: l) in *. set (v := length x) in *.
    assert (P : Permutation (x :: l') (l' ++ [x])) by apply Permutation_cons_append.
    destruct (j_remove_ok v ts (pts l') (jmeans v l') (zlen l') k x) as (k' & E & S' & J); auto.
    + apply vok_pts. exact Hl.
    + apply jmeans_length.
    + unfold l', zlen. cbn [length]. lia.
    + apply jw_total.
    + rewrite <- jmeans_push by reflexivity. intros a Ha Hd. destruct (below_wf v ts a W Ha) as [La Fa].
      change (pts l' ++ [(1, x)]) with (pts l' ++ pts [x]). unfold pts at 1 2. rewrite <- map_app. fold (pts (l' ++ [x])).
      rewrite !(val_small v) by (auto using fits_nonneg; apply Forall_app; auto). reflexivity.
    + rewrite <- jmeans_push by reflexivity. eapply jstate_ext; [| |reflexivity|].
      3:{ unfold jst in S. replace (zlen (x :: l')) with (zlen l' + 1)%Z in S by (unfold zlen; cbn [length]; lia). exact S. }
      * intros a _. cbv beta. rewrite (jmeans_perm v _ _ P). apply val_perm. change (pts l' ++ [(1, x)]) with (pts l' ++ pts [x]). unfold pts at 2 3. rewrite <- map_app.
        apply Permutation_map. exact P.
      * apply jmeans_perm. exact P.
    + exists k'. auto.
Qed.

Definition jinv (w : Z) (v : nat) (ts : list tuple) (h : list (list R)) (k : @vcore xr) : Prop :=
  jst v ts (live w h) k /\ vok v h /\ j_window k = w /\ j_decay k = None /\ rcap (j_queue k) = round_up w /\
  (w <> 0%Z -> ritems (j_queue k) = map (map Fin) (live w h)).

Lemma vok_live w v h : vok v h -> vok v (live w h).
Proof. unfold vok. rewrite !Forall_forall. intros H x Hx. apply H. eapply live_incl. exact Hx. Qed.

Lemma jst_fields v ts l (k : @vcore xr) q d : jst v ts l k -> jst v ts l (mkJ (j_means k) (j_tuples k) (j_sums k) (j_new k) (j_count k) (j_window k) d q).
Proof. exact (fun H => H). Qed.

Lemma jinv_push w v ts h k x : jwf v ts -> hash_ok ts -> (0 <= w)%Z -> (w <> 0%Z -> spread ts) -> jinv w v ts h k -> length x = v ->
  exists k', jpush XN k (map Fin x) = Ok k' /\ jinv w v ts (h ++ [x]) k'.
Proof.
  intros W HH Hw Hsp (Hst & Hv & Ew & Ed & Rc & Rq) Hx. unfold jpush, j_push.
  assert (Lm : length (j_means k) = v) by (destruct Hst as (Hm & _); rewrite Hm, map_length; apply jmeans_length).
  rewrite map_length, Lm, Hx, Nat.eqb_refl. cbn [negb]. rewrite Ew.
  assert (Hv' : vok v (h ++ [x])) by (apply Forall_app; auto).
  destruct (Z.eqb_spec w 0) as [->|Hw0]; cbn [negb].
  - cbn [bind]. rewrite Ed. rewrite live0 in Hst. destruct (jst_add v ts h k x W HH Hv Hx Hst) as (k' & E & S' & JW & JD & JQ). exists k'. split; [exact E|].
    split; [rewrite live0; exact S'|]. rewrite JW, JD, JQ. repeat (split; [assumption|]). congruence.
  - specialize (Rq Hw0). specialize (Hsp Hw0). assert (Hw1 : (0 < w)%Z) by lia.
    assert (Erl : ring_len (j_queue k) = zlen (live w h)) by (unfold ring_len; rewrite Rq; unfold zlen; rewrite map_length; reflexivity).
    rewrite Erl. pose proof (live_push w h x Hw1) as Hp. pose proof (live_zlen_le w h ltac:(lia)) as Hle. pose proof (vok_live w v h Hv) as Hvl.
    destruct (Z.eqb_spec (zlen (live w h)) w) as [Hfull|Hnot].
    + destruct (live w h) as [|y l] eqn:El; [unfold zlen in Hfull; cbn in Hfull; lia|]. cbn [tl] in Hp.
      unfold ring_get. rewrite Rq. cbn [map bind].
      match goal with |- context [j_remove XN ?k0 _] => assert (Hst1 : jst v ts (y :: l) k0) by exact Hst end.
      destruct (jst_remove v ts l _ y W HH Hsp Hvl Hst1) as (k1 & E1 & S1 & W1 & D1 & Q1). cbn [j_window j_decay j_queue] in *.
      rewrite E1. cbn [bind]. rewrite Q1.
      rewrite (ring_put_ok _ (map Fin x) w); [|exact Rc|unfold ring_len; cbn [ritems]; unfold zlen in *; rewrite map_length; cbn [length] in Hfull; lia].
      cbn [bind j_decay ritems rcap]. rewrite D1, Ed.
      match goal with |- context [j_add XN ?k0 _] => assert (Hst2 : jst v ts l k0) by exact S1 end.
      assert (Hvt : vok v l) by (inversion Hvl; assumption).
      destruct (jst_add v ts l _ x W HH Hvt Hx Hst2) as (k2 & E2 & S2 & W2 & D2 & Q2). cbn [j_window j_decay j_queue] in *.
      exists k2. split; [exact E2|]. split; [rewrite Hp; exact S2|]. split; [exact Hv'|]. rewrite W2, D2, Q2. cbn [rcap ritems].
      split; [congruence|]. split; [reflexivity|]. split; [exact Rc|]. intros _. rewrite Hp, map_app. reflexivity.
    + cbn [bind]. rewrite (ring_put_ok _ (map Fin x) w); [|exact Rc|rewrite Erl; lia]. cbn [bind j_decay ritems rcap]. rewrite Ed.
      match goal with |- context [j_add XN ?k0 _] => assert (Hst2 : jst v ts (live w h) k0) by exact Hst end.
      destruct (jst_add v ts _ _ x W HH Hvl Hx Hst2) as (k2 & E2 & S2 & W2 & D2 & Q2). cbn [j_window j_decay j_queue] in *.
      exists k2. split; [exact E2|]. split; [rewrite Hp; exact S2|]. split; [exact Hv'|]. rewrite W2, D2, Q2. cbn [rcap ritems].
      split; [exact Ew|]. split; [reflexivity|]. split; [exact Rc|]. intros _. rewrite Hp, map_app, Rq. reflexivity.
Qed.
Lemma jinv_clear w v ts h k : jinv w v ts h k -> exists k', j_clear XN k = Ok k' /\ jinv w v ts [] k'.
Proof.
  intros (Hst & Hv & Ew & Ed & Rc & Rq). destruct (j_clear_ok v ts _ _ _ k Hst) as (k' & E & S' & JW & JD & JQ). exists k'. split; [exact E|].
  unfold jinv. rewrite live_nil. split; [apply jst_nil; exact S'|]. split; [constructor|]. rewrite JW, JD, JQ, Ew. cbn. auto.
Qed.

Lemma hist_pops ops : hist (pops ops) = map (map Fin) (hist ops).
Proof.
  unfold hist, pops. rewrite <- fold_left_rev_right. rewrite <- (fold_left_rev_right _ ops). rewrite <- map_rev.
  induction (rev ops) as [|o l IH]; cbn [map fold_right]; [reflexivity|]. rewrite IH. destruct o; cbn [pop]; [rewrite map_app|]; reflexivity.
Qed.
Definition arity (v : nat) (ops : list (op (list R))) : Prop := forall x, In (OPush x) ops -> length x = v.

Lemma pops_run (Inv : list (list R) -> @vcore xr -> Prop) v k0 :
  Inv [] k0 -> (forall h k x, Inv h k -> length x = v -> exists k', jpush XN k (map Fin x) = Ok k' /\ Inv (h ++ [x]) k') ->
  (forall h k, Inv h k -> exists k', j_clear XN k = Ok k' /\ Inv [] k') ->
  forall ops, arity v ops -> exists k, jcore_run XN k0 (pops ops) = Ok k /\ Inv (hist ops) k.
Proof.
  intros H0 Hp Hc ops. unfold jcore_run. induction ops as [|o ops IH] using rev_ind; intros Ha; [exists k0; auto|].
  destruct IH as (k & E & I). { intros x Hx. apply Ha. apply in_or_app. left. exact Hx. }
  unfold pops in *. rewrite map_app, run_app, E. cbn [bind map run]. destruct o as [x|]; cbn [pop].
  - destruct (Hp _ k x I) as (k' & E' & I'). { apply Ha. apply in_or_app. right. left. reflexivity. } rewrite E'. cbn [bind]. exists k'. rewrite hist_push. auto.
  - destruct (Hc _ k I) as (k' & E' & I'). rewrite E'. cbn [bind]. exists k'. rewrite hist_clear. auto.
Qed.

Lemma jcore_run_ok w v ts k ops : jwf v ts -> hash_ok ts -> (0 <= w)%Z -> (w <> 0%Z -> spread ts) -> jinv w v ts [] k -> arity v ops ->
  exists k', jcore_run XN k (pops ops) = Ok k' /\ jinv w v ts (hist ops) k'.
Proof.
  intros W HH Hw Hsp I0 Ha. apply (pops_run (jinv w v ts) v); auto.
  - intros h k0 x I Hx. apply jinv_push; auto.
  - intros h k0 I. eapply jinv_clear. exact I.
Qed.

(** ** Decay *)
Definition EJ (d : R) (l : list (list R)) : list (R * list R) := combine (pweights d l) l.
Lemma pweights_eq {A} d (l : list A) (l' : list R) : length l = length l' -> pweights d l = eweights d l'.
Proof. intros H. unfold pweights, eweights. rewrite H. reflexivity. Qed.
Lemma EJ_push d l x : l <> [] -> EJ d (l ++ [x]) = jscale (1 - d) (EJ d l) ++ [(d, x)].
Proof.
  intros Hl. unfold EJ. set (r := fun l : list (list R) => map (fun _ => 0) l).
  rewrite (pweights_eq d (l ++ [x]) (r l ++ [0])) by (unfold r; rewrite !app_length, map_length; reflexivity).
  rewrite (pweights_eq d l (r l)) by (unfold r; rewrite map_length; reflexivity).
  rewrite eweights_push by (destruct l; [congruence|discriminate]).
  rewrite combine_app by (rewrite map_length, eweights_length; unfold r; apply map_length). f_equal.
  unfold jscale. generalize (eweights d (r l)). intros ws. clear. revert l. induction ws as [|u ws IH]; intros [|y l]; cbn; try reflexivity. f_equal. apply IH.
Qed.
Lemma EJ_one d x : EJ d [x] = [(1, x)].
Proof. reflexivity. Qed.
Lemma ejsum_jw d v l a : length a = v -> ejsum d a l = jw (EJ d l) (ejmeans d v l) a.
Proof.
  intros <-. unfold ejsum, jw, EJ, wsum. generalize (pweights d l) (ejmeans d (length a) l). intros ws c. clear. revert ws. induction l as [|x l IH]; intros [|u ws]; cbn [map combine]; try reflexivity.
  rewrite !rsum_cons, IH. reflexivity.
Qed.
Lemma EJ_total d l c v : l <> [] -> jw (EJ d l) c (zero v) = 1.
Proof.
  induction l as [|x l IH] using rev_ind; intros H; [congruence|]. destruct l as [|y l].
  - cbn [app]. rewrite EJ_one, jw_one, jprod_zero. ring.
  - rewrite EJ_push by discriminate. rewrite jw_app, jw_scale, jw_one, jprod_zero, IH by discriminate. ring.
Qed.
Lemma ejmeans_length d v l : length (ejmeans d v l) = v.
Proof. unfold ejmeans. rewrite map_length, seq_length. reflexivity. Qed.
Lemma ejmeans_push d v l x : length x = v ->
  let e := if (zlen l =? 0)%Z then 1 else d in
  ejmeans d v (l ++ [x]) = vadd (ejmeans d v l) (map (Rmult e) (vsub x (ejmeans d v l))).
Proof.
  intros Hx e. unfold ejmeans. apply shift_eq; [exact Hx|]. intros i _. rewrite coord_app. cbn [coord map]. unfold e. destruct l as [|y l].
  - cbn [coord map app]. rewrite ewma_one, ewma_nil. cbn [zlen length Z.of_nat Z.eqb]. unfold zlen. cbn. ring.
  - rewrite ewma_push by discriminate. unfold zlen. cbn [length]. destruct (Z.eqb_spec (Z.of_nat (S (length l))) 0); [lia|]. reflexivity.
Qed.
Lemma ejmeans_nil d v : ejmeans d v [] = repeat 0 v.
Proof.
  unfold ejmeans. generalize 0%nat at 1. induction v as [|v IH]; intros s; cbn [seq map repeat]; [reflexivity|]. rewrite IH. reflexivity.
Qed.
Lemma EJ_vok d v l : vok v l -> Forall (fun p => length (snd p) = v) (EJ d l).
Proof.
  unfold vok. rewrite !Forall_forall. intros H [u x] Hin. apply in_combine_r in Hin. cbn. apply H. exact Hin.
Qed.

Definition ejinv (d : R) (v : nat) (ts : list tuple) (h : list (list R)) (k : @vcore xr) : Prop :=
  jstate v ts (val (EJ d h) (ejmeans d v h)) (ejmeans d v h) (zlen h) k /\ vok v h /\ j_window k = 0%Z /\ j_decay k = Some (Fin d).

Lemma ejinv_push d v ts h k x : jwf v ts -> hash_ok ts -> ejinv d v ts h k -> length x = v ->
  exists k', jpush XN k (map Fin x) = Ok k' /\ ejinv d v ts (h ++ [x]) k'.
Proof.
  intros W HH (Hst & Hv & Ew & Ed) Hx. unfold jpush, j_push.
  assert (Lm : length (j_means k) = v) by (destruct Hst as (Hm & _); rewrite Hm, map_length; apply ejmeans_length).
  rewrite map_length, Lm, Hx, Nat.eqb_refl. cbn [negb]. rewrite Ew. cbn [Z.eqb negb bind]. rewrite Ed.
  destruct (j_add_decay_ok v ts (EJ d h) (ejmeans d v h) (zlen h) d k x) as (k' & E & S' & JW & JD & JQ); auto.
  - apply EJ_vok. exact Hv.
  - unfold zlen. lia.
  - destruct h as [|y h]; [left; reflexivity|]. right. apply EJ_total. discriminate.
  - exists k'. split; [exact E|]. split; [|split; [apply Forall_app; auto|split; congruence]].
    rewrite <- ejmeans_push in S' by exact Hx. eapply jstate_ext; [|reflexivity| |exact S'].
    + intros a _. destruct h as [|y h]; [unfold val; reflexivity|]. rewrite EJ_push by discriminate. unfold zlen. cbn [length].
      destruct (Z.eqb_spec (Z.of_nat (S (length h))) 0); [lia|]. reflexivity.
    + unfold zlen. rewrite app_length. cbn [length]. lia.
Qed.
Lemma ejst_nil d v ts (k : @vcore xr) : jstate v ts (fun _ => 0) (repeat 0 v) 0 k -> jstate v ts (val (EJ d []) (ejmeans d v [])) (ejmeans d v []) (zlen (@nil (list R))) k.
Proof.
  apply jstate_ext; [|symmetry; apply ejmeans_nil|reflexivity]. intros a _. unfold val. destruct (degree a =? 0)%Z; reflexivity.
Qed.
Lemma ejinv_clear d v ts h k : ejinv d v ts h k -> exists k', j_clear XN k = Ok k' /\ ejinv d v ts [] k'.
Proof.
  intros (Hst & Hv & Ew & Ed). destruct (j_clear_ok v ts _ _ _ k Hst) as (k' & E & S' & JW & JD & JQ). exists k'. split; [exact E|].
  split; [apply ejst_nil; exact S'|]. split; [constructor|]. split; congruence.
Qed.
Lemma ejcore_run_ok d v ts k ops : jwf v ts -> hash_ok ts -> ejinv d v ts [] k -> arity v ops ->
  exists k', jcore_run XN k (pops ops) = Ok k' /\ ejinv d v ts (hist ops) k'.
Proof.
  intros W HH I0 Ha. apply (pops_run (ejinv d v ts) v); auto.
  - intros h k0 x I Hx. apply ejinv_push; auto.
  - intros h k0 I. eapply ejinv_clear. exact I.
Qed.
