(** Cov on the core of a Corr. *)
From Flocq Require Import BinarySingleNaN.
From Verif Require Import Base F64 HistSpec RingModel NumModel MetricProof JointModel JointMetric JointConf TotalProof ShareModel.
Local Open Scope Z_scope.

Definition cov_sums : list tuple := [[1; 1]].
Definition corr_sums : list tuple := [[1; 1]; [2; 0]; [0; 2]].

Section Generic.
Context {T : Type} (N : Num T).
(** The sums a Cov uses: those of (0,0), (0,1), (1,0) and (1,1). *)
Definition v4 (m : @hmap T) := (m 0, m 1, m 31, m 32).
(** The contribution of a point to a sum of degree one *)
Definition thin (E : T) : Prop := exists q c p, E = nmul N (nmul N q (nadd N (npow N c 0) (nz N (-1)))) p.
Local Notation "x ⊕ y" := (nadd N x y) (at level 50, left associativity).
Local Notation "x ⊖ y" := (nsub N x y) (at level 50, left associativity).
Local Notation g := (hget N).
Local Notation o := (nz N 0).

Lemma add4 (count dx dy : T) (sums sums' new new' : @hmap T) : v4 sums = v4 sums' ->
  exists m m', upd_tuples N (add_term N count [dx; dy] sums) true cov_sums new = Ok m /\
    upd_tuples N (add_term N count [dx; dy] sums') true corr_sums new' = Ok m' /\ v4 (hcopy m sums) = v4 (hcopy m' sums') /\
    exists E1 E31, thin E1 /\ thin E31 /\ g (hcopy m sums) 0 = o ⊕ g sums 0 /\ g (hcopy m sums) 1 = o ⊕ g sums 1 ⊕ E1 /\ g (hcopy m sums) 31 = o ⊕ g sums 31 ⊕ E31.
Proof.
  intros H. injection H as H0 H1 H2 H3. eexists _, _. split; [lazy; reflexivity|]. split; [lazy; reflexivity|]. split.
  - lazy. lazy in H0, H1, H2, H3. rewrite H0, H1, H2, H3. reflexivity.
  - eexists _, _. split; [|split; [|split; [lazy; reflexivity|split; lazy; reflexivity]]]; eexists _, _, _; reflexivity.
Qed.
Lemma decay4 (d dx dy : T) (sums sums' new new' : @hmap T) : v4 sums = v4 sums' ->
  exists m m', upd_tuples N (decay_term N d [dx; dy] sums) true cov_sums new = Ok m /\
    upd_tuples N (decay_term N d [dx; dy] sums') true corr_sums new' = Ok m' /\ v4 (hcopy m sums) = v4 (hcopy m' sums').
Proof.
  intros H. injection H as H0 H1 H2 H3. eexists _, _. split; [lazy; reflexivity|]. split; [lazy; reflexivity|].
  lazy. lazy in H0, H1, H2, H3. rewrite H0, H1, H2, H3. reflexivity.
Qed.
(** On removal the Corr subtracts the contribution to the sums of degree one twice. *)
Lemma rem4 (count dx dy : T) (sums sums' new new' : @hmap T) : v4 sums = v4 sums' ->
  exists m m' E1 E31 X, rem_tuples N count [dx; dy] cov_sums sums new = Ok m /\ rem_tuples N count [dx; dy] corr_sums sums' new' = Ok m' /\ thin E1 /\ thin E31 /\
    v4 (fst m) = (Some (o ⊕ g sums 0), Some (o ⊕ g sums 1 ⊖ E1), Some (o ⊕ g sums 31 ⊖ E31), Some X) /\
    v4 (fst m') = (Some (o ⊕ (o ⊕ (o ⊕ g sums 0))), Some (o ⊕ (o ⊕ g sums 1 ⊖ E1) ⊖ E1), Some (o ⊕ (o ⊕ g sums 31 ⊖ E31) ⊖ E31), Some X).
Proof.
  intros H. injection H as H0 H1 H2 H3. eexists _, _, _, _, _. split; [lazy; reflexivity|]. split; [lazy; reflexivity|]. do 2 (split; [shelve|]). split; [lazy; reflexivity|].
  lazy. lazy in H0, H1, H2, H3. rewrite H0, H1, H2, H3. reflexivity.
  Unshelve. all: eexists _, _, _; reflexivity.
Qed.
End Generic.

(** ** In float64 *)
Definition pz (x : f64) : Prop := x = B754_zero false.
Definition pzn (x : f64) : Prop := x = B754_zero false \/ x = B754_nan.
Definition zn (x : f64) : Prop := (exists s, x = B754_zero s) \/ x = B754_nan.
Lemma fz0 : nz FN 0 = B754_zero false.
Proof. reflexivity. Qed.
Lemma one_minus : exists s, nadd FN (nz FN 1) (nz FN (-1)) = B754_zero s.
Proof.
  assert (H : match nadd FN (nz FN 1) (nz FN (-1)) with B754_zero _ => true | _ => false end = true) by (vm_compute; reflexivity).
  destruct (nadd FN (nz FN 1) (nz FN (-1))) as [s| | |]; try discriminate H. exists s. reflexivity.
Qed.
Lemma fmul_zn_r x y : zn y -> zn (fmul x y).
Proof. intros [(s & ->)| -> ]; destruct x; unfold zn, fmul; cbn; eauto. Qed.
Lemma fmul_zn_l x y : zn x -> zn (fmul x y).
Proof. intros [(s & ->)| -> ]; destruct y; unfold zn, fmul; cbn; eauto. Qed.
Lemma thin_zn E : thin FN E -> zn E.
Proof.
  intros (q & c & p & ->). cbn [nmul FN]. apply fmul_zn_l, fmul_zn_r. change (npow FN c 0) with (nz FN 1). destruct one_minus as (s & ->). left. eauto.
Qed.
Lemma pz_add x : pz x -> nadd FN (nz FN 0) x = x.
Proof. intros ->. rewrite fz0. reflexivity. Qed.
Lemma pzn_add x : pzn x -> nadd FN (nz FN 0) x = x.
Proof. intros [->| ->]; rewrite fz0; reflexivity. Qed.
Lemma pzn_add_zn x E : pzn x -> zn E -> pzn (nadd FN x E).
Proof. intros [->| ->] [([] & ->)| -> ]; unfold pzn; cbn; auto. Qed.
Lemma pzn_sub_zn x E : pzn x -> zn E -> pzn (nsub FN x E).
Proof. intros [->| ->] [([] & ->)| -> ]; unfold pzn; cbn; auto. Qed.
Lemma sub_twice x E : pzn x -> zn E -> nsub FN (nsub FN x E) E = nsub FN x E.
Proof. intros [->| ->] [([] & ->)| -> ]; reflexivity. Qed.

(** The sums of degree zero and one of a core without decay: zero, or NaN once something has been infinite. *)
Definition low (m : @hmap f64) : Prop := pz (hget FN m 0) /\ pzn (hget FN m 1) /\ pzn (hget FN m 31).
(** A Cov core and a Corr core after the same calls *)
Local Notation fcore := (@jcore f64 (list f64)).
Definition jrel (c d : fcore) : Prop :=
  j_means c = j_means d /\ length (j_means c) = 2%nat /\ j_tuples c = cov_sums /\ j_tuples d = corr_sums /\ v4 (j_sums c) = v4 (j_sums d) /\
  j_count c = j_count d /\ j_window c = j_window d /\ j_decay c = j_decay d /\ j_queue c = j_queue d /\
  (j_window c = 0 \/ j_decay c = None /\ low (j_sums c)) /\ (forall x, In x (ritems (j_queue c)) -> length x = 2%nat).
Local Ltac jfields c d H :=
  destruct c as [m1 t1 s1 e1 n1 w1 d1 q1], d as [m2 t2 s2 e2 n2 w2 d2 q2]; unfold jrel in H; cbn [j_means j_tuples j_sums j_new j_count j_window j_decay j_queue] in H;
  destruct H as (<- & Hm & -> & -> & HS & <- & <- & <- & <- & HI & HQ).
Lemma two {A} (l : list A) : length l = 2%nat -> exists a b, l = [a; b].
Proof. destruct l as [|a [|b [|c l]]]; try discriminate. eauto. Qed.

Lemma jrel_add (c d : fcore) x y d' : jrel c d -> j_decay d = None -> j_add FN d [x; y] = Ok d' -> exists c', j_add FN c [x; y] = Ok c' /\ jrel c' d'.
Proof.
  intros H HD E. jfields c d H. unfold j_add in *. cbn [j_means j_tuples j_sums j_new j_count j_window j_decay j_queue] in *. subst d1.
  destruct (two m1 Hm) as (mx & my & ->). change (deltas FN [x; y] [mx; my]) with [nsub FN x mx; nsub FN y my] in *.
  destruct (add4 FN (nz FN (n1 + 1)) (nsub FN x mx) (nsub FN y my) s1 s2 e1 e2 HS) as (m & m' & E1 & E2 & V & (A & B & TA & TB & G0 & G1 & G31)).
  rewrite E1. rewrite E2 in E. cbn [bind] in *. injection E as <-. eexists. split; [reflexivity|]. unfold jrel. cbn [j_means j_tuples j_sums j_new j_count j_window j_decay j_queue].
  do 9 (split; [first [reflexivity|exact V]|]). split; [|exact HQ]. destruct HI as [HI|(_ & L0 & L1 & L31)]; [left; exact HI|right]. split; [reflexivity|].
  unfold low. rewrite G0, G1, G31, (pz_add _ L0), (pzn_add _ L1), (pzn_add _ L31). split; [exact L0|]. split; apply pzn_add_zn; auto using thin_zn.
Qed.
Lemma jrel_decay (c d : fcore) e x y d' : jrel c d -> j_window d = 0 -> j_add_decay FN d e [x; y] = Ok d' -> exists c', j_add_decay FN c e [x; y] = Ok c' /\ jrel c' d'.
Proof.
  intros H HW E. jfields c d H. unfold j_add_decay in *. cbn [j_means j_tuples j_sums j_new j_count j_window j_decay j_queue] in *.
  destruct (two m1 Hm) as (mx & my & ->). change (deltas FN [x; y] [mx; my]) with [nsub FN x mx; nsub FN y my] in *.
  destruct (decay4 FN (if n1 + 1 =? 1 then nz FN 1 else e) (nsub FN x mx) (nsub FN y my) s1 s2 e1 e2 HS) as (m & m' & E1 & E2 & V).
  rewrite E1. rewrite E2 in E. cbn [bind] in *. injection E as <-. eexists. split; [reflexivity|]. unfold jrel. cbn [j_means j_tuples j_sums j_new j_count j_window j_decay j_queue].
  do 9 (split; [first [reflexivity|exact V]|]). split; [left; exact HW|exact HQ].
Qed.
Lemma hzero_low (m : @hmap f64) : low (hzero FN m).
Proof. unfold low, pz, pzn, hget, hzero. destruct (m 0), (m 1), (m 31); cbn [option_map]; rewrite fz0; auto. Qed.
Lemma hzero_v4 (m m' : @hmap f64) : v4 m = v4 m' -> v4 (hzero FN m) = v4 (hzero FN m').
Proof. unfold v4, hzero. intros H. injection H as -> -> -> ->. reflexivity. Qed.
Lemma jrel_remove (c d : fcore) x y d' : jrel c d -> j_window d <> 0 -> j_remove FN d [x; y] = Ok d' -> exists c', j_remove FN c [x; y] = Ok c' /\ jrel c' d'.
Proof.
  intros H HW E. jfields c d H. unfold j_remove in *. cbn [j_means j_tuples j_sums j_new j_count j_window j_decay j_queue] in *.
  destruct HI as [HI|(HD & L0 & L1 & L31)]; [contradiction|]. destruct (n1 - 1 >? 0).
  - destruct (two m1 Hm) as (mx & my & ->). cbn [combine map fst snd] in *.
    set (ax := nsub FN mx (ndiv FN (nsub FN x mx) (nz FN (n1 - 1)))) in *. set (ay := nsub FN my (ndiv FN (nsub FN y my) (nz FN (n1 - 1)))) in *.
    change (deltas FN [x; y] [ax; ay]) with [nsub FN x ax; nsub FN y ay] in *.
    destruct (rem4 FN (nz FN (n1 - 1)) (nsub FN x ax) (nsub FN y ay) s1 s2 e1 e2 HS) as ((a, b) & (a', b') & A & B & X & E1 & E2 & TA & TB & V1 & V2).
    rewrite E1. rewrite E2 in E. cbn [bind fst] in *. injection E as <-.
    rewrite (pz_add _ L0), (pzn_add _ L1), (pzn_add _ L31) in V1. rewrite !(pz_add _ L0), (pzn_add _ L1), (pzn_add _ L31) in V2.
    pose proof (pzn_sub_zn _ _ L1 (thin_zn _ TA)) as P1. pose proof (pzn_sub_zn _ _ L31 (thin_zn _ TB)) as P31.
    rewrite (pzn_add _ P1), (pzn_add _ P31), (sub_twice _ _ L1 (thin_zn _ TA)), (sub_twice _ _ L31 (thin_zn _ TB)) in V2.
    eexists. split; [reflexivity|]. unfold jrel. cbn [j_means j_tuples j_sums j_new j_count j_window j_decay j_queue].
    do 4 (split; [reflexivity|]). split; [congruence|]. do 4 (split; [reflexivity|]). split; [right; split; [exact HD|]|exact HQ].
    unfold v4 in V1. injection V1 as I0 I1 I31 _. unfold low, hget in *. rewrite I0, I1, I31. auto.
  - injection E as <-. eexists. split; [reflexivity|]. unfold jrel. cbn [j_means j_tuples j_sums j_new j_count j_window j_decay j_queue].
    split; [reflexivity|]. split; [rewrite map_length; exact Hm|]. do 2 (split; [reflexivity|]). split; [apply hzero_v4, HS|]. do 4 (split; [reflexivity|]).
    split; [right; split; [exact HD|apply hzero_low]|exact HQ].
Qed.
Lemma jrel_queue (c d : fcore) q : jrel c d -> (forall x, In x (ritems q) -> length x = 2%nat) ->
  jrel (mkJ (j_means c) (j_tuples c) (j_sums c) (j_new c) (j_count c) (j_window c) (j_decay c) q) (mkJ (j_means d) (j_tuples d) (j_sums d) (j_new d) (j_count d) (j_window d) (j_decay d) q).
Proof. unfold jrel. cbn. tauto. Qed.
Lemma jrel_push (c d : fcore) xs d' : jrel c d -> jpush FN d xs = Ok d' -> exists c', jpush FN c xs = Ok c' /\ jrel c' d'.
Proof.
  intros H E. pose proof H as (Em & Hm & _ & _ & _ & _ & Ew & Ed & Eq & HI & HQ). unfold jpush, j_push in *. cbv beta in *. rewrite Em in *. destruct (negb (Nat.eqb (length xs) (length (j_means d)))) eqn:EL; [discriminate|].
  apply negb_false_iff, Nat.eqb_eq in EL. rewrite Hm in EL. destruct (two xs EL) as (x & y & ->).
  apply bind_ok in E as (d1 & E1 & E).
  assert (X : exists c1, (if negb (j_window c =? 0) then
             c1 <- (if ring_len (j_queue c) =? j_window c then
                      '(y, q) <- ring_get (j_queue c) ;;
                      j_remove FN (mkJ (j_means d) (j_tuples c) (j_sums c) (j_new c) (j_count c) (j_window c) (j_decay c) q) y
                    else Ok c) ;;
             q <- ring_put (j_queue c1) [x; y] ;;
             Ok (mkJ (j_means c1) (j_tuples c1) (j_sums c1) (j_new c1) (j_count c1) (j_window c1) (j_decay c1) q)
           else Ok c) = Ok c1 /\ jrel c1 d1 /\ j_window d1 = j_window d /\ j_decay d1 = j_decay d).
  { rewrite Ew, Eq. destruct (Z.eqb_spec (j_window d) 0) as [W0|W0]; cbn [negb] in *; [injection E1 as <-; exists c; auto|].
    apply bind_ok in E1 as (d0 & E0 & E1). apply bind_ok in E1 as (q & Eput & E1). injection E1 as <-.
    assert (Y : exists c0, (if ring_len (j_queue d) =? j_window d then
                      '(y, q) <- ring_get (j_queue d) ;;
                      j_remove FN (mkJ (j_means d) (j_tuples c) (j_sums c) (j_new c) (j_count c) (j_window d) (j_decay c) q) y
                    else Ok c) = Ok c0 /\ jrel c0 d0 /\ j_window d0 = j_window d /\ j_decay d0 = j_decay d).
    { destruct (ring_len (j_queue d) =? j_window d); [|injection E0 as <-; exists c; auto].
      destruct (ring_get (j_queue d)) as [(t, q')| | | |] eqn:G; cbn [bind] in *; try discriminate.
      assert (Q : length t = 2%nat /\ forall z, In z (ritems q') -> length z = 2%nat).
      { unfold ring_get in G. rewrite <- Eq in G. destruct (ritems (j_queue c)) as [|t' l] eqn:Er; [discriminate|]. injection G as <- <-. cbn [ritems].
        split; [apply HQ; left; reflexivity|]. intros z Hz. apply HQ. right. exact Hz. }
      destruct Q as [Qt Qq]. destruct (two t Qt) as (a & b & ->).
      rewrite <- Em, <- Ew. destruct (jrel_remove _ _ a b d0 (jrel_queue c d q' H Qq)) as (c0 & Ec & R0); [exact W0|exact E0|]. exists c0. split; [exact Ec|]. split; [exact R0|].
      rewrite Ew. clear - E0. unfold j_remove in E0. cbn [j_means j_tuples j_sums j_new j_count j_window j_decay j_queue] in E0.
      destruct (_ >? 0); [|injection E0 as <-; split; reflexivity]. apply bind_ok in E0 as ((s, m) & _ & E0). injection E0 as <-. split; reflexivity. }
    destruct Y as (c0 & -> & R0 & W1 & D1). cbn [bind]. pose proof R0 as (_ & _ & _ & _ & _ & _ & _ & _ & Eq0 & _ & HQ0). rewrite Eq0, Eput. cbn [bind].
    eexists. split; [reflexivity|]. split; [apply jrel_queue; [exact R0|]|split; assumption]. intros z Hz. unfold ring_put in Eput. destruct (_ <? _); [|discriminate]. injection Eput as <-. cbn [ritems] in Hz.
    rewrite <- Eq0 in Hz. apply in_app_or in Hz as [Hz|[<-|[]]]; [apply HQ0, Hz|reflexivity]. }
  destruct X as (c1 & -> & R1 & W1 & D1). cbn [bind]. pose proof R1 as (_ & _ & _ & _ & _ & _ & _ & Ed1 & _). rewrite Ed1. destruct (j_decay d1) as [e|] eqn:De.
  - apply (jrel_decay c1 d1 e x y d' R1); [|exact E]. destruct HI as [HI|[HD _]]; [congruence|]. rewrite Ed, <- D1 in HD. discriminate.
  - exact (jrel_add c1 d1 x y d' R1 De E).
Qed.
Lemma jrel_clear (c d : fcore) d' : jrel c d -> j_clear FN d = Ok d' -> exists c', j_clear FN c = Ok c' /\ jrel c' d'.
Proof.
  intros H E. jfields c d H. unfold j_clear in *. cbn [j_means j_tuples j_sums j_new j_count j_window j_decay j_queue] in *. injection E as <-.
  eexists. split; [reflexivity|]. unfold jrel. cbn [j_means j_tuples j_sums j_new j_count j_window j_decay j_queue].
  split; [reflexivity|]. split; [rewrite map_length; exact Hm|]. do 2 (split; [reflexivity|]). split; [apply hzero_v4, HS|]. do 4 (split; [reflexivity|]).
  split; [destruct HI as [HI|[HI _]]; [left; exact HI|right; split; [exact HI|apply hzero_low]]|]. intros x Hx. cbn in Hx. destruct Hx.
Qed.
Lemma jrel_run ops : forall c d d', jrel c d -> jcore_run FN d ops = Ok d' -> exists c', jcore_run FN c ops = Ok c' /\ jrel c' d'.
Proof.
  induction ops as [|[x|] ops IH]; intros c d d' H E; unfold jcore_run in *; cbn [run] in *.
  - injection E as <-. exists c. auto.
  - apply bind_ok in E as (d1 & E1 & E). destruct (jrel_push c d x d1 H E1) as (c1 & -> & R1). cbn [bind]. exact (IH c1 d1 d' R1 E).
  - apply bind_ok in E as (d1 & E1 & E). destruct (jrel_clear c d d1 H E1) as (c1 & -> & R1). cbn [bind]. exact (IH c1 d1 d' R1 E).
Qed.

(** ** Merging the configurations *)
Definition is_corr {T} (k : @jkind T) : bool := match k with JCorr _ | JEwmCorr _ => true | _ => false end.
Definition ksums {T} (k : @jkind T) : list tuple := if is_corr k then corr_sums else cov_sums.
Lemma ksums_cfg {T} (k : @jkind T) : jsums_of (jkconfig k) = ksums k.
Proof. destruct k; reflexivity. Qed.
Lemma kcfg_eq {T} (k : @jkind T) : jkconfig k = mkJCfg (Some (ksums k)) (Some (jwindow k)) None (jf_decay (jkconfig k)).
Proof. destruct k; reflexivity. Qed.
Lemma simp_all l : (forall t, In t l -> In t corr_sums) -> forall seen kept, simplify_loop l seen [2; 62; 32] kept = Ok kept.
Proof.
  induction l as [|t l IH]; intros H seen kept; [reflexivity|]. cbn [simplify_loop].
  assert (X : existsb (Z.eqb (t_hash t)) [2; 62; 32] = true) by (destruct (H t (or_introl eq_refl)) as [<-|[<-|[<-|[]]]]; reflexivity).
  rewrite X. apply IH. intros u Hu. apply H. right. exact Hu.
Qed.
Lemma leq_ones m (l : list tuple) : (forall t : tuple, In t l -> t = [1; 1]) -> all_leq m [1; 1] = Ok false -> some_leq m l = Ok false.
Proof. intros H E. induction l as [|t l IH]; [reflexivity|]. cbn [some_leq]. rewrite (H t (or_introl eq_refl)), E. cbn [bind]. apply IH. intros u Hu. apply H. right. exact Hu. Qed.
Lemma leq_app m l l' : some_leq m l = Ok false -> some_leq m (l ++ l') = some_leq m l'.
Proof.
  induction l as [|t l IH]; intros E; [reflexivity|]. cbn [some_leq app] in *. destruct (all_leq m t) as [b| | | |]; cbn [bind] in *; try discriminate.
  destruct b; [discriminate|]. apply IH, E.
Qed.
Lemma all_corr {T} (ks : list (@jkind T)) t : In t (flat_map ksums ks) -> In t corr_sums.
Proof. rewrite in_flat_map. intros (k & _ & H). unfold ksums in H. destruct (is_corr k); [exact H|]. destruct H as [<-|[]]. left. reflexivity. Qed.
Lemma simp_ones {T} (ks : list (@jkind T)) : forall seen : list tuple, (forall t : tuple, In t seen -> t = [1; 1]) ->
  simplify_loop (flat_map ksums ks) seen [32] [[1; 1]] = Ok (if existsb is_corr ks then corr_sums else cov_sums).
Proof.
  induction ks as [|k ks IH]; intros seen H; cbn [flat_map existsb]; [reflexivity|]. unfold ksums at 1. destruct (is_corr k); cbn [orb].
  - change (corr_sums ++ flat_map ksums ks) with ([1; 1] :: [2; 0] :: [0; 2] :: flat_map ksums ks). cbn [simplify_loop].
    change (existsb (Z.eqb (t_hash [1; 1])) [32]) with true. change (existsb (Z.eqb (t_hash [2; 0])) [32]) with false. cbv iota.
    assert (H' : forall t : tuple, In t (seen ++ [[1; 1] : tuple]) -> t = [1; 1]) by (intros t Ht; apply in_app_or in Ht as [Ht|[<-|[]]]; [apply H, Ht|reflexivity]).
    rewrite (leq_ones [2; 0] _ H' eq_refl). cbn [bind]. change (t_hash [2; 0]) with 62. change (existsb (Z.eqb (t_hash [0; 2])) [62; 32]) with false. cbv iota.
    rewrite (leq_app [0; 2] _ _ (leq_ones [0; 2] _ H' eq_refl)). cbn [some_leq]. change (all_leq [0; 2] [2; 0]) with (@Ok bool false). cbn [bind]. change (t_hash [0; 2]) with 2.
    apply simp_all. intros t Ht. apply (all_corr ks t Ht).
  - change (cov_sums ++ flat_map ksums ks) with ([1; 1] :: flat_map ksums ks). cbn [simplify_loop].
    change (existsb (Z.eqb (t_hash [1; 1])) [32]) with true. cbv iota. apply IH.
    intros t Ht. apply in_app_or in Ht as [Ht|[<-|[]]]; [apply H, Ht|reflexivity].
Qed.
Lemma simp_kinds {T} (ks : list (@jkind T)) : ks <> [] -> simplify_sums (flat_map ksums ks) = Ok (if existsb is_corr ks then corr_sums else cov_sums).
Proof.
  destruct ks as [|k ks]; [congruence|]. intros _. unfold simplify_sums. cbn [flat_map existsb]. unfold ksums at 1. destruct (is_corr k); cbn [orb].
  - change (corr_sums ++ flat_map ksums ks) with ([1; 1] :: [2; 0] :: [0; 2] :: flat_map ksums ks). cbn [simplify_loop some_leq bind existsb].
    change (t_hash [1; 1]) with 32. change (t_hash [2; 0]) with 62. change (t_hash [0; 2]) with 2. cbn [app existsb]. change (62 =? 32) with false. cbn [orb some_leq].
    change (all_leq [2; 0] [1; 1]) with (@Ok bool false). cbn [bind existsb]. change (2 =? 62) with false. change (2 =? 32) with false. cbn [orb app some_leq].
    change (all_leq [0; 2] [1; 1]) with (@Ok bool false). cbn [bind some_leq]. change (all_leq [0; 2] [2; 0]) with (@Ok bool false). cbn [bind app].
    apply simp_all. intros t Ht. apply (all_corr ks t Ht).
  - change (cov_sums ++ flat_map ksums ks) with ([1; 1] :: flat_map ksums ks). cbn [simplify_loop some_leq bind existsb app]. change (t_hash [1; 1]) with 32.
    apply simp_ones. intros t [<-|[]]. reflexivity.
Qed.

Section Merged.
Context {T : Type} (N : Num T).
Hypothesis Hdec : forall d e, neqb N d e = true -> nle N d (nz N 0) = false -> d = e.
Definition jdecayed (k : @jkind T) : bool := match jf_decay (jkconfig k) with Some _ => true | None => false end.
Definition juniform (ks : list (@jkind T)) : Prop := forall k k', In k ks -> In k' ks -> jdecayed k = jdecayed k'.
Lemma jwindows_all ks : jwindows (map (@jkconfig T) ks) = map jwindow ks.
Proof. induction ks as [|k ks IH]; [reflexivity|]. cbn [map jwindows flat_map]. fold (jwindows (map (@jkconfig T) ks)). rewrite IH. destruct k; reflexivity. Qed.
Lemma jvarss_none ks : jvarss (map (@jkconfig T) ks) = [].
Proof. induction ks as [|k ks IH]; [reflexivity|]. cbn [map jvarss flat_map]. fold (jvarss (map (@jkconfig T) ks)). rewrite IH. destruct k; reflexivity. Qed.
Lemma jsums_all ks : flat_map jsums_of (map (@jkconfig T) ks) = flat_map ksums ks.
Proof. induction ks as [|k ks IH]; [reflexivity|]. cbn [map flat_map]. rewrite IH, ksums_cfg. reflexivity. Qed.
Lemma in_jdec ks k d : In k ks -> jf_decay (@jkconfig T k) = Some d -> In d (jdecays (map (@jkconfig T) ks)).
Proof. intros Hk E. unfold jdecays. apply in_flat_map. exists (jkconfig k). split; [apply in_map, Hk|]. rewrite E. left. reflexivity. Qed.
Lemma jdec_in ks d : In d (jdecays (map (@jkconfig T) ks)) -> exists k, In k ks /\ jf_decay (@jkconfig T k) = Some d.
Proof. unfold jdecays. rewrite in_flat_map. intros (c & Hc & Hd). apply in_map_iff in Hc as (k & <- & Hk). exists k. split; [exact Hk|]. destruct (jf_decay (jkconfig k)); [|destruct Hd]. destruct Hd as [->|[]]. reflexivity. Qed.
Lemma agree_dec {A} (e : A -> A -> bool) l : agree e l \/ ~ agree e l.
Proof.
  destruct l as [|x l]; [left; exact I|]. cbn [agree]. destruct (forallb (e x) l) eqn:F; [left; apply Forall_forall; intros y Hy; exact (proj1 (forallb_forall _ _) F y Hy)|].
  right. intros H. rewrite Forall_forall in H. apply not_true_iff_false in F. apply F. apply forallb_forall. exact H.
Qed.
Definition gsums (ks : list (@jkind T)) : list tuple := if existsb is_corr ks then corr_sums else cov_sums.
Lemma jmerged_one ks cfg k : jmerge_configs N (map jkconfig ks) = Ok cfg -> jcfg_valid N cfg -> juniform ks -> In k ks ->
  cfg = mkJCfg (Some (gsums ks)) (Some (jwindow k)) None (jf_decay (jkconfig k)).
Proof.
  intros E V U Hk. assert (X : ks = [k] \/ jmerge_loop N (map jkconfig ks) [] None None None = Ok cfg).
  { destruct ks as [|k1 [|k2 ks]]; [destruct Hk| |right; exact E]. destruct Hk as [<-|[]]. auto. }
  destruct X as [->|E'].
  - injection E as <-. unfold gsums. cbn [existsb]. rewrite orb_false_r. apply kcfg_eq.
  - clear E. destruct (jmerge_loop_spec N (map jkconfig ks) [] None None None) as [H1 H2]. cbn [opt_list app] in H1, H2. rewrite jvarss_none, jwindows_all, jsums_all in *.
    rewrite simp_kinds in H1 by (intros ->; destruct Hk). cbn [bind] in H1.
    destruct (agree_dec Z.eqb (map jwindow ks)) as [D1|D1]; [|destruct H2 as (e & H2); [tauto|congruence]].
    destruct (agree_dec (neqb N) (jdecays (map jkconfig ks))) as [D2|D2]; [|destruct H2 as (e & H2); [tauto|congruence]].
    rewrite H1 in E' by (repeat split; [exact D1|exact D2]). injection E' as <-. destruct V as ((w & Hw & _ & Hd) & _). cbn [jf_window jf_decay] in *. unfold gsums. cbn [hd_error]. f_equal.
    + destruct ks as [|k0 ks]; [destruct Hk|]. cbn [map hd_error agree] in *. f_equal. destruct Hk as [->|Hk]; [reflexivity|].
      rewrite Forall_forall in D1. apply Z.eqb_eq. apply D1. apply in_map, Hk.
    + destruct (jdecays (map jkconfig ks)) as [|d0 l] eqn:Ed; cbn [hd_error] in *.
      * destruct (jf_decay (jkconfig k)) as [d|] eqn:E; [|reflexivity]. apply (in_jdec ks k d Hk) in E. rewrite Ed in E. destruct E.
      * destruct (jdec_in ks d0) as (k0 & Hk0 & E0); [rewrite Ed; left; reflexivity|]. specialize (U k k0 Hk Hk0). unfold jdecayed in U. rewrite E0 in U.
        destruct (jf_decay (jkconfig k)) as [d|] eqn:E; [|discriminate]. f_equal. pose proof (in_jdec ks k d Hk E) as Hin. rewrite Ed in Hin. destruct Hin as [->|Hin]; [reflexivity|].
        cbn [agree] in D2. rewrite Forall_forall in D2. apply Hdec; [apply D2, Hin|]. apply (Hd d0 eq_refl).
Qed.

(** The calls as a history of the core *)
Definition jplain (o : @jvia_op T) : op (list T) := match o with JSPush _ x => OPush x | JSClear _ => OClear end.
Lemma js_steps_core l : forall s s', js_steps N l s = Ok s' -> js_kinds s' = js_kinds s /\ jcore_run N (js_core s) (map jplain l) = Ok (js_core s').
Proof.
  induction l as [|o l IH]; intros s s' E; cbn [js_steps map] in *; [injection E as <-; split; reflexivity|].
  apply bind_ok in E as (s1 & E1 & E). destruct (IH s1 s' E) as [K1 R1].
  assert (X : js_kinds s1 = js_kinds s /\ jcore_run N (js_core s) [jplain o] = Ok (js_core s1)).
  { clear - E1. unfold jcore_run. destruct o as [[i|] x|[i|]]; cbn [js_step jplain run] in *.
    - unfold js_metric in E1. destruct (nth_error (js_kinds s) i); [|discriminate]. cbn [option_map jm_push jm_core jm_kind] in E1. destruct (negb _); [discriminate|].
      destruct (jpush N (js_core s) x); cbn [bind] in *; try discriminate. injection E1 as <-. split; reflexivity.
    - destruct (jpush N (js_core s) x); cbn [bind] in *; try discriminate. injection E1 as <-. split; reflexivity.
    - unfold js_metric in E1. destruct (nth_error (js_kinds s) i); [|discriminate]. cbn [option_map jm_clear jm_core jm_kind] in E1.
      destruct (j_clear N (js_core s)); cbn [bind] in *; try discriminate. injection E1 as <-. split; reflexivity.
    - destruct (j_clear N (js_core s)); cbn [bind] in *; try discriminate. injection E1 as <-. split; reflexivity. }
  destruct X as [K0 R0]. split; [congruence|]. unfold jcore_run in *. change (jplain o :: map jplain l) with ([jplain o] ++ map jplain l). rewrite run_app, R0. exact R1.
Qed.
Lemma core_steps_js l : forall s c, (forall i, In (Some i) (map (fun o => match o with JSPush v _ => v | JSClear v => v end) l) -> (i < length (js_kinds s))%nat) ->
  (forall x, In (OPush x) (map jplain l) -> length x = 2%nat) ->
  jcore_run N (js_core s) (map jplain l) = Ok c -> js_steps N l s = Ok (mkJS (js_kinds s) c).
Proof.
  induction l as [|o l IH]; intros s c Hi Hx E; unfold jcore_run in *; cbn [js_steps map] in *; [destruct s; injection E as <-; reflexivity|].
  change (jplain o :: map jplain l) with ([jplain o] ++ map jplain l) in E. rewrite run_app in E. apply bind_ok in E as (c1 & E1 & E).
  assert (X : js_step N s o = Ok (mkJS (js_kinds s) c1)).
  { clear - E1 Hi Hx. destruct o as [[i|] x|[i|]]; cbn [js_step jplain run] in *; rewrite ?bind_ok in E1.
    - unfold js_metric. specialize (Hi i (or_introl eq_refl)). destruct (nth_error (js_kinds s) i) eqn:En; [|apply nth_error_None in En; lia]. cbn [option_map jm_push jm_core jm_kind].
      rewrite (Hx x (or_introl eq_refl)), Nat.eqb_refl. cbn [negb].
      destruct E1 as (c & -> & H). injection H as <-. reflexivity.
    - destruct E1 as (c & -> & H). injection H as <-. reflexivity.
    - unfold js_metric. specialize (Hi i (or_introl eq_refl)). destruct (nth_error (js_kinds s) i) eqn:En; [|apply nth_error_None in En; lia]. cbn [option_map jm_clear jm_core jm_kind].
      destruct E1 as (c & -> & H). injection H as <-. reflexivity.
    - destruct E1 as (c & -> & H). injection H as <-. reflexivity. }
  rewrite X. cbn [bind]. apply (IH (mkJS (js_kinds s) c1)); [| |exact E].
  - cbn [js_kinds]. intros i H. apply Hi. right. exact H.
  - intros x H. apply Hx. right. exact H.
Qed.
Lemma core_arity cfg c0 ops : @jnew_core T N (list T) cfg = Ok c0 -> Forall (Forall (fun k => k <= 65)) (jsums_of cfg) ->
  forall c, jcore_run N c0 ops = Ok c -> forall x, In (OPush x) ops -> length x = length (j_means c0).
Proof.
  intros E0 F. induction ops as [|o ops IH] using rev_ind; intros c E x Hx; [destruct Hx|].
  unfold jcore_run in *. rewrite run_app in E. apply bind_ok in E as (c1 & E1 & E). apply in_app_or in Hx as [Hx|[->|[]]]; [exact (IH c1 E1 x Hx)|].
  destruct (jcore_total N cfg c0 ops E0 F (IH c1 E1)) as (c1' & E1' & w & _ & ((L & _) & _)). unfold jcore_run in E1'. rewrite E1 in E1'. injection E1' as <-.
  cbn [run] in E. apply bind_ok in E as (c2 & E2 & _). unfold jpush, j_push in E2. destruct (negb (Nat.eqb (length x) (length (j_means c1)))) eqn:A; [discriminate|].
  apply negb_false_iff, Nat.eqb_eq in A. congruence.
Qed.
Lemma jm_of_core k ops : forall c c', jcore_run N c ops = Ok c' -> (forall x, In (OPush x) ops -> length x = 2%nat) ->
  run (jm_push N) (jm_clear N) ops (mkJM k (Some c)) = Ok (mkJM k (Some c')).
Proof.
  unfold jcore_run. induction ops as [|o ops IH]; intros c0 c Ec Hx; cbn [run] in *; [injection Ec as <-; reflexivity|].
  destruct o as [x|]; cbn [jm_push jm_clear jm_core jm_kind].
  - rewrite (Hx x (or_introl eq_refl)), Nat.eqb_refl. cbn [negb]. apply bind_ok in Ec. destruct Ec as (c1 & E1 & Ec). rewrite E1. cbn [bind]. apply IH; [exact Ec|]. intros y Hy. apply Hx. right. exact Hy.
  - apply bind_ok in Ec. destruct Ec as (c1 & E1 & Ec). rewrite E1. cbn [bind]. apply IH; [exact Ec|]. intros y Hy. apply Hx. right. exact Hy.
Qed.
Lemma jnew_valid cfg c : @jnew_core T N (list T) cfg = Ok c -> jcfg_valid N cfg.
Proof. intros E. destruct (jvalidate_spec N cfg) as [[V _]|[V _]]; [exact V|]. destruct (proj2 (jnew_core_spec N (A := list T) cfg) V) as (e & E'). congruence. Qed.
Lemma valid_sums (s s' : list tuple) w d : s = cov_sums \/ s = corr_sums -> s' = cov_sums \/ s' = corr_sums ->
  jcfg_valid N (mkJCfg (Some s) (Some w) None d) -> jcfg_valid N (mkJCfg (Some s') (Some w) None d).
Proof.
  intros _ Hs (H1 & _ & _). split; [exact H1|]. cbn [jf_vars jsums_of jf_sums]. split; [discriminate|]. exists 2. split; [|split; [destruct Hs as [-> | ->]; discriminate|discriminate]].
  destruct Hs as [-> | ->]; repeat constructor; cbn; try lia; discriminate.
Qed.
End Merged.

(** ** A Cov or Corr on a shared core *)
Lemma gsums_case {T} (ks : list (@jkind T)) : gsums ks = cov_sums \/ gsums ks = corr_sums.
Proof. unfold gsums. destruct (existsb is_corr ks); auto. Qed.
Lemma ksums_case {T} (k : @jkind T) : ksums k = cov_sums \/ ksums k = corr_sums.
Proof. unfold ksums. destruct (is_corr k); auto. Qed.
Lemma keys4 : v4 (init_keys FN cov_sums) = v4 (init_keys FN corr_sums).
Proof. reflexivity. Qed.
Lemma low_keys : low (init_keys FN cov_sums).
Proof. unfold low, pz, pzn. split; [reflexivity|]. split; left; reflexivity. Qed.
Lemma gsums_in {T} (ks : list (@jkind T)) k : In k ks -> gsums ks = ksums k \/ gsums ks = corr_sums /\ ksums k = cov_sums /\ is_corr k = false.
Proof.
  intros Hk. unfold gsums, ksums. destruct (is_corr k) eqn:E.
  - left. assert (X : existsb is_corr ks = true) by (apply existsb_exists; exists k; auto). rewrite X. reflexivity.
  - destruct (existsb is_corr ks); auto.
Qed.
Lemma jrel_value k (c d : fcore) : jrel c d -> is_corr k = false -> jvalue FN k c = jvalue FN k d.
Proof.
  intros (_ & _ & _ & _ & V & C & _) Hk. assert (G : j_get_sum c [1; 1] = j_get_sum d [1; 1]).
  { unfold j_get_sum. rewrite C. change (t_hash [1; 1]) with 32. injection V as _ _ _ V. rewrite V. reflexivity. }
  destruct k; try discriminate; cbn [jvalue]; rewrite G; [|reflexivity]. unfold j_get_count. rewrite C. reflexivity.
Qed.
Lemma jrel_fresh (ks : list (@jkind f64)) (k : @jkind f64) : gsums ks = corr_sums -> ksums k = cov_sums -> is_corr k = false ->
  let cf := mkJCfg (Some (gsums ks)) (Some (jwindow k)) None (jf_decay (jkconfig k)) in
  jrel (mkJ (repeat (nz FN 0) (Z.to_nat (vars_of (jkconfig k)))) (jsums_of (jkconfig k)) (init_keys FN (jsums_of (jkconfig k))) (init_keys FN (jsums_of (jkconfig k))) 0 (jwindow k) (jf_decay (jkconfig k)) (ring_new (jwindow k)))
       (mkJ (repeat (nz FN 0) (Z.to_nat (vars_of cf))) (jsums_of cf) (init_keys FN (jsums_of cf)) (init_keys FN (jsums_of cf)) 0 (jwindow k) (jf_decay (jkconfig k)) (ring_new (jwindow k))).
Proof.
  intros G G' Hc cf. assert (Ec : jsums_of cf = corr_sums) by exact G. assert (Ek : jsums_of (jkconfig k) = cov_sums) by (rewrite ksums_cfg; exact G').
  assert (Vc : vars_of cf = 2) by (unfold vars_of; rewrite Ec; reflexivity). assert (Vk : vars_of (jkconfig k) = 2) by (destruct k; reflexivity).
  rewrite Ec, Ek, Vc, Vk. unfold jrel. cbn [j_means j_tuples j_sums j_new j_count j_window j_decay j_queue].
  split; [reflexivity|]. split; [reflexivity|]. do 2 (split; [reflexivity|]). split; [exact keys4|]. do 4 (split; [reflexivity|]). split; [|intros x []].
  destruct k as [w|w|e|e]; try discriminate; cbn [jf_decay jkconfig jwindow]; [right; split; [reflexivity|exact low_keys]|left; reflexivity].
Qed.
Theorem jshared_same (Hdec : forall d e, neqb FN d e = true -> nle FN d (nz FN 0) = false -> d = e) ks l s i k :
  js_run FN ks l = Ok s -> juniform ks -> nth_error ks i = Some k -> exists m, jm_run FN k (map jplain l) = Ok m /\ js_value FN s i = jm_value FN m.
Proof.
  intros E U Ei. unfold js_run in E. apply bind_ok in E as (s0 & E0 & E). unfold js_new in E0. apply bind_ok in E0 as (cfg & Em & E0). apply bind_ok in E0 as (d & Ec & E0). injection E0 as <-.
  apply js_steps_core in E as [K R]. cbn [js_kinds js_core] in K, R. pose proof (jnew_valid FN cfg d Ec) as V.
  assert (Hk : In k ks) by (eapply nth_error_In; exact Ei). pose proof (jmerged_one FN Hdec ks cfg k Em V U Hk) as Ecfg. subst cfg.
  pose proof (valid_sums FN _ (ksums k) _ _ (gsums_case ks) (ksums_case k) V) as Vk. rewrite <- kcfg_eq in Vk.
  assert (F : Forall (Forall (fun k => k <= 65)) (gsums ks)) by (destruct (gsums_case ks) as [-> | ->]; repeat constructor; lia).
  pose proof (core_arity FN _ d (map jplain l) Ec F (js_core s) R) as Har.
  assert (L2 : length (j_means d) = 2%nat).
  { destruct (proj1 (jnew_core_spec FN (A := list f64) _) V) as (w & _ & E'). rewrite Ec in E'. injection E' as ->. cbn [j_means]. rewrite repeat_length. unfold vars_of. cbn [jf_vars jsums_of jf_sums].
    destruct (gsums_case ks) as [-> | ->]; reflexivity. }
  rewrite L2 in Har.
  assert (X : exists c c', @jnew_core f64 FN (list f64) (jkconfig k) = Ok c /\ jcore_run FN c (map jplain l) = Ok c' /\ jvalue FN k c' = jvalue FN k (js_core s)).
  { destruct (gsums_in ks k Hk) as [G|(G & G' & Hc)].
    - rewrite G, <- kcfg_eq in Ec. exists d, (js_core s). auto.
    - destruct (proj1 (jnew_core_spec FN (A := list f64) _) V) as (w & Ew & E'). rewrite Ec in E'. injection E' as ->. cbn [jf_window] in Ew. injection Ew as <-.
      destruct (proj1 (jnew_core_spec FN (A := list f64) _) Vk) as (w & Ew & E'). rewrite kcfg_eq in Ew. injection Ew as <-.
      destruct (jrel_run (map jplain l) _ _ (js_core s) (jrel_fresh ks k G G' Hc) R) as (c' & Ec' & RR). eexists _, c'. split; [exact E'|]. split; [exact Ec'|].
      apply jrel_value; assumption. }
  destruct X as (c & c' & E1 & E2 & EV). exists (mkJM k (Some c')). split.
  - unfold jm_run, jm_init, new_jmetric. cbn [jm_kind]. rewrite E1. cbn [bind]. apply jm_of_core; assumption.
  - unfold js_value, js_metric. rewrite K, Ei. unfold jm_value. cbn [option_map jm_core jm_kind]. symmetry. exact EV.
Qed.
Theorem jshared_total {T} (N : Num T) ks l : ks <> [] -> (forall k, In k ks -> exists c, @jnew_core T N (list T) (jkconfig k) = Ok c) ->
  (forall k k', In k ks -> In k' ks -> jwindow k = jwindow k' /\ jf_decay (jkconfig k) = jf_decay (jkconfig k')) ->
  (forall k d, In k ks -> jf_decay (jkconfig k) = Some d -> neqb N d d = true) ->
  (forall i, In (Some i) (map (fun o => match o with JSPush v _ => v | JSClear v => v end) l) -> (i < length ks)%nat) ->
  (forall x, In (OPush x) (map jplain l) -> length x = 2%nat) ->
  exists s, js_run N ks l = Ok s.
Proof.
  intros Hne Hok Hag Hnn Hi Hx. destruct ks as [|k0 ks']; [congruence|]. set (ks := k0 :: ks') in *. assert (H0 : In k0 ks) by (left; reflexivity).
  destruct (Hok k0 H0) as (c0 & E0). pose proof (jnew_valid N _ _ E0) as V0. rewrite kcfg_eq in V0.
  assert (M : jmerge_configs N (map jkconfig ks) = Ok (mkJCfg (Some (gsums ks)) (Some (jwindow k0)) None (jf_decay (jkconfig k0)))).
  { destruct ks' as [|k1 ks'].
    - change (Ok (jkconfig k0) = Ok (mkJCfg (Some (gsums ks)) (Some (jwindow k0)) None (jf_decay (jkconfig k0)))). unfold gsums, ks. cbn [existsb]. rewrite orb_false_r. f_equal. apply kcfg_eq.
    - change (jmerge_configs N (map jkconfig ks)) with (jmerge_loop N (map jkconfig ks) [] None None None).
      destruct (jmerge_loop_spec N (map jkconfig ks) [] None None None) as [H1 _]. cbn [opt_list app] in H1. rewrite H1; clear H1.
      + rewrite jvarss_none, jwindows_all, jsums_all, simp_kinds by discriminate. cbn [bind hd_error]. unfold gsums. f_equal. f_equal.
        destruct (jdecays (map jkconfig ks)) as [|d0 t] eqn:Ed; cbn [hd_error].
        * destruct (jf_decay (jkconfig k0)) as [d|] eqn:E; [|reflexivity]. apply (in_jdec ks k0 d H0) in E. rewrite Ed in E. destruct E.
        * destruct (jdec_in ks d0) as (ka & Ha & Ea); [rewrite Ed; left; reflexivity|]. rewrite <- Ea. apply (Hag ka k0 Ha H0).
      + rewrite jvarss_none, jwindows_all. split; [|split; [exact I|]].
        * subst ks. cbn [map agree]. apply Forall_forall. intros w Hin. change (jwindow k1 :: map jwindow ks') with (map (@jwindow T) (k1 :: ks')) in Hin.
          apply in_map_iff in Hin as (k & <- & Hk). apply Z.eqb_eq. apply (Hag k0 k H0 (or_intror Hk)).
        * destruct (jdecays (map jkconfig ks)) as [|d0 t] eqn:Ed; [exact I|]. cbn [agree]. apply Forall_forall. intros d Hin.
          destruct (jdec_in ks d0) as (ka & Ha & Ea); [rewrite Ed; left; reflexivity|]. destruct (jdec_in ks d) as (kb & Hb & Eb); [rewrite Ed; right; exact Hin|].
          destruct (Hag ka kb Ha Hb) as [_ H]. rewrite Ea, Eb in H. injection H as <-. exact (Hnn ka d0 Ha Ea). }
  pose proof (valid_sums N _ (gsums ks) _ _ (ksums_case k0) (gsums_case ks) V0) as V. destruct (proj1 (jnew_core_spec N (A := list T) _) V) as (w & Ew & En).
  destruct (jcore_total N _ _ (map jplain l) En) as (c & Er & _).
  - cbn [jsums_of jf_sums]. destruct (gsums_case ks) as [-> | ->]; repeat constructor; lia.
  - cbn [j_means]. rewrite repeat_length. unfold vars_of. cbn [jf_vars jsums_of jf_sums]. destruct (gsums_case ks) as [-> | ->]; exact Hx.
  - exists (mkJS ks c). unfold js_run, js_new. rewrite M. cbn [bind]. rewrite En. cbn [bind]. apply (core_steps_js N l (mkJS ks _)); [exact Hi|exact Hx|exact Er].
Qed.
