(** Proofs about exponentially weighted moments in exact arithmetic. *)
From Coq Require Import Reals Lra Permutation.
From Verif Require Import Base MathModel MathProof HistSpec RingModel NumModel MomentModel MomentSpec RealLib MomentProof.
Local Open Scope R_scope.

Definition EL (d : R) (l : list R) : list (R * R) := combine (eweights d l) l.

Lemma wsum_map ws (f : R -> R) l : wsum ws (map f l) = rsum (map (fun p => fst p * f (snd p)) (combine ws l)).
Proof.
  unfold wsum. revert ws. induction l as [|x l IH]; intros [|w ws]; cbn [map combine]; try reflexivity.
  rewrite !rsum_cons. cbn [fst snd]. rewrite IH. reflexivity.
Qed.
Lemma ewmoment_wpow d k l : ewmoment d k l = wpow (EL d l) (ewma d l) k.
Proof. unfold ewmoment, wpow, EL. rewrite wsum_map. reflexivity. Qed.

Lemma eweights_push d l x : l <> [] -> eweights d (l ++ [x]) = map (fun w => (1 - d) * w) (eweights d l) ++ [d].
Proof.
  intros Hl. unfold eweights. rewrite app_length. cbn [length]. rewrite Nat.add_1_r, seq_S, map_app. cbn [map Nat.add]. f_equal.
  - rewrite map_map. apply map_ext_in. intros i Hi. apply in_seq in Hi. unfold eweight. destruct i as [|i].
    + replace (S (length l) - 1)%nat with (S (length l - 1)) by lia. reflexivity.
    + replace (S (length l) - 1 - S i)%nat with (S (length l - 1 - S i)) by lia. cbn [pow]. ring.
  - unfold eweight. destruct (length l) as [|n] eqn:E; [destruct l; [congruence|discriminate]|].
    replace (S (S n) - 1 - S n)%nat with 0%nat by lia. cbn [pow]. f_equal. ring.
Qed.
Lemma eweights_length d l : length (eweights d l) = length l.
Proof. unfold eweights. rewrite map_length, seq_length. reflexivity. Qed.
Lemma combine_app {A B} (a1 : list A) (b1 : list B) a2 b2 : length a1 = length b1 -> combine (a1 ++ a2) (b1 ++ b2) = combine a1 b1 ++ combine a2 b2.
Proof. revert b1. induction a1 as [|x a IH]; intros [|y b] H; try discriminate; [reflexivity|]. cbn. f_equal. apply IH. injection H as H. exact H. Qed.
Lemma EL_push d l x : l <> [] -> EL d (l ++ [x]) = wscale (1 - d) (EL d l) ++ [(d, x)].
Proof.
  intros Hl. unfold EL. rewrite eweights_push by exact Hl. rewrite combine_app by (rewrite map_length; apply eweights_length). f_equal.
  unfold wscale. clear Hl. generalize (eweights d l). intros ws. revert l. induction ws as [|w ws IH]; intros [|y l]; cbn; try reflexivity. f_equal. apply IH.
Qed.
Lemma EL_one d x : EL d [x] = [(1, x)].
Proof. reflexivity. Qed.

Lemma ewma_raw d l : ewma d l = rsum (map (fun p => fst p * snd p) (EL d l)).
Proof. reflexivity. Qed.
Lemma ewma_push d l x : l <> [] -> ewma d (l ++ [x]) = ewma d l + d * (x - ewma d l).
Proof.
  intros Hl. rewrite !ewma_raw, EL_push by exact Hl. rewrite map_app, rsum_app. unfold wscale. rewrite map_map. cbn [fst snd map].
  rewrite (rsum_ext _ (fun p => (1 - d) * (fst p * snd p))) by (intros; ring). rewrite rsum_scale. unfold rsum at 2. cbn. ring.
Qed.
Lemma ewma_one d x : ewma d [x] = x.
Proof. rewrite ewma_raw, EL_one. unfold rsum. cbn. ring. Qed.
Lemma ewma_nil d : ewma d [] = 0.
Proof. reflexivity. Qed.

(** The weights sum to one. *)
Lemma EL_total d l a : l <> [] -> wpow (EL d l) a 0 = 1.
Proof.
  induction l as [|x l IH] using rev_ind; intros H; [congruence|]. destruct l as [|y l].
  - cbn [app]. rewrite EL_one, wpow_one. cbn. ring.
  - rewrite EL_push by discriminate. rewrite wpow_app, wpow_scale, wpow_one, IH by discriminate. cbn. ring.
Qed.
Lemma EL_first d l : l <> [] -> wpow (EL d l) (ewma d l) 1 = 0.
Proof.
  intros H. pose proof (EL_total d l (ewma d l) H) as HT. unfold wpow in *. cbn [pow] in HT.
  rewrite (rsum_ext _ (fun p => fst p * snd p + - ewma d l * (fst p * 1))) by (intros; ring).
  rewrite rsum_plus, (rsum_scale (- ewma d l) (fun p => fst p * 1)), HT. rewrite <- ewma_raw. ring.
Qed.

Lemma ewmoment_push d l x k : l <> [] -> (2 <= k)%nat ->
  let a := ewma d l in let dl := x - a in
  ewmoment d k (l ++ [x]) = (1 - d) * ewmoment d k l + ((1 - d) * (- d) ^ k + d * (1 - d) ^ k) * dl ^ k
    + rsum (map (fun i => ncoef k i * ((d * dl) ^ i * (1 - d) * ewmoment d (k - i) l)) (seq 1 (k - 2))).
Proof.
  intros Hl Hk a dl. rewrite !ewmoment_wpow, EL_push by exact Hl. rewrite wpow_app, wpow_scale, wpow_one. cbn [fst snd].
  rewrite ewma_push by exact Hl. fold a dl.
  rewrite wpow_expand by (try exact Hk; apply EL_first; exact Hl). rewrite EL_total by exact Hl.
  rewrite (rsum_ext (fun i => ncoef k i * ((d * dl) ^ i * (1 - d) * ewmoment d (k - i) l))
    (fun i => (1 - d) * (IZR (zbin k i) * (- (d * dl)) ^ i * wpow (EL d l) a (k - i)))).
  2:{ intros i _. rewrite ewmoment_wpow. fold a. rewrite (pow_opp (d * dl)). unfold ncoef. ring. }
  rewrite rsum_scale. replace (x - (a + d * dl)) with ((1 - d) * dl) by (unfold dl; ring).
  replace (- (d * dl)) with (- d * dl) by ring. rewrite !Rpow_mult_distr. ring.
Qed.
Lemma ewmoment_one d x k : (1 <= k)%nat -> ewmoment d k [x] = 0.
Proof.
  intros Hk. rewrite ewmoment_wpow, EL_one, wpow_one, ewma_one. cbn [fst snd]. replace (x - x) with 0 by ring. rewrite pow_i by lia. ring.
Qed.
Lemma ewmoment_nil d k : ewmoment d k [] = 0.
Proof. reflexivity. Qed.

Definition einv (d : R) (l : list R) (c : @core xr) : Prop :=
  c_mean c = Fin (ewma d l) /\ c_count c = zlen l /\ (c_len c <= 66)%nat /\ c_window c = 0%Z /\ c_decay c = Some (Fin d) /\
  (forall k, (k < c_len c)%nat -> (2 <= k <= 20)%nat -> c_sums c k = Fin (ewmoment d k l)) /\ (forall k, (k < 2)%nat -> c_sums c k = Fin 0).

Lemma einv_push d l c x : einv d l c -> exists c', c_push XN c (Fin x) = Ok c' /\ einv d (l ++ [x]) c' /\ c_len c' = c_len c.
Proof.
  intros (Hm & Hn & Hl & Hw & Hd & Hs & H01). unfold c_push. rewrite Hw. cbn [Z.eqb negb bind]. rewrite Hd.
  unfold c_add_decay. cbv zeta. rewrite Hm. cbn [nsub nadd nmul ndiv npow nz XN].
  set (dd := if (c_count c + 1 =? 1)%Z then Fin 1 else Fin d).
  assert (Edd : dd = Fin (match l with [] => 1 | _ => d end)).
  { unfold dd. rewrite Hn. destruct l; [reflexivity|]. unfold zlen. cbn [length]. destruct (Z.eqb_spec (Z.of_nat (S (length l)) + 1) 1); [lia|reflexivity]. }
  set (e := match l with [] => 1 | _ => d end) in *. rewrite Edd. cbn [xsub xadd xmul].
  set (dl := x - ewma d l).
  match goal with |- context [outer ?s _ _] => set (step := s) end.
  destruct (outer_down step) with (m := (c_len c - 2)%nat) (a := 2%nat) (f := c_sums c) as (f' & E & H1 & H2).
  - intros f g k Hfg. unfold step. rewrite (Hfg k) by lia. apply inner_ext. intros i cf Hi. apply in_seq in Hi.
    rewrite (Hfg (k - i)%nat) by lia. reflexivity.
  - intros k Hk. unfold step. apply inner_total; [|lia]. intros i Hi. apply in_seq in Hi. lia.
  - unfold ks_up. rewrite E. cbn [bind]. eexists. split; [reflexivity|]. split; [|reflexivity].
    split; [|split; [|split; [|split; [|split; [|split]]]]]; cbn [c_mean c_count c_len c_sums c_window c_decay]; auto.
    + f_equal. destruct l as [|y l']; [cbn [app]; unfold dl, e; rewrite ewma_one, ewma_nil; ring|].
      rewrite ewma_push by discriminate. reflexivity.
    + rewrite Hn. unfold zlen. rewrite app_length. cbn [length]. lia.
    + intros k Hk Hk2. specialize (H1 k ltac:(lia)). unfold step in H1. rewrite (Hs k Hk ltac:(lia)) in H1.
      cbn [xpow xadd xmul] in H1.
      rewrite (inner_add k _ (fun i => (e * dl) ^ i * (1 - e) * ewmoment d (k - i) l)) in H1.
      * injection H1 as <-. f_equal. destruct l as [|y l'].
        -- cbn [app]. rewrite ewmoment_one by lia. unfold e. rewrite (rsum_ext _ (fun _ => 0)) by (intros i _; rewrite ewmoment_nil; ring).
           rewrite rsum_zero. replace (1 - 1) with 0 by ring. rewrite pow_i by lia. ring.
        -- rewrite ewmoment_push by (discriminate || lia). cbv zeta. fold dl. unfold e. replace (0 - d) with (- d) by ring. ring.
      * intros i Hi. apply in_seq in Hi. lia.
      * lia.
      * intros i cf Hi. apply in_seq in Hi. rewrite (Hs (k - i)%nat ltac:(lia) ltac:(lia)). cbn [xmul]. f_equal. ring.
    + intros k Hk. rewrite H2 by lia. apply H01. exact Hk.
Qed.

Lemma einv_nil d n q : (n <= 66)%nat -> einv d [] (@mkCore xr (Fin 0) n (fun _ => Fin 0) 0 0 (Some (Fin d)) q).
Proof.
  intros H. split; [|split; [|split; [|split; [|split; [|split]]]]]; cbn [c_mean c_count c_len c_sums c_window c_decay]; auto.
Qed.
Lemma einv_clear d l c : einv d l c -> exists c', c_clear XN c = Ok c' /\ einv d [] c' /\ c_len c' = c_len c.
Proof.
  intros (Hm & Hn & Hl & Hw & Hd & _). eexists. split; [reflexivity|]. split; [|reflexivity]. rewrite Hw, Hd. apply einv_nil. exact Hl.
Qed.

Lemma ewm_run_ok d ops : forall c, einv d [] c -> exists c', core_run XN c (fops ops) = Ok c' /\ einv d (hist ops) c' /\ c_len c' = c_len c.
Proof.
  intros c H0. unfold core_run. induction ops as [|o ops IH] using rev_ind.
  - exists c. auto.
  - destruct IH as (c1 & E & I & L). unfold fops in *. rewrite map_app, run_app, E. cbn [bind map run]. unfold hist. rewrite fold_left_app. fold (hist ops). cbn [fold_left].
    destruct o as [x|]; cbn [fop].
    + destruct (einv_push d _ c1 x I) as (c2 & E2 & I2 & L2). rewrite E2. cbn [bind]. exists c2. split; [reflexivity|]. split; [exact I2|congruence].
    + destruct (einv_clear d _ c1 I) as (c2 & E2 & I2 & L2). rewrite E2. cbn [bind]. exists c2. split; [reflexivity|]. split; [exact I2|congruence].
Qed.
