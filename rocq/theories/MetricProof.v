(** Proofs about the moment metrics and configurations. *)
From Coq Require Import Reals Lra Permutation.
From Verif Require Import Base MathModel MathProof HistSpec RingModel NumModel MomentModel MomentSpec RealLib MomentProof EwmProof.

(** ** Configurations *)
Lemma max_sum_spec s : forall m, let r := fold_left (fun m k => if (k >? m)%Z then k else m) s m in
  (m <= r)%Z /\ (forall k, In k s -> (k <= r)%Z) /\ (r = m \/ In r s).
Proof.
  induction s as [|k s IH]; intros m; cbn [fold_left].
  - split; [lia|]. split; [intros k []|auto].
  - specialize (IH (if (k >? m)%Z then k else m)). cbv zeta in IH. destruct IH as (H1 & H2 & H3).
    destruct (Z.gtb_spec k m) as [Hg|Hg]; (split; [lia|]; split; [intros j [<-|Hj]; [lia|auto]|]); destruct H3 as [H3|H3]; auto; right; [left; congruence|right; auto|right; auto].
Qed.
Lemma max_sum_is s K : In K s -> (forall k, In k s -> (k <= K)%Z) -> (-1 <= K)%Z -> max_sum s = K.
Proof.
  intros Hin Hle HK. unfold max_sum. destruct (max_sum_spec s (-1)) as (H1 & H2 & H3). specialize (H2 K Hin).
  destruct H3 as [H3|H3]; [lia|]. specialize (Hle _ H3). lia.
Qed.

Definition cfg_valid {T} (N : Num T) (c : config) : Prop :=
  (exists w, cf_window c = Some w /\ (0 <= w)%Z /\
     (forall d, cf_decay c = Some d -> nle N d (nz N 0) = false /\ nle N (nz N 1) d = false /\ w = 0%Z)) /\
  (forall k, In k (sums_of c) -> (0 < k)%Z).

Lemma existsb_pos s : existsb (fun k => (k <=? 0)%Z) s = false <-> (forall k, In k s -> (0 < k)%Z).
Proof.
  split.
  - intros H k Hk. destruct (Z.leb_spec k 0) as [Hle|]; [|lia]. exfalso.
    assert (existsb (fun k => (k <=? 0)%Z) s = true) by (apply existsb_exists; exists k; split; [exact Hk|apply Z.leb_le; lia]). congruence.
  - intros H. destruct (existsb (fun k => (k <=? 0)%Z) s) eqn:E; [|reflexivity]. apply existsb_exists in E. destruct E as (k & Hk & E).
    apply Z.leb_le in E. specialize (H k Hk). lia.
Qed.

Lemma set_defaults_sums {T} (c : @config T) : sums_of (set_defaults c) = sums_of c.
Proof. destruct c as [[s|] w d]; reflexivity. Qed.

Lemma validate_ok {T} (N : Num T) c : validate N c = Ok tt <-> cfg_valid N c.
Proof.
  unfold validate, cfg_valid. destruct (cf_window c) as [w|].
  2:{ split; [discriminate|]. intros ((w & H & _) & _). discriminate. }
  destruct (Z.ltb_spec w 0) as [Hw|Hw].
  { split; [discriminate|]. intros ((w' & H & H0 & _) & _). injection H as <-. lia. }
  rewrite <- existsb_pos. destruct (cf_decay c) as [d|].
  - destruct (nle N d (nz N 0)) eqn:E1; cbn [orb bind].
    { split; [discriminate|]. intros ((w' & _ & _ & H) & _). destruct (H d eq_refl) as (H1 & _). congruence. }
    destruct (nle N (nz N 1) d) eqn:E2; cbn [orb bind].
    { split; [discriminate|]. intros ((w' & _ & _ & H) & _). destruct (H d eq_refl) as (_ & H1 & _). congruence. }
    destruct (Z.gtb_spec w 0) as [Hg|Hg]; cbn [bind].
    { split; [discriminate|]. intros ((w' & H & _ & H1) & _). injection H as <-. destruct (H1 d eq_refl) as (_ & _ & H2). lia. }
    destruct (existsb _ (sums_of c)); [split; [discriminate|intros (_ & H); discriminate]|].
    split; [|reflexivity]. intros _. split; [|reflexivity]. exists w. split; [reflexivity|]. split; [exact Hw|].
    intros d' H. injection H as <-. split; [exact E1|]. split; [exact E2|lia].
  - cbn [bind]. destruct (existsb _ (sums_of c)); [split; [discriminate|intros (_ & H); discriminate]|].
    split; [|reflexivity]. intros _. split; [|reflexivity]. exists w. split; [reflexivity|]. split; [exact Hw|]. discriminate.
Qed.
Lemma validate_err {T} (N : Num T) c : ~ cfg_valid N c -> exists e, validate N c = Err e.
Proof.
  intros H. rewrite <- validate_ok in H. unfold validate in *. destruct (cf_window c) as [w|]; [|eexists; reflexivity].
  destruct (w <? 0)%Z; [eexists; reflexivity|]. destruct (cf_decay c) as [d|].
  - destruct (_ || _); cbn [bind] in *; [eexists; reflexivity|]. destruct (w >? 0)%Z; cbn [bind] in *; [eexists; reflexivity|].
    destruct (existsb _ _); [eexists; reflexivity|]. exfalso. apply H. reflexivity.
  - cbn [bind] in *. destruct (existsb _ _); [eexists; reflexivity|]. exfalso. apply H. reflexivity.
Qed.

Lemma cfg_valid_defaults {T} (N : Num T) c : cfg_valid N (set_defaults c) <-> cfg_valid N c.
Proof. unfold cfg_valid. rewrite set_defaults_sums. reflexivity. Qed.

Definition fresh_core {T} (N : Num T) (n : nat) (w : Z) (d : option T) : @core T := mkCore (nz N 0) n (fun _ => nz N 0) 0 w d (ring_new w).

Lemma new_core_spec {T} (N : Num T) c :
  (cfg_valid N c -> exists w, cf_window c = Some w /\ new_core N c = Ok (fresh_core N (Z.to_nat (max_sum (sums_of c) + 1)) w (cf_decay c))) /\
  (~ cfg_valid N c -> exists e, new_core N c = Err e).
Proof.
  unfold new_core. rewrite set_defaults_sums. split; intros H; rewrite <- cfg_valid_defaults in H.
  - pose proof H as ((w & E & _) & _). apply validate_ok in H. rewrite H. cbn [bind]. change (cf_window (set_defaults c)) with (cf_window c) in *.
    exists w. rewrite E. split; reflexivity.
  - apply validate_err in H. destruct H as [e H]. rewrite H. exists e. reflexivity.
Qed.

(** ** Merging *)
Definition windows {T} (cs : list (@config T)) : list Z := flat_map (fun c => match cf_window c with Some w => [w] | None => [] end) cs.
Definition decays {T} (cs : list (@config T)) : list T := flat_map (fun c => match cf_decay c with Some d => [d] | None => [] end) cs.
(** All elements equal the first one. *)
Definition agree {A} (e : A -> A -> bool) (l : list A) : Prop := match l with [] => True | x :: t => Forall (fun y => e x y = true) t end.
Definition opt_list {A} (o : option A) : list A := match o with Some x => [x] | None => [] end.

Lemma sums_add_in s1 s2 k : In k (sums_add s1 s2) <-> In k s1 \/ In k s2.
Proof.
  unfold sums_add. rewrite in_app_iff. split.
  - intros [H|H]; [auto|]. apply filter_In in H. tauto.
  - intros [H|H]; [auto|]. destruct (existsb (Z.eqb k) s1) eqn:E.
    + apply existsb_exists in E. destruct E as (j & Hj & E). apply Z.eqb_eq in E. subst j. auto.
    + right. apply filter_In. split; [exact H|]. rewrite E. reflexivity.
Qed.

Lemma agree_cons_opt {A} (e : A -> A -> bool) (o : option A) y l :
  agree e (opt_list o ++ y :: l) <-> match o with None => agree e (y :: l) | Some x => e x y = true /\ agree e (opt_list o ++ l) end.
Proof.
  destruct o as [x|]; cbn [opt_list app agree]; [|tauto]. split.
  - intros H. inversion H; subst. auto.
  - intros [H1 H2]. constructor; assumption.
Qed.

Lemma merge_loop_spec {T} (N : Num T) cs : forall sums w d,
  let ok := agree Z.eqb (opt_list w ++ windows cs) /\ agree (neqb N) (opt_list d ++ decays cs) in
  (ok -> exists s, merge_loop N cs sums w d = Ok (mkCfg (Some s) (hd_error (opt_list w ++ windows cs)) (hd_error (opt_list d ++ decays cs))) /\
     forall k, In k s <-> In k sums \/ exists c, In c cs /\ In k (sums_of c)) /\
  (~ ok -> merge_loop N cs sums w d = Err EDiffWindow \/ merge_loop N cs sums w d = Err EDiffDecay).
Proof.
  induction cs as [|c cs IH]; intros sums w d ok.
  - unfold ok. cbn [merge_loop windows decays flat_map]. rewrite !app_nil_r. split.
    + intros _. exists sums. split; [destruct w, d; reflexivity|]. intros k. split; [auto|]. intros [H|(c & [] & _)]. exact H.
    + intros H. exfalso. apply H. split; [destruct w|destruct d]; cbn; auto.
  - cbn [merge_loop].
    set (sums' := match cf_sums c with Some s => sums_add sums s | None => sums end).
    assert (Hs : forall k, In k sums' <-> In k sums \/ In k (sums_of c)).
    { intros k. unfold sums', sums_of. destruct (cf_sums c); [apply sums_add_in|]. split; [auto|]. intros [H|[]]. exact H. }
    set (w1 := match cf_window c, w with | None, _ => Ok w | Some cw, None => Ok (Some cw) | Some cw, Some w0 => if (w0 =? cw)%Z then Ok w else Err EDiffWindow end).
    set (d1 := match cf_decay c, d with | None, _ => Ok d | Some cd, None => Ok (Some cd) | Some cd, Some d0 => if neqb N d0 cd then Ok d else Err EDiffDecay end).
    assert (Hw : (exists w', w1 = Ok w' /\ opt_list w ++ windows (c :: cs) <> [] /\ hd_error (opt_list w ++ windows (c :: cs)) = hd_error (opt_list w' ++ windows cs) /\
                     (agree Z.eqb (opt_list w ++ windows (c :: cs)) <-> agree Z.eqb (opt_list w' ++ windows cs)))
                 \/ (w1 = Ok w /\ opt_list w ++ windows (c :: cs) = opt_list w ++ windows cs)
                 \/ (w1 = Err EDiffWindow /\ ~ agree Z.eqb (opt_list w ++ windows (c :: cs)))).
    { unfold w1, windows. cbn [flat_map]. destruct (cf_window c) as [cw|]; [|right; left; auto]. fold (windows cs). cbn [app]. destruct w as [w0|].
      - destruct (w0 =? cw)%Z eqn:E.
        + left. exists (Some w0). split; [reflexivity|]. split; [discriminate|]. split; [reflexivity|]. rewrite (agree_cons_opt Z.eqb (Some w0)). cbn [opt_list app]. tauto.
        + right. right. split; [reflexivity|]. rewrite (agree_cons_opt Z.eqb (Some w0)). intros [H _]. congruence.
      - left. exists (Some cw). split; [reflexivity|]. split; [discriminate|]. split; [reflexivity|]. reflexivity. }
    assert (Hd : (exists d', d1 = Ok d' /\ opt_list d ++ decays (c :: cs) <> [] /\ hd_error (opt_list d ++ decays (c :: cs)) = hd_error (opt_list d' ++ decays cs) /\
                     (agree (neqb N) (opt_list d ++ decays (c :: cs)) <-> agree (neqb N) (opt_list d' ++ decays cs)))
                 \/ (d1 = Ok d /\ opt_list d ++ decays (c :: cs) = opt_list d ++ decays cs)
                 \/ (d1 = Err EDiffDecay /\ ~ agree (neqb N) (opt_list d ++ decays (c :: cs)))).
    { unfold d1, decays. cbn [flat_map]. destruct (cf_decay c) as [cd|]; [|right; left; auto]. fold (decays cs). cbn [app]. destruct d as [d0|].
      - destruct (neqb N d0 cd) eqn:E.
        + left. exists (Some d0). split; [reflexivity|]. split; [discriminate|]. split; [reflexivity|]. rewrite (agree_cons_opt (neqb N) (Some d0)). cbn [opt_list app]. tauto.
        + right. right. split; [reflexivity|]. rewrite (agree_cons_opt (neqb N) (Some d0)). intros [H _]. congruence.
      - left. exists (Some cd). split; [reflexivity|]. split; [discriminate|]. split; [reflexivity|]. reflexivity. }
    assert (Hw' : (exists w', w1 = Ok w' /\ hd_error (opt_list w ++ windows (c :: cs)) = hd_error (opt_list w' ++ windows cs) /\
                     (agree Z.eqb (opt_list w ++ windows (c :: cs)) <-> agree Z.eqb (opt_list w' ++ windows cs)))
                 \/ (w1 = Err EDiffWindow /\ ~ agree Z.eqb (opt_list w ++ windows (c :: cs)))).
    { destruct Hw as [(w' & E & _ & H)|[(E & H)|H]]; [left; exists w'; tauto|left; exists w; rewrite H; tauto|right; exact H]. }
    assert (Hd' : (exists d', d1 = Ok d' /\ hd_error (opt_list d ++ decays (c :: cs)) = hd_error (opt_list d' ++ decays cs) /\
                     (agree (neqb N) (opt_list d ++ decays (c :: cs)) <-> agree (neqb N) (opt_list d' ++ decays cs)))
                 \/ (d1 = Err EDiffDecay /\ ~ agree (neqb N) (opt_list d ++ decays (c :: cs)))).
    { destruct Hd as [(d' & E & _ & H)|[(E & H)|H]]; [left; exists d'; tauto|left; exists d; rewrite H; tauto|right; exact H]. }
    unfold ok. destruct Hw' as [(w' & -> & Hw1 & Hw2)|[-> Hw1]]; cbn [bind]; [|split; [tauto|auto]].
    destruct Hd' as [(d' & -> & Hd1 & Hd2)|[-> Hd1]]; cbn [bind]; [|split; [tauto|auto]].
    specialize (IH sums' w' d'). cbv zeta in IH. destruct IH as [I1 I2]. rewrite Hw1, Hd1, Hw2, Hd2. split; [|exact I2].
    intros H. destruct (I1 H) as (s & E & Hk). exists s. split; [exact E|]. intros k. rewrite Hk, Hs. split.
    + intros [[H1|H1]|(c' & H1 & H2)]; [auto|right; exists c; split; [left; reflexivity|exact H1]|right; exists c'; split; [right; exact H1|exact H2]].
    + intros [H1|(c' & [<-|H1] & H2)]; [auto|auto|right; exists c'; auto].
Qed.

(** ** Values *)
Local Open Scope R_scope.
Lemma rsum_nonneg {A} (f : A -> R) l : (forall x, In x l -> 0 <= f x) -> 0 <= rsum (map f l).
Proof.
  induction l as [|x l IH]; intros H; cbn [map]; [unfold rsum; cbn; lra|]. rewrite rsum_cons.
  pose proof (H x (or_introl eq_refl)). assert (0 <= rsum (map f l)) by (apply IH; intros y Hy; apply H; right; exact Hy). lra.
Qed.
Lemma rsum_zero_all {A} (f : A -> R) l : (forall x, In x l -> 0 <= f x) -> rsum (map f l) = 0 -> forall x, In x l -> f x = 0.
Proof.
  induction l as [|y l IH]; intros H E x Hx; [destruct Hx|]. cbn [map] in E. rewrite rsum_cons in E.
  pose proof (H y (or_introl eq_refl)). assert (0 <= rsum (map f l)) by (apply rsum_nonneg; intros z Hz; apply H; right; exact Hz).
  destruct Hx as [<-|Hx]; [lra|]. apply IH; [intros z Hz; apply H; right; exact Hz|lra|exact Hx].
Qed.
Lemma csum2_nonneg l : 0 <= csum 2 l.
Proof. apply rsum_nonneg. intros x _. apply pow2_ge_0. Qed.
Lemma csum2_zero l k : csum 2 l = 0 -> (1 <= k)%nat -> csum k l = 0.
Proof.
  intros H Hk. unfold csum in *. rewrite (rsum_ext _ (fun _ => 0)), rsum_const; [ring|].
  intros x Hx. pose proof (rsum_zero_all (fun x => (x - rmean l) ^ 2) l (fun y _ => pow2_ge_0 _) H x Hx) as E. cbv beta in E.
  assert (E' : x - rmean l = 0) by nra. rewrite E'. apply pow_i. lia.
Qed.
Lemma csum3_two a b : csum 3 [a; b] = 0.
Proof. unfold csum, rmean, rlen, zlen, rsum. cbn. field. Qed.

Definition tracks (c : @core xr) (k : nat) : Prop := (k < c_len c)%nat /\ (1 <= k <= 20)%nat.

Lemma get_sum_ok l c k : stats l c -> tracks c k -> c_get_sum c (Z.of_nat k) = match l with [] => Err ENoValues | _ => Ok (Fin (csum k l)) end.
Proof.
  intros (Hm & Hn & _ & Hs & H01) [Hk1 Hk2]. unfold c_get_sum. rewrite Hn. destruct l as [|x l]; [reflexivity|].
  replace (zlen (x :: l) =? 0)%Z with false by (symmetry; apply Z.eqb_neq; unfold zlen; cbn [length]; lia).
  replace (Z.of_nat k <=? 0)%Z with false by (symmetry; apply Z.leb_gt; lia).
  rewrite Z.geb_leb. replace (Z.of_nat (c_len c) <=? Z.of_nat k)%Z with false by (symmetry; apply Z.leb_gt; lia). cbn [orb].
  rewrite Nat2Z.id. destruct (Nat.eq_dec k 1) as [->|Hk].
  - rewrite H01 by lia. rewrite csum1. reflexivity.
  - rewrite (Hs k Hk1) by lia. reflexivity.
Qed.
Lemma get_sum_untracked l c k : stats l c -> (k <= 0 \/ Z.of_nat (c_len c) <= k)%Z -> c_get_sum c k = match l with [] => Err ENoValues | _ => Err ENotTracked end.
Proof.
  intros (_ & Hn & _) Hk. unfold c_get_sum. rewrite Hn. destruct l as [|x l]; [reflexivity|].
  replace (zlen (x :: l) =? 0)%Z with false by (symmetry; apply Z.eqb_neq; unfold zlen; cbn [length]; lia).
  destruct (Z.leb_spec k 0); [reflexivity|]. rewrite Z.geb_leb. destruct (Z.leb_spec (Z.of_nat (c_len c)) k); [reflexivity|lia].
Qed.
Lemma get_mean_ok l c : stats l c -> c_get_mean c = mean_of l.
Proof.
  intros (Hm & Hn & _). unfold c_get_mean, mean_of. rewrite Hn, Hm. destruct l; [reflexivity|].
  replace (zlen (r :: l) =? 0)%Z with false by (symmetry; apply Z.eqb_neq; unfold zlen; cbn [length]; lia). reflexivity.
Qed.

Lemma is0_true r : r = 0 -> is0 r = true.
Proof. intros H. unfold is0. destruct (Req_EM_T r 0); [reflexivity|contradiction]. Qed.
Lemma is0_false r : r <> 0 -> is0 r = false.
Proof. intros H. unfold is0. destruct (Req_EM_T r 0); [contradiction|reflexivity]. Qed.
Lemma xneg_false r : 0 <= r -> xneg r = false.
Proof. intros H. unfold xneg. destruct (Rlt_dec r 0); [lra|reflexivity]. Qed.
Lemma xsqrt_ok r : 0 <= r -> xsqrt (Fin r) = Fin (sqrt r).
Proof. intros H. cbn. rewrite xneg_false by exact H. reflexivity. Qed.

Lemma rlen_ge2 x y (l : list R) : 2 <= rlen (x :: y :: l).
Proof. rewrite !rlen_cons. assert (0 <= rlen l) by (unfold rlen, zlen; apply IZR_le; lia). lra. Qed.

Lemma moment_value_ok l c k : stats l c -> tracks c k -> moment_value XN c (Z.of_nat k) = moment_of k l.
Proof.
  intros Hst Ht. unfold moment_value. rewrite (get_sum_ok l c k Hst Ht). destruct Hst as (_ & Hn & _).
  destruct l as [|x [|y l]]; cbn [bind moment_of]; [reflexivity| |].
  - unfold c_get_count. rewrite Hn. cbn. unfold csum, rmean, rlen, zlen, rsum. cbn.
    rewrite (is0_true (1 - 1)) by ring. rewrite is0_true; [reflexivity|].
    replace (x - (x + 0) / 1) with 0 by field. destruct Ht as [_ Ht]. rewrite pow_i by lia. ring.
  - unfold c_get_count. rewrite Hn. cbn [ndiv nsub nz XN xsub]. fold (rlen (x :: y :: l)). pose proof (rlen_ge2 x y l).
    rewrite xdiv_fin by lra. reflexivity.
Qed.

Lemma std_ok l c w : stats l c -> tracks c 2 -> kvalue XN (KStd w) c = std_of l.
Proof.
  intros Hst Ht. cbn [kvalue]. change 2%Z with (Z.of_nat 2). rewrite (moment_value_ok l c 2 Hst Ht).
  destruct l as [|x [|y l]]; cbn [moment_of bind std_of]; [reflexivity|reflexivity|].
  cbn [nsqrt XN]. rewrite xsqrt_ok; [reflexivity|]. unfold sample_moment. pose proof (rlen_ge2 x y l). pose proof (csum2_nonneg (x :: y :: l)).
  apply Rmult_le_pos; [assumption|]. left. apply Rinv_0_lt_compat. lra.
Qed.

Lemma xdiv_nan x : xdiv x XNaN = XNaN.
Proof. destruct x; reflexivity. Qed.
Lemma count_zero l (c : core) : stats l c -> (c_get_count c =? 0)%Z = match l with [] => true | _ => false end.
Proof. intros (_ & Hn & _). unfold c_get_count. rewrite Hn. destruct l; [reflexivity|]. apply Z.eqb_neq. unfold zlen. cbn [length]. lia. Qed.

Lemma skew_ok l c w : stats l c -> tracks c 2 -> tracks c 3 -> kvalue XN (KSkew w) c = skew_of l.
Proof.
  intros Hst H2 H3. cbn [kvalue]. rewrite (count_zero l c Hst). 
  rewrite (moment_value_ok l c 2 Hst H2 : moment_value XN c 2 = _), (moment_value_ok l c 3 Hst H3 : moment_value XN c 3 = _). pose proof Hst as (_ & Hn & _). unfold c_get_count. rewrite Hn.
  destruct l as [|x [|y l]]; cbn [moment_of bind skew_of]; [reflexivity| |].
  - change (zlen [x]) with 1%Z. cbn [nmul ndiv npow32 nsqrt XN xmul xpow32]. rewrite xdiv_nan. reflexivity.
  - cbn [ndiv nsub nmul nadd nsqrt npow32 nz XN xsub xmul]. fold (rlen (x :: y :: l)). pose proof (rlen_ge2 x y l) as Hlen.
    set (L := x :: y :: l) in *. set (n := rlen L) in *.
    rewrite (xdiv_fin (n - 1) n) by lra. cbn [xmul].
    assert (E2 : sample_moment 2 L * ((n - 1) / n) = pop_moment 2 L) by (unfold sample_moment, pop_moment; fold n; field; lra).
    assert (E3 : sample_moment 3 L * ((n - 1) / n) = pop_moment 3 L) by (unfold sample_moment, pop_moment; fold n; field; lra).
    rewrite E2, E3. rewrite xsqrt_ok by nra.
    assert (P2 : 0 <= pop_moment 2 L).
    { unfold pop_moment. pose proof (csum2_nonneg L). fold n. apply Rmult_le_pos; [assumption|]. left. apply Rinv_0_lt_compat. lra. }
    cbn [xpow32]. rewrite xneg_false by exact P2.
    destruct l as [|z l].
    + assert (E0 : n = 2) by (unfold n, L, rlen, zlen; cbn; reflexivity). rewrite E0.
      assert (Em : pop_moment 3 L = 0) by (unfold pop_moment, L; rewrite csum3_two; unfold Rdiv; ring). rewrite Em.
      cbn [xdiv]. rewrite (is0_true (2 - 2)) by ring. rewrite is0_false.
      * cbn [xmul]. rewrite is0_true by reflexivity. reflexivity.
      * apply Rgt_not_eq. apply sqrt_lt_R0. lra.
    + assert (H3n : 3 <= n).
      { unfold n, L. rewrite !rlen_cons. assert (0 <= rlen l) by (unfold rlen, zlen; apply IZR_le; lia). lra. }
      rewrite (xdiv_fin (sqrt (n * (n - 1))) (n - 2)) by lra. cbn [xmul].
      destruct (Req_EM_T (csum 2 L) 0) as [E0|E0].
      * rewrite (is0_true (csum 2 L)) by exact E0. assert (E1 : pop_moment 3 L = 0) by (unfold pop_moment; rewrite (csum2_zero L 3 E0) by lia; unfold Rdiv; ring).
        assert (E1' : pop_moment 2 L = 0) by (unfold pop_moment; rewrite E0; unfold Rdiv; ring). rewrite E1, E1'.
        cbn [xdiv]. rewrite (is0_true (0 * sqrt 0)) by ring. rewrite is0_true by ring. reflexivity.
      * rewrite (is0_false (csum 2 L)) by exact E0.
        assert (Hp : 0 < pop_moment 2 L).
        { destruct P2 as [P2|P2]; [exact P2|]. exfalso. apply E0. unfold pop_moment in P2. fold n in P2.
          apply (Rmult_eq_reg_r (/ n)); [|apply Rinv_neq_0_compat; lra]. rewrite Rmult_0_l. symmetry. exact P2. }
        pose proof (sqrt_lt_R0 _ Hp). rewrite xdiv_fin by nra. do 2 f_equal. unfold skewness. fold n. field. split; [|split]; lra.
Qed.

Lemma kurt_ok l c w : stats l c -> tracks c 2 -> tracks c 4 -> kvalue XN (KKurt w) c = kurt_of l.
Proof.
  intros Hst H2 H3. cbn [kvalue]. rewrite (count_zero l c Hst). 
  rewrite (moment_value_ok l c 2 Hst H2 : moment_value XN c 2 = _), (moment_value_ok l c 4 Hst H3 : moment_value XN c 4 = _). pose proof Hst as (_ & Hn & _). unfold c_get_count. rewrite Hn.
  destruct l as [|x [|y l]]; cbn [moment_of bind kurt_of]; [reflexivity| |].
  - change (zlen [x]) with 1%Z. cbn [nmul ndiv npow nsub XN xmul xpow]. rewrite xdiv_nan. reflexivity.
  - cbn [ndiv nsub nmul nadd nsqrt npow npow32 nz XN xsub xmul]. fold (rlen (x :: y :: l)). pose proof (rlen_ge2 x y l) as Hlen.
    set (L := x :: y :: l) in *. set (n := rlen L) in *.
    rewrite (xdiv_fin (n - 1) n) by lra. cbn [xmul xpow].
    assert (E2 : sample_moment 2 L * ((n - 1) / n) = pop_moment 2 L) by (unfold sample_moment, pop_moment; fold n; field; lra).
    assert (E3 : sample_moment 4 L * ((n - 1) / n) = pop_moment 4 L) by (unfold sample_moment, pop_moment; fold n; field; lra).
    rewrite E2, E3.
    destruct (Req_EM_T (csum 2 L) 0) as [E0|E0].
    + rewrite (is0_true (csum 2 L)) by exact E0. assert (E1 : pop_moment 4 L = 0) by (unfold pop_moment; rewrite (csum2_zero L 4 E0) by lia; unfold Rdiv; ring).
      assert (E1' : pop_moment 2 L = 0) by (unfold pop_moment; rewrite E0; unfold Rdiv; ring). rewrite E1, E1'.
      cbn [xdiv]. rewrite (is0_true (0 ^ 2)) by ring. rewrite is0_true by ring. reflexivity.
    + rewrite (is0_false (csum 2 L)) by exact E0.
      assert (Hp : pop_moment 2 L <> 0).
      { unfold pop_moment. fold n. apply Rmult_integral_contrapositive_currified; [exact E0|]. apply Rinv_neq_0_compat. lra. }
      rewrite xdiv_fin by (apply pow_nonzero; exact Hp). reflexivity.
Qed.

(** ** Exponentially weighted *)
Lemma ewm_sum_ok d l c k : einv d l c -> tracks c k -> c_get_sum c (Z.of_nat k) = ewmoment_of d k l.
Proof.
  intros (Hm & Hn & _ & _ & _ & Hs & H01) [Hk1 Hk2]. unfold c_get_sum. rewrite Hn. destruct l as [|x l]; [reflexivity|].
  replace (zlen (x :: l) =? 0)%Z with false by (symmetry; apply Z.eqb_neq; unfold zlen; cbn [length]; lia).
  replace (Z.of_nat k <=? 0)%Z with false by (symmetry; apply Z.leb_gt; lia).
  rewrite Z.geb_leb. replace (Z.of_nat (c_len c) <=? Z.of_nat k)%Z with false by (symmetry; apply Z.leb_gt; lia). cbn [orb].
  rewrite Nat2Z.id. cbn [ewmoment_of]. destruct (Nat.eq_dec k 1) as [->|Hk].
  - rewrite H01 by lia. rewrite ewmoment_wpow, EL_first by discriminate. reflexivity.
  - rewrite (Hs k Hk1) by lia. reflexivity.
Qed.
Lemma ewm_mean_ok d l c : einv d l c -> c_get_mean c = ewma_of d l.
Proof.
  intros (Hm & Hn & _). unfold c_get_mean, ewma_of. rewrite Hn, Hm. destruct l; [reflexivity|].
  replace (zlen (r :: l) =? 0)%Z with false by (symmetry; apply Z.eqb_neq; unfold zlen; cbn [length]; lia). reflexivity.
Qed.
Lemma eweight_nonneg d n i : 0 <= d <= 1 -> 0 <= eweight d n i.
Proof. intros Hd. unfold eweight. destruct i; [apply pow_le; lra|]. apply Rmult_le_pos; [lra|apply pow_le; lra]. Qed.
Lemma ewmoment2_nonneg d l : 0 <= d <= 1 -> 0 <= ewmoment d 2 l.
Proof.
  intros Hd. rewrite ewmoment_wpow. unfold wpow. apply rsum_nonneg. intros [a b] Hin. cbn [fst snd].
  unfold EL in Hin. apply in_combine_l in Hin. unfold eweights in Hin. apply in_map_iff in Hin. destruct Hin as (i & <- & _).
  apply Rmult_le_pos; [apply eweight_nonneg; exact Hd|apply pow2_ge_0].
Qed.
Lemma ewm_std_ok d l c : 0 <= d <= 1 -> einv d l c -> tracks c 2 -> kvalue XN (KEwmStd (Fin d)) c = ewmstd_of d l.
Proof.
  intros Hd Hst Ht. cbn [kvalue]. change 2%Z with (Z.of_nat 2). rewrite (ewm_sum_ok d l c 2 Hst Ht).
  destruct l; cbn [ewmoment_of bind ewmstd_of]; [reflexivity|]. cbn [nsqrt XN]. rewrite xsqrt_ok by (apply ewmoment2_nonneg; exact Hd). reflexivity.
Qed.

(** ** Runs of a metric *)
Lemma m_run_core {T} (N : Num T) k ops c : run (m_push N) (m_clear N) ops (mkM k (Some c)) = rmap (fun c => mkM k (Some c)) (core_run N c ops).
Proof.
  revert c. induction ops as [|[x|] ops IH]; intros c; [reflexivity| |].
  - unfold core_run. cbn [run]. unfold m_push at 1. cbn [m_core]. destruct (c_push N c x); cbn [bind rmap m_kind]; try reflexivity. apply IH.
  - unfold core_run. cbn [run]. unfold m_clear at 1. cbn [m_core]. destruct (c_clear N c); cbn [bind rmap m_kind]; try reflexivity. apply IH.
Qed.
Lemma m_run_eq {T} (N : Num T) k ops : m_run N k ops = rmap (fun c => mkM k (Some c)) (bind (new_core N (kconfig k)) (fun c => core_run N c ops)).
Proof.
  unfold m_run, m_init, new_metric. cbn [m_kind]. destruct (new_core N (kconfig k)) as [c|e| | |]; try reflexivity. cbn [bind].
  rewrite m_run_core. reflexivity.
Qed.

(** A core made from an accepted configuration without decay, after any calls. *)
Lemma core_reach cfg w ops : cfg_valid XN cfg -> cf_window cfg = Some w -> cf_decay cfg = None -> (max_sum (sums_of cfg) <= 65)%Z ->
  exists c0 c, new_core XN cfg = Ok c0 /\ core_run XN c0 (fops ops) = Ok c /\ minv w (hist ops) c /\ c_len c = Z.to_nat (max_sum (sums_of cfg) + 1).
Proof.
  intros Hv Hw Hd HK. destruct (proj1 (new_core_spec XN cfg) Hv) as (w' & Ew & E). assert (w' = w) by congruence. subst w'.
  rewrite Hd in E. destruct Hv as ((w' & Ew' & Hw0 & _) & _). assert (w' = w) by congruence. subst w'.
  destruct (core_run_ok w ops (fresh_core XN (Z.to_nat (max_sum (sums_of cfg) + 1)) w None) Hw0) as (c & E1 & I & L).
  { split; [|split; [reflexivity|split; [reflexivity|split; [reflexivity|]]]].
    - rewrite live_nil. apply stats_nil. lia.
    - intros _. rewrite live_nil. reflexivity. }
  exists (fresh_core XN (Z.to_nat (max_sum (sums_of cfg) + 1)) w None), c. auto.
Qed.
Lemma ewm_reach cfg d ops : cfg_valid XN cfg -> cf_decay cfg = Some (Fin d) -> (max_sum (sums_of cfg) <= 65)%Z ->
  exists c0 c, new_core XN cfg = Ok c0 /\ core_run XN c0 (fops ops) = Ok c /\ einv d (hist ops) c /\ c_len c = Z.to_nat (max_sum (sums_of cfg) + 1).
Proof.
  intros Hv Hd HK. destruct (proj1 (new_core_spec XN cfg) Hv) as (w & Ew & E). rewrite Hd in E.
  destruct Hv as ((w' & Ew' & Hw0 & H0) & _). assert (w' = w) by congruence. subst w'. destruct (H0 _ Hd) as (_ & _ & ->).
  destruct (ewm_run_ok d ops (fresh_core XN (Z.to_nat (max_sum (sums_of cfg) + 1)) 0 (Some (Fin d)))) as (c & E1 & I & L).
  { apply einv_nil. lia. }
  exists (fresh_core XN (Z.to_nat (max_sum (sums_of cfg) + 1)) 0 (Some (Fin d))), c. auto.
Qed.
