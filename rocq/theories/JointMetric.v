(** Proofs about joint configurations, hashing and the joint metrics. *)
From Coq Require Import Reals Lra Permutation.
From Verif Require Import Base MathModel MathProof HistSpec RingModel NumModel MomentSpec RealLib MomentProof EwmProof MetricProof JointModel JointSpec TupleProof JointProof JointHist.
Local Open Scope Z_scope.

(** ** Hashing *)
Definition digits (m : tuple) : Prop := Forall (fun k => 0 <= k <= 30) m.
Lemma hash_snoc m k : t_hash (m ++ [k]) = wrap (31 * t_hash m + k).
Proof. unfold t_hash. rewrite fold_left_app. reflexivity. Qed.
Lemma hash_range m : digits m -> (length m <= 12)%nat -> 0 <= t_hash m < 31 ^ Z.of_nat (length m).
Proof.
  induction m as [|k m IH] using rev_ind; intros D H; [cbn; lia|]. rewrite app_length in *. cbn [length] in *. apply Forall_app in D. destruct D as [D Dk].
  inversion Dk as [|? ? Hk _]; subst. specialize (IH D ltac:(lia)). rewrite hash_snoc.
  assert (P : 31 ^ Z.of_nat (length m + 1) = 31 * 31 ^ Z.of_nat (length m)) by (rewrite Nat2Z.inj_add, Z.pow_add_r by lia; lia).
  assert (31 ^ Z.of_nat (length m + 1) <= 31 ^ 12) by (apply Z.pow_le_mono_r; lia). rewrite wrap_id by lia. lia.
Qed.
Lemma hash_inj m : forall n, digits m -> digits n -> length m = length n -> (length m <= 12)%nat -> t_hash m = t_hash n -> m = n.
Proof.
  induction m as [|k m IH] using rev_ind; intros n Dm Dn L H E.
  - destruct n; [reflexivity|discriminate].
  - rewrite app_length in *. cbn [length] in *. destruct (snoc_length n (length m)) as (n' & j & -> & L'); [lia|].
    apply Forall_app in Dm. destruct Dm as [Dm Dk]. inversion Dk as [|? ? Hk _]; subst. apply Forall_app in Dn. destruct Dn as [Dn Dj]. inversion Dj as [|? ? Hj _]; subst.
    rewrite !hash_snoc in E. pose proof (hash_range m Dm ltac:(lia)). pose proof (hash_range n' Dn ltac:(lia)). rewrite L' in *.
    assert (31 ^ Z.of_nat (length m) <= 31 ^ 11) by (apply Z.pow_le_mono_r; lia). rewrite !wrap_id in E by lia.
    assert (k = j /\ t_hash m = t_hash n') as [-> E'] by lia. f_equal. apply IH; auto; lia.
Qed.
Lemma digits_le b t : tle b t -> digits t -> digits b.
Proof. intros H. unfold digits. induction H; intros D; inversion D; subst; constructor; auto. lia. Qed.
Lemma hash_ok_digits v ts : (v <= 12)%nat -> Forall (fun t => length t = v /\ digits t) ts -> hash_ok ts.
Proof.
  intros Hv H a b (t & Ht & Ha) (u & Hu & Hb) E. rewrite Forall_forall in H. destruct (H t Ht) as [Lt Dt], (H u Hu) as [Lu Du].
  pose proof (tle_length _ _ Ha). pose proof (tle_length _ _ Hb). apply hash_inj; auto; try lia; eapply digits_le; eassumption.
Qed.

(** ** Configurations *)
Section Config.
Context {T : Type} (N : Num T).
(** What validateConfig accepts. *)
Definition tuple_valid (t : tuple) : Prop := (2 <= length t)%nat /\ Forall (fun k => 0 <= k) t /\ t_abs t <> 0.
Definition jcfg_valid (c : @jconfig T) : Prop :=
  (exists w, jf_window c = Some w /\ 0 <= w /\ forall d, jf_decay c = Some d -> nle N d (nz N 0) = false /\ nle N (nz N 1) d = false /\ w = 0) /\
  (forall v, jf_vars c = Some v -> 2 <= v) /\
  (exists v, Forall (fun t => zlen t = v /\ tuple_valid t) (jsums_of c) /\ (jsums_of c = [] -> jf_vars c = Some v) /\ (forall u, jf_vars c = Some u -> u = v)).
Definition vars_of (c : @jconfig T) : Z := match jf_vars c with Some v => v | None => match jsums_of c with [] => 0 | t :: _ => zlen t end end.

Lemma validate_tuple_ok first vars t : validate_tuple first vars t = Ok tt <->
  length t = length first /\ tuple_valid t /\ (forall v, vars = Some v -> zlen t = v).
Proof.
  unfold validate_tuple, tuple_valid. destruct (Nat.eqb_spec (length t) (length first)); cbn [negb]; [|split; [discriminate|intuition congruence]].
  destruct (Z.ltb_spec (zlen t) 2); [split; [discriminate|unfold zlen in *; intros; lia]|].
  assert (Hl : (2 <= length t)%nat) by (unfold zlen in *; lia).
  destruct vars as [v|].
  - destruct (Z.eqb_spec (zlen t) v); cbn [negb]; [|split; [discriminate|intros (_ & _ & H'); exfalso; apply n; apply H'; reflexivity]].
    destruct (existsb (fun k => k <? 0) t) eqn:Ex.
    + split; [discriminate|]. intros (_ & (_ & F & _) & _). apply existsb_exists in Ex. destruct Ex as (k & Hk & Hk'). apply Z.ltb_lt in Hk'. rewrite Forall_forall in F. specialize (F k Hk). lia.
    + assert (F : Forall (fun k => 0 <= k) t).
      { apply Forall_forall. intros k Hk. destruct (Z.ltb_spec k 0); [|lia]. assert (existsb (fun k => k <? 0) t = true) by (apply existsb_exists; exists k; split; [exact Hk|apply Z.ltb_lt; assumption]). congruence. }
      destruct (Z.eqb_spec (t_abs t) 0); [split; [discriminate|tauto]|]. split; [|reflexivity]. intros _. repeat split; auto. intros u Hu. congruence.
  - destruct (existsb (fun k => k <? 0) t) eqn:Ex.
    + split; [discriminate|]. intros (_ & (_ & F & _) & _). apply existsb_exists in Ex. destruct Ex as (k & Hk & Hk'). apply Z.ltb_lt in Hk'. rewrite Forall_forall in F. specialize (F k Hk). lia.
    + assert (F : Forall (fun k => 0 <= k) t).
      { apply Forall_forall. intros k Hk. destruct (Z.ltb_spec k 0); [|lia]. assert (existsb (fun k => k <? 0) t = true) by (apply existsb_exists; exists k; split; [exact Hk|apply Z.ltb_lt; assumption]). congruence. }
      destruct (Z.eqb_spec (t_abs t) 0); [split; [discriminate|tauto]|]. split; [|reflexivity]. intros _. repeat split; auto. discriminate.
Qed.
Lemma validate_tuple_total first vars t : validate_tuple first vars t = Ok tt \/ exists e, validate_tuple first vars t = Err e.
Proof. unfold validate_tuple. repeat match goal with |- context [if ?b then _ else _] => destruct b end; eauto. Qed.
Lemma validate_tuples_ok first vars ts : (validate_tuples first vars ts = Ok tt /\ Forall (fun t => validate_tuple first vars t = Ok tt) ts) \/
  ((exists e, validate_tuples first vars ts = Err e) /\ ~ Forall (fun t => validate_tuple first vars t = Ok tt) ts).
Proof.
  induction ts as [|t ts IH]; cbn [validate_tuples]; [left; auto|].
  destruct (validate_tuple_total first vars t) as [E|[e E]]; rewrite E; cbn [bind].
  - destruct IH as [[E' F]|[E' F]]; [left; auto|right]. split; [exact E'|]. intros H. inversion H; contradiction.
  - right. split; [eauto|]. intros H. inversion H; congruence.
Qed.
Lemma jvalidate_spec c : (jcfg_valid c /\ jvalidate N c = Ok tt) \/ (~ jcfg_valid c /\ exists e, jvalidate N c = Err e).
Proof.
  unfold jvalidate, jcfg_valid. destruct (jf_window c) as [w|]; [|right; split; [intros ((w & H & _) & _); discriminate|eauto]].
  destruct (Z.ltb_spec w 0) as [Hw|Hw]; [right; split; [intros ((w' & H & ? & _) & _); injection H as <-; lia|eauto]|].
  destruct (match jf_vars c with Some v => v <? 2 | None => false end) eqn:Ev.
  { right. split; [|eauto]. intros (_ & H & _). destruct (jf_vars c) as [v|]; [|discriminate]. specialize (H v eq_refl). apply Z.ltb_lt in Ev. lia. }
  assert (Hv : forall v, jf_vars c = Some v -> 2 <= v) by (intros v Hv; rewrite Hv in Ev; apply Z.ltb_ge in Ev; exact Ev).
  destruct (match jf_decay c with None => Ok tt | Some d => if nle N d (nz N 0) || nle N (nz N 1) d then Err EBadDecay else if w >? 0 then Err EDecayWindow else Ok tt end) eqn:Ed; cbn [bind].
  2:{ right. split; [|eauto]. intros ((w' & Hw' & _ & H) & _). injection Hw' as <-. destruct (jf_decay c) as [d|]; [|discriminate]. destruct (H d eq_refl) as (H1 & H2 & H3).
      rewrite H1, H2 in Ed. cbn [orb] in Ed. subst w. discriminate. }
  2-4: destruct (jf_decay c) as [d|]; [|discriminate]; destruct (nle N d (nz N 0) || nle N (nz N 1) d); [discriminate|]; destruct (w >? 0); discriminate.
  assert (Hd : forall d, jf_decay c = Some d -> nle N d (nz N 0) = false /\ nle N (nz N 1) d = false /\ w = 0).
  { intros d Hd. rewrite Hd in Ed. destruct (nle N d (nz N 0)); [discriminate|]. destruct (nle N (nz N 1) d); [discriminate|]. cbn [orb] in Ed.
    destruct (Z.gtb_spec w 0); [discriminate|]. repeat split. lia. }
  destruct (validate_tuples_ok (hd [] (jsums_of c)) (jf_vars c) (jsums_of c)) as [[E F]|[[e E] F]]; rewrite E; cbn [bind].
  - destruct (jsums_of c) as [|t ts] eqn:Es.
    + destruct (jf_vars c) as [v|] eqn:Evv.
      * left. split; [|reflexivity]. split; [exists w; auto|]. split; [exact Hv|]. exists v. split; [constructor|]. split; [reflexivity|]. intros u Hu. congruence.
      * right. split; [|eauto]. intros (_ & _ & v & _ & H & _). specialize (H eq_refl). discriminate.
    + left. split; [|destruct (jf_vars c); reflexivity]. split; [exists w; auto|]. split; [exact Hv|]. exists (zlen t).
      cbn [hd] in F. rewrite Forall_forall in F.
      assert (HT : forall u, In u (t :: ts) -> length u = length t /\ tuple_valid u /\ (forall v, jf_vars c = Some v -> zlen u = v)) by (intros u Hu; apply validate_tuple_ok; apply F; exact Hu).
      split; [|split; [discriminate|]].
      * apply Forall_forall. intros u Hu. destruct (HT u Hu) as (H1 & H2 & _). split; [unfold zlen; congruence|exact H2].
      * intros u Hu. symmetry. apply (HT t (or_introl eq_refl)). exact Hu.
  - right. split; [|eauto]. intros (_ & _ & v & H & _ & H'). apply F. apply Forall_forall. intros t Ht. rewrite Forall_forall in H. apply validate_tuple_ok.
    destruct (H t Ht) as [Hl Hval]. split; [|split; [exact Hval|]].
    + destruct (jsums_of c) as [|t0 ts]; [destruct Ht|]. cbn [hd]. destruct (H t0 (or_introl eq_refl)) as [Hl0 _]. unfold zlen in *. lia.
    + intros u Hu. rewrite Hl. symmetry. apply H'. exact Hu.
Qed.
Lemma jnew_core_spec {A} c :
  (jcfg_valid c -> exists w, jf_window c = Some w /\ @jnew_core T N A c =
     Ok (mkJ (repeat (nz N 0) (Z.to_nat (vars_of c))) (jsums_of c) (init_keys N (jsums_of c)) (init_keys N (jsums_of c)) 0 w (jf_decay c) (ring_new w))) /\
  (~ jcfg_valid c -> exists e, @jnew_core T N A c = Err e).
Proof.
  unfold jnew_core. destruct (jvalidate_spec c) as [[V E]|[V [e E]]]; rewrite E; cbn [bind]; split; intros H; try contradiction.
  - destruct V as ((w & -> & _) & _ & v & _ & H' & _). exists w. split; [reflexivity|]. unfold vars_of. destruct (jf_vars c) as [u|]; [reflexivity|].
    destruct (jsums_of c); [specialize (H' eq_refl); discriminate|reflexivity].
  - eauto.
Qed.
End Config.

(** ** Fresh cores *)
Local Open Scope R_scope.
Lemma init_keys_ok ts : sums_are ts (fun _ => 0) (init_keys XN ts).
Proof.
  unfold init_keys.
  assert (G1 : forall l (m : @hmap xr), let m' := fold_left (fun m xs => hput m (t_hash xs) (nz XN 0)) l m in
     (forall a, In a l -> m' (t_hash a) = Some (Fin 0)) /\ (forall h, m' h = Some (Fin 0) \/ m' h = m h) /\ (forall h, m' h = m h \/ exists a, In a l /\ h = t_hash a)).
  { induction l as [|b l IH]; intros m; cbn [fold_left]; [split; [intros a []|split; auto]|].
    destruct (IH (hput m (t_hash b) (nz XN 0))) as (H1 & H2 & H3). split; [|split].
    - intros a [->|Ha]; [|apply H1; exact Ha]. destruct (H2 (t_hash a)) as [H|H]; [exact H|]. rewrite H. apply hput_same.
    - intros h. destruct (H2 h) as [H|H]; [auto|]. rewrite H. destruct (Z.eq_dec h (t_hash b)) as [->|Hne]; [left; apply hput_same|right; apply hput_other; exact Hne].
    - intros h. destruct (H3 h) as [H|(a & Ha & ->)].
      + rewrite H. destruct (Z.eq_dec h (t_hash b)) as [->|Hne]; [right; exists b; split; [left; reflexivity|reflexivity]|left; apply hput_other; exact Hne].
      + right. exists a. split; [right; exact Ha|reflexivity]. }
  assert (G2 : forall us m, (forall h, m h = None \/ m h = Some (Fin 0)) -> let m' := fold_left (fun m t => fold_left (fun m xs => hput m (t_hash xs) (nz XN 0)) (iter_list t false) m) us m in
     (forall a, below us a -> m' (t_hash a) = Some (Fin 0)) /\ (forall h, m' h = Some (Fin 0) \/ m' h = m h) /\ (forall h, m' h = m h \/ exists a, below us a /\ h = t_hash a)).
  { induction us as [|t us IH]; intros m Hm; cbn [fold_left]; [split; [intros a (t & [] & _)|split; auto]|].
    destruct (G1 (iter_list t false) m) as (A1 & A2 & A3).
    destruct (IH (fold_left (fun m xs => hput m (t_hash xs) (nz XN 0)) (iter_list t false) m)) as (H1 & H2 & H3).
    { intros h. destruct (A2 h) as [H|H]; rewrite H; [auto|apply Hm]. }
    split; [|split].
    - intros a (u & [<-|Hu] & Ha); [|apply H1; exists u; auto]. destruct (H2 (t_hash a)) as [H|H]; [exact H|]. rewrite H. apply A1. apply in_iter. exact Ha.
    - intros h. destruct (H2 h) as [H|H]; [auto|]. rewrite H. apply A2.
    - intros h. destruct (H3 h) as [H|(a & (u & Hu & Ha) & ->)].
      + rewrite H. destruct (A3 h) as [H'|(a & Ha & ->)]; [auto|]. right. exists a. split; [|reflexivity]. exists t. split; [left; reflexivity|]. apply in_iter in Ha. exact Ha.
      + right. exists a. split; [|reflexivity]. exists u. split; [right; exact Hu|exact Ha]. }
  destruct (G2 ts (fun _ => None)) as (H1 & _ & H3); [auto|]. split; [exact H1|]. intros h Hh. destruct (H3 h) as [H|H]; [congruence|exact H].
Qed.

(** What a configuration the theorems talk about is like. *)
Definition jcfg_fits (v : nat) (c : @jconfig xr) : Prop :=
  (2 <= v)%nat /\ (forall u, jf_vars c = Some u -> u = Z.of_nat v) /\ (jsums_of c = [] -> jf_vars c = Some (Z.of_nat v)) /\
  Forall (fun t => length t = v /\ Forall (fun k => (0 <= k <= 20)%Z) t /\ (0 < degree t <= 62)%Z) (jsums_of c).
Lemma fits_wf v c : jcfg_fits v c -> jwf v (jsums_of c).
Proof. intros (_ & _ & _ & F). unfold jwf. eapply Forall_impl; [|exact F]. cbn. intros t (H1 & H2 & H3). split; [exact H1|]. split; [exact H2|lia]. Qed.
Lemma fits_valid v c w : jcfg_fits v c -> jf_window c = Some w -> (0 <= w)%Z -> (forall d, jf_decay c = Some d -> exists r, d = Fin r /\ 0 < r < 1 /\ w = 0%Z) -> jcfg_valid XN c.
Proof.
  intros (H2 & Hu & He & F) Hw Hw0 Hd. split; [|split].
  - exists w. split; [exact Hw|]. split; [exact Hw0|]. intros d Ed. destruct (Hd d Ed) as (r & -> & Hr & ->). cbn. destruct (Rle_dec r 0); [lra|]. destruct (Rle_dec 1 r); [lra|]. auto.
  - intros u E. specialize (Hu u E). lia.
  - exists (Z.of_nat v). split; [|split; [exact He|exact Hu]]. eapply Forall_impl; [|exact F]. cbn. intros t (L & E & D). split; [unfold zlen; congruence|].
    assert (Hn : Forall (fun k => (0 <= k)%Z) t) by (eapply Forall_impl; [|exact E]; cbn; lia).
    split; [lia|]. split; [exact Hn|]. rewrite t_abs_eq by (auto; lia). lia.
Qed.
Lemma vars_of_fits v c : jcfg_fits v c -> Z.to_nat (vars_of c) = v.
Proof.
  intros (_ & Hu & He & F). unfold vars_of. destruct (jf_vars c) as [u|]; [rewrite (Hu u eq_refl); lia|].
  destruct (jsums_of c) as [|t ts]; [specialize (He eq_refl); discriminate|]. inversion F as [|? ? (L & _) _]; subst. unfold zlen. lia.
Qed.
Lemma jfresh v c w : jcfg_fits v c -> jf_window c = Some w -> (0 <= w)%Z -> (forall d, jf_decay c = Some d -> exists r, d = Fin r /\ 0 < r < 1 /\ w = 0%Z) ->
  exists k0, jnew_core XN c = Ok k0 /\ jstate v (jsums_of c) (fun _ => 0) (repeat 0 v) 0 k0 /\ j_window k0 = w /\ j_decay k0 = jf_decay c /\ j_queue k0 = @ring_new (list xr) w.
Proof.
  intros HF Hw Hw0 Hd. destruct (proj1 (jnew_core_spec XN (A:=list xr) c) (fits_valid v c w HF Hw Hw0 Hd)) as (w' & Ew & E). rewrite Hw in Ew. injection Ew as <-.
  rewrite (vars_of_fits v c HF) in E. eexists. split; [exact E|]. split; [|repeat split]. unfold jstate. cbn [j_means j_tuples j_sums j_new j_count].
  split; [cbn [nz XN]; clear; induction v; cbn; congruence|]. split; [apply repeat_length|]. split; [reflexivity|]. split; [apply init_keys_ok|]. auto.
Qed.
Lemma jfresh_inv v c w : jcfg_fits v c -> jf_window c = Some w -> (0 <= w)%Z -> jf_decay c = None -> exists k0, jnew_core XN c = Ok k0 /\ jinv w v (jsums_of c) [] k0.
Proof.
  intros HF Hw Hw0 Hd. destruct (jfresh v c w HF Hw Hw0) as (k0 & E & S & JW & JD & JQ); [intros d H; congruence|]. exists k0. split; [exact E|].
  unfold jinv. rewrite live_nil. split; [apply jst_nil; exact S|]. split; [constructor|]. rewrite JW, JD, JQ. cbn. auto.
Qed.
Lemma jfresh_einv v c d : jcfg_fits v c -> jf_window c = Some 0%Z -> jf_decay c = Some (Fin d) -> 0 < d < 1 -> exists k0, jnew_core XN c = Ok k0 /\ ejinv d v (jsums_of c) [] k0.
Proof.
  intros HF Hw Hd Hd1. destruct (jfresh v c 0 HF Hw) as (k0 & E & S & JW & JD & JQ); [lia|intros e H; rewrite Hd in H; injection H as <-; eauto|].
  exists k0. split; [exact E|]. split; [apply ejst_nil; exact S|]. split; [constructor|]. split; congruence.
Qed.

(** ** Reading the core *)
Lemma jget_sum_ok v ts V c n (k : @vcore xr) a : jstate v ts V c n k -> n <> 0%Z -> below ts a -> j_get_sum k a = Ok (Fin (V a)).
Proof.
  intros (_ & _ & _ & Hs & _ & Hn) H Ha. unfold j_get_sum. rewrite Hn. destruct (Z.eqb_spec n 0); [contradiction|]. rewrite (proj1 Hs a Ha). reflexivity.
Qed.
Lemma jget_sum_none v ts V c (k : @vcore xr) a : jstate v ts V c 0 k -> j_get_sum k a = Err ENoValues.
Proof. intros (_ & _ & _ & _ & _ & Hn). unfold j_get_sum. rewrite Hn. reflexivity. Qed.
Lemma jget_sum_untracked v ts V c n (k : @vcore xr) a : jstate v ts V c n k -> n <> 0%Z -> (forall b, below ts b -> t_hash a <> t_hash b) -> j_get_sum k a = Err ENotTracked.
Proof.
  intros (_ & _ & _ & Hs & _ & Hn) H Ha. unfold j_get_sum. rewrite Hn. destruct (Z.eqb_spec n 0); [contradiction|].
  destruct (j_sums k (t_hash a)) eqn:E; [|reflexivity]. destruct (proj2 Hs (t_hash a)) as (b & Hb & E'); [congruence|]. exfalso. eapply Ha; eassumption.
Qed.
Lemma jget_mean_ok v ts V c n (k : @vcore xr) i : jstate v ts V c n k -> j_get_mean XN k i =
  if (n =? 0)%Z then Err ENoValues else if (i <? 0)%Z || (i >=? Z.of_nat v)%Z then Err ENotTracked else Ok (Fin (nth (Z.to_nat i) c 0)).
Proof.
  intros (Hm & Hc & _ & _ & _ & Hn). unfold j_get_mean. rewrite Hn, Hm. destruct (n =? 0)%Z; [reflexivity|]. unfold zlen. rewrite map_length, Hc.
  destruct ((i <? 0)%Z || (i >=? Z.of_nat v)%Z); [reflexivity|]. cbn [nz XN]. rewrite (map_nth Fin). reflexivity.
Qed.
