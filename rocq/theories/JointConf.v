(** Proofs about merging joint configurations. *)
From Verif Require Import Base MathModel MathProof NumModel MetricProof JointModel.
Local Open Scope Z_scope.

(** [m] is below [n], exponent by exponent. *)
Definition tbelow (m n : tuple) : Prop := Forall2 Z.le m n.
Lemma tbelow_refl m : tbelow m m. Proof. induction m; constructor; auto; lia. Qed.
Lemma tbelow_trans a : forall b c, tbelow a b -> tbelow b c -> tbelow a c.
Proof. induction a; intros b c H1 H2; inversion H1; subst; inversion H2; subst; constructor; [lia|]. eapply IHa; eassumption. Qed.
Lemma all_leq_ok m : forall n, length m = length n -> (all_leq m n = Ok true /\ tbelow m n) \/ (all_leq m n = Ok false /\ ~ tbelow m n).
Proof.
  induction m as [|a m IH]; intros [|b n] H; cbn in H; try discriminate; [left; split; [reflexivity|constructor]|]. cbn [all_leq].
  destruct (Z.gtb_spec a b); [right; split; [reflexivity|]; intros F; inversion F; lia|]. destruct (IH n ltac:(lia)) as [[E F]|[E F]]; rewrite E.
  - left. split; [reflexivity|]. constructor; auto; lia.
  - right. split; [reflexivity|]. intros F'. inversion F'; contradiction.
Qed.
Lemma some_leq_ok m l : (forall n, In n l -> length n = length m) ->
  (some_leq m l = Ok true /\ exists n, In n l /\ tbelow m n) \/ (some_leq m l = Ok false /\ forall n, In n l -> ~ tbelow m n).
Proof.
  induction l as [|n l IH]; intros H; [right; split; [reflexivity|intros n []]|]. cbn [some_leq].
  destruct (all_leq_ok m n) as [[E F]|[E F]]; [symmetry; apply H; left; reflexivity| |]; rewrite E; cbn [bind].
  - left. split; [reflexivity|]. exists n. split; [left; reflexivity|exact F].
  - destruct IH as [[E' (x & Hx & Fx)]|[E' F']]; [intros x Hx; apply H; right; exact Hx| |].
    + left. split; [exact E'|]. exists x. split; [right; exact Hx|exact Fx].
    + right. split; [exact E'|]. intros x [<-|Hx]; [exact F|apply F'; exact Hx].
Qed.
Definition hash_inj_on (l : list tuple) : Prop := forall m n, In m l -> In n l -> t_hash m = t_hash n -> m = n.
(** No tuple is below an earlier one. *)
Definition irredundant (l : list tuple) : Prop := ForallOrdPairs (fun m n => ~ tbelow n m) l.
Lemma irredundant_snoc l m : irredundant l -> (forall n, In n l -> ~ tbelow m n) -> irredundant (l ++ [m]).
Proof.
  unfold irredundant. induction l as [|x l IH]; intros H F; cbn [app]; [repeat constructor|]. inversion H; subst. constructor.
  - apply Forall_app. split; [assumption|]. constructor; [apply F; left; reflexivity|constructor].
  - apply IH; [assumption|]. intros n Hn. apply F. right. exact Hn.
Qed.
Lemma simplify_loop_ok v all : (forall m, In m all -> length m = v) -> hash_inj_on all ->
  forall sums seen kept, all = seen ++ sums -> (forall m, In m kept -> In m seen) -> (forall m, In m seen -> exists n, In n kept /\ tbelow m n) -> irredundant kept ->
  exists k, simplify_loop sums seen (map t_hash (rev kept)) kept = Ok k /\ (forall m, In m k -> In m all) /\ (forall m, In m all -> exists n, In n k /\ tbelow m n) /\ irredundant k.
Proof.
  intros HL HH. induction sums as [|m sums IH]; intros seen kept Ha Hk Hs Hi; cbn [simplify_loop].
  - rewrite app_nil_r in Ha. subst seen. exists kept. auto.
  - assert (Ha' : all = (seen ++ [m]) ++ sums) by (rewrite <- app_assoc; exact Ha).
    assert (Hm : In m all) by (rewrite Ha; apply in_or_app; right; left; reflexivity).
    assert (Hseen : forall n, In n seen -> In n all) by (intros n Hn; rewrite Ha; apply in_or_app; left; exact Hn).
    assert (Hskip : forall n, In n seen -> tbelow m n -> forall x, In x (seen ++ [m]) -> exists y, In y kept /\ tbelow x y).
    { intros n Hn Hmn x Hx. apply in_app_or in Hx. destruct Hx as [Hx|[<-|[]]]; [apply Hs; exact Hx|]. destruct (Hs n Hn) as (y & Hy & Hny). exists y. split; [exact Hy|]. eapply tbelow_trans; eassumption. }
    destruct (existsb (Z.eqb (t_hash m)) (map t_hash (rev kept))) eqn:Ex.
    + apply existsb_exists in Ex. destruct Ex as (h & Hh & E). apply Z.eqb_eq in E. apply in_map_iff in Hh. destruct Hh as (n & En & Hn). apply in_rev in Hn.
      assert (n = m) by (apply HH; [apply Hseen; apply Hk; exact Hn|exact Hm|congruence]). subst n.
      apply IH; auto; [intros x Hx; apply in_or_app; left; apply Hk; exact Hx|]. apply (Hskip m); [apply Hk; exact Hn|apply tbelow_refl].
    + destruct (some_leq_ok m seen) as [[E (n & Hn & Hmn)]|[E F]]; [intros n Hn; rewrite (HL m Hm); apply HL; apply Hseen; exact Hn| |]; rewrite E; cbn [bind].
      * apply IH; auto; [intros x Hx; apply in_or_app; left; apply Hk; exact Hx|]. apply (Hskip n); assumption.
      * destruct (IH (seen ++ [m]) (kept ++ [m]) Ha') as (k & Ek & H1 & H2 & H3).
        -- intros x Hx. apply in_app_or in Hx. apply in_or_app. destruct Hx as [Hx|Hx]; [left; apply Hk; exact Hx|right; exact Hx].
        -- intros x Hx. apply in_app_or in Hx. destruct Hx as [Hx|[<-|[]]].
           ++ destruct (Hs x Hx) as (y & Hy & Hxy). exists y. split; [apply in_or_app; left; exact Hy|exact Hxy].
           ++ exists m. split; [apply in_or_app; right; left; reflexivity|apply tbelow_refl].
        -- apply irredundant_snoc; [exact Hi|]. intros n Hn. apply F. apply Hk. exact Hn.
        -- exists k. rewrite rev_app_distr in Ek. cbn [rev app map] in Ek. auto.
Qed.
Lemma simplify_ok v all : (forall m, In m all -> length m = v) -> hash_inj_on all ->
  exists k, simplify_sums all = Ok k /\ (forall m, In m k -> In m all) /\ (forall m, In m all -> exists n, In n k /\ tbelow m n) /\ irredundant k.
Proof. intros HL HH. apply (simplify_loop_ok v all HL HH all [] []); [reflexivity|intros m []|intros m []|constructor]. Qed.

(** ** The loop of MergeConfigs *)
Definition ostep {A} (e : A -> A -> bool) (er : err) (co o : option A) : res (option A) :=
  match co, o with
  | None, _ => Ok o
  | Some c, None => Ok (Some c)
  | Some c, Some x => if e x c then Ok o else Err er
  end.
Lemma ostep_ok {A} (e : A -> A -> bool) er co o rest :
  (exists o', ostep e er co o = Ok o' /\ hd_error (opt_list o' ++ rest) = hd_error (opt_list o ++ opt_list co ++ rest) /\
     (agree e (opt_list o' ++ rest) <-> agree e (opt_list o ++ opt_list co ++ rest))) \/
  (ostep e er co o = Err er /\ ~ agree e (opt_list o ++ opt_list co ++ rest)).
Proof.
  destruct co as [c|]; cbn [opt_list app ostep]; [|left; exists o; tauto]. destruct o as [x|].
  - destruct (e x c) eqn:E.
    + left. exists (Some x). split; [reflexivity|]. split; [reflexivity|]. rewrite (agree_cons_opt e (Some x)). cbn [opt_list app]. tauto.
    + right. split; [reflexivity|]. rewrite (agree_cons_opt e (Some x)). intros [H _]. congruence.
  - left. exists (Some c). cbn [opt_list app]. tauto.
Qed.
Section Merge.
Context {T : Type} (N : Num T).
Definition jwindows (cs : list (@jconfig T)) : list Z := flat_map (fun c => opt_list (jf_window c)) cs.
Definition jvarss (cs : list (@jconfig T)) : list Z := flat_map (fun c => opt_list (jf_vars c)) cs.
Definition jdecays (cs : list (@jconfig T)) : list T := flat_map (fun c => opt_list (jf_decay c)) cs.
Lemma jmerge_loop_spec cs : forall sums w v d,
  let W := opt_list w ++ jwindows cs in let V := opt_list v ++ jvarss cs in let D := opt_list d ++ jdecays cs in
  let ok := agree Z.eqb W /\ agree Z.eqb V /\ agree (neqb N) D in
  (ok -> jmerge_loop N cs sums w v d = s <- simplify_sums (sums ++ flat_map jsums_of cs) ;; Ok (mkJCfg (Some s) (hd_error W) (hd_error V) (hd_error D))) /\
  (~ ok -> exists e, jmerge_loop N cs sums w v d = Err e).
Proof.
  induction cs as [|c cs IH]; intros sums w v d; cbv zeta.
  - cbn [jmerge_loop jwindows jvarss jdecays flat_map]. rewrite !app_nil_r. split.
    + intros _. destruct w, v, d; reflexivity.
    + intros H. exfalso. apply H. destruct w, v, d; cbn; auto.
  - cbn [jmerge_loop jwindows jvarss jdecays flat_map]. fold (jwindows cs) (jvarss cs) (jdecays cs).
    change (match jf_window c with None => Ok w | Some cw => match w with None => Ok (Some cw) | Some w0 => if w0 =? cw then Ok w else Err EDiffWindow end end) with (ostep Z.eqb EDiffWindow (jf_window c) w).
    change (match jf_vars c with None => Ok v | Some cv => match v with None => Ok (Some cv) | Some v0 => if v0 =? cv then Ok v else Err EDiffVars end end) with (ostep Z.eqb EDiffVars (jf_vars c) v).
    change (match jf_decay c with None => Ok d | Some cd => match d with None => Ok (Some cd) | Some d0 => if neqb N d0 cd then Ok d else Err EDiffDecay end end) with (ostep (neqb N) EDiffDecay (jf_decay c) d).
    destruct (ostep_ok Z.eqb EDiffWindow (jf_window c) w (jwindows cs)) as [(w' & -> & Hw1 & Hw2)|[-> Hw]]; cbn [bind]; [|split; [tauto|eauto]].
    destruct (ostep_ok Z.eqb EDiffVars (jf_vars c) v (jvarss cs)) as [(v' & -> & Hv1 & Hv2)|[-> Hv]]; cbn [bind]; [|split; [tauto|eauto]].
    destruct (ostep_ok (neqb N) EDiffDecay (jf_decay c) d (jdecays cs)) as [(d' & -> & Hd1 & Hd2)|[-> Hd]]; cbn [bind]; [|split; [tauto|eauto]].
    destruct (IH (match jf_sums c with Some s => sums ++ s | None => sums end) w' v' d') as [H1 H2]. rewrite <- Hw1, <- Hv1, <- Hd1. split; intros H.
    + rewrite H1 by tauto. unfold jsums_of at 2. destruct (jf_sums c); [rewrite <- app_assoc|]; reflexivity.
    + apply H2. tauto.
Qed.
End Merge.
