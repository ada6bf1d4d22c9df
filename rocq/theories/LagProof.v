(** Autocov and Autocorr against Cov and Corr on the lagged pairs (C67), in any arithmetic. *)
From Coq Require Import List Lia.
From Verif Require Import Base F64 HistSpec RingModel NumModel MomentModel JointModel JointSpec JointConf JointMetric JointValue TotalProof PropsCost.
Local Open Scope nat_scope.
Local Open Scope list_scope.

(** Specification: the calls made on Cov or Corr by someone who keeps the values pushed
    since the last Clear ([h]) and pushes each value with the one [lag] calls before it. *)
Fixpoint lag_calls {T} (lag : nat) (h : list T) (ops : list (op T)) : list (op (list T)) :=
  match ops with
  | [] => []
  | OPush x :: t => (if lag <=? length h then [OPush [x; nth (length h - lag) (h ++ [x]) x]] else []) ++ lag_calls lag (h ++ [x]) t
  | OClear :: t => OClear :: lag_calls lag [] t
  end.

Lemma lag_calls_app {T} lag (a b : list (op T)) : forall h, lag_calls lag h (a ++ b) =
  lag_calls lag h a ++ lag_calls lag (fold_left (fun h o => match o with OPush x => h ++ [x] | OClear => [] end) a h) b.
Proof. induction a as [|[x|] a IH]; intros h; cbn [app lag_calls fold_left]; [reflexivity|rewrite IH, app_assoc; reflexivity|rewrite IH; reflexivity]. Qed.
Lemma lag_calls_hist {T} lag (ops : list (op T)) : hist (lag_calls lag [] ops) = map (fun p => [fst p; snd p]) (lagged lag (hist ops)).
Proof.
  induction ops as [|o ops IH] using rev_ind; [change (hist (@nil (op T))) with (@nil T); rewrite lagged_nil; reflexivity|]. rewrite lag_calls_app. fold (hist ops).
  destruct o as [x|]; cbn [lag_calls]; [|rewrite !hist_clear, lagged_nil; reflexivity]. rewrite app_nil_r, hist_push.
  destruct (Nat.leb_spec lag (length (hist ops))).
  - rewrite hist_push, lagged_snoc, map_app, IH by assumption. reflexivity.
  - rewrite app_nil_r, IH, !lagged_short by (rewrite ?app_length; cbn; lia). reflexivity.
Qed.

Section Lag.
Context {T : Type} (N : Num T).
Definition akind_of (k : akind) (w : Z) : @jkind T := match k with ACov => JCov w | ACorr => JCorr w end.

Lemma lag_run lag ops : forall (a : @auto T) h c, a_lag a = Z.of_nat lag -> rcap (a_queue a) = round_up (Z.of_nat lag) ->
  (lag <> 0 -> ritems (a_queue a) = live (Z.of_nat lag) h) -> jm_core (a_metric a) = Some c ->
  rmap a_metric (run (auto_push N) (auto_clear N) ops a) = run (jm_push N) (jm_clear N) (lag_calls lag h ops) (a_metric a).
Proof.
  induction ops as [|[x|] ops IH]; intros a h c El Er Eq Ec; [reflexivity| |].
  - cbn [run lag_calls]. unfold auto_push. rewrite Ec, El. destruct (Z.eqb_spec (Z.of_nat lag) 0) as [E0|E0].
    + assert (lag = 0) by lia. subst lag. cbn [Nat.leb]. rewrite Nat.sub_0_r, app_nth2, Nat.sub_diag by lia. cbn [nth app run].
      unfold jm_push at 1. rewrite Ec. cbn [length Nat.eqb negb]. destruct (jpush N c [x; x]) as [c'| | | |]; cbn [bind rmap]; try reflexivity.
      rewrite (IH _ (h ++ [x]) c'); cbn [a_lag a_queue a_metric jm_core]; try reflexivity; try assumption. intros HH. congruence.
    + assert (Hw : (0 < Z.of_nat lag)%Z) by lia. specialize (Eq ltac:(lia)).
      assert (Elen : ring_len (a_queue a) = zlen (live (Z.of_nat lag) h)) by (unfold ring_len; rewrite Eq; reflexivity).
      assert (Ez : zlen (live (Z.of_nat lag) h) = Z.of_nat (Nat.min lag (length h))).
      { unfold live. destruct (Z.eqb_spec (Z.of_nat lag) 0); [lia|]. unfold zlen. rewrite lastn_length, Nat2Z.id. reflexivity. }
      destruct (win_step (Z.of_nat lag) h x (a_queue a) Hw Er Eq) as [(Ef & y & l & q' & Hg & Hl & Hp & _)|(Ef & Hp & _)].
      * apply Z.eqb_eq in Ef. rewrite Hg. destruct (Z.geb_spec (ring_len (a_queue a)) (Z.of_nat lag)); [|lia]. cbn [bind].
        assert (Hle : lag <= length h) by (rewrite Elen, Ez in Ef; lia). destruct (Nat.leb_spec lag (length h)); [|lia].
        assert (Hy : nth (length h - lag) (h ++ [x]) x = y).
        { rewrite app_nth1 by lia. unfold live in Hl. destruct (Z.eqb_spec (Z.of_nat lag) 0); [lia|]. unfold lastn in Hl. rewrite Nat2Z.id in Hl.
          pose proof (firstn_skipn (length h - lag) h) as Hs. rewrite Hl in Hs. rewrite <- Hs at 2.
          rewrite app_nth2; rewrite firstn_length, Nat.min_l by lia; [|lia]. rewrite Nat.sub_diag. reflexivity. }
        rewrite Hy. cbn [app run]. unfold jm_push at 1. rewrite Ec. cbn [length Nat.eqb negb].
        destruct (jpush N c [x; y]) as [c'| | | |]; cbn [bind rmap]; try reflexivity. rewrite Hp. cbn [bind rmap].
        rewrite (IH _ (h ++ [x]) c'); cbn [a_lag a_queue a_metric jm_core rcap ritems]; try reflexivity; try assumption; auto.
      * apply Z.eqb_neq in Ef. rewrite Elen, Ez in Ef. destruct (Z.geb_spec (ring_len (a_queue a)) (Z.of_nat lag)); [lia|]. cbn [bind].
        destruct (Nat.leb_spec lag (length h)); [lia|]. rewrite Hp. cbn [bind app].
        rewrite (IH _ (h ++ [x]) c); cbn [a_lag a_queue a_metric jm_core rcap ritems]; try reflexivity; try assumption; auto.
        destruct (a_metric a) as [kk cc]. cbn [jm_core jm_kind] in *. subst cc. reflexivity.
  - cbn [run lag_calls]. unfold auto_clear, jm_clear at 1. rewrite Ec. destruct (j_clear N c) as [c'| | | |]; cbn [bind rmap]; try reflexivity.
    rewrite (IH _ [] c'); cbn [a_lag a_queue a_metric jm_core]; try reflexivity; try assumption.
    + rewrite El. reflexivity.
    + intros _. rewrite El, live_nil. reflexivity.
Qed.
Lemma auto_lag k lag w ops : rmap a_metric (auto_run N k (Z.of_nat lag) w ops) = jm_run N (akind_of k w) (lag_calls lag [] ops).
Proof.
  unfold auto_run, jm_run, new_auto. destruct (Z.ltb_spec (Z.of_nat lag) 0); [lia|]. cbn [bind]. unfold auto_init, jm_init.
  cbn [a_metric new_jmetric jm_kind a_lag a_queue]. fold (akind_of k w).
  destruct (jnew_core N (jkconfig (akind_of k w))) as [c| | | |]; cbn [bind rmap]; try reflexivity.
  rewrite (lag_run lag ops _ [] c); cbn [a_lag a_queue a_metric jm_core]; try reflexivity. intros _. rewrite live_nil. reflexivity.
Qed.

(** The count of pairs *)
Lemma jm_count k ops m : jm_run N k ops = Ok m -> exists c, jm_core m = Some c /\ (j_get_count c = 0 <-> hist ops = [])%Z.
Proof.
  intros H. pose proof H as H0. apply jm_run_core in H0 as (c0 & c & E0 & E & ->). exists c. split; [reflexivity|].
  assert (Hlen : forall x, In (OPush x) ops -> length x = length (j_means c0)).
  { intros x Hx. assert (Hm : length (j_means c0) = 2).
    { unfold jnew_core in E0. apply bind_ok in E0 as (_ & _ & E0). destruct k; cbn in E0; injection E0 as <-; reflexivity. }
    rewrite Hm. clear E0 Hm E. revert H. generalize (mkJM k (Some c)) as m'. intros m' H. unfold jm_run, jm_init in H. apply bind_ok in H as (m0 & _ & H). revert m0 H.
    induction ops as [|o ops IH]; intros m0 H; [destruct Hx|]. cbn [run] in H. destruct Hx as [->|Hx].
    - apply bind_ok in H as (m1 & H1 & _). unfold jm_push in H1. destruct (jm_core m0); [|discriminate].
      destruct (Nat.eqb_spec (length x) 2); [assumption|discriminate].
    - destruct o; apply bind_ok in H as (m1 & _ & H); eapply IH; eauto. }
  destruct (jcore_total N (jkconfig k) c0 ops E0) as (c' & E' & w & Ew & J); [destruct k; cbn; repeat constructor; lia|exact Hlen|].
  rewrite E in E'. injection E' as <-. destruct J as (_ & Jc & _). unfold j_get_count. rewrite Jc.
  assert (Hw : (0 <= w)%Z).
  { unfold jnew_core in E0. apply bind_ok in E0 as (u & V & _). destruct (jvalidate_spec N (jkconfig k)) as [[((w' & Hw' & Hw0 & _) & _) _]|[_ [e V']]]; [|congruence].
    congruence. }
  destruct (hist ops) as [|y t] eqn:Eh; [rewrite live_nil; split; reflexivity|]. split; [|discriminate]. intros Hz.
  assert (El : live w (y :: t) = []) by (destruct (live w (y :: t)); [reflexivity|unfold zlen in Hz; cbn in Hz; lia]).
  apply live_empty in El; [discriminate|exact Hw].
Qed.
Lemma auto_lag_value k lag w ops : (a <- auto_run N k (Z.of_nat lag) w ops ;; auto_value N a) =
  (m <- jm_run N (akind_of k w) (lag_calls lag [] ops) ;; match lagged lag (hist ops) with [] => Err ETooFew | _ => jm_value N m end).
Proof.
  pose proof (auto_lag k lag w ops) as H. destruct (auto_run N k (Z.of_nat lag) w ops) as [a| | | |]; cbn [rmap] in H; rewrite <- H; cbn [bind]; try reflexivity.
  destruct (jm_count _ _ _ (eq_sym H)) as (c & Ec & Hz). unfold auto_value. rewrite Ec. rewrite lag_calls_hist in Hz.
  destruct (Z.eqb_spec (j_get_count c) 0) as [E|E].
  - apply Hz in E. destruct (lagged lag (hist ops)); [reflexivity|discriminate].
  - destruct (lagged lag (hist ops)); [exfalso; apply E, Hz; reflexivity|reflexivity].
Qed.
End Lag.
