(** HeapMedian without a window never panics, whatever the values (C52). *)
From Coq Require Import String List Lia PeanoNat Arith.
From Verif Require Import Base F64 HistSpec RingModel HeapModel HeapProof TotalProof.
Local Open Scope nat_scope.

Lemma swap_any st l i j : i < length l -> j < length l -> exists st' l', h_swap st l i j = Ok (st', l') /\ length l' = length l.
Proof.
  intros Hi Hj. unfold h_swap. rewrite (hget_ok l i Hi), (hget_ok l j Hj). cbn [bind]. eexists _, _. split; [reflexivity|]. rewrite !lset_length. reflexivity.
Qed.
Lemma less_any cmp st l i j : i < length l -> j < length l -> exists b, h_less cmp st l i j = Ok b.
Proof. intros Hi Hj. unfold h_less. rewrite (hget_ok l i Hi), (hget_ok l j Hj). cbn [bind]. eauto. Qed.
Lemma up_any cmp fuel : forall st l j, j < fuel -> j < length l -> exists st' l', h_up fuel cmp st l j = Ok (st', l') /\ length l' = length l.
Proof.
  induction fuel as [|f IH]; intros st l j Hf Hl; [lia|]. cbn [h_up]. destruct (Nat.eqb_spec (Nat.div2 (j - 1)) j) as [E|E]; [eauto|].
  assert (Hlt : Nat.div2 (j - 1) < j). { destruct j; [cbn in E; congruence|]. apply (par_lt (S j)). lia. }
  destruct (less_any cmp st l j (Nat.div2 (j - 1)) Hl ltac:(lia)) as [b Eb]. rewrite Eb. cbn [bind]. destruct b; [|eauto].
  destruct (swap_any st l (Nat.div2 (j - 1)) j ltac:(lia) Hl) as (st1 & l1 & E1 & L1). rewrite E1. cbn [bind].
  destruct (IH st1 l1 (Nat.div2 (j - 1)) ltac:(lia) ltac:(lia)) as (st2 & l2 & E2 & L2). exists st2, l2. split; [exact E2|]. lia.
Qed.
Lemma down_any cmp fuel : forall st l i n, n <= length l -> 0 < fuel -> n <= fuel + i -> exists st' l' k, h_down fuel cmp st l i n = Ok (st', l', k) /\ length l' = length l.
Proof.
  induction fuel as [|f IH]; intros st l i n Hn H0 Hf; [lia|]. cbn [h_down]. destruct (Nat.leb_spec n (2 * i + 1)) as [H|H]; [eauto 6|].
  assert (C : exists j, (if S (2 * i + 1) <? n then b <- h_less cmp st l (S (2 * i + 1)) (2 * i + 1) ;; Ok (if b then S (2 * i + 1) else 2 * i + 1) else Ok (2 * i + 1)) = Ok j /\ i < j < n).
  { destruct (Nat.ltb_spec (S (2 * i + 1)) n) as [H1|H1]; [|exists (2 * i + 1); split; [reflexivity|lia]].
    destruct (less_any cmp st l (S (2 * i + 1)) (2 * i + 1) ltac:(lia) ltac:(lia)) as [b Eb]. rewrite Eb. cbn [bind]. eexists. split; [reflexivity|]. destruct b; lia. }
  destruct C as (j & -> & Hj). cbn [bind]. destruct (less_any cmp st l j i ltac:(lia) ltac:(lia)) as [b Eb]. rewrite Eb. cbn [bind]. destruct b; [|eauto 6].
  destruct (swap_any st l i j ltac:(lia) ltac:(lia)) as (st1 & l1 & E1 & L1). rewrite E1. cbn [bind].
  destruct (IH st1 l1 j n ltac:(lia) ltac:(lia) ltac:(lia)) as (st2 & l2 & k & E2 & L2). exists st2, l2, k. split; [exact E2|]. lia.
Qed.
Lemma hpush_any st h a : exists st' h', h_push st h a = Ok (st', h') /\ h_len h' = S (h_len h).
Proof.
  unfold h_push. cbv zeta. set (l1 := h_items h ++ [a]). assert (L : length l1 = S (h_len h)) by (unfold l1, h_len; rewrite app_length; cbn [length]; lia).
  destruct (up_any (h_cmp h) (S (length l1)) (iupd st a (mkItem (it_val (st a)) (h_id h) (Z.of_nat (length (h_items h))))) l1 (length l1 - 1) ltac:(lia) ltac:(lia)) as (st2 & l2 & E2 & L2).
  rewrite E2. cbn [bind]. eexists _, _. split; [reflexivity|]. unfold h_len in *. cbn [h_items]. lia.
Qed.
Lemma pop_any st h : h_len h <> 0 -> exists st' h' a, h_pop st h = Ok (st', h', a) /\ h_len h' = h_len h - 1.
Proof.
  unfold h_len. intros H. unfold h_pop, h_len. destruct (h_items h) as [|a0 l0] eqn:El; [cbn in H; congruence|]. rewrite <- El in *. cbv zeta.
  destruct (swap_any st (h_items h) 0 (length (h_items h) - 1) ltac:(lia) ltac:(lia)) as (st1 & l1 & E1 & L1). rewrite E1. cbn [bind].
  destruct (down_any (h_cmp h) (S (length l1)) st1 l1 0 (length (h_items h) - 1) ltac:(lia) ltac:(lia) ltac:(lia)) as (st2 & l2 & k & E2 & L2). rewrite E2. cbn [bind].
  unfold h_pop_last. destruct (rev l2) as [|b r] eqn:Er; [apply (f_equal (@length nat)) in Er; rewrite rev_length in Er; cbn in Er; lia|]. cbn [bind].
  eexists _, _, _. split; [reflexivity|]. cbn [h_items]. rewrite rev_length. apply (f_equal (@length nat)) in Er. rewrite rev_length in Er. cbn [length] in Er. lia.
Qed.
Lemma peek_any st h : h_len h <> 0 -> exists v, h_peek st h = Ok v.
Proof. unfold h_len. intros H. unfold h_peek. rewrite (hget_ok (h_items h) 0) by lia. cbn [bind]. eauto. Qed.
Lemma rebalance_any st lo hi a : h_len lo <> 0 -> h_len lo <= h_len hi + 2 -> h_len hi <= h_len lo + 2 -> exists st' lo' hi' b, hm_rebalance st lo hi a = Ok (st', lo', hi', b) /\
  h_len lo' + h_len hi' = h_len lo + h_len hi /\ h_len lo' <= h_len hi' + 1 /\ h_len hi' <= h_len lo' + 1 /\ h_len lo' <> 0.
Proof.
  intros H0 H1 H2. unfold hm_rebalance. destruct (Nat.ltb_spec (h_len lo + 1) (h_len hi)); [|destruct (Nat.ltb_spec (h_len hi + 1) (h_len lo))].
  - destruct (pop_any st hi ltac:(lia)) as (st1 & hi1 & b & E & L). rewrite E. cbn [bind]. destruct (hpush_any st1 lo b) as (st2 & lo1 & E2 & L2). rewrite E2. cbn [bind]. eexists _, _, _, _. split; [reflexivity|]. lia.
  - destruct (pop_any st lo ltac:(lia)) as (st1 & lo1 & b & E & L). rewrite E. cbn [bind]. destruct (hpush_any st1 hi b) as (st2 & hi1 & E2 & L2). rewrite E2. cbn [bind]. eexists _, _, _, _. split; [reflexivity|]. lia.
  - eexists _, _, _, _. split; [reflexivity|]. lia.
Qed.
Definition htot (h : list f64) (m : hmed) : Prop :=
  hm_window m = 0%Z /\ h_len (hm_low m) + h_len (hm_high m) = length h /\ h_len (hm_low m) <= h_len (hm_high m) + 1 /\ h_len (hm_high m) <= h_len (hm_low m) + 1 /\ (h <> [] -> h_len (hm_low m) <> 0).
Lemma htot_push h m x : htot h m -> exists m', hm_push m x = Ok m' /\ htot (h ++ [x]) m'.
Proof.
  intros (Ew & Hl & B1 & B2 & B3). unfold hm_push. rewrite Ew. cbn [Z.eqb negb andb]. cbv zeta. set (st := iupd _ _ _).
  assert (T : exists b : bool, (if h_len (hm_low m) =? 0 then Ok true else p <- h_peek st (hm_low m) ;; Ok (fle x p)) = Ok b /\ (h_len (hm_low m) = 0 -> b = true)).
  { destruct (Nat.eqb_spec (h_len (hm_low m)) 0); [eauto|]. destruct (peek_any st (hm_low m) ltac:(assumption)) as [p ->]. cbn [bind]. eexists. split; [reflexivity|]. congruence. }
  destruct T as (b & -> & Hb). cbn [bind].
  assert (P : exists st1 lo1 hi1, (if b then '(st1, lo1) <- h_push st (hm_low m) (hm_next m) ;; Ok (st1, lo1, hm_high m) else '(st1, hi1) <- h_push st (hm_high m) (hm_next m) ;; Ok (st1, hm_low m, hi1)) = Ok (st1, lo1, hi1) /\
    h_len lo1 + h_len hi1 = S (length h) /\ h_len lo1 <> 0 /\ h_len lo1 <= h_len hi1 + 2 /\ h_len hi1 <= h_len lo1 + 2).
  { destruct b.
    - destruct (hpush_any st (hm_low m) (hm_next m)) as (st1 & lo1 & E & L). rewrite E. cbn [bind]. eexists _, _, _. split; [reflexivity|]. lia.
    - destruct (hpush_any st (hm_high m) (hm_next m)) as (st1 & hi1 & E & L). rewrite E. cbn [bind]. eexists _, _, _. split; [reflexivity|]. assert (h_len (hm_low m) <> 0) by (intros H; specialize (Hb H); discriminate). lia. }
  destruct P as (st1 & lo1 & hi1 & E1 & L1 & L2 & L3 & L4). rewrite E1. cbn [bind].
  destruct (rebalance_any st1 lo1 hi1 (hm_next m) L2 L3 L4) as (st2 & lo2 & hi2 & c & E2 & R1 & R2 & R3 & R4). rewrite E2. cbn [bind].
  eexists. split; [reflexivity|]. unfold htot. cbn [hm_window hm_low hm_high]. rewrite app_length. cbn [length]. split; [reflexivity|]. split; [lia|]. auto.
Qed.
Lemma heap_median_total ops : exists m, hm_run 0 ops = Ok m /\ match hist ops with [] => hm_value m = Err ENoValues | _ => exists v, hm_value m = Ok v end.
Proof.
  unfold hm_run, new_heap_median. cbn [Z.ltb Z.compare bind].
  assert (I0 : forall st nx, htot [] (mkHM 0 low_empty high_empty (ring_new 0) st nx)) by (intros st nx; unfold htot, h_len; cbn; repeat split; auto; lia).
  destruct (run_inv hm_push hm_clear htot (mkHM 0 low_empty high_empty (ring_new 0) (fun _ => mkItem (fz 0) ""%string 0%Z) 0)) with (ops := ops) as (m & E & (H1 & H2 & H3 & H4 & H5)).
  - apply I0.
  - intros h s x. apply htot_push.
  - intros h s (H1 & _). eexists. split; [reflexivity|]. rewrite H1. apply I0.
  - exists m. split; [exact E|]. unfold hm_value. cbv zeta. rewrite H2. destruct (hist ops) as [|x l]; [reflexivity|]. specialize (H5 ltac:(discriminate)). cbn [length] in *. cbn [Nat.eqb].
    destruct (Nat.ltb_spec (h_len (hm_low m)) (h_len (hm_high m))); [apply peek_any; lia|]. destruct (Nat.ltb_spec (h_len (hm_high m)) (h_len (hm_low m))); [apply peek_any; lia|].
    destruct (peek_any (hm_store m) (hm_low m) H5) as [a ->]. destruct (peek_any (hm_store m) (hm_high m) ltac:(lia)) as [b ->]. cbn [bind]. eauto.
Qed.
