(** Proofs about HeapMedian. *)
From Coq Require Import String Permutation.
From Verif Require Import Base F64 HistSpec OrderSpec RingModel QuantileSpec HeapModel HeapProof.
Local Open Scope nat_scope.
Local Open Scope list_scope.

Definition negk (x : f64) : Z := (- fk x)%Z.
Lemma fmax_key : cmp_key hm_fmax negk.
Proof.
  intros x y Hx Hy. unfold hm_fmax, negk. rewrite fgt_key by assumption.
  destruct (Z.ltb_spec (fk y) (fk x)), (Z.ltb_spec (- fk x) (- fk y)); reflexivity || lia.
Qed.
Lemma fmin_key : cmp_key hm_fmin fk.
Proof. intros x y Hx Hy. unfold hm_fmin. apply flt_key; assumption. Qed.

Definition val (st : istore) (a : nat) : f64 := it_val (st a).

(** Both heaps are in order, disjoint, and every low value is at most every high one. *)
Definition core (st : istore) (lo hi : heap) : Prop :=
  heap_ok negk st lo /\ heap_ok fk st hi /\ h_id lo = "low"%string /\ h_id hi = "high"%string /\
  (forall a, In a (h_items lo) -> ~ In a (h_items hi)) /\
  (forall a b, In a (h_items lo) -> In b (h_items hi) -> (fk (val st a) <= fk (val st b))%Z).

Definition addrs (lo hi : heap) : list nat := h_items lo ++ h_items hi.

Lemma h_len_perm (h h' : heap) : Permutation (h_items h) (h_items h') -> h_len h = h_len h'.
Proof. apply Permutation_length. Qed.
Lemma h_len_cons a (h h' : heap) : Permutation (a :: h_items h) (h_items h') -> h_len h' = S (h_len h).
Proof. intros P. symmetry. apply (Permutation_length P). Qed.

(** Moving the top of one heap to the other. *)
Lemma move_down st lo hi : core st lo hi -> h_items hi <> [] ->
  exists st1 hi1 b st2 lo1, h_pop st hi = Ok (st1, hi1, b) /\ h_push st1 lo b = Ok (st2, lo1) /\
    core st2 lo1 hi1 /\ h_len lo1 = S (h_len lo) /\ h_len hi = S (h_len hi1) /\
    Permutation (addrs lo hi) (addrs lo1 hi1) /\ (forall a, val st2 a = val st a) /\
    (forall a, ~ In a (addrs lo hi) -> st2 a = st a) /\ In b (h_items lo1).
Proof.
  intros [Hl [Hh [Il [Ih [D O]]]]] Hne.
  destruct (h_pop_ok fk st hi Hh Hne) as [st1 [hi1 [b [E1 [Hh1 [Ih1 [P1 [[V1 F1] [I1 [M1 _]]]]]]]]]].
  assert (Hb : In b (h_items hi)) by (eapply Permutation_in; [exact P1|left; reflexivity]).
  assert (Hbl : ~ In b (h_items lo)) by (intros H; exact (D b H Hb)).
  assert (Hl1 : heap_ok negk st1 lo) by (eapply heap_ok_frame; [exact Hl|]; intros a Ha; apply F1; auto).
  assert (Hbv : nonnan (it_val (st1 b))).
  { rewrite V1. destruct Hh as [_ [_ [_ [Hn _]]]]. unfold hnum in Hn. rewrite Forall_forall in Hn. auto. }
  destruct (h_push_ok negk st1 lo b Hl1 Hbl Hbv) as [st2 [lo1 [E2 [Hl2 [Il2 [P2 [V2 F2]]]]]]].
  assert (Hnd : NoDup (b :: h_items hi1)).
  { destruct Hh as [_ [[Hnd _] _]]. eapply Permutation_NoDup; [symmetry; exact P1|exact Hnd]. }
  exists st1, hi1, b, st2, lo1. split; [exact E1|]. split; [exact E2|].
  assert (Hin1 : forall a, In a (h_items hi1) -> In a (h_items hi) /\ a <> b).
  { intros a Ha. split; [eapply Permutation_in; [exact P1|right; exact Ha]|]. intros ->. inversion Hnd; contradiction. }
  assert (Hlo1 : forall a, In a (h_items lo1) -> a = b \/ In a (h_items lo)).
  { intros a Ha. apply (Permutation_in a (Permutation_sym P2)) in Ha. destruct Ha as [<-|Ha]; auto. }
  assert (V : forall a, it_val (st2 a) = it_val (st a)) by (intros a; rewrite V2, V1; reflexivity).
  split; [|split; [apply h_len_cons with b; exact P2|split; [apply h_len_cons with b; exact P1|split; [|split; [exact V|split]]]]].
  - split; [exact Hl2|]. split; [|split; [congruence|split; [congruence|split]]].
    + eapply heap_ok_frame; [exact Hh1|]. intros a Ha. apply F2. destruct (Hin1 a Ha) as [Ha1 Ha2].
      intros [H|H]; [congruence|exact (D a H Ha1)].
    + intros a Ha Hb'. destruct (Hin1 a Hb') as [Ha1 Ha2]. destruct (Hlo1 a Ha) as [->|Ha3]; [congruence|exact (D a Ha3 Ha1)].
    + intros a c Ha Hc. unfold val. rewrite !V. destruct (Hin1 c Hc) as [Hc1 Hc2].
      destruct (Hlo1 a Ha) as [->|Ha3]; [apply M1; exact Hc1|apply O; assumption].
  - unfold addrs. rewrite <- P1, <- P2. symmetry. apply Permutation_middle.
  - intros a Ha. rewrite F2, F1; [reflexivity| |].
    + intros H. apply Ha. apply in_or_app. auto.
    + intros [<-|H]; apply Ha; apply in_or_app; auto.
  - eapply Permutation_in; [exact P2|left; reflexivity].
Qed.

Lemma move_up st lo hi : core st lo hi -> h_items lo <> [] ->
  exists st1 lo1 b st2 hi1, h_pop st lo = Ok (st1, lo1, b) /\ h_push st1 hi b = Ok (st2, hi1) /\
    core st2 lo1 hi1 /\ h_len hi1 = S (h_len hi) /\ h_len lo = S (h_len lo1) /\
    Permutation (addrs lo hi) (addrs lo1 hi1) /\ (forall a, val st2 a = val st a) /\
    (forall a, ~ In a (addrs lo hi) -> st2 a = st a) /\ In b (h_items hi1).
Proof.
  intros [Hl [Hh [Il [Ih [D O]]]]] Hne.
  destruct (h_pop_ok negk st lo Hl Hne) as [st1 [lo1 [b [E1 [Hl1 [Il1 [P1 [[V1 F1] [I1 [M1 _]]]]]]]]]].
  assert (Hb : In b (h_items lo)) by (eapply Permutation_in; [exact P1|left; reflexivity]).
  assert (Hbh : ~ In b (h_items hi)) by exact (D b Hb).
  assert (Hh1 : heap_ok fk st1 hi).
  { eapply heap_ok_frame; [exact Hh|]. intros a Ha. apply F1. intros H. exact (D a H Ha). }
  assert (Hbv : nonnan (it_val (st1 b))).
  { rewrite V1. destruct Hl as [_ [_ [_ [Hn _]]]]. unfold hnum in Hn. rewrite Forall_forall in Hn. auto. }
  destruct (h_push_ok fk st1 hi b Hh1 Hbh Hbv) as [st2 [hi1 [E2 [Hh2 [Ih2 [P2 [V2 F2]]]]]]].
  assert (Hnd : NoDup (b :: h_items lo1)).
  { destruct Hl as [_ [[Hnd _] _]]. eapply Permutation_NoDup; [symmetry; exact P1|exact Hnd]. }
  exists st1, lo1, b, st2, hi1. split; [exact E1|]. split; [exact E2|].
  assert (Hin1 : forall a, In a (h_items lo1) -> In a (h_items lo) /\ a <> b).
  { intros a Ha. split; [eapply Permutation_in; [exact P1|right; exact Ha]|]. intros ->. inversion Hnd; contradiction. }
  assert (Hhi1 : forall a, In a (h_items hi1) -> a = b \/ In a (h_items hi)).
  { intros a Ha. apply (Permutation_in a (Permutation_sym P2)) in Ha. destruct Ha as [<-|Ha]; auto. }
  assert (V : forall a, it_val (st2 a) = it_val (st a)) by (intros a; rewrite V2, V1; reflexivity).
  split; [|split; [apply h_len_cons with b; exact P2|split; [apply h_len_cons with b; exact P1|split; [|split; [exact V|split]]]]].
  - split; [|split; [exact Hh2|split; [congruence|split; [congruence|split]]]].
    + eapply heap_ok_frame; [exact Hl1|]. intros a Ha. apply F2. destruct (Hin1 a Ha) as [Ha1 Ha2].
      intros [H|H]; [congruence|exact (D a Ha1 H)].
    + intros a Ha Hb'. destruct (Hin1 a Ha) as [Ha1 Ha2]. destruct (Hhi1 a Hb') as [->|Ha3]; [congruence|exact (D a Ha1 Ha3)].
    + intros a c Ha Hc. unfold val. rewrite !V. destruct (Hin1 a Ha) as [Ha1 Ha2].
      destruct (Hhi1 c Hc) as [->|Hc3]; [|apply O; assumption]. specialize (M1 a Ha1). unfold negk in M1. lia.
  - unfold addrs. rewrite <- P1, <- P2. apply (Permutation_middle (h_items lo1) (h_items hi) b).
  - intros a Ha. rewrite F2, F1; [reflexivity| |].
    + intros H. apply Ha. apply in_or_app. auto.
    + intros [<-|H]; apply Ha; apply in_or_app; auto.
  - eapply Permutation_in; [exact P2|left; reflexivity].
Qed.

Lemma rebalance_ok st lo hi a : core st lo hi -> In a (addrs lo hi) -> h_len lo <= h_len hi + 3 -> h_len hi <= h_len lo + 3 ->
  exists st' lo' hi' b, hm_rebalance st lo hi a = Ok (st', lo', hi', b) /\ core st' lo' hi' /\
    h_len lo' <= h_len hi' + 1 /\ h_len hi' <= h_len lo' + 1 /\ (h_items lo <> [] -> h_items lo' <> []) /\
    Permutation (addrs lo hi) (addrs lo' hi') /\ (forall c, val st' c = val st c) /\
    (forall c, ~ In c (addrs lo hi) -> st' c = st c) /\ In b (addrs lo' hi').
Proof.
  intros Hc Ha H1 H2. unfold hm_rebalance.
  destruct (Nat.ltb_spec (h_len lo + 1) (h_len hi)) as [Hlt|Hge].
  - destruct (move_down st lo hi Hc) as [st1 [hi1 [b [st2 [lo1 [E1 [E2 [C [L1 [L2 [P [V [F B]]]]]]]]]]]]].
    { intros H. unfold h_len in Hlt at 2. rewrite H in Hlt. cbn in Hlt. lia. }
    rewrite E1. cbn [bind]. rewrite E2. cbn [bind]. exists st2, lo1, hi1, b. split; [reflexivity|]. split; [exact C|].
    split; [lia|]. split; [lia|]. split; [intros _ H; unfold h_len in L1; rewrite H in L1; discriminate|].
    split; [exact P|]. split; [exact V|]. split; [exact F|]. apply in_or_app. left. exact B.
  - destruct (Nat.ltb_spec (h_len hi + 1) (h_len lo)) as [Hlt|Hge'].
    + destruct (move_up st lo hi Hc) as [st1 [lo1 [b [st2 [hi1 [E1 [E2 [C [L1 [L2 [P [V [F B]]]]]]]]]]]]].
      { intros H. unfold h_len in Hlt at 2. rewrite H in Hlt. cbn in Hlt. lia. }
      rewrite E1. cbn [bind]. rewrite E2. cbn [bind]. exists st2, lo1, hi1, b. split; [reflexivity|]. split; [exact C|].
      split; [lia|]. split; [lia|]. split; [intros _ H; unfold h_len in *; rewrite H in L2; cbn in L2; lia|].
      split; [exact P|]. split; [exact V|]. split; [exact F|]. apply in_or_app. right. exact B.
    + exists st, lo, hi, a. split; [reflexivity|]. split; [exact Hc|]. split; [lia|]. split; [lia|]. split; [auto|].
      split; [reflexivity|]. auto.
Qed.

Lemma peek_ok g st h : heap_ok g st h -> h_items h <> [] ->
  exists a, In a (h_items h) /\ h_peek st h = Ok (val st a) /\ (forall b, In b (h_items h) -> (g (val st a) <= g (val st b))%Z).
Proof.
  intros [_ [_ [_ [_ Ho]]]] Hne. assert (Hl : 0 < length (h_items h)) by (destruct (h_items h); [congruence|cbn; lia]).
  exists (nth 0 (h_items h) 0). split; [apply nth_In; exact Hl|]. split.
  - unfold h_peek. rewrite hget_ok by exact Hl. reflexivity.
  - intros b Hb. apply (In_nth _ _ 0) in Hb. destruct Hb as [i [Hi <-]]. apply (hord_root _ _ Ho i Hi).
Qed.

Lemma core_num st lo hi a : core st lo hi -> In a (addrs lo hi) -> nonnan (val st a).
Proof.
  intros [[_ [_ [_ [Hn _]]]] [[_ [_ [_ [Hn' _]]]] _]] Ha. unfold hnum in *. rewrite Forall_forall in *.
  apply in_app_or in Ha. destruct Ha as [Ha|Ha]; [apply Hn|apply Hn']; exact Ha.
Qed.

(** A new item goes to the proper heap. *)
Lemma insert_low st lo hi a : core st lo hi -> ~ In a (addrs lo hi) -> nonnan (val st a) ->
  (forall b, In b (h_items hi) -> (fk (val st a) <= fk (val st b))%Z) ->
  exists st' lo', h_push st lo a = Ok (st', lo') /\ core st' lo' hi /\ h_len lo' = S (h_len lo) /\ h_items lo' <> [] /\
    Permutation (a :: addrs lo hi) (addrs lo' hi) /\ (forall c, val st' c = val st c) /\
    (forall c, ~ In c (a :: addrs lo hi) -> st' c = st c).
Proof.
  intros [Hl [Hh [Il [Ih [D O]]]]] Ha Hv Hle.
  assert (Hal : ~ In a (h_items lo)) by (intros H; apply Ha; apply in_or_app; auto).
  assert (Hah : ~ In a (h_items hi)) by (intros H; apply Ha; apply in_or_app; auto).
  destruct (h_push_ok negk st lo a Hl Hal Hv) as [st2 [lo1 [E2 [Hl2 [Il2 [P2 [V2 F2]]]]]]].
  assert (Hlo1 : forall b, In b (h_items lo1) -> b = a \/ In b (h_items lo)).
  { intros b Hb. apply (Permutation_in b (Permutation_sym P2)) in Hb. destruct Hb as [<-|Hb]; auto. }
  exists st2, lo1. split; [exact E2|]. split; [|split; [apply h_len_cons with a; exact P2|split; [|split; [|split; [exact V2|]]]]].
  - split; [exact Hl2|]. split; [|split; [congruence|split; [congruence|split]]].
    + eapply heap_ok_frame; [exact Hh|]. intros b Hb. apply F2. intros [H|H]; [congruence|exact (D b H Hb)].
    + intros b Hb Hb'. destruct (Hlo1 b Hb) as [->|H]; [contradiction|exact (D b H Hb')].
    + intros b c Hb Hc. unfold val. rewrite !V2. destruct (Hlo1 b Hb) as [->|H]; [apply Hle; exact Hc|apply O; assumption].
  - intros H. rewrite H in P2. symmetry in P2. apply Permutation_nil in P2. discriminate.
  - unfold addrs. rewrite <- P2. reflexivity.
  - intros c Hc. apply F2. intros [H|H]; apply Hc; [left; exact H|right; apply in_or_app; auto].
Qed.

Lemma insert_high st lo hi a : core st lo hi -> ~ In a (addrs lo hi) -> nonnan (val st a) ->
  (forall b, In b (h_items lo) -> (fk (val st b) <= fk (val st a))%Z) ->
  exists st' hi', h_push st hi a = Ok (st', hi') /\ core st' lo hi' /\ h_len hi' = S (h_len hi) /\
    Permutation (a :: addrs lo hi) (addrs lo hi') /\ (forall c, val st' c = val st c) /\
    (forall c, ~ In c (a :: addrs lo hi) -> st' c = st c).
Proof.
  intros [Hl [Hh [Il [Ih [D O]]]]] Ha Hv Hle.
  assert (Hal : ~ In a (h_items lo)) by (intros H; apply Ha; apply in_or_app; auto).
  assert (Hah : ~ In a (h_items hi)) by (intros H; apply Ha; apply in_or_app; auto).
  destruct (h_push_ok fk st hi a Hh Hah Hv) as [st2 [hi1 [E2 [Hh2 [Ih2 [P2 [V2 F2]]]]]]].
  assert (Hhi1 : forall b, In b (h_items hi1) -> b = a \/ In b (h_items hi)).
  { intros b Hb. apply (Permutation_in b (Permutation_sym P2)) in Hb. destruct Hb as [<-|Hb]; auto. }
  exists st2, hi1. split; [exact E2|]. split; [|split; [apply h_len_cons with a; exact P2|split; [|split; [exact V2|]]]].
  - split; [|split; [exact Hh2|split; [congruence|split; [congruence|split]]]].
    + eapply heap_ok_frame; [exact Hl|]. intros b Hb. apply F2. intros [H|H]; [congruence|exact (D b Hb H)].
    + intros b Hb Hb'. destruct (Hhi1 b Hb') as [->|H]; [contradiction|exact (D b Hb H)].
    + intros b c Hb Hc. unfold val. rewrite !V2. destruct (Hhi1 c Hc) as [->|H]; [apply Hle; exact Hb|apply O; assumption].
  - unfold addrs. rewrite <- P2. apply Permutation_middle.
  - intros c Hc. apply F2. intros [H|H]; apply Hc; [left; exact H|right; apply in_or_app; auto].
Qed.

Lemma core_frame st st' lo hi : core st lo hi -> (forall a, In a (addrs lo hi) -> st' a = st a) -> core st' lo hi.
Proof.
  intros [Hl [Hh [Il [Ih [D O]]]]] H.
  assert (H1 : forall a, In a (h_items lo) -> st' a = st a) by (intros a Ha; apply H, in_or_app; auto).
  assert (H2 : forall a, In a (h_items hi) -> st' a = st a) by (intros a Ha; apply H, in_or_app; auto).
  split; [eapply heap_ok_frame; eassumption|]. split; [eapply heap_ok_frame; eassumption|].
  split; [exact Il|]. split; [exact Ih|]. split; [exact D|].
  intros a b Ha Hb. unfold val. rewrite H1, H2 by assumption. apply O; assumption.
Qed.

Lemma core_disjoint st lo hi a : core st lo hi -> In a (addrs lo hi) ->
  (In a (h_items lo) /\ ~ In a (h_items hi) /\ it_hid (st a) = "low"%string) \/
  (In a (h_items hi) /\ ~ In a (h_items lo) /\ it_hid (st a) = "high"%string).
Proof.
  intros [[_ [_ [Hl _]]] [[_ [_ [Hh _]]] [Il [Ih [D O]]]]] Ha. apply in_app_or in Ha. destruct Ha as [Ha|Ha].
  - left. split; [exact Ha|]. split; [exact (D a Ha)|]. rewrite Hl by exact Ha. exact Il.
  - right. split; [exact Ha|]. split; [intros H; exact (D a H Ha)|]. rewrite Hh by exact Ha. exact Ih.
Qed.

(** What happens to the addresses and values when item [a] is given the value [x]. *)
Definition replaced (st : istore) (lo hi : heap) (a : nat) (x : f64) (st' : istore) (lo' hi' : heap) : Prop :=
  Permutation (addrs lo hi) (addrs lo' hi') /\ val st' a = x /\ (forall c, c <> a -> val st' c = val st c) /\
  (forall c, ~ In c (addrs lo hi) -> st' c = st c).

Lemma upd_low st lo hi a x : core st lo hi -> In a (h_items lo) -> nonnan x ->
  (forall b, In b (h_items hi) -> (fk x <= fk (val st b))%Z) ->
  exists st' lo', h_update st lo a x = Ok (st', lo') /\ core st' lo' hi /\ h_len lo' = h_len lo /\ replaced st lo hi a x st' lo' hi.
Proof.
  intros Hcore Ha Hx Hle. pose proof Hcore as [Hl [Hh [Il [Ih [D O]]]]].
  destruct (h_update_ok negk st lo a x Hl Ha Hx) as [st1 [lo1 [E [Hl1 [Il1 [P [Va [Vo [F I]]]]]]]]].
  exists st1, lo1. split; [exact E|].
  assert (Hin : forall b, In b (h_items lo1) -> In b (h_items lo)) by (intros b Hb; eapply Permutation_in; [symmetry; exact P|exact Hb]).
  split; [|split; [symmetry; apply h_len_perm; exact P|]].
  - split; [exact Hl1|]. split; [|split; [congruence|split; [congruence|split]]].
    + eapply heap_ok_frame; [exact Hh|]. intros b Hb. apply F. intros H. exact (D b H Hb).
    + intros b Hb. apply D. apply Hin. exact Hb.
    + intros b c Hb Hc. assert (Hca : c <> a) by (intros ->; exact (D a Ha Hc)). unfold val. rewrite (Vo c Hca).
      destruct (Nat.eq_dec b a) as [->|Hne]; [rewrite Va; apply Hle; exact Hc|]. rewrite (Vo b Hne). apply O; auto.
  - split; [unfold addrs; rewrite <- P; reflexivity|]. split; [exact Va|]. split; [exact Vo|].
    intros c Hc. apply F. intros H. apply Hc. apply in_or_app. auto.
Qed.

Lemma upd_high st lo hi a x : core st lo hi -> In a (h_items hi) -> nonnan x ->
  (forall b, In b (h_items lo) -> (fk (val st b) <= fk x)%Z) ->
  exists st' hi', h_update st hi a x = Ok (st', hi') /\ core st' lo hi' /\ h_len hi' = h_len hi /\ replaced st lo hi a x st' lo hi'.
Proof.
  intros Hcore Ha Hx Hle. pose proof Hcore as [Hl [Hh [Il [Ih [D O]]]]].
  destruct (h_update_ok fk st hi a x Hh Ha Hx) as [st1 [hi1 [E [Hh1 [Ih1 [P [Va [Vo [F I]]]]]]]]].
  exists st1, hi1. split; [exact E|].
  assert (Hin : forall b, In b (h_items hi1) -> In b (h_items hi)) by (intros b Hb; eapply Permutation_in; [symmetry; exact P|exact Hb]).
  split; [|split; [symmetry; apply h_len_perm; exact P|]].
  - split; [|split; [exact Hh1|split; [congruence|split; [congruence|split]]]].
    + eapply heap_ok_frame; [exact Hl|]. intros b Hb. apply F. exact (D b Hb).
    + intros b Hb Hb'. exact (D b Hb (Hin b Hb')).
    + intros b c Hb Hc. assert (Hba : b <> a) by (intros ->; exact (D a Hb Ha)). unfold val. rewrite (Vo b Hba).
      destruct (Nat.eq_dec c a) as [->|Hne]; [rewrite Va; apply Hle; exact Hb|]. rewrite (Vo c Hne). apply O; auto.
  - split; [unfold addrs; rewrite <- P; reflexivity|]. split; [exact Va|]. split; [exact Vo|].
    intros c Hc. apply F. intros H. apply Hc. apply in_or_app. auto.
Qed.

Lemma cross_up st lo hi a x : core st lo hi -> In a (h_items lo) -> nonnan x ->
  (forall b, In b (h_items lo) -> (fk (val st b) <= fk x)%Z) ->
  exists st1 lo' st' hi', h_remove st lo a = Ok (st1, lo') /\ h_push (iupd st1 a (set_val (st1 a) x)) hi a = Ok (st', hi') /\
    core st' lo' hi' /\ h_len hi' = S (h_len hi) /\ h_len lo = S (h_len lo') /\ replaced st lo hi a x st' lo' hi'.
Proof.
  intros Hcore Ha Hx Hle. pose proof Hcore as [Hl [Hh [Il [Ih [D O]]]]].
  destruct (h_remove_ok negk st lo a Hl Ha) as [st1 [lo1 [E1 [Hl1 [Il1 [P1 [[V1 F1] I1]]]]]]].
  set (st1' := iupd st1 a (set_val (st1 a) x)).
  assert (Hs : forall b, b <> a -> st1' b = st1 b) by (intros b Hb; unfold st1', iupd; destruct (Nat.eqb_spec b a); congruence).
  assert (Hsa : st1' a = set_val (st1 a) x) by (unfold st1', iupd; rewrite Nat.eqb_refl; reflexivity).
  assert (Hnd : NoDup (a :: h_items lo1)).
  { destruct Hl as [_ [[Hnd _] _]]. eapply Permutation_NoDup; [symmetry; exact P1|exact Hnd]. }
  assert (Hin : forall b, In b (h_items lo1) -> In b (h_items lo) /\ b <> a).
  { intros b Hb. split; [eapply Permutation_in; [exact P1|right; exact Hb]|]. intros ->. inversion Hnd; contradiction. }
  assert (Hah : ~ In a (h_items hi)) by exact (D a Ha).
  assert (Hc1 : core st1' lo1 hi).
  { apply core_frame with st1.
    - split; [exact Hl1|]. split; [|split; [congruence|split; [congruence|split]]].
      + eapply heap_ok_frame; [exact Hh|]. intros b Hb. apply F1. intros H. exact (D b H Hb).
      + intros b Hb. apply D. apply Hin. exact Hb.
      + intros b c Hb Hc. unfold val. rewrite !V1. apply O; [apply Hin; exact Hb|exact Hc].
    - intros b Hb. apply Hs. intros ->. apply in_app_or in Hb. destruct Hb as [Hb|Hb]; [|contradiction].
      apply Hin in Hb. tauto. }
  assert (Han : ~ In a (addrs lo1 hi)).
  { intros H. apply in_app_or in H. destruct H as [H|H]; [apply Hin in H; tauto|contradiction]. }
  destruct (insert_high st1' lo1 hi a Hc1 Han) as [st2 [hi1 [E2 [C2 [L2 [P2 [V2 F2]]]]]]].
  { unfold val. rewrite Hsa. exact Hx. }
  { intros b Hb. destruct (Hin b Hb) as [Hb1 Hb2]. unfold val. rewrite Hsa, Hs by exact Hb2. rewrite V1. apply Hle. exact Hb1. }
  exists st1, lo1, st2, hi1. split; [exact E1|]. split; [exact E2|]. split; [exact C2|]. split; [exact L2|].
  split; [apply h_len_cons with a; exact P1|]. split; [|split; [|split]].
  - etransitivity; [|exact P2]. unfold addrs. rewrite <- P1. reflexivity.
  - rewrite V2. unfold val. rewrite Hsa. reflexivity.
  - intros c Hc. rewrite V2. unfold val. rewrite Hs by exact Hc. apply V1.
  - intros c Hc. assert (Hca : c <> a) by (intros ->; apply Hc, in_or_app; auto). rewrite F2, Hs, F1; auto.
    + intros H. apply Hc, in_or_app. auto.
    + intros [H|H]; [congruence|]. apply Hc. apply in_app_or in H. apply in_or_app.
      destruct H as [H|H]; [left; apply Hin; exact H|right; exact H].
Qed.

Lemma cross_down st lo hi a x : core st lo hi -> In a (h_items hi) -> nonnan x ->
  (forall b, In b (h_items hi) -> (fk x <= fk (val st b))%Z) ->
  exists st1 hi' st' lo', h_remove st hi a = Ok (st1, hi') /\ h_push (iupd st1 a (set_val (st1 a) x)) lo a = Ok (st', lo') /\
    core st' lo' hi' /\ h_len lo' = S (h_len lo) /\ h_len hi = S (h_len hi') /\ replaced st lo hi a x st' lo' hi'.
Proof.
  intros Hcore Ha Hx Hle. pose proof Hcore as [Hl [Hh [Il [Ih [D O]]]]].
  destruct (h_remove_ok fk st hi a Hh Ha) as [st1 [hi1 [E1 [Hh1 [Ih1 [P1 [[V1 F1] I1]]]]]]].
  set (st1' := iupd st1 a (set_val (st1 a) x)).
  assert (Hs : forall b, b <> a -> st1' b = st1 b) by (intros b Hb; unfold st1', iupd; destruct (Nat.eqb_spec b a); congruence).
  assert (Hsa : st1' a = set_val (st1 a) x) by (unfold st1', iupd; rewrite Nat.eqb_refl; reflexivity).
  assert (Hnd : NoDup (a :: h_items hi1)).
  { destruct Hh as [_ [[Hnd _] _]]. eapply Permutation_NoDup; [symmetry; exact P1|exact Hnd]. }
  assert (Hin : forall b, In b (h_items hi1) -> In b (h_items hi) /\ b <> a).
  { intros b Hb. split; [eapply Permutation_in; [exact P1|right; exact Hb]|]. intros ->. inversion Hnd; contradiction. }
  assert (Hal : ~ In a (h_items lo)) by (intros H; exact (D a H Ha)).
  assert (Hc1 : core st1' lo hi1).
  { apply core_frame with st1.
    - split; [|split; [exact Hh1|split; [congruence|split; [congruence|split]]]].
      + eapply heap_ok_frame; [exact Hl|]. intros b Hb. apply F1. exact (D b Hb).
      + intros b Hb Hb'. exact (D b Hb (proj1 (Hin b Hb'))).
      + intros b c Hb Hc. unfold val. rewrite !V1. apply O; [exact Hb|apply Hin; exact Hc].
    - intros b Hb. apply Hs. intros ->. apply in_app_or in Hb. destruct Hb as [Hb|Hb]; [contradiction|].
      apply Hin in Hb. tauto. }
  assert (Han : ~ In a (addrs lo hi1)).
  { intros H. apply in_app_or in H. destruct H as [H|H]; [contradiction|apply Hin in H; tauto]. }
  destruct (insert_low st1' lo hi1 a Hc1 Han) as [st2 [lo1 [E2 [C2 [L2 [_ [P2 [V2 F2]]]]]]]].
  { unfold val. rewrite Hsa. exact Hx. }
  { intros b Hb. destruct (Hin b Hb) as [Hb1 Hb2]. unfold val. rewrite Hsa, Hs by exact Hb2. rewrite V1. apply Hle. exact Hb1. }
  exists st1, hi1, st2, lo1. split; [exact E1|]. split; [exact E2|]. split; [exact C2|]. split; [exact L2|].
  split; [apply h_len_cons with a; exact P1|]. split; [|split; [|split]].
  - etransitivity; [|exact P2]. unfold addrs. rewrite <- P1. symmetry. apply Permutation_middle.
  - rewrite V2. unfold val. rewrite Hsa. reflexivity.
  - intros c Hc. rewrite V2. unfold val. rewrite Hs by exact Hc. apply V1.
  - intros c Hc. assert (Hca : c <> a) by (intros ->; apply Hc, in_or_app; auto). rewrite F2, Hs, F1; auto.
    + intros H. apply Hc, in_or_app. auto.
    + intros [H|H]; [congruence|]. apply Hc. apply in_app_or in H. apply in_or_app.
      destruct H as [H|H]; [left; exact H|right; apply Hin; exact H].
Qed.

(** ** The metric *)
Definition stored (m : hmed) : list f64 := map (val (hm_store m)) (addrs (hm_low m) (hm_high m)).

Definition minv (w : Z) (h : list f64) (m : hmed) : Prop :=
  hm_window m = w /\ core (hm_store m) (hm_low m) (hm_high m) /\
  h_len (hm_low m) <= h_len (hm_high m) + 1 /\ h_len (hm_high m) <= h_len (hm_low m) + 1 /\
  (h_items (hm_low m) = [] -> h_items (hm_high m) = []) /\
  (forall a, In a (addrs (hm_low m) (hm_high m)) -> a < hm_next m) /\
  rcap (hm_queue m) = round_up w /\
  (forall a, In a (ritems (hm_queue m)) -> In a (addrs (hm_low m) (hm_high m))) /\
  ring_len (hm_queue m) = (if (w =? 0)%Z then 0 else Z.min w (zlen h))%Z /\
  zlen (stored m) = (if (w =? 0)%Z then zlen h else Z.min w (zlen h)) /\
  ((w = 0 \/ zlen h <= w)%Z -> Permutation h (stored m)) /\
  (forall v, In v (stored m) -> In v h) /\
  (forall h0 x, h = h0 ++ [x] -> In x (stored m)).

Lemma replaced_in st lo hi a x st' lo' hi' : replaced st lo hi a x st' lo' hi' -> In a (addrs lo hi) -> In a (addrs lo' hi').
Proof. intros [P _] H. eapply Permutation_in; eassumption. Qed.

Lemma push_ok w h m x : (w = 0 \/ 2 <= w)%Z -> minv w h m -> nonnan x -> exists m', hm_push m x = Ok m' /\ minv w (h ++ [x]) m'.
Proof.
  intros Hw (Ew & C & B1 & B2 & B3 & Nx & Rc & Rq & Rl & Sz & Sp & Si & _) Hx.
  assert (Hlen : zlen (stored m) = Z.of_nat (h_len (hm_low m) + h_len (hm_high m))).
  { unfold stored, zlen, addrs, h_len. rewrite map_length, app_length. reflexivity. }
  assert (Hzs : zlen (h ++ [x]) = (zlen h + 1)%Z) by (unfold zlen; rewrite app_length; cbn; lia).
  assert (Hz0 : (0 <= zlen h)%Z) by (unfold zlen; lia).
  unfold hm_push. rewrite Ew.
  destruct (negb (w =? 0)%Z && (ring_len (hm_queue m) =? w)%Z) eqn:Ec.
  - (* the window is full *)
    apply andb_prop in Ec. destruct Ec as [Ec1 Ec2]. apply negb_true_iff in Ec1. rewrite Ec1 in *.
    apply Z.eqb_neq in Ec1. apply Z.eqb_eq in Ec2. assert (Hw2 : (2 <= w)%Z) by lia. rewrite Rl in Ec2.
    destruct (ritems (hm_queue m)) as [|a q] eqn:Eq.
    { exfalso. unfold ring_len in Rl. rewrite Eq in Rl. cbn in Rl. lia. }
    unfold ring_get. rewrite Eq. cbn [bind].
    assert (Ha : In a (addrs (hm_low m) (hm_high m))) by (apply Rq; left; reflexivity).
    assert (Hne : h_items (hm_low m) <> []).
    { intros H. pose proof (B3 H) as H'. unfold h_len in Hlen. rewrite H, H' in Hlen. cbn in Hlen. lia. }
    destruct (peek_ok _ _ _ (proj1 C) Hne) as [t [Ht [Ep Hmax]]]. rewrite Ep. cbn [bind].
    assert (Hnt : nonnan (val (hm_store m) t)) by (eapply core_num; [exact C|apply in_or_app; left; exact Ht]).
    assert (Hord : forall b, In b (h_items (hm_high m)) -> (fk (val (hm_store m) t) <= fk (val (hm_store m) b))%Z).
    { intros b Hb. destruct C as (_ & _ & _ & _ & _ & O). apply O; assumption. }
    assert (Hmax' : forall b, In b (h_items (hm_low m)) -> (fk (val (hm_store m) b) <= fk (val (hm_store m) t))%Z).
    { intros b Hb. specialize (Hmax b Hb). unfold negk in Hmax. lia. }
    assert (Eid : h_id (hm_low m) = "low"%string) by apply C. rewrite Eid.
    assert (G : exists st1 lo1 hi1,
      (if String.eqb (it_hid (hm_store m a)) "low" && fle x (val (hm_store m) t) then
         '(st1, lo1) <- h_update (hm_store m) (hm_low m) a x ;; Ok (st1, lo1, hm_high m)
       else if negb (String.eqb (it_hid (hm_store m a)) "low") && fgt x (val (hm_store m) t) then
         '(st1, hi1) <- h_update (hm_store m) (hm_high m) a x ;; Ok (st1, hm_low m, hi1)
       else if String.eqb (it_hid (hm_store m a)) "low" && fgt x (val (hm_store m) t) then
         '(st1, lo1) <- h_remove (hm_store m) (hm_low m) a ;;
         '(st2, hi1) <- h_push (iupd st1 a (set_val (st1 a) x)) (hm_high m) a ;; Ok (st2, lo1, hi1)
       else
         '(st1, hi1) <- h_remove (hm_store m) (hm_high m) a ;;
         '(st2, lo1) <- h_push (iupd st1 a (set_val (st1 a) x)) (hm_low m) a ;; Ok (st2, lo1, hi1)) = Ok (st1, lo1, hi1) /\
      core st1 lo1 hi1 /\ h_len lo1 <= h_len (hm_low m) + 1 /\ h_len hi1 <= h_len (hm_high m) + 1 /\
      h_len lo1 + h_len hi1 = h_len (hm_low m) + h_len (hm_high m) /\
      replaced (hm_store m) (hm_low m) (hm_high m) a x st1 lo1 hi1).
    { rewrite fle_key, fgt_key by assumption.
      destruct (core_disjoint _ _ _ a C Ha) as [(Hin & Hnin & ->)|(Hin & Hnin & ->)]; cbn [String.eqb Ascii.eqb Bool.eqb andb negb].
      - destruct (Z.leb_spec (fk x) (fk (val (hm_store m) t))) as [Hle|Hgt].
        + destruct (upd_low _ _ _ a x C Hin Hx) as (st1 & lo1 & E & C1 & L1 & R1).
          { intros b Hb. specialize (Hord b Hb). lia. }
          rewrite E. cbn [bind]. exists st1, lo1, (hm_high m). split; [reflexivity|]. split; [exact C1|]. repeat split; try lia; apply R1.
        + destruct (Z.ltb_spec (fk (val (hm_store m) t)) (fk x)); [|lia].
          destruct (cross_up _ _ _ a x C Hin Hx) as (st1 & lo1 & st2 & hi1 & E1 & E2 & C1 & L1 & L2 & R1).
          { intros b Hb. specialize (Hmax' b Hb). lia. }
          rewrite E1. cbn [bind]. rewrite E2. cbn [bind]. exists st2, lo1, hi1. split; [reflexivity|]. split; [exact C1|].
          repeat split; try lia; apply R1.
      - destruct (Z.ltb_spec (fk (val (hm_store m) t)) (fk x)) as [Hgt|Hle].
        + destruct (upd_high _ _ _ a x C Hin Hx) as (st1 & hi1 & E & C1 & L1 & R1).
          { intros b Hb. specialize (Hmax' b Hb). lia. }
          rewrite E. cbn [bind]. exists st1, (hm_low m), hi1. split; [reflexivity|]. split; [exact C1|]. repeat split; try lia; apply R1.
        + destruct (cross_down _ _ _ a x C Hin Hx) as (st1 & hi1 & st2 & lo1 & E1 & E2 & C1 & L1 & L2 & R1).
          { intros b Hb. specialize (Hord b Hb). lia. }
          rewrite E1. cbn [bind]. rewrite E2. cbn [bind]. exists st2, lo1, hi1. split; [reflexivity|]. split; [exact C1|].
          repeat split; try lia; apply R1. }
    destruct G as (st1 & lo1 & hi1 & E1 & C1 & L1 & L2 & L3 & R1). cbv zeta. rewrite E1. cbn [bind].
    pose proof (replaced_in _ _ _ _ _ _ _ _ R1 Ha) as Ha1. destruct R1 as (P1 & Va & Vo & F1).
    destruct (rebalance_ok st1 lo1 hi1 a C1 Ha1) as (st2 & lo2 & hi2 & b & E2 & C2 & L4 & L5 & N2 & P2 & V2 & F2 & Hb); [lia|lia|].
    rewrite E2. cbn [bind]. cbn [negb].
    assert (Rl' : ring_len (mkRing (rcap (hm_queue m)) q) = (w - 1)%Z).
    { unfold ring_len in *. rewrite Eq in Rl. unfold zlen in *. cbn [ritems length] in *. lia. }
    rewrite (ring_put_ok _ b w) by solve [exact Rc | lia]. cbn [bind ritems rcap]. eexists. split; [reflexivity|].
    assert (P : Permutation (addrs (hm_low m) (hm_high m)) (addrs lo2 hi2)) by (etransitivity; eassumption).
    assert (Vals : forall c, In c (addrs lo2 hi2) -> val st2 c = x \/ In (val st2 c) (stored m)).
    { intros c Hc. rewrite V2. destruct (Nat.eq_dec c a) as [->|Hca]; [left; exact Va|]. right. rewrite Vo by exact Hca.
      unfold stored. apply in_map. eapply Permutation_in; [symmetry; exact P|exact Hc]. }
    unfold minv. cbn [hm_window hm_low hm_high hm_queue hm_store hm_next ritems rcap].
    assert (Hl2 : h_len lo2 + h_len hi2 = h_len (hm_low m) + h_len (hm_high m)).
    { apply Permutation_length in P. unfold addrs in P. rewrite !app_length in P. unfold h_len. lia. }
    assert (Hsl : zlen (stored (mkHM w lo2 hi2 (mkRing (rcap (hm_queue m)) (q ++ [b])) st2 (hm_next m))) = zlen (stored m)).
    { rewrite Hlen. unfold stored, zlen, addrs, h_len in *. cbn [hm_store hm_low hm_high]. rewrite map_length, app_length. lia. }
    split; [reflexivity|]. split; [exact C2|]. split; [exact L4|]. split; [exact L5|].
    split; [intros H; exfalso; unfold h_len in *; rewrite H in *; cbn in *; lia|].
    split; [intros c Hc; apply Nx; eapply Permutation_in; [symmetry; exact P|exact Hc]|]. split; [exact Rc|].
    split; [intros c Hc; apply in_app_or in Hc; destruct Hc as [Hc|[<-|[]]]; [eapply Permutation_in; [exact P|apply Rq; right; exact Hc]|exact Hb]|].
    destruct (Z.eqb_spec w 0); [lia|].
    split; [unfold ring_len, zlen in *; cbn [ritems] in *; rewrite app_length; cbn [length]; lia|].
    split; [rewrite Hsl, Sz; lia|]. split; [intros [H|H]; lia|]. split.
    + intros v Hv. unfold stored in Hv. cbn [hm_store hm_low hm_high] in Hv. apply in_map_iff in Hv. destruct Hv as (c & <- & Hc).
      apply in_or_app. destruct (Vals c Hc) as [->|H]; [right; left; reflexivity|left; apply Si; exact H].
    + intros h0 y E. apply app_inj_tail in E. destruct E as [_ <-]. unfold stored. cbn [hm_store hm_low hm_high].
      rewrite <- Va. rewrite <- V2. apply in_map. eapply Permutation_in; [exact P|exact Ha].
  - (* a new item *)
    set (a := hm_next m). set (st := iupd (hm_store m) a (mkItem x "" 0%Z)). cbv zeta.
    assert (Hs : forall b, b <> a -> st b = hm_store m b) by (intros b Hb; unfold st, iupd; destruct (Nat.eqb_spec b a); congruence).
    assert (Hsa : st a = mkItem x "" 0%Z) by (unfold st, iupd; rewrite Nat.eqb_refl; reflexivity).
    assert (Han : ~ In a (addrs (hm_low m) (hm_high m))) by (intros H; apply Nx in H; unfold a in H; lia).
    assert (C0 : core st (hm_low m) (hm_high m)).
    { eapply core_frame; [exact C|]. intros b Hb. apply Hs. congruence. }
    assert (Hva : nonnan (val st a)) by (unfold val; rewrite Hsa; exact Hx).
    assert (G : exists toLow st1 lo1 hi1,
      (if h_len (hm_low m) =? 0 then Ok true else p <- h_peek st (hm_low m) ;; Ok (fle x p)) = Ok toLow /\
      (if toLow : bool then '(st1, lo1) <- h_push st (hm_low m) a ;; Ok (st1, lo1, hm_high m)
       else '(st1, hi1) <- h_push st (hm_high m) a ;; Ok (st1, hm_low m, hi1)) = Ok (st1, lo1, hi1) /\
      core st1 lo1 hi1 /\ h_items lo1 <> [] /\ h_len lo1 <= h_len hi1 + 2 /\ h_len hi1 <= h_len lo1 + 2 /\
      Permutation (a :: addrs (hm_low m) (hm_high m)) (addrs lo1 hi1) /\ (forall c, val st1 c = val st c)).
    { destruct (Nat.eqb_spec (h_len (hm_low m)) 0) as [E0|E0].
      - assert (El : h_items (hm_low m) = []) by (unfold h_len in E0; destruct (h_items (hm_low m)); [reflexivity|discriminate]).
        pose proof (B3 El) as Eh.
        destruct (insert_low st _ _ a C0 Han Hva) as (st1 & lo1 & E & C1 & L1 & N1 & P1 & V1 & F1).
        { rewrite Eh. intros b []. }
        exists true, st1, lo1, (hm_high m). rewrite E. cbn [bind]. split; [reflexivity|]. split; [reflexivity|].
        split; [exact C1|]. split; [exact N1|]. split; [lia|]. split; [lia|]. split; [exact P1|exact V1].
      - assert (Hne : h_items (hm_low m) <> []) by (intros H; apply E0; unfold h_len; rewrite H; reflexivity).
        destruct (peek_ok _ _ _ (proj1 C0) Hne) as [t [Ht [Ep Hmax]]]. rewrite Ep. cbn [bind].
        assert (Hnt : nonnan (val st t)) by (eapply core_num; [exact C0|apply in_or_app; left; exact Ht]).
        rewrite fle_key by assumption. destruct (Z.leb_spec (fk x) (fk (val st t))) as [Hle|Hgt].
        + destruct (insert_low st _ _ a C0 Han Hva) as (st1 & lo1 & E & C1 & L1 & N1 & P1 & V1 & F1).
          { intros b Hb. destruct C0 as (_ & _ & _ & _ & _ & O). specialize (O t b Ht Hb). unfold val at 1. rewrite Hsa. cbn [it_val]. lia. }
          exists true, st1, lo1, (hm_high m). rewrite E. cbn [bind]. split; [reflexivity|]. split; [reflexivity|].
          split; [exact C1|]. split; [exact N1|]. split; [lia|]. split; [lia|]. split; [exact P1|exact V1].
        + destruct (insert_high st _ _ a C0 Han Hva) as (st1 & hi1 & E & C1 & L1 & P1 & V1 & F1).
          { intros b Hb. specialize (Hmax b Hb). unfold negk in Hmax. unfold val at 2. rewrite Hsa. cbn [it_val]. lia. }
          exists false, st1, (hm_low m), hi1. rewrite E. cbn [bind]. split; [reflexivity|]. split; [reflexivity|].
          split; [exact C1|]. split; [exact Hne|]. split; [lia|]. split; [lia|]. split; [exact P1|exact V1]. }
    destruct G as (toLow & st1 & lo1 & hi1 & E0 & E1 & C1 & N1 & L1 & L2 & P1 & V1). rewrite E0. cbn [bind]. rewrite E1. cbn [bind].
    assert (Ha1 : In a (addrs lo1 hi1)) by (eapply Permutation_in; [exact P1|left; reflexivity]).
    destruct (rebalance_ok st1 lo1 hi1 a C1 Ha1 ltac:(lia) ltac:(lia)) as (st2 & lo2 & hi2 & b & E2 & C2 & L4 & L5 & N2 & P2 & V2 & F2 & Hb).
    rewrite E2. cbn [bind].
    assert (P : Permutation (a :: addrs (hm_low m) (hm_high m)) (addrs lo2 hi2)) by (etransitivity; eassumption).
    assert (Pv : Permutation (x :: stored m) (map (val st2) (addrs lo2 hi2))).
    { etransitivity; [|apply Permutation_map; exact P]. cbn [map].
      rewrite V2, V1. unfold val at 1. rewrite Hsa. cbn [it_val]. constructor. unfold stored.
      erewrite map_ext_in; [reflexivity|]. intros c Hc. rewrite V2, V1. unfold val. rewrite Hs; [reflexivity|]. congruence. }
    assert (G : exists q', (if negb (w =? 0)%Z then ring_put (hm_queue m) b else Ok (hm_queue m)) = Ok q' /\ rcap q' = round_up w /\
       (forall c, In c (ritems q') -> In c (addrs lo2 hi2)) /\
       ring_len q' = (if (w =? 0)%Z then 0 else Z.min w (zlen h + 1))%Z /\ ((w <> 0)%Z -> (zlen h + 1 <= w)%Z)).
    { destruct (Z.eqb_spec w 0) as [->|Hw0]; cbn [negb andb] in *.
      - exists (hm_queue m). split; [reflexivity|]. split; [exact Rc|]. split; [|split; [exact Rl|lia]].
        intros c Hc. eapply Permutation_in; [exact P|right; apply Rq; exact Hc].
      - apply Z.eqb_neq in Ec. rewrite Rl in Ec. rewrite (ring_put_ok _ b w) by (auto; lia). eexists. split; [reflexivity|].
        cbn [rcap ritems]. split; [exact Rc|]. split; [|split].
        + intros c Hc. apply in_app_or in Hc. destruct Hc as [Hc|[<-|[]]]; [eapply Permutation_in; [exact P|right; apply Rq; exact Hc]|exact Hb].
        + unfold ring_len, zlen in *. cbn [ritems] in *. rewrite app_length. cbn [length]. lia.
        + intros _. lia. }
    destruct G as (q' & Eq & Rc' & Rq' & Rl' & Hle). rewrite Eq. cbn [bind]. eexists. split; [reflexivity|].
    unfold minv. cbn [hm_window hm_low hm_high hm_queue hm_store hm_next].
    change (stored (mkHM w lo2 hi2 q' st2 (S a))) with (map (val st2) (addrs lo2 hi2)).
    split; [reflexivity|]. split; [exact C2|]. split; [exact L4|]. split; [exact L5|]. split; [intros H; exfalso; exact (N2 N1 H)|].
    split; [intros c Hc; apply (Permutation_in c (Permutation_sym P)) in Hc; destruct Hc as [<-|Hc]; [lia|apply Nx in Hc; unfold a; lia]|].
    split; [exact Rc'|]. split; [exact Rq'|]. rewrite Hzs. split; [exact Rl'|].
    assert (Hlv : zlen (map (val st2) (addrs lo2 hi2)) = (zlen (stored m) + 1)%Z).
    { unfold zlen. rewrite <- (Permutation_length Pv). cbn [length]. lia. }
    split; [rewrite Hlv, Sz; destruct (Z.eqb_spec w 0); [reflexivity|]; specialize (Hle ltac:(assumption)); lia|]. split; [|split].
    + intros _. etransitivity; [|exact Pv]. rewrite <- Permutation_cons_append. constructor. apply Sp.
      destruct (Z.eq_dec w 0); [auto|]. right. specialize (Hle ltac:(assumption)). lia.
    + intros v Hv. apply (Permutation_in v (Permutation_sym Pv)) in Hv. apply in_or_app.
      destruct Hv as [<-|Hv]; [right; left; reflexivity|left; apply Si; exact Hv].
    + intros h0 y E. apply app_inj_tail in E. destruct E as [_ <-]. eapply Permutation_in; [exact Pv|left; reflexivity].
Qed.

Lemma heap_ok_nil g st id cmp : cmp_key cmp g -> heap_ok g st (mkHeap id [] cmp).
Proof.
  intros H. split; [exact H|]. split; [split; [constructor|cbn; intros; lia]|]. split; [intros a []|].
  split; [constructor|]. intros j Hj. cbn in Hj. lia.
Qed.

Lemma core_nil st : core st low_empty high_empty.
Proof.
  split; [apply heap_ok_nil, fmax_key|]. split; [apply heap_ok_nil, fmin_key|]. split; [reflexivity|].
  split; [reflexivity|]. split; [intros a []|intros a b []].
Qed.

Lemma clear_ok w h m : (w = 0 \/ 2 <= w)%Z -> minv w h m -> exists m', hm_clear m = Ok m' /\ minv w [] m'.
Proof.
  intros Hw (Ew & C & _ & _ & _ & Nx & _). eexists. split; [reflexivity|].
  rewrite Ew. unfold minv, low_empty, high_empty, ring_new, ring_len, stored, addrs, h_len. cbn.
  split; [reflexivity|]. split.
  { apply core_nil. }
  repeat split; auto; try tauto; try lia.
  - destruct (w =? 0)%Z; unfold zlen; cbn; lia.
  - destruct (w =? 0)%Z; unfold zlen; cbn; lia.
  - intros h0 x H. destruct h0; discriminate.
Qed.

Lemma new_ok w : (w = 0 \/ 2 <= w)%Z -> exists m, new_heap_median w = Ok m /\ minv w [] m.
Proof.
  intros Hw. unfold new_heap_median. destruct (Z.ltb_spec w 0); [lia|]. eexists. split; [reflexivity|].
  unfold minv, low_empty, high_empty, ring_new, ring_len, stored, addrs, h_len. cbn.
  split; [reflexivity|]. split.
  { apply core_nil. }
  repeat split; auto; try tauto; try lia.
  - destruct (w =? 0)%Z; unfold zlen; cbn; lia.
  - destruct (w =? 0)%Z; unfold zlen; cbn; lia.
  - intros h0 x H0. destruct h0; discriminate.
Qed.

(** ** The value *)
Lemma filter_all {A} (p : A -> bool) l : (forall x, In x l -> p x = true) -> filter p l = l.
Proof. induction l as [|y l IH]; intros H; cbn; [reflexivity|]. rewrite (H y) by (left; reflexivity). f_equal. apply IH. intros x Hx. apply H. right. exact Hx. Qed.
Lemma filter_none {A} (p : A -> bool) l : (forall x, In x l -> p x = false) -> filter p l = [].
Proof. induction l as [|y l IH]; intros H; cbn; [reflexivity|]. rewrite (H y) by (left; reflexivity). apply IH. intros x Hx. apply H. right. exact Hx. Qed.
Lemma filter_len_le {A} (p : A -> bool) l : length (filter p l) <= length l.
Proof. induction l; cbn; [lia|]. destruct (p a); cbn; lia. Qed.
Lemma filter_len_lt {A} (p : A -> bool) l x : In x l -> p x = false -> length (filter p l) < length l.
Proof.
  induction l as [|y l IH]; intros Hi Hp; [destruct Hi|]; cbn; destruct Hi as [E|H].
  - subst. rewrite Hp. pose proof (filter_len_le p l). lia.
  - specialize (IH H Hp). destruct (p y); cbn; lia.
Qed.
Lemma filter_len_pos {A} (p : A -> bool) l x : In x l -> p x = true -> 0 < length (filter p l).
Proof. intros H Hp. destruct (filter p l) eqn:E; [|cbn; lia]. exfalso. assert (In x (filter p l)) by (apply filter_In; auto). rewrite E in *. contradiction. Qed.

Lemma low_top A B p : Forall nonnan A -> Forall nonnan B -> In p A -> (forall x, In x A -> (fk x <= fk p)%Z) ->
  (forall x, In x B -> (fk p <= fk x)%Z) -> is_kth (A ++ B) (length A - 1) p.
Proof.
  rewrite !Forall_forall. intros NA NB Hp HA HB. split; [apply NA; exact Hp|]. unfold count_lt, count_le. rewrite !filter_app, !app_length.
  rewrite (filter_none (fun y => flt y p) B).
  2:{ intros x Hx. rewrite flt_key by (first [apply NA; assumption | apply NB; assumption]). apply Z.ltb_ge. auto. }
  rewrite (filter_all (fun y => fle y p) A).
  2:{ intros x Hx. rewrite fle_key by (first [apply NA; assumption | apply NB; assumption]). apply Z.leb_le. auto. }
  pose proof (filter_len_lt (fun y => flt y p) A p Hp) as H. cbn [length].
  assert (flt p p = false) by (rewrite flt_key by (first [apply NA; assumption | apply NB; assumption]); apply Z.ltb_irrefl). specialize (H H0). lia.
Qed.
Lemma high_top A B p : Forall nonnan A -> Forall nonnan B -> In p B -> (forall x, In x B -> (fk p <= fk x)%Z) ->
  (forall x, In x A -> (fk x <= fk p)%Z) -> is_kth (A ++ B) (length A) p.
Proof.
  rewrite !Forall_forall. intros NA NB Hp HB HA. split; [apply NB; exact Hp|]. unfold count_lt, count_le. rewrite !filter_app, !app_length.
  rewrite (filter_none (fun y => flt y p) B).
  2:{ intros x Hx. rewrite flt_key by (first [apply NA; assumption | apply NB; assumption]). apply Z.ltb_ge. auto. }
  rewrite (filter_all (fun y => fle y p) A).
  2:{ intros x Hx. rewrite fle_key by (first [apply NA; assumption | apply NB; assumption]). apply Z.leb_le. auto. }
  pose proof (filter_len_le (fun y => flt y p) A).
  pose proof (filter_len_pos (fun y => fle y p) B p Hp ltac:(cbv beta; rewrite fle_key by (first [apply NA; assumption | apply NB; assumption]); apply Z.leb_refl)). cbn [length]. lia.
Qed.

Lemma count_lt_perm v l l' : Permutation l l' -> count_lt v l = count_lt v l'.
Proof. intros H. unfold count_lt. induction H; cbn; auto; [destruct (flt x v); cbn; auto|destruct (flt x v), (flt y v); cbn; auto|congruence]. Qed.
Lemma count_le_perm v l l' : Permutation l l' -> count_le v l = count_le v l'.
Proof. intros H. unfold count_le. induction H; cbn; auto; [destruct (fle x v); cbn; auto|destruct (fle x v), (fle y v); cbn; auto|congruence]. Qed.
Lemma is_kth_perm l l' k v : Permutation l l' -> is_kth l k v -> is_kth l' k v.
Proof. intros P [N H]. split; [exact N|]. rewrite <- (count_lt_perm v l l' P), <- (count_le_perm v l l' P). exact H. Qed.
Lemma median_result_perm l l' r : Permutation l l' -> median_result l r -> median_result l' r.
Proof.
  intros P [Ho He]. pose proof (Permutation_length P) as L. split.
  - intros H. rewrite <- L in *. eapply is_kth_perm; [exact P|]. auto.
  - intros H. rewrite <- L in *. destruct (He H) as (lo & hi & K1 & K2 & E). exists lo, hi.
    split; [eapply is_kth_perm; eassumption|]. split; [eapply is_kth_perm; eassumption|exact E].
Qed.

Lemma value_ok w h m : minv w h m -> (stored m = [] -> hm_value m = Err ENoValues) /\
  (stored m <> [] -> exists r, hm_value m = Ok r /\ median_result (stored m) r).
Proof.
  intros (Ew & C & B1 & B2 & B3 & Nx & Rc & Rq & Rl & Sz & Sp & Si & _). unfold hm_value.
  set (st := hm_store m) in *. set (lo := hm_low m) in *. set (hi := hm_high m) in *.
  assert (Es : stored m = map (val st) (h_items lo) ++ map (val st) (h_items hi)) by (unfold stored, addrs; apply map_app).
  assert (Hlen : length (stored m) = h_len lo + h_len hi) by (rewrite Es, app_length, !map_length; reflexivity).
  assert (NA : Forall nonnan (map (val st) (h_items lo))).
  { apply Forall_forall. intros x Hx. apply in_map_iff in Hx. destruct Hx as (a & <- & Ha). eapply core_num; [exact C|apply in_or_app; left; exact Ha]. }
  assert (NB : Forall nonnan (map (val st) (h_items hi))).
  { apply Forall_forall. intros x Hx. apply in_map_iff in Hx. destruct Hx as (a & <- & Ha). eapply core_num; [exact C|apply in_or_app; right; exact Ha]. }
  destruct C as (Hl & Hh & _ & _ & _ & O).
  assert (GL : h_items lo <> [] -> exists p, h_peek st lo = Ok p /\ is_kth (stored m) (h_len lo - 1) p).
  { intros Hne. destruct (peek_ok _ _ _ Hl Hne) as [t [Ht [Ep Hmax]]]. exists (val st t). split; [exact Ep|].
    rewrite Es. replace (h_len lo) with (length (map (val st) (h_items lo))) by apply map_length. apply low_top; auto.
    - apply in_map. exact Ht.
    - intros x Hx. apply in_map_iff in Hx. destruct Hx as (a & <- & Ha). specialize (Hmax a Ha). unfold negk in Hmax. lia.
    - intros x Hx. apply in_map_iff in Hx. destruct Hx as (a & <- & Ha). apply O; assumption. }
  assert (GH : h_items hi <> [] -> exists p, h_peek st hi = Ok p /\ is_kth (stored m) (h_len lo) p).
  { intros Hne. destruct (peek_ok _ _ _ Hh Hne) as [t [Ht [Ep Hmin]]]. exists (val st t). split; [exact Ep|].
    rewrite Es. replace (h_len lo) with (length (map (val st) (h_items lo))) by apply map_length. apply high_top; auto.
    - apply in_map. exact Ht.
    - intros x Hx. apply in_map_iff in Hx. destruct Hx as (a & <- & Ha). apply Hmin. exact Ha.
    - intros x Hx. apply in_map_iff in Hx. destruct Hx as (a & <- & Ha). apply O; assumption. }
  assert (NL : 0 < h_len lo -> h_items lo <> []) by (intros H E; unfold h_len in H; rewrite E in H; cbn in H; lia).
  assert (NH : 0 < h_len hi -> h_items hi <> []) by (intros H E; unfold h_len in H; rewrite E in H; cbn in H; lia).
  split.
  - intros E. rewrite E in Hlen. cbn in Hlen. rewrite <- Hlen. reflexivity.
  - intros E. assert (0 < h_len lo + h_len hi) by (rewrite <- Hlen; destruct (stored m); [congruence|cbn; lia]).
    destruct (Nat.eqb_spec (h_len lo + h_len hi) 0); [lia|].
    unfold median_result. rewrite Hlen. rewrite Nat.div2_div.
    destruct (Nat.ltb_spec (h_len lo) (h_len hi)) as [Hlt|Hge]; [|destruct (Nat.ltb_spec (h_len hi) (h_len lo)) as [Hlt|Hge']].
    + destruct (GH (NH ltac:(lia))) as (p & E1 & K1). exists p. split; [exact E1|].
      assert (Hd : (h_len lo + h_len hi) / 2 = h_len lo) by (symmetry; apply (Nat.div_unique _ 2 _ 1); lia). rewrite Hd. split; [intros _; exact K1|].
      intros [k Hk]. lia.
    + destruct (GL (NL ltac:(lia))) as (p & E1 & K1). exists p. split; [exact E1|].
      assert (Hd : (h_len lo + h_len hi) / 2 = h_len lo - 1) by (symmetry; apply (Nat.div_unique _ 2 _ 1); lia). rewrite Hd. split; [intros _; exact K1|].
      intros [k Hk]. lia.
    + destruct (GL (NL ltac:(lia))) as (p & E1 & K1), (GH (NH ltac:(lia))) as (q & E2 & K2). rewrite E1, E2. cbn [bind].
      assert (Hd : (h_len lo + h_len hi) / 2 = h_len lo) by (symmetry; apply (Nat.div_unique _ 2 _ 0); lia). rewrite Hd.
      eexists. split; [reflexivity|]. split; [intros [k Hk]; lia|]. intros _. exists p, q. split; [exact K1|]. split; [exact K2|reflexivity].
Qed.

Lemma hm_run_ok w ops : (w = 0 \/ 2 <= w)%Z -> (forall x, In (OPush x) ops -> nonnan x) ->
  exists m, hm_run w ops = Ok m /\ minv w (hist ops) m.
Proof.
  intros Hw Hn. unfold hm_run. destruct (new_ok w Hw) as [m0 [E I]]. rewrite E. cbn [bind].
  apply (run_inv_on hm_push hm_clear nonnan (minv w) m0 I); auto.
  - intros h s x Hi Hx. apply push_ok; assumption.
  - intros h s Hi. eapply clear_ok; eassumption.
Qed.

Lemma global_median ops : (forall x, In (OPush x) ops -> nonnan x) -> exists m, hm_run 0 ops = Ok m /\
  match hist ops with
  | [] => hm_value m = Err ENoValues
  | _ => exists r, hm_value m = Ok r /\ median_result (hist ops) r
  end.
Proof.
  intros Hn. destruct (hm_run_ok 0 ops (or_introl eq_refl) Hn) as [m [E I]]. exists m. split; [exact E|].
  pose proof (value_ok _ _ _ I) as [V0 V1]. destruct I as (_ & _ & _ & _ & _ & _ & _ & _ & _ & _ & Sp & _).
  specialize (Sp (or_introl eq_refl)). destruct (hist ops) as [|x h] eqn:Eh.
  - apply V0. apply Permutation_nil. exact Sp.
  - destruct V1 as [r [E1 M]]; [intros H; rewrite H in Sp; symmetry in Sp; apply Permutation_nil in Sp; discriminate|].
    exists r. split; [exact E1|]. eapply median_result_perm; [symmetry; exact Sp|exact M].
Qed.

Lemma windowed_median w ops : (2 <= w)%Z -> (forall x, In (OPush x) ops -> nonnan x) -> exists m, hm_run w ops = Ok m /\
  match hist ops with
  | [] => hm_value m = Err ENoValues
  | _ => exists r vs, hm_value m = Ok r /\ median_result vs r /\ zlen vs = Z.min w (zlen (hist ops)) /\
           (forall v, In v vs -> In v (hist ops)) /\ In (last (hist ops) fnan) vs /\
           ((zlen (hist ops) <= w)%Z -> median_result (hist ops) r)
  end.
Proof.
  intros Hw Hn. destruct (hm_run_ok w ops (or_intror Hw) Hn) as [m [E I]]. exists m. split; [exact E|].
  pose proof (value_ok _ _ _ I) as [V0 V1]. destruct I as (_ & _ & _ & _ & _ & _ & _ & _ & _ & Sz & Sp & Si & Sl).
  destruct (hist ops) as [|x h] eqn:Eh.
  - apply V0. apply Permutation_nil. apply Sp. right. unfold zlen. cbn. lia.
  - destruct (Z.eqb_spec w 0) as [H0|H0]; [lia|].
    destruct V1 as [r [E1 M]]; [intros H; rewrite H in Sz; unfold zlen in Sz; cbn [length] in Sz; lia|].
    exists r, (stored m). split; [exact E1|]. split; [exact M|]. split; [exact Sz|]. split; [exact Si|]. split.
    + apply (Sl (removelast (x :: h))). apply app_removelast_last. discriminate.
    + intros Hle. eapply median_result_perm; [symmetry; apply Sp; right; exact Hle|exact M].
Qed.
