(** Reservoir under concurrency: C40, C41, C86. *)
From Verif Require Import Base ConcModel ConcProof LockModel LockProof ConcRun ReservoirModel ReservoirProof RvLockModel PropsConc.
From Coq Require Import Permutation.
Local Open Scope nat_scope.

(** ** The pushes for given answers of rand.Intn are those of the distribution *)
Lemma push_at_supp {A} (draw : Z -> Z) (x : A) r : (0 <= rv_count r)%Z -> intn_range (RPush x draw) -> supp (rv_push x r) (rv_push_at draw x r).
Proof.
  intros Hc Hd. unfold rv_push, rv_push_at. cbn [intn_range] in Hd. destruct (_ <=? rv_size r)%Z; [apply supp_ret; reflexivity|]. apply supp_bind. destruct (Z.leb_spec (rv_count r + 1) 0); [lia|].
  specialize (Hd (rv_count r + 1)%Z ltac:(lia)). exists (Ok (draw (rv_count r + 1)%Z)). split; [|apply supp_ret; reflexivity].
  apply supp_intn; [lia|]. exists (Z.to_nat (draw (rv_count r + 1)%Z)). split; [rewrite Z2Nat.id by lia; reflexivity|lia].
Qed.
Lemma supp_push_at {A} (x : A) r o : (0 <= rv_count r)%Z -> supp (rv_push x r) o -> exists draw, intn_range (RPush x draw) /\ o = rv_push_at draw x r.
Proof.
  intros Hc. unfold rv_push, rv_push_at. destruct (_ <=? rv_size r)%Z.
  - intros HS. apply supp_ret in HS. exists (fun _ => 0%Z). split; [cbn; intros; lia|exact HS].
  - intros HS. apply supp_bind in HS. destruct HS as (a & Ha & HS). apply supp_ret in HS. apply supp_intn in Ha; [|lia]. destruct Ha as (i & -> & Hi).
    exists (fun n => Z.min (Z.of_nat i) (n - 1)). split; [cbn; intros; lia|]. destruct (Z.leb_spec (rv_count r + 1) 0); [lia|].
    rewrite Z.min_l by lia. exact HS.
Qed.

(** ** C40, C41 *)
Lemma rcode_disc {A} : disciplined (@rcode A) rapply.
Proof. intros [x draw|]; cbn [rcode]; [apply wsection_disc|apply lsection_disc]; reflexivity. Qed.
Theorem C40_reservoir : forall A, atomic (@rcode A) rapply.
Proof. intros A. apply disciplined_atomic, rcode_disc. Qed.
Print Assumptions C40_reservoir.
Theorem C41_reservoir : forall A, completes (@rcode A) (fun _ => True).
Proof. intros A. apply (completes_of _ _ _ rcode_disc). intros [x draw|] _; apply n_lock. Qed.
Print Assumptions C41_reservoir.

(** ** C86 *)
Definition value_of {A} (o : rcall A) : list A := match o with RPush x _ => [x] | RSample => [] end.
(** The values whose Push has been called in a history, *)
Definition pushed {A} (h : list (event (rcall A) (rres A))) : list A := flat_map (fun e => match e with Inv _ o => value_of o | Res _ _ => [] end) h.
(** and what a call may return when the values [l] have been pushed or are being pushed: no
    panic, and at most Size values, each from a Push of its own. *)
Definition fair {A} (size : Z) (l : list A) (r : rres A) : Prop :=
  match r with RUnit u => u = Ok tt | RSlice s => (Z.of_nat (length s) <= Z.max size 0)%Z /\ exists rest, Permutation l (s ++ rest) end.
Lemma fair_more {A} size (l l' : list A) r : fair size l r -> fair size (l ++ l') r.
Proof. destruct r as [u|s]; [auto|]. intros (L & rest & P). split; [exact L|]. exists (rest ++ l'). rewrite P, app_assoc. reflexivity. Qed.
Lemma pushed_app {A} (h h' : list (event (rcall A) (rres A))) : pushed (h ++ h') = pushed h ++ pushed h'.
Proof. apply flat_map_app. Qed.
Lemma snoc_cases {B} (h : list B) e h1 e1 h2 : h ++ [e] = h1 ++ e1 :: h2 -> (h = h1 /\ e = e1 /\ h2 = []) \/ exists h3, h = h1 ++ e1 :: h3.
Proof.
  destruct (@exists_last _ (e1 :: h2)) as (q & y & E); [discriminate|]. rewrite E, app_assoc. intros H. apply app_inj_tail in H. destruct H as (-> & ->). destruct q as [|e2 q]; cbn in E; injection E as -> ->.
  - left. rewrite app_nil_r. auto.
  - right. exists q. reflexivity.
Qed.
Lemma push_at_inv {A} (x : A) draw k z l r : rinv k z l r -> intn_range (RPush x draw) -> exists r', rv_push_at draw x r = Ok r' /\ rinv k z (l ++ [x]) r'.
Proof. intros I D. apply (push_inv x k z l r); [exact I|]. apply push_at_supp; [|exact D]. destruct I as ((_ & _ & -> & _) & _). lia. Qed.

Section Explained.
Context {A : Type} (size : Z).
Local Notation k := (Z.to_nat size).
(** [l]: the values pushed so far in order, [p]: those whose Push has not taken effect. *)
Definition pend_ok (f : nat -> @phase (rcall A) (rres A)) (p : list (nat * A)) : Prop :=
  NoDup (map fst p) /\ forall i x, In (i, x) p <-> exists draw, f i = Called (RPush x draw).
Lemma pend_other f p i ph : pend_ok f p -> (forall x draw, f i <> Called (RPush x draw)) -> (forall x draw, ph <> Called (RPush x draw)) -> pend_ok (upd f i ph) p.
Proof.
  intros (N & H) H1 H2. split; [exact N|]. intros j x. rewrite H. unfold upd. destruct (Nat.eqb_spec j i) as [->|]; [|tauto]. split; intros (d & E); exfalso; [exact (H1 _ _ E)|exact (H2 _ _ E)].
Qed.
Lemma explained h f s : explains rapply (rv_new size) h f s -> (forall i o, In (Inv i o) h -> intn_range o) ->
  exists l p, rinv k size l s /\ pend_ok f p /\ Permutation (pushed h) (l ++ map snd p) /\
    (forall i o, f i = Called o -> intn_range o) /\ (forall i r, f i = Done r -> fair size (pushed h) r) /\
    (forall h1 i r h2, h = h1 ++ Res i r :: h2 -> fair size (pushed h1) r).
Proof.
  induction 1 as [|h f s i o X IH Hi|h f s i o X IH Hi|h f s i r X IH Hi]; intros HD.
  - exists [], []. split; [apply new_inv|]. split; [split; [constructor|]; intros i x; split; [intros []|intros (d & E); discriminate]|]. split; [constructor|].
    split; [intros; discriminate|]. split; [intros; discriminate|]. intros [|e h1] i r h2 E; discriminate.
  - destruct IH as (l & p & I & P & HP & HC & HF & HR); [intros; apply (HD i0); apply in_or_app; auto|].
    assert (Ho : intn_range o) by (apply (HD i); apply in_or_app; right; left; reflexivity).
    assert (HC' : forall j o', upd f i (Called o) j = Called o' -> intn_range o') by (intros j o'; unfold upd; destruct (Nat.eqb j i); [intros [= <-]; exact Ho|apply HC]).
    assert (HF' : forall j r, upd f i (Called o) j = Done r -> fair size (pushed (h ++ [Inv i o])) r) by (intros j r; unfold upd; destruct (Nat.eqb j i); [discriminate|]; intros E; rewrite pushed_app; apply fair_more, (HF j), E).
    assert (HR' : forall h1 j r h2, h ++ [Inv i o] = h1 ++ Res j r :: h2 -> fair size (pushed h1) r) by (intros h1 j r h2 E; apply snoc_cases in E; destruct E as [(_ & E & _)|(h3 & E)]; [discriminate|exact (HR _ _ _ _ E)]).
    destruct o as [x d|].
    + exists l, ((i, x) :: p). split; [exact I|]. split; [|split; [|auto]].
      * destruct P as (N & H). split.
        -- cbn [map fst]. constructor; [|exact N]. intros C. apply in_map_iff in C. destruct C as ((j & y) & E & C). cbn [fst] in E. subst j. apply H in C. destruct C as (d' & C). congruence.
        -- intros j y. unfold upd. cbn [In]. destruct (Nat.eqb_spec j i) as [->|Hn].
           ++ split; [intros [[= <-]|C]; [eauto|apply H in C; destruct C as (d' & C); congruence]|intros (d' & [= <- <-]); auto].
           ++ rewrite <- H. split; [intros [[= E]|C]; [congruence|exact C]|auto].
      * rewrite pushed_app. cbn. rewrite HP. rewrite <- app_assoc. apply Permutation_app_head. symmetry. apply Permutation_cons_append.
    + exists l, p. split; [exact I|]. split; [apply pend_other; [exact P|intros; congruence|intros; congruence]|]. split; [rewrite pushed_app; cbn; rewrite app_nil_r; exact HP|auto].
  - destruct (IH HD) as (l & p & I & P & HP & HC & HF & HR). pose proof (HC i o Hi) as Ho.
    assert (HC' : forall j o', upd f i (Done (snd (rapply o s))) j = Called o' -> intn_range o') by (intros j o'; unfold upd; destruct (Nat.eqb j i); [discriminate|apply HC]).
    destruct o as [x d|]; cbn [rapply fst snd] in *.
    + destruct (push_at_inv x d k size l s I Ho) as (s' & E & I'). unfold upd_spec in *. rewrite E in *. cbn [fst snd rmap bind] in *.
      destruct P as (N & H). assert (C : In (i, x) p) by (apply H; eauto). apply in_split in C. destruct C as (p1 & p2 & ->). rewrite map_app in N. cbn [map fst] in N. pose proof (NoDup_remove_1 _ _ _ N) as N1. pose proof (NoDup_remove_2 _ _ _ N) as N2. rewrite <- map_app in N1, N2.
      exists (l ++ [x]), (p1 ++ p2). split; [exact I'|]. split; [|split; [|split; [exact HC'|split; [|exact HR]]]].
      * split; [exact N1|]. intros j y. unfold upd. destruct (Nat.eqb_spec j i) as [->|Hn].
        -- split; [intros C; exfalso; apply N2; apply in_map_iff; exists (i, y); auto|intros (d' & C); discriminate].
        -- rewrite <- H. rewrite !in_app_iff. cbn [In]. split; [tauto|]. intros [C|[[= C _]|C]]; [auto|congruence|auto].
      * rewrite HP, !map_app. cbn [map snd]. rewrite <- app_assoc. apply Permutation_app_head. cbn [app]. symmetry. apply Permutation_middle.
      * intros j r. unfold upd. destruct (Nat.eqb j i); [intros [= <-]; reflexivity|apply HF].
    + exists l, p. split; [exact I|]. split; [apply pend_other; [exact P|intros; congruence|intros; congruence]|]. split; [exact HP|]. split; [exact HC'|]. split; [|exact HR].
      intros j r. unfold upd. destruct (Nat.eqb j i); [|apply HF]. intros [= <-]. destruct I as ((_ & _ & _ & L) & rest & PL). split; [lia|]. exists (rest ++ map snd p). rewrite HP, PL, app_assoc. reflexivity.
  - destruct IH as (l & p & I & P & HP & HC & HF & HR); [intros; apply (HD i0); apply in_or_app; auto|].
    assert (EP : pushed (h ++ [Res i r]) = pushed h) by (rewrite pushed_app; apply app_nil_r).
    exists l, p. rewrite EP. split; [exact I|]. split; [apply pend_other; [exact P|intros; congruence|intros; congruence]|]. split; [exact HP|]. split; [|split].
    + intros j o'. unfold upd. destruct (Nat.eqb j i); [discriminate|apply HC].
    + intros j r'. unfold upd. destruct (Nat.eqb j i); [discriminate|apply HF].
    + intros h1 j r' h2 E. apply snoc_cases in E. destruct E as [(<- & [= <- <-] & _)|(h3 & E)]; [exact (HF i r Hi)|exact (HR _ _ _ _ E)].
Qed.
End Explained.

Lemma invoked {S O R} (code : O -> prog S R) n s calls h c : exec code n (start s calls) h c ->
  (forall i, incl (t_todo (c_ths c i)) (calls i)) /\ forall i o, In (Inv i o) h -> In o (calls i).
Proof.
  induction 1 as [|h c e c' X (IH1 & IH2) Hs]; [split; [intros i; apply incl_refl|intros i o []]|].
  assert (G : forall i t, incl (t_todo t) (t_todo (c_ths c i)) -> forall j, incl (t_todo (upd (c_ths c) i t j)) (calls j)) by (intros i t Hi j; unfold upd; destruct (Nat.eqb_spec j i) as [->|]; [eapply incl_tran; [exact Hi|apply IH1]|apply IH1]).
  split; [inversion Hs; subst; cbn [c_ths]; unfold goto; apply G; match goal with E : c_ths c _ = _ |- _ => rewrite E end; cbn [t_todo]; first [apply incl_refl|apply incl_tl, incl_refl]|].
  intros j o' Hin. apply in_app_or in Hin. destruct Hin as [Hin|Hin]; [apply IH2; exact Hin|].
  inversion Hs; subst; cbn [In] in Hin; try contradiction; destruct Hin as [Hin|[]]; try discriminate. injection Hin as <- <-. apply IH1. match goal with E : c_ths c _ = _ |- _ => rewrite E end. left. reflexivity.
Qed.

(** While any number of goroutines push and sample, whatever rand.Intn answers, no Push
    panics, and every slice that Sample returns holds at most Size values, each from a Push of
    its own that was called before Sample returned. *)
Theorem C86_samples {A} (size : Z) n (calls : nat -> list (rcall A)) h c : (forall i, Forall intn_range (calls i)) -> exec rcode n (start (rv_new size) calls) h c ->
  forall h1 i r h2, h = h1 ++ Res i r :: h2 -> fair size (pushed h1) r.
Proof.
  intros HD X. destruct (C40_reservoir A n (rv_new size) calls h c X) as ((f & s & E) & _). destruct (explained size h f s E) as (l & p & _ & _ & _ & _ & _ & HR); [|exact HR].
  intros i o Hin. exact (proj1 (Forall_forall _ _) (HD i) o (proj2 (invoked _ _ _ _ _ _ X) i o Hin)).
Qed.
Print Assumptions C86_samples.

Lemma by_thread {B} n (order : list (nat * B)) : (forall q, In q order -> fst q < n) -> Permutation order (flat_map (fun i => filter (fun q => Nat.eqb (fst q) i) order) (seq 0 n)).
Proof.
  induction order as [|(j & b) q IH]; intros H.
  - replace (flat_map _ _) with (@nil (nat * B)); [constructor|]. generalize (seq 0 n). intros u. induction u; [reflexivity|exact IHu].
  - assert (Hj : j < n) by (apply (H (j, b)); left; reflexivity). transitivity ((j, b) :: flat_map (fun i => filter (fun q => Nat.eqb (fst q) i) q) (seq 0 n)); [constructor; apply IH; intros; apply H; right; assumption|]. clear IH H.
    assert (Hin : In j (seq 0 n)) by (apply in_seq; lia). pose proof (seq_NoDup n 0) as N. apply in_split in Hin. destruct Hin as (u & v & E). rewrite E in N |- *. apply NoDup_remove_2 in N.
    assert (Q : forall w, ~ In j w -> flat_map (fun i => filter (fun q => Nat.eqb (fst q) i) ((j, b) :: q)) w = flat_map (fun i => filter (fun q => Nat.eqb (fst q) i) q) w).
    { intros w Hw. induction w as [|a w IHw]; [reflexivity|]. cbn [flat_map]. rewrite IHw by (intros C; apply Hw; right; exact C). f_equal. cbn [filter fst]. destruct (Nat.eqb_spec j a) as [->|]; [exfalso; apply Hw; left; reflexivity|reflexivity]. }
    rewrite !flat_map_app. cbn [flat_map]. rewrite (Q u), (Q v) by (intros C; apply N, in_or_app; auto). cbn [filter fst]. rewrite Nat.eqb_refl. cbn [app]. apply Permutation_middle.
Qed.
Lemma fold_inv {A} size : forall (order : list (nat * rcall A)) l s, rinv (Z.to_nat size) size l s -> Forall (fun q => intn_range (snd q)) order ->
  rinv (Z.to_nat size) size (l ++ flat_map (fun q => value_of (snd q)) order) (fold_left (fun s q => fst (rapply (snd q) s)) order s).
Proof.
  induction order as [|(j & o) q IH]; intros l s I HD; cbn [flat_map fold_left snd]; [rewrite app_nil_r; exact I|]. inversion HD as [|? ? Ho Hq]; subst. cbn [snd] in Ho. rewrite app_assoc. apply IH; [|exact Hq].
  destruct o as [x d|]; cbn [rapply value_of fst]; [|rewrite app_nil_r; exact I]. destruct (push_at_inv x d _ size l s I Ho) as (s' & E & I'). unfold upd_spec. rewrite E. exact I'.
Qed.
(** Once all calls have returned no Push is lost: the reservoir has counted all of them and holds
    min(their number, Size) values, each from a Push of its own. *)
Theorem C86_final {A} (size : Z) n (calls : nat -> list (rcall A)) h c : (forall i, Forall intn_range (calls i)) -> (forall i, n <= i -> calls i = []) ->
  exec rcode n (start (rv_new size) calls) h c -> (forall i, t_cur (c_ths c i) = None /\ t_todo (c_ths c i) = []) ->
  let all := flat_map (fun i => flat_map value_of (calls i)) (seq 0 n) in
  rv_count (c_sh c) = Z.of_nat (length all) /\ Z.of_nat (length (rv_sample (c_sh c))) = Z.min (Z.of_nat (length all)) (Z.max size 0) /\
  exists rest, Permutation all (rv_sample (c_sh c) ++ rest).
Proof.
  intros HD Hn X Hf all. destruct (C40_reservoir A n (rv_new size) calls h c X) as (_ & F). destruct (F Hf) as (order & E & Ho). clear F.
  assert (Hc : forall q, In q order -> In (snd q) (calls (fst q))) by (intros q Hq; rewrite <- Ho; apply in_map, filter_In; split; [exact Hq|apply Nat.eqb_refl]).
  assert (D : Forall (fun q => intn_range (snd q)) order) by (apply Forall_forall; intros q Hq; exact (proj1 (Forall_forall _ _) (HD (fst q)) _ (Hc q Hq))).
  assert (Lt : forall q, In q order -> fst q < n) by (intros q Hq; destruct (Nat.lt_ge_cases (fst q) n) as [|G]; [assumption|]; specialize (Hc q Hq); rewrite (Hn _ G) in Hc; contradiction).
  assert (P : Permutation (flat_map (fun q => value_of (snd q)) order) all).
  { rewrite (Permutation_flat_map _ (by_thread n order Lt)). unfold all. generalize (seq 0 n). intros u. induction u as [|a u IH]; [constructor|]. cbn [flat_map]. rewrite flat_map_app. apply Permutation_app; [|exact IH]. rewrite <- (Ho a), !flat_map_concat_map, map_map. reflexivity. }
  pose proof (fold_inv size order [] (rv_new size) (new_inv size) D) as I. rewrite <- E in I. cbn [app] in I. destruct I as ((_ & _ & C & L) & rest & PL). rewrite (Permutation_length P) in C, L. split; [exact C|]. split; [lia|]. exists rest. rewrite <- P. exact PL.
Qed.
Print Assumptions C86_final.
(** The answers of rand.Intn that the calls carry are those that the distribution of C36 and C37 allows. *)
Theorem C86_draws {A} (x : A) r o : (0 <= rv_count r)%Z -> supp (rv_push x r) o <-> exists draw, intn_range (RPush x draw) /\ o = rv_push_at draw x r.
Proof. intros Hc. split; [apply supp_push_at, Hc|]. intros (d & D & ->). apply push_at_supp; assumption. Qed.
Print Assumptions C86_draws.

(** Two goroutines whose calls overlap: 0 pushes 7 and samples, 1 pushes 8 and 9, with Size 2; the third
    Push to take effect is that of 9, for which Intn(3) answers 0. *)
Definition rv_calls (i : nat) : list (rcall nat) :=
  match i with 0 => [RPush 7 (fun _ => 0%Z); RSample] | 1 => [RPush 8 (fun _ => 0%Z); RPush 9 (fun _ => 0%Z)] | _ => [] end.
Definition rv_sched : list nat := [0; 1; 1; 1; 1; 1; 1; 0; 1; 0; 0; 0; 0; 0; 0; 1; 1; 1; 1; 1; 1; 0; 1; 0; 0; 0; 0].
Example C86_case : (forall i, Forall intn_range (rv_calls i)) /\ (forall i, 2 <= i -> rv_calls i = []) /\ exists h c, exec rcode 2 (start (rv_new 2) rv_calls) h c /\
  (forall i, t_cur (c_ths c i) = None /\ t_todo (c_ths c i) = []) /\ pushed h = [7; 8; 9] /\ rv_sample (c_sh c) = [9; 7] /\ In (Res 0 (RSlice [9; 7])) h.
Proof.
  split; [intros [|[|i]]; cbn; repeat constructor; intros; lia|]. split; [intros [|[|i]] Hi; [lia|lia|reflexivity]|].
  destruct (runs rcode 2 rv_sched (start (rv_new 2) rv_calls)) as [(h, c)|] eqn:E; [|vm_compute in E; discriminate]. exists h, c. split; [exact (runs_sound _ _ _ _ _ _ E)|].
  vm_compute in E. injection E as <- <-. split; [intros [|[|i]]; split; reflexivity|]. split; [reflexivity|]. split; [reflexivity|]. cbn. tauto.
Qed.
