(** Executions in exact rational arithmetic carry over to exact real arithmetic. *)
From Coq Require Import Reals Lra QArith Qreals Qround.
From Verif Require Import Base HistSpec RingModel MathModel NumModel MomentModel MomentSpec.

Definition qrel (q : option Q) (x : xr) : Prop := match q with Some a => x = Fin (Q2R a) | None => True end.

Lemma Q2R_red a : Q2R (Qred a) = Q2R a.
Proof. apply Qeq_eqR, Qred_correct. Qed.
Lemma qrel_nz z : qrel (nz QN z) (nz XN z).
Proof. cbn. unfold Q2R. cbn. f_equal. field. Qed.
Lemma qrel_add a b x y : qrel a x -> qrel b y -> qrel (nadd QN a b) (nadd XN x y).
Proof. destruct a as [a|], b as [b|]; cbn [qrel QN XN nadd q2]; try tauto. intros -> ->. cbn [xadd]. rewrite Q2R_red, Q2R_plus. reflexivity. Qed.
Lemma qrel_sub a b x y : qrel a x -> qrel b y -> qrel (nsub QN a b) (nsub XN x y).
Proof. destruct a as [a|], b as [b|]; cbn [qrel QN XN nsub q2]; try tauto. intros -> ->. cbn [xsub]. rewrite Q2R_red, Q2R_minus. reflexivity. Qed.
Lemma qrel_mul a b x y : qrel a x -> qrel b y -> qrel (nmul QN a b) (nmul XN x y).
Proof. destruct a as [a|], b as [b|]; cbn [qrel QN XN nmul q2]; try tauto. intros -> ->. cbn [xmul]. rewrite Q2R_red, Q2R_mult. reflexivity. Qed.
Lemma qrel_div a b x y : qrel a x -> qrel b y -> qrel (ndiv QN a b) (ndiv XN x y).
Proof.
  destruct a as [a|], b as [b|]; cbn [qrel QN XN ndiv qdiv]; try tauto. intros -> ->. destruct (Qeq_bool b 0) eqn:E; cbn [qrel]; [exact I|].
  apply Qeq_bool_neq in E. cbn [xdiv]. unfold is0. destruct (Req_EM_T (Q2R b) 0) as [H|H].
  - exfalso. apply E. apply eqR_Qeq. rewrite H. unfold Q2R. cbn. field.
  - rewrite Q2R_red, Q2R_div by exact E. reflexivity.
Qed.
Lemma qrel_pow a x k : qrel a x -> qrel (npow QN a k) (npow XN x k).
Proof.
  destruct a as [a|]; cbn [qrel QN XN npow option_map]; try tauto. intros ->. cbn [xpow]. f_equal.
  induction k as [|k IH]; [unfold Q2R; cbn; field|]. cbn [qpow pow]. rewrite Q2R_red, Q2R_mult, <- IH. reflexivity.
Qed.

(** Results of the same shape with related contents. *)
Definition rrel {A B} (P : A -> B -> Prop) (r : res A) (s : res B) : Prop :=
  match r, s with
  | Ok a, Ok b => P a b
  | Err e, Err e' => e = e'
  | Panic, Panic | Hang, Hang | NoFuel, NoFuel => True
  | _, _ => False
  end.
Lemma rrel_bind {A B A' B'} (P : A -> B -> Prop) (P' : A' -> B' -> Prop) r s f g :
  rrel P r s -> (forall a b, P a b -> rrel P' (f a) (g b)) -> rrel P' (bind r f) (bind s g).
Proof. intros H Hf. destruct r, s; cbn in *; auto; contradiction. Qed.

Definition frel (f : nat -> option Q) (g : nat -> xr) : Prop := forall k, qrel (f k) (g k).
Lemma frel_sput f g k a x : frel f g -> qrel a x -> frel (sput f k a) (sput g k x).
Proof. intros H Ha j. unfold sput. destruct (Nat.eqb j k); auto. Qed.

Lemma coef_rel k i : rrel qrel (coef QN k i) (coef XN k i).
Proof. unfold coef. destruct (binom (Z.of_nat k) (Z.of_nat i)); cbn [bind rrel]; auto. apply qrel_nz. Qed.
Lemma inner_rel op1 op2 t1 t2 k is_ :
  (forall a b x y, qrel a x -> qrel b y -> qrel (op1 a b) (op2 x y)) ->
  (forall c d i, qrel c d -> qrel (t1 c i) (t2 d i)) ->
  forall a x, qrel a x -> rrel qrel (inner QN op1 t1 k is_ a) (inner XN op2 t2 k is_ x).
Proof.
  intros Hop Ht. induction is_ as [|i is_ IH]; intros a x Hax; cbn [inner]; [exact Hax|].
  eapply rrel_bind; [apply coef_rel|]. intros c d Hcd. apply IH. apply Hop; [exact Hax|apply Ht; exact Hcd].
Qed.
Lemma outer_rel s1 s2 : (forall f g k, frel f g -> rrel qrel (s1 f k) (s2 g k)) ->
  forall ks f g, frel f g -> rrel frel (outer s1 ks f) (outer s2 ks g).
Proof.
  intros Hs. induction ks as [|k ks IH]; intros f g H; cbn [outer]; [exact H|].
  eapply rrel_bind; [apply Hs; exact H|]. intros a b Hab. apply IH. apply frel_sput; assumption.
Qed.

Definition ringrel (q : ring (option Q)) (r : ring xr) : Prop := rcap q = rcap r /\ Forall2 qrel (ritems q) (ritems r).
Definition orel (a : option (option Q)) (b : option xr) : Prop :=
  match a, b with Some x, Some y => qrel x y | None, None => True | _, _ => False end.
Definition crel (c : @core (option Q)) (d : @core xr) : Prop :=
  qrel (c_mean c) (c_mean d) /\ c_len c = c_len d /\ frel (c_sums c) (c_sums d) /\ c_count c = c_count d /\
  c_window c = c_window d /\ orel (c_decay c) (c_decay d) /\ ringrel (c_queue c) (c_queue d).

Ltac qr := repeat first [apply qrel_add | apply qrel_sub | apply qrel_mul | apply qrel_div | apply qrel_pow | apply qrel_nz | assumption].

Lemma c_add_rel c d a x : crel c d -> qrel a x -> rrel crel (c_add QN c a) (c_add XN d x).
Proof.
  intros (Hm & Hl & Hs & Hn & Hw & Hd & Hq) Hx. unfold c_add. cbv zeta. rewrite <- Hl, <- Hn.
  eapply rrel_bind; [apply outer_rel; [|exact Hs]|].
  - intros f g k Hfg. apply inner_rel; [intros; qr|intros; qr; apply Hfg|qr; apply Hfg].
  - intros f g Hfg. repeat split; cbn [c_mean c_len c_sums c_count c_window c_decay c_queue]; auto; try apply Hq. qr.
Qed.
Lemma c_add_decay_rel c d e1 e2 a x : crel c d -> qrel e1 e2 -> qrel a x -> rrel crel (c_add_decay QN c e1 a) (c_add_decay XN d e2 x).
Proof.
  intros (Hm & Hl & Hs & Hn & Hw & Hd & Hq) He Hx. unfold c_add_decay. cbv zeta. rewrite <- Hl, <- Hn.
  assert (He' : qrel (if (c_count c + 1 =? 1)%Z then nz QN 1 else e1) (if (c_count c + 1 =? 1)%Z then nz XN 1 else e2)).
  { destruct (_ =? _)%Z; [apply qrel_nz|exact He]. }
  eapply rrel_bind; [apply outer_rel; [|exact Hs]|].
  - intros f g k Hfg. apply inner_rel; [intros; qr|intros; qr; apply Hfg|qr; apply Hfg].
  - intros f g Hfg. repeat split; cbn [c_mean c_len c_sums c_count c_window c_decay c_queue]; auto; try apply Hq. qr.
Qed.
Lemma c_remove_rel c d a x : crel c d -> qrel a x -> rrel crel (c_remove QN c a) (c_remove XN d x).
Proof.
  intros (Hm & Hl & Hs & Hn & Hw & Hd & Hq) Hx. unfold c_remove. cbv zeta. rewrite <- Hl, <- Hn.
  destruct (c_count c - 1 >? 0)%Z.
  - eapply rrel_bind; [apply outer_rel; [|exact Hs]|].
    + intros f g k Hfg. apply inner_rel; [intros; qr|intros; qr; apply Hfg|qr; apply Hfg].
    + intros f g Hfg. repeat split; cbn [c_mean c_len c_sums c_count c_window c_decay c_queue]; auto; try apply Hq. qr.
  - repeat split; cbn [c_mean c_len c_sums c_count c_window c_decay c_queue]; auto; try apply Hq; [apply qrel_nz|intros k; apply qrel_nz].
Qed.
Lemma ring_get_rel q r : ringrel q r -> rrel (fun p s => qrel (fst p) (fst s) /\ ringrel (snd p) (snd s)) (ring_get q) (ring_get r).
Proof.
  intros [Hc Hi]. unfold ring_get. inversion Hi as [E1 E2|a x l1 l2 Hax Hl E1 E2]; cbn; auto. split; [exact Hax|]. split; [exact Hc|exact Hl].
Qed.
Lemma Forall2_length {A B} (P : A -> B -> Prop) l1 l2 : Forall2 P l1 l2 -> length l1 = length l2.
Proof. induction 1; cbn; congruence. Qed.
Lemma ring_put_rel q r a x : ringrel q r -> qrel a x -> rrel ringrel (ring_put q a) (ring_put r x).
Proof.
  intros [Hc Hi] Hax. unfold ring_put, ring_len, zlen. rewrite Hc, (Forall2_length _ _ _ Hi).
  destruct (_ <? _)%Z; cbn; auto. split; [reflexivity|]. cbn. apply Forall2_app; [exact Hi|constructor; auto].
Qed.

Lemma c_push_rel c d a x : crel c d -> qrel a x -> rrel crel (c_push QN c a) (c_push XN d x).
Proof.
  intros Hc Hx. pose proof Hc as (Hm & Hl & Hs & Hn & Hw & Hd & Hq). unfold c_push. rewrite <- Hw.
  eapply (rrel_bind crel).
  - destruct (negb (c_window c =? 0)%Z); [|exact Hc].
    eapply (rrel_bind crel).
    + unfold ring_len, zlen. rewrite (Forall2_length _ _ _ (proj2 Hq)). destruct (_ =? _)%Z; [|exact Hc].
      eapply rrel_bind; [apply ring_get_rel; exact Hq|]. intros [y q] [y' q'] [Hy Hq']. cbn [fst snd] in *.
      apply c_remove_rel; [|exact Hy]. repeat split; cbn [c_mean c_len c_sums c_count c_window c_decay c_queue]; auto; apply Hq'.
    + intros c1 d1 H1. pose proof H1 as (A1 & A2 & A3 & A4 & A5 & A6 & A7). eapply rrel_bind; [apply ring_put_rel; [exact A7|exact Hx]|].
      intros q q' Hqq. repeat split; cbn [c_mean c_len c_sums c_count c_window c_decay c_queue]; auto; apply Hqq.
  - intros c1 d1 H1. pose proof H1 as (_ & _ & _ & _ & _ & A6 & _). unfold orel in A6.
    destruct (c_decay c1), (c_decay d1); try contradiction; [apply c_add_decay_rel; assumption|apply c_add_rel; assumption].
Qed.
Lemma c_clear_rel c d : crel c d -> rrel crel (c_clear QN c) (c_clear XN d).
Proof.
  intros (Hm & Hl & Hs & Hn & Hw & Hd & Hq). unfold c_clear. cbn [rrel]. rewrite Hw.
  repeat split; cbn [c_mean c_len c_sums c_count c_window c_decay c_queue]; auto; [apply qrel_nz|intros k; apply qrel_nz|constructor].
Qed.

(** Rational histories. *)
Definition qops (ops : list (op Q)) : list (op (option Q)) := map (fun o => match o with OPush x => OPush (Some x) | OClear => OClear end) ops.
Definition rops (ops : list (op Q)) : list (op R) := map (fun o => match o with OPush x => OPush (Q2R x) | OClear => OClear end) ops.
Lemma core_run_rel ops : forall c d, crel c d -> rrel crel (core_run QN c (qops ops)) (core_run XN d (fops (rops ops))).
Proof.
  unfold core_run. induction ops as [|[x|] ops IH]; intros c d H; cbn [qops rops fops map run]; [exact H| |].
  - eapply rrel_bind; [apply c_push_rel; [exact H|reflexivity]|]. exact IH.
  - eapply rrel_bind; [apply c_clear_rel; exact H|]. exact IH.
Qed.
