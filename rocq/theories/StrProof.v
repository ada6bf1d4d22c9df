(** Proofs about StrModel.v. *)
From Coq Require Import String Ascii Permutation.
From Verif Require Import Base F64 OrderSpec MultisetSpec SortLib AvlModel AvlProof RbModel RbProof SkipModel SkipProof StrModel.
Local Open Scope string_scope.

(** ** Specification of a drawing *)
(** A binary tree of printed values. *)
Inductive pic := PNil | PNode (l r : pic) (label : string).
Fixpoint apic (pf : f64 -> string) (t : avl) : pic := match t with ALeaf => PNil | ANode l r v _ _ => PNode (apic pf l) (apic pf r) (pf v) end.
Fixpoint rpic (pf : f64 -> string) (t : rb) : pic := match t with RLeaf => PNil | RNode l r v _ _ => PNode (rpic pf l) (rpic pf r) (pf v) end.

(** A line: for each ancestor a bar (true) or blanks, then a corner going up (true) or down, then the value. *)
Record line := Line { segs : list bool; low : bool; text : string }.
Definition seg_string (b : bool) : string := if b then "│   " else "    ".
Definition corner (b : bool) : string := if b then "└── " else "┌── ".
Definition segs_string (l : list bool) : string := fold_right (fun b s => seg_string b ++ s) "" l.
Definition line_string (ln : line) : string := segs_string (segs ln) ++ corner (low ln) ++ text ln ++ nl.
Definition lines_string (l : list line) : string := fold_right (fun ln s => line_string ln ++ s) "" l.

Fixpoint plines (t : pic) (pre : list bool) (tail : bool) : list line :=
  match t with
  | PNil => []
  | PNode l r s => (plines r (pre ++ [tail]) false ++ Line pre tail s :: plines l (pre ++ [negb tail]) true)%list
  end.

Lemma app_a (a b c : string) : (a ++ b) ++ c = a ++ b ++ c.
Proof. induction a as [|x a IH]; cbn; [reflexivity|]. f_equal. exact IH. Qed.
Lemma app_e (a : string) : a ++ "" = a.
Proof. induction a as [|x a IH]; cbn; [reflexivity|]. f_equal. exact IH. Qed.
Lemma segs_app a b : segs_string (a ++ b) = segs_string a ++ segs_string b.
Proof. induction a as [|x a IH]; [reflexivity|]. cbn [app segs_string fold_right]. fold (segs_string (a ++ b)) (segs_string a). rewrite IH, app_a. reflexivity. Qed.
Lemma segs_one a b : segs_string (a ++ [b]) = segs_string a ++ seg_string b.
Proof. rewrite segs_app. cbn [segs_string fold_right]. rewrite app_e. reflexivity. Qed.
Lemma lines_app a b : lines_string (a ++ b) = lines_string a ++ lines_string b.
Proof. induction a as [|x a IH]; [reflexivity|]. cbn [app lines_string fold_right]. fold (lines_string (a ++ b)) (lines_string a). rewrite IH, app_a. reflexivity. Qed.
Lemma lines_cons x b : lines_string (x :: b) = line_string x ++ lines_string b.
Proof. reflexivity. Qed.

Section DRAW.
Context (pf : f64 -> string).
Lemma avl_draw_ok t : t <> ALeaf -> forall pre res b, avl_draw pf t (segs_string pre) res b = Ok (res ++ lines_string (plines (apic pf t) pre b)).
Proof.
  induction t as [|l IHl r IHr v h s]; [congruence|]. intros _ pre res b.
  assert (HR : forall b', match r with ALeaf => Ok res | _ => avl_draw pf r (segs_string pre ++ seg_string b') res false end = Ok (res ++ lines_string (plines (apic pf r) (pre ++ [b']) false))).
  { intros b'. rewrite <- segs_one. destruct r; [cbn; rewrite app_e; reflexivity|]. apply IHr. discriminate. }
  assert (HL : forall b' res', match l with ALeaf => Ok res' | _ => avl_draw pf l (segs_string pre ++ seg_string b') res' true end = Ok (res' ++ lines_string (plines (apic pf l) (pre ++ [b']) true))).
  { intros b' res'. rewrite <- segs_one. destruct l; [cbn; rewrite app_e; reflexivity|]. apply IHl. discriminate. }
  cbn [avl_draw apic plines]. rewrite lines_app, lines_cons. unfold line_string. cbn [segs low text].
  destruct b; cbn [negb corner]; [pose proof (HR true) as HR'; pose proof (HL false) as HL'|pose proof (HR false) as HR'; pose proof (HL true) as HL'];
    cbn [seg_string] in HR', HL'; rewrite HR'; cbn [bind]; rewrite HL'; f_equal; rewrite !app_a; reflexivity.
Qed.
Lemma avl_string_ok t : avl_string pf t = Ok (lines_string (plines (apic pf t) [] true)).
Proof. destruct t as [|l r v h s]; [reflexivity|]. unfold avl_string. apply (avl_draw_ok (ANode l r v h s) ltac:(discriminate) [] "" true). Qed.

Lemma rb_draw_ok t : t <> RLeaf -> forall pre res b, rb_draw pf t (segs_string pre) res b = Ok (res ++ lines_string (plines (rpic pf t) pre b)).
Proof.
  induction t as [|l IHl r IHr v h s]; [congruence|]. intros _ pre res b.
  assert (HR : forall b', match r with RLeaf => Ok res | _ => rb_draw pf r (segs_string pre ++ seg_string b') res false end = Ok (res ++ lines_string (plines (rpic pf r) (pre ++ [b']) false))).
  { intros b'. rewrite <- segs_one. destruct r; [cbn; rewrite app_e; reflexivity|]. apply IHr. discriminate. }
  assert (HL : forall b' res', match l with RLeaf => Ok res' | _ => rb_draw pf l (segs_string pre ++ seg_string b') res' true end = Ok (res' ++ lines_string (plines (rpic pf l) (pre ++ [b']) true))).
  { intros b' res'. rewrite <- segs_one. destruct l; [cbn; rewrite app_e; reflexivity|]. apply IHl. discriminate. }
  cbn [rb_draw rpic plines]. rewrite lines_app, lines_cons. unfold line_string. cbn [segs low text].
  destruct b; cbn [negb corner]; [pose proof (HR true) as HR'; pose proof (HL false) as HL'|pose proof (HR false) as HR'; pose proof (HL true) as HL'];
    cbn [seg_string] in HR', HL'; rewrite HR'; cbn [bind]; rewrite HL'; f_equal; rewrite !app_a; reflexivity.
Qed.
Lemma rb_string_ok t : rb_string pf t = Ok (lines_string (plines (rpic pf t) [] true)).
Proof. destruct t as [|l r v h s]; [reflexivity|]. unfold rb_string. apply (rb_draw_ok (RNode l r v h s) ltac:(discriminate) [] "" true). Qed.
End DRAW.

(** ** Reading a drawing back *)
Fixpoint no_nl (s : string) : Prop := match s with "" => True | String c t => c <> ascii_of_nat 10 /\ no_nl t end.
Lemma no_nl_app a b : no_nl a -> no_nl b -> no_nl (a ++ b).
Proof. induction a as [|x a IH]; cbn; [auto|]. intros [H1 H2] H. auto. Qed.
Lemma cut_nl a b x y : no_nl a -> no_nl b -> a ++ nl ++ x = b ++ nl ++ y -> a = b /\ x = y.
Proof.
  revert b. induction a as [|c a IH]; intros b Ha Hb E.
  - destruct b as [|d b]; cbn in E; [injection E as E; auto|]. injection E as E1 E2. destruct Hb as [Hb _]. exfalso. apply Hb. rewrite <- E1. reflexivity.
  - destruct b as [|d b]; cbn in E; injection E as E1 E2; [destruct Ha as [Ha _]; exfalso; apply Ha; rewrite E1; reflexivity|].
    subst d. destruct (IH b (proj2 Ha) (proj2 Hb) E2) as [-> ->]. auto.
Qed.
Lemma segs_no_nl l : no_nl (segs_string l).
Proof. induction l as [|b l IH]; [exact I|]. cbn [segs_string fold_right]. apply no_nl_app; [|exact IH]. destruct b; cbn; repeat split; discriminate. Qed.
Lemma corner_no_nl b : no_nl (corner b).
Proof. destruct b; cbn; repeat split; discriminate. Qed.

Lemma read_line l1 l2 b1 b2 t1 t2 : segs_string l1 ++ corner b1 ++ t1 = segs_string l2 ++ corner b2 ++ t2 -> l1 = l2 /\ b1 = b2 /\ t1 = t2.
Proof.
  revert l2. induction l1 as [|x l1 IH]; intros [|y l2] E.
  - destruct b1, b2; cbn in E; try discriminate E; injection E as ->; auto.
  - exfalso. destruct b1, y; cbn in E; discriminate E.
  - exfalso. destruct b2, x; cbn in E; discriminate E.
  - cbn [segs_string fold_right] in E. fold (segs_string l1) (segs_string l2) in E. rewrite !app_a in E.
    destruct x, y; cbn [seg_string append] in E; try discriminate E; injection E as E; destruct (IH l2 E) as (-> & -> & ->); auto.
Qed.

Lemma read_lines a b : Forall (fun ln => no_nl (text ln)) a -> Forall (fun ln => no_nl (text ln)) b -> lines_string a = lines_string b -> a = b.
Proof.
  revert b. induction a as [|x a IH]; intros b Ha Hb E.
  - destruct b as [|y b]; [reflexivity|]. exfalso. rewrite lines_cons in E. unfold line_string in E. destruct (segs y) as [|[] ?]; cbn in E; try discriminate E. destruct (low y); discriminate E.
  - destruct b as [|y b].
    { exfalso. rewrite lines_cons in E. unfold line_string in E. destruct (segs x) as [|[] ?]; cbn in E; try discriminate E. destruct (low x); discriminate E. }
    rewrite !lines_cons in E. unfold line_string in E. rewrite !app_a in E. rewrite <- !app_a in E. rewrite (app_a _ nl), (app_a _ nl) in E.
    apply cut_nl in E; [|apply no_nl_app; [apply no_nl_app; [apply segs_no_nl|apply corner_no_nl]|apply (Forall_inv Ha)]|apply no_nl_app; [apply no_nl_app; [apply segs_no_nl|apply corner_no_nl]|apply (Forall_inv Hb)]].
    destruct E as [E1 E2]. rewrite !app_a in E1. apply read_line in E1. destruct x as [xs xl xt], y as [ys yl yt]; cbn [segs low text] in E1. destruct E1 as (-> & -> & ->).
    f_equal. apply IH; [apply (Forall_inv_tail Ha)|apply (Forall_inv_tail Hb)|exact E2].
Qed.

Lemma plines_deep t : forall pre b ln, In ln (plines t pre b) -> length pre <= length (segs ln).
Proof.
  induction t as [|l IHl r IHr s]; intros pre b ln; cbn [plines In]; [tauto|]. intros H. apply in_app_iff in H. destruct H as [H|[<-|H]].
  - apply IHr in H. rewrite app_length in H. cbn in H. lia.
  - reflexivity.
  - apply IHl in H. rewrite app_length in H. cbn in H. lia.
Qed.
Lemma split_first {A} (P : A -> Prop) (a a' b b' : list A) x x' : (forall y, In y a -> ~ P y) -> (forall y, In y a' -> ~ P y) -> P x -> P x' ->
  (a ++ x :: b = a' ++ x' :: b' -> a = a' /\ x = x' /\ b = b')%list.
Proof.
  revert a'. induction a as [|y a IH]; intros [|y' a'] Ha Ha' Hx Hx' E; cbn in E; injection E as E1 E2.
  - auto.
  - subst y'. exfalso. apply (Ha' x); [left; reflexivity|exact Hx].
  - subst y. exfalso. apply (Ha x'); [left; reflexivity|exact Hx'].
  - subst y'. destruct (IH a') as (-> & -> & ->); auto; intros z Hz; [apply Ha|apply Ha']; right; exact Hz.
Qed.
Lemma plines_inj t : forall t' pre b, plines t pre b = plines t' pre b -> t = t'.
Proof.
  induction t as [|l IHl r IHr s]; intros [|l' r' s'] pre b E; cbn [plines] in E; try reflexivity.
  - destruct (plines r' _ _); discriminate E.
  - destruct (plines r _ _); discriminate E.
  - apply (split_first (fun ln => length (segs ln) = length pre)) in E; try reflexivity.
    + destruct E as (E1 & E2 & E3). injection E2 as ->. apply IHr in E1. apply IHl in E3. congruence.
    + intros y Hy. apply plines_deep in Hy. rewrite app_length in Hy. cbn in Hy. lia.
    + intros y Hy. apply plines_deep in Hy. rewrite app_length in Hy. cbn in Hy. lia.
Qed.

Fixpoint labels (t : pic) : list string := match t with PNil => [] | PNode l r s => (labels r ++ s :: labels l)%list end.
Lemma plines_labels t : forall pre b, map text (plines t pre b) = labels t.
Proof. induction t as [|l IHl r IHr s]; intros pre b; cbn [plines labels map]; [reflexivity|]. rewrite map_app. cbn [map text]. rewrite IHl, IHr. reflexivity. Qed.
Lemma labels_avl pf t : labels (apic pf t) = map pf (rev (aelems t)).
Proof.
  induction t as [|l IHl r IHr v h s]; [reflexivity|]. cbn [apic labels aelems]. rewrite IHl, IHr. rewrite rev_app_distr. cbn [rev]. rewrite !map_app. cbn [map]. rewrite <- app_assoc. reflexivity.
Qed.
Lemma labels_rb pf t : labels (rpic pf t) = map pf (rev (relems t)).
Proof.
  induction t as [|l IHl r IHr v h s]; [reflexivity|]. cbn [rpic labels relems]. rewrite IHl, IHr. rewrite rev_app_distr. cbn [rev]. rewrite !map_app. cbn [map]. rewrite <- app_assoc. reflexivity.
Qed.
Lemma labels_no_nl t pre b : Forall no_nl (labels t) -> Forall (fun ln => no_nl (text ln)) (plines t pre b).
Proof. intros H. rewrite <- (plines_labels t pre b) in H. rewrite Forall_map in H. exact H. Qed.
Lemma pic_inj t t' : Forall no_nl (labels t) -> Forall no_nl (labels t') -> lines_string (plines t [] true) = lines_string (plines t' [] true) -> t = t'.
Proof. intros H H' E. apply read_lines in E; [|apply labels_no_nl; assumption|apply labels_no_nl; assumption]. apply plines_inj in E. exact E. Qed.
Fixpoint pheight (t : pic) : nat := match t with PNil => 0 | PNode l r _ => S (Nat.max (pheight l) (pheight r)) end.
Lemma plines_height t : forall pre b ln, In ln (plines t pre b) -> length (segs ln) < length pre + pheight t.
Proof.
  induction t as [|l IHl r IHr s]; intros pre b ln; cbn [plines In pheight]; [tauto|]. intros H. apply in_app_iff in H. destruct H as [H|[<-|H]].
  - apply IHr in H. rewrite app_length in H. cbn [length] in H. lia.
  - cbn. lia.
  - apply IHl in H. rewrite app_length in H. cbn [length] in H. lia.
Qed.
Lemma apic_height pf t : Z.of_nat (pheight (apic pf t)) = (atrue_height t + 1)%Z.
Proof. induction t as [|l IHl r IHr v h s]; [reflexivity|]. cbn [apic pheight atrue_height]. lia. Qed.
Lemma rpic_height pf t : Z.of_nat (pheight (rpic pf t)) = (rtrue_height t + 1)%Z.
Proof. induction t as [|l IHl r IHr v h s]; [reflexivity|]. cbn [rpic pheight rtrue_height]. lia. Qed.

(** ** The skip list *)
Section SKIP.
Context (pe : f64 -> string).
(** What is printed for a level: every value that reaches it, preceded by one dash per place. *)
Fixpoint row (i gap : nat) (l : list (nat * f64)) : string :=
  match l with
  | [] => dashes gap ++ "tail" ++ nl
  | (h, v) :: l => if (i <? h)%nat then dashes gap ++ pe v ++ row i 1 l else row i (S gap) l
  end.
Fixpoint rows (i : nat) (l : list (nat * f64)) : string :=
  match i with O => "" | S i' => ("head" ++ row i' 1 l) ++ rows i' l end.

Definition cells (st : nat -> snode) (L : list nat) : list (nat * f64) := map (fun a => (lvs st a, n_val (st a))) L.

Lemma row_next st i B : forall gap, (forall b, In b B -> b <> 0) ->
  row i (S gap) (cells st B) = dashes (gap + Z.to_nat (dist (lvs st) i B)) ++
    match nexti (lvs st) i B with None => "tail" ++ nl | Some b => pe (n_val (st b)) ++ row i 1 (cells st (skipn (Z.to_nat (dist (lvs st) i B)) B)) end.
Proof.
  induction B as [|b B IH]; intros gap H0.
  - cbn [cells map row dist nexti]. change (Z.to_nat 1) with 1. rewrite Nat.add_1_r. reflexivity.
  - cbn [cells map row nexti dist]. destruct (Nat.ltb_spec i (lvs st b)).
    + change (Z.to_nat 1) with 1. rewrite Nat.add_1_r. reflexivity.
    + fold (cells st B). rewrite IH by (intros c Hc; apply H0; right; exact Hc). pose proof (dist_pos (lvs st) i B).
      replace (Z.to_nat (1 + dist (lvs st) i B)) with (S (Z.to_nat (dist (lvs st) i B))) by lia. rewrite Nat.add_succ_r. reflexivity.
Qed.

Lemma level_ok st i M : links st M -> widths st M -> forall B P a fuel result, M = (P ++ a :: B)%list -> (forall b, In b B -> b <> 0) -> i < lvs st a -> length B + 1 < fuel ->
  level_string pe fuel st i (Some a) result = Ok (result ++ node_string pe st (Some a) ++ row i 1 (cells st B)).
Proof.
  intros HL HW B. remember (length B) as n eqn:En. revert B En. induction n as [n IH] using lt_wf_ind. intros B -> P a fuel result EM H0 Hi Hf.
  destruct fuel as [|fuel]; [lia|]. cbn [level_string]. rewrite get_width_ok by exact Hi. cbn [bind]. rewrite (HW P a B EM i Hi).
  pose proof (dist_pos (lvs st) i B) as Hd. unfold repeat_dash. destruct (Z.ltb_spec (dist (lvs st) i B) 0); [lia|]. cbn [bind]. rewrite get_next_ok by exact Hi. cbn [bind].
  rewrite (HL P a B EM i Hi). rewrite (row_next st i B 0 H0). cbn [Nat.add].
  destruct (nexti (lvs st) i B) as [b|] eqn:EB.
  - destruct (nexti_some _ _ _ _ EB) as (B1 & B2 & EB' & HN & Hb).
    assert (ED : dist (lvs st) i B = (zlen B1 + 1)%Z) by (rewrite EB'; apply dist_hit; assumption).
    rewrite (IH (length B2)) with (P := (P ++ a :: B1)%list) (B := B2).
    + f_equal. rewrite ED. replace (Z.to_nat (zlen B1 + 1)) with (length (B1 ++ [b])%list) by (rewrite app_length; unfold zlen; cbn; lia).
      replace B with ((B1 ++ [b]) ++ B2)%list by (rewrite EB', <- app_assoc; reflexivity). rewrite skipn_app, skipn_all, Nat.sub_diag. cbn [skipn app].
      assert (b <> 0) by (apply H0; rewrite EB'; apply in_mid). rewrite !app_a. f_equal. f_equal. f_equal. f_equal. destruct b; [lia|]. reflexivity.
    + rewrite EB', app_length. cbn. lia.
    + reflexivity.
    + rewrite EM, EB', <- app_assoc. reflexivity.
    + intros c Hc. apply H0. rewrite EB'. apply in_or_app. right. right. exact Hc.
    + exact HN.
    + rewrite EB', app_length in Hf. cbn in Hf. lia.
  - destruct fuel as [|fuel]; [lia|]. cbn [level_string node_string]. rewrite !app_a. reflexivity.
Qed.
Lemma levels_ok st L fuel : links st (0 :: L) -> widths st (0 :: L) -> (forall b, In b L -> b <> 0) -> length L + 1 < fuel ->
  forall i result, i <= lvs st 0 -> levels_string pe fuel st i result = Ok (result ++ rows i (cells st L)).
Proof.
  intros HL HW H0 Hf. induction i as [|i IH]; intros result Hi; cbn [levels_string rows]; [rewrite app_e; reflexivity|].
  rewrite (level_ok st i (0 :: L) HL HW L [] 0 fuel result eq_refl H0 ltac:(lia) Hf). cbn [bind]. rewrite IH by lia. cbn [node_string]. rewrite !app_a. reflexivity.
Qed.
Lemma skip_string_ok s L : LInv s L -> widths (sk_store s) (0 :: L) -> skip_string pe s = Ok (rows (sk_max s) (cells (sk_store s) L)).
Proof.
  intros I HW. unfold skip_string. rewrite (levels_ok (sk_store s) L).
  - reflexivity.
  - apply I.
  - exact HW.
  - intros b Hb ->. pose proof (li_nd _ _ I) as N. apply NoDup_cons_iff in N. tauto.
  - pose proof (linv_fuel s L I). unfold sfuel. cbn [length] in *. lia.
  - rewrite (li_head _ _ I). lia.
Qed.
End SKIP.
