(** Order statistics under reordering and under monotone maps. *)
From Coq Require Import Reals Permutation.
From Flocq Require Import BinarySingleNaN.
From Verif Require Import Base F64 OrderSpec QuantileSpec QuantileProof.
Local Open Scope nat_scope.

Lemma filter_perm {A} (f : A -> bool) l l' : Permutation l l' -> length (filter f l) = length (filter f l').
Proof.
  intros H. induction H as [|x l l' H IH|x y l|l l' l'' H1 IH1 H2 IH2]; cbn [filter]; [reflexivity| | |congruence].
  - destruct (f x); cbn [length]; congruence.
  - destruct (f x), (f y); reflexivity.
Qed.
Lemma kth_perm l l' k v : Permutation l l' -> is_kth l k v -> is_kth l' k v.
Proof. intros H [Hn Hc]. split; [exact Hn|]. unfold count_lt, count_le in *. rewrite <- !(filter_perm _ _ _ H). exact Hc. Qed.
Lemma min_perm l l' v : Permutation l l' -> is_min l v -> is_min l' v.
Proof. intros H [H1 H2]. split; [eapply Permutation_in; eassumption|]. intros y Hy. apply H2. eapply Permutation_in; [symmetry; exact H|exact Hy]. Qed.
Lemma max_perm l l' v : Permutation l l' -> is_max l v -> is_max l' v.
Proof. intros H [H1 H2]. split; [eapply Permutation_in; eassumption|]. intros y Hy. apply H2. eapply Permutation_in; [symmetry; exact H|exact Hy]. Qed.
Lemma min_eq l u v : Forall nonnan l -> is_min l u -> is_min l v -> feq u v = true.
Proof.
  intros Hn [H1 H2] [H3 H4]. rewrite Forall_forall in Hn. pose proof (Hn _ H1) as Nu. pose proof (Hn _ H3) as Nv. specialize (H2 _ H3). specialize (H4 _ H1).
  rewrite fle_key in H2, H4 by assumption. rewrite feq_key by assumption. apply Z.leb_le in H2. apply Z.leb_le in H4. apply Z.eqb_eq. lia.
Qed.
Lemma fge_le u v : fge u v = fle v u.
Proof.
  destruct (isnan u) eqn:Nu; [destruct u; try discriminate; destruct v; reflexivity|]. destruct (isnan v) eqn:Nv; [destruct v; try discriminate; destruct u; reflexivity|].
  rewrite fge_key, fle_key by assumption. reflexivity.
Qed.
Lemma max_eq l u v : Forall nonnan l -> is_max l u -> is_max l v -> feq u v = true.
Proof.
  intros Hn [H1 H2] [H3 H4]. rewrite Forall_forall in Hn. pose proof (Hn _ H1) as Nu. pose proof (Hn _ H3) as Nv. specialize (H2 _ H3). specialize (H4 _ H1).
  rewrite fge_le, fle_key in H2, H4 by assumption. rewrite feq_key by assumption. apply Z.leb_le in H2. apply Z.leb_le in H4. apply Z.eqb_eq. lia.
Qed.
Lemma result_perm mode l l' phi r : Permutation l l' -> quantile_result mode l phi r -> quantile_result mode l' phi r.
Proof.
  intros H. unfold quantile_result. cbv zeta. replace (zlen l') with (zlen l) by (unfold zlen; rewrite (Permutation_length H); reflexivity).
  intros (i & Hi & Q). exists i. split; [exact Hi|]. destruct Q as [[E K]|(E & lo & hi & d & Kl & Kh & Q)]; [left; split; [exact E|eapply kth_perm; eassumption]|].
  right. split; [exact E|]. exists lo, hi, d. split; [eapply kth_perm; eassumption|]. split; [eapply kth_perm; eassumption|]. exact Q.
Qed.
Lemma median_perm l l' r : Permutation l l' -> median_result l r -> median_result l' r.
Proof.
  intros H [H1 H2]. unfold median_result. rewrite <- (Permutation_length H). split; [intros O; eapply kth_perm; [exact H|apply H1; exact O]|].
  intros E. destruct (H2 E) as (lo & hi & Kl & Kh & Er). exists lo, hi. split; [eapply kth_perm; eassumption|]. split; [eapply kth_perm; eassumption|]. exact Er.
Qed.
Lemma median_unique l u v : Forall nonnan l -> median_result l u -> median_result l v -> num_eq u v.
Proof.
  intros Hn [H1 H2] [H3 H4]. apply sim_num. destruct (Nat.Even_or_Odd (length l)) as [E|O].
  - destruct (H2 E) as (a & b & Ka & Kb & ->), (H4 E) as (a' & b' & Ka' & Kb' & ->). apply sim_fdiv, sim_fadd; eapply kth_unique; eassumption.
  - eapply kth_unique; [exact Hn|apply H1; exact O|apply H3; exact O].
Qed.

(** A non-decreasing map, and a non-increasing one, of the numbers. *)
Definition fmono (f : f64 -> f64) : Prop := (forall x, nonnan x -> nonnan (f x)) /\ forall x y, fle x y = true -> fle (f x) (f y) = true.
Definition fanti (f : f64 -> f64) : Prop := (forall x, nonnan x -> nonnan (f x)) /\ forall x y, fle x y = true -> fle (f y) (f x) = true.
Lemma mono_lt f x y : fmono f -> nonnan x -> nonnan y -> flt (f x) (f y) = true -> flt x y = true.
Proof.
  intros [F1 F2] Nx Ny H. pose proof (F1 _ Nx) as Nx'. pose proof (F1 _ Ny) as Ny'. rewrite flt_key in * by assumption. apply Z.ltb_lt in H. apply Z.ltb_lt.
  destruct (Z.lt_ge_cases (fk x) (fk y)) as [L|L]; [exact L|]. assert (E : fle y x = true) by (rewrite fle_key by assumption; apply Z.leb_le; exact L). apply F2 in E. rewrite fle_key in E by assumption. apply Z.leb_le in E. lia.
Qed.
Lemma filter_le {A} (p q : A -> bool) l : (forall x, In x l -> p x = true -> q x = true) -> length (filter p l) <= length (filter q l).
Proof.
  induction l as [|x l IH]; intros H; [reflexivity|]. cbn [filter]. specialize (IH (fun y Hy => H y (or_intror Hy))). pose proof (H x (or_introl eq_refl)) as Hx.
  destruct (p x) eqn:P; [rewrite (Hx eq_refl); cbn [length]; lia|]. destruct (q x); cbn [length]; lia.
Qed.
Lemma filter_map {A B} (f : A -> B) p l : length (filter p (map f l)) = length (filter (fun x => p (f x)) l).
Proof. induction l as [|x l IH]; [reflexivity|]. cbn [map filter]. destruct (p (f x)); cbn [length]; congruence. Qed.
Lemma kth_map f l k v : fmono f -> Forall nonnan l -> is_kth l k v -> is_kth (map f l) k (f v).
Proof.
  intros F Hn [Nv Hc]. rewrite Forall_forall in Hn. split; [apply F; exact Nv|]. unfold count_lt, count_le in *. rewrite !filter_map. split.
  - etransitivity; [|apply Hc]. apply filter_le. intros x Hx. apply mono_lt; auto.
  - eapply Nat.lt_le_trans; [apply Hc|]. apply filter_le. intros x Hx. apply F.
Qed.
Lemma min_map f l v : fmono f -> is_min l v -> is_min (map f l) (f v).
Proof. intros F [H1 H2]. split; [apply in_map; exact H1|]. intros y Hy. apply in_map_iff in Hy. destruct Hy as (x & <- & Hx). apply F. apply H2. exact Hx. Qed.
Lemma max_map f l v : fmono f -> is_max l v -> is_max (map f l) (f v).
Proof. intros F [H1 H2]. split; [apply in_map; exact H1|]. intros y Hy. apply in_map_iff in Hy. destruct Hy as (x & <- & Hx). specialize (H2 _ Hx). rewrite fge_le in *. apply F. exact H2. Qed.
Lemma anti_min_map f l v : fanti f -> is_min l v -> is_max (map f l) (f v).
Proof. intros F [H1 H2]. split; [apply in_map; exact H1|]. intros y Hy. apply in_map_iff in Hy. destruct Hy as (x & <- & Hx). rewrite fge_le. apply F. apply H2. exact Hx. Qed.
Lemma result_map f mode l phi r : fmono f -> Forall nonnan l -> (mode = 1 \/ mode = 2 \/ mode = 3)%Z -> quantile_result mode l phi r -> quantile_result mode (map f l) phi (f r).
Proof.
  intros F Hn Hm. unfold quantile_result. cbv zeta. replace (zlen (map f l)) with (zlen l) by (unfold zlen; rewrite map_length; reflexivity).
  intros (i & Hi & Q). exists i. split; [exact Hi|]. destruct Q as [[E K]|(E & lo & hi & d & Kl & Kh & Fd & Rd & Q)]; [left; split; [exact E|apply kth_map; assumption]|].
  right. split; [exact E|]. exists (f lo), (f hi), d. split; [apply kth_map; assumption|]. split; [apply kth_map; assumption|]. split; [exact Fd|]. split; [exact Rd|].
  destruct Q as [[M Q]|[[M Q]|[[M Q]|[[M Q]|[M Q]]]]]; subst mode; try lia.
  - right. left. subst. auto.
  - right. right. left. subst. auto.
  - right. right. right. left. split; [reflexivity|]. destruct Q as (Q1 & Q2 & Q3). split; [intros H; f_equal; apply Q1; exact H|]. split; [intros H; f_equal; apply Q2; exact H|].
    intros H. destruct (Q3 H) as [Q4 Q5]. split; intros X; f_equal; auto.
Qed.
