(** Bounds on the steps of the moment core and of the joint core (CostModel.v). *)
From Coq Require Import Permutation.
From Verif Require Import Base F64 HistSpec NumModel RingModel MomentModel JointModel JointSpec TupleProof JointMetric ClearProof
  CostModel CostErase CostTree CostQuant CostHeap.
Local Open Scope nat_scope.

Section Moment.
Context {T : Type} (N : Num T).

Lemma inner_cost op term k l : forall s, fst (inner_c N op term k l s) <= length l /\
  forall v, snd (inner_c N op term k l s) = Ok v -> fst (inner_c N op term k l s) = length l.
Proof.
  induction l as [|i l IH]; intros s; cbn [inner_c length]; [auto|]. rewrite tick_fst, tick_snd.
  destruct (coef N k i) as [c|e| | |]; try (cbn; split; [lia|discriminate]).
  rewrite (cbind_lift _ _ _ eq_refl). destruct (IH (op s (term c i))) as [H1 H2]. split; [lia|]. intros v E. rewrite (H2 v E). reflexivity.
Qed.
Lemma outer_cost (step : (nat -> T) -> nat -> cost T) (g : nat -> nat) :
  (forall f k, fst (step f k) <= g k /\ forall v, snd (step f k) = Ok v -> fst (step f k) = g k) ->
  forall ks f, fst (outer_c step ks f) <= list_sum (map (fun k => S (g k)) ks) /\
    forall v, snd (outer_c step ks f) = Ok v -> fst (outer_c step ks f) = list_sum (map (fun k => S (g k)) ks).
Proof.
  intros Hs. induction ks as [|k ks IH]; intros f; cbn [outer_c map list_sum fold_right]; [auto|]. rewrite tick_fst, tick_snd.
  fold (list_sum (map (fun k => S (g k)) ks)).
  destruct (Hs f k) as [H1 H2]. destruct (step f k) as [n [v|e| | |]]; cbn [fst snd] in *; try (cbn; split; [lia|discriminate]).
  rewrite (cbind_eq _ _ v) by reflexivity. rewrite cbind_snd. cbn [snd bind fst]. rewrite (H2 v eq_refl).
  destruct (IH (sput f k v)) as [H3 H4]. split; [lia|]. intros u E. rewrite (H4 u E). lia.
Qed.

(** The double loop over the exponents up to K takes K (K - 1) / 2 steps. *)
Definition tri (K : nat) : nat := list_sum (map (fun k => S (k - 2)) (seq 2 (K - 1))).
Lemma list_sum_perm l1 l2 : Permutation l1 l2 -> list_sum l1 = list_sum l2.
Proof. unfold list_sum. induction 1; cbn [fold_right] in *; lia. Qed.
Lemma tri_closed K : 2 * tri K = K * (K - 1).
Proof.
  unfold tri. destruct K as [|K]; [reflexivity|]. replace (S K - 1) with K by lia.
  induction K as [|K IH]; [reflexivity|]. rewrite seq_S, map_app, list_sum_app. cbn [map list_sum fold_right].
  replace (2 + K - 2) with K by lia. nia.
Qed.
Lemma tri_rev n : list_sum (map (fun k => S (k - 2)) (rev (ks_up n))) = tri (n - 1).
Proof.
  unfold tri, ks_up. replace (n - 1 - 1) with (n - 2) by lia. apply list_sum_perm, Permutation_map, Permutation_sym, Permutation_rev.
Qed.
Lemma tri_up n : list_sum (map (fun k => S (k - 2)) (ks_up n)) = tri (n - 1).
Proof. unfold tri, ks_up. replace (n - 1 - 1) with (n - 2) by lia. reflexivity. Qed.

Lemma inner_cost' op term k s : fst (inner_c N op term k (seq 1 (k - 2)) s) <= k - 2 /\
  forall v, snd (inner_c N op term k (seq 1 (k - 2)) s) = Ok v -> fst (inner_c N op term k (seq 1 (k - 2)) s) = k - 2.
Proof. pose proof (inner_cost op term k (seq 1 (k - 2)) s) as H. rewrite seq_length in H. exact H. Qed.

Lemma c_add_cost c x K : c_len c - 1 = K -> fst (c_add_c N c x) <= tri K /\
  forall c', snd (c_add_c N c x) = Ok c' -> fst (c_add_c N c x) = tri K.
Proof.
  intros HK. unfold c_add_c. rewrite cbind_ok_fst, cbind_snd. set (step := fun (f : nat -> T) (k : nat) => inner_c N _ _ _ _ _).
  destruct (outer_cost step (fun k => k - 2)) with (ks := rev (ks_up (c_len c))) (f := c_sums c) as [H1 H2].
  { intros f k. apply inner_cost'. }
  rewrite tri_rev, HK in *. split; [exact H1|]. intros c' E. apply bind_ok in E as (v & E & _). eauto.
Qed.
Lemma c_add_decay_cost c d x K : c_len c - 1 = K -> fst (c_add_decay_c N c d x) <= tri K /\
  forall c', snd (c_add_decay_c N c d x) = Ok c' -> fst (c_add_decay_c N c d x) = tri K.
Proof.
  intros HK. unfold c_add_decay_c. rewrite cbind_ok_fst, cbind_snd. set (step := fun (f : nat -> T) (k : nat) => inner_c N _ _ _ _ _).
  destruct (outer_cost step (fun k => k - 2)) with (ks := rev (ks_up (c_len c))) (f := c_sums c) as [H1 H2].
  { intros f k. apply inner_cost'. }
  rewrite tri_rev, HK in *. split; [exact H1|]. intros c' E. apply bind_ok in E as (v & E & _). eauto.
Qed.
Lemma c_remove_cost c x K : c_len c - 1 = K -> fst (c_remove_c N c x) <= tri K + (K + 1).
Proof.
  intros HK. unfold c_remove_c. destruct (c_count c - 1 >? 0)%Z; [|cbn; lia].
  rewrite cbind_ok_fst. set (step := fun (f : nat -> T) (k : nat) => inner_c N _ _ _ _ _).
  destruct (outer_cost step (fun k => k - 2)) with (ks := ks_up (c_len c)) (f := c_sums c) as [H1 _].
  { intros f k. apply inner_cost'. }
  rewrite tri_up, HK in H1. lia.
Qed.

Lemma c_push_cost c x K : c_len c - 1 = K -> fst (c_push_c N c x) <= K * K + 1 + (if (c_window c =? 0)%Z then 0 else K + 1) /\
  (c_window c = 0%Z -> forall c', snd (c_push_c N c x) = Ok c' -> 2 * fst (c_push_c N c x) = K * (K - 1)).
Proof.
  intros HK. pose proof (tri_closed K) as Ht. assert (Hk : K * (K - 1) <= K * K) by (apply Nat.mul_le_mono_l; lia).
  assert (Hadd : forall c', c_len c' - 1 = K -> fst (match c_decay c' with None => c_add_c N c' x | Some d => c_add_decay_c N c' d x end) <= tri K /\
    forall c2, snd (match c_decay c' with None => c_add_c N c' x | Some d => c_add_decay_c N c' d x end) = Ok c2 ->
      fst (match c_decay c' with None => c_add_c N c' x | Some d => c_add_decay_c N c' d x end) = tri K).
  { intros c' H'. destruct (c_decay c'); [apply c_add_decay_cost|apply c_add_cost]; exact H'. }
  unfold c_push_c. destruct (Z.eqb_spec (c_window c) 0) as [Hw|Hw]; cbn [negb].
  - rewrite (cbind_lift _ _ _ eq_refl). destruct (Hadd c HK) as [H1 H2]. split; [eapply Nat.le_trans; [exact H1|lia]|]. intros _ c' E. specialize (H2 c' E). rewrite <- Ht. f_equal. exact H2.
  - split; [|congruence].
    assert (G : cl (c1 <~ (if (ring_len (c_queue c) =? c_window c)%Z then
                    '(y, q) <~ lift (ring_get (c_queue c)) ;;
                    c_remove_c N (mkCore (c_mean c) (c_len c) (c_sums c) (c_count c) (c_window c) (c_decay c) q) y
                  else lift (Ok c)) ;;
           q <~ lift (ring_put (c_queue c1) x) ;;
           lift (Ok (mkCore (c_mean c1) (c_len c1) (c_sums c1) (c_count c1) (c_window c1) (c_decay c1) q)))
         (tri K + (K + 1)) (fun c' => c_len c' - 1 = K)).
    { eapply (cl_bind _ _ (tri K + (K + 1)) 0 _ (fun c1 => c_len c1 - 1 = K)); [| |lia].
      - destruct (ring_len (c_queue c) =? c_window c)%Z; [|apply cl_ok; exact HK].
        eapply (cl_bind _ _ 0 (tri K + (K + 1))); [apply cl_any| |lia]. intros [y q] _. split; [apply c_remove_cost; exact HK|].
        intros c1 E. rewrite c_remove_erase in E. apply c_remove_params in E. destruct E as (E & _). rewrite E. exact HK.
      - intros c1 H1. eapply (cl_bind _ _ 0 0); [apply cl_any| |lia]. intros q _. apply cl_ok. exact H1. }
    destruct (cl_bind _ (fun c' => match c_decay c' with None => c_add_c N c' x | Some d => c_add_decay_c N c' d x end)
      _ (tri K) (tri K + (K + 1) + tri K) _ (fun _ => True) G) as [H1 _].
    + intros c' H'. split; [apply Hadd; exact H'|auto].
    + lia.
    + eapply Nat.le_trans; [exact H1|]. lia.
Qed.

Lemma core_run_params cfg c0 ops c : new_core N cfg = Ok c0 -> core_run N c0 ops = Ok c -> cparams c0 c.
Proof.
  intros H0. unfold core_run. revert c. induction ops as [|o ops IH] using rev_ind; intros c H.
  - injection H as <-. repeat split.
  - rewrite run_app in H. apply bind_ok in H as (c1 & H1 & H). specialize (IH _ H1).
    destruct o as [x|]; cbn [run] in H; apply bind_ok in H as (c2 & H2 & [= <-]).
    + apply c_push_params in H2. unfold cparams in *. destruct IH as (A1 & A2 & A3), H2 as (B1 & B2 & B3). rewrite B1, B2, B3. auto.
    + unfold c_clear in H2. injection H2 as <-. unfold cparams in *. cbn. exact IH.
Qed.
End Moment.

(** ** The joint core *)
(** p of complexity.md *)
Definition ptup (t : tuple) : nat := fold_right (fun m r => Z.to_nat (m + 1) * r) 1 t.
Definition pmax (ts : list tuple) : nat := list_max (map ptup ts).

Lemma ptup_snoc t k : ptup (t ++ [k]) = ptup t * Z.to_nat (k + 1).
Proof. induction t as [|m t IH]; cbn [app ptup fold_right]; [lia|]. fold (ptup (t ++ [k])). fold (ptup t). rewrite IH. lia. Qed.
Lemma flat_map_len {A B} (f : A -> list B) l n : (forall a, length (f a) = n) -> length (flat_map f l) = length l * n.
Proof. intros H. induction l as [|a l IH]; cbn; [reflexivity|]. rewrite app_length, H, IH. reflexivity. Qed.
Lemma iter_len t r : length (iter_list t r) = ptup t.
Proof.
  induction t as [|k t IH] using rev_ind; [reflexivity|]. rewrite iter_snoc, ptup_snoc.
  rewrite (flat_map_len _ _ (ptup t)) by (intros a; rewrite map_length; exact IH).
  assert (Hu : length (if r then rev (upto k) else upto k) = Z.to_nat (k + 1)).
  { destruct r; rewrite ?rev_length; unfold upto; rewrite map_length, seq_length; reflexivity. }
  rewrite Hu. lia.
Qed.
Lemma ptup_le b t : tle b t -> ptup b <= ptup t.
Proof.
  induction 1 as [|x y b t Hxy H IH]; [reflexivity|]. cbn [ptup fold_right]. fold (ptup b). fold (ptup t). apply Nat.mul_le_mono; [lia|exact IH].
Qed.
Lemma pmax_in ts t : In t ts -> ptup t <= pmax ts.
Proof.
  intros H. unfold pmax. pose proof (proj1 (list_max_le (map ptup ts) (list_max (map ptup ts))) (Nat.le_refl _)) as HF.
  rewrite Forall_forall in HF. apply HF. apply in_map. exact H.
Qed.
Lemma nodup_len_le l : length (nodup Z.eq_dec l) <= length l.
Proof. induction l as [|x l IH]; cbn; [lia|]. destruct (in_dec Z.eq_dec x l); cbn; lia. Qed.
Lemma nkeys_le ts a : (forall t, In t ts -> ptup t <= a) -> nkeys ts <= length ts * a.
Proof.
  intros H. unfold nkeys. eapply Nat.le_trans; [apply nodup_len_le|].
  induction ts as [|t ts IH]; [reflexivity|]. cbn [flat_map length]. rewrite app_length, map_length, iter_len.
  pose proof (H t (or_introl eq_refl)). specialize (IH (fun t Ht => H t (or_intror Ht))). lia.
Qed.

Section Joint.
Context {T : Type} (N : Num T).
Notation hm := (@hmap T).

Lemma upd_b_cost d (term : tuple -> tuple -> hm -> res (T -> T)) a bs : forall m, fst (upd_b_c N d term a bs m) <= length bs * d.
Proof.
  induction bs as [|b bs IH]; intros m; [cbn; lia|]. cbn [upd_b_c length]. cbn [steps fst].
  assert (fst (f <~ lift (term a b m) ;; upd_b_c N d term a bs (hput m (t_hash a) (f (hget N m (t_hash a))))) <= length bs * d)
    by (apply cbind_lift_le; intros f _; apply IH).
  eapply Nat.le_trans; [apply Nat.add_le_mono_l; exact H|lia].
Qed.
Lemma upd_a_cost d (term : tuple -> tuple -> hm -> res (T -> T)) n as_ : (forall a, In a as_ -> ptup a <= n) ->
  forall m, fst (upd_a_c N d term as_ m) <= length as_ * (d * (n + 1)).
Proof.
  induction as_ as [|a as_ IH]; intros Hn m; [cbn; lia|]. cbn [upd_a_c length steps fst].
  assert (H : fst (m' <~ upd_b_c N d term a (iter_list a false) (hput m (t_hash a) (nz N 0)) ;; upd_a_c N d term as_ m') <= n * d + length as_ * (d * (n + 1))).
  { eapply Nat.le_trans; [apply (cbind_le _ _ (length as_ * (d * (n + 1))))|].
    - intros m' _. apply IH. intros b Hb. apply Hn. right. exact Hb.
    - pose proof (upd_b_cost d term a (iter_list a false) (hput m (t_hash a) (nz N 0))) as Hb. rewrite iter_len in Hb.
      pose proof (Hn a (or_introl eq_refl)). nia. }
  lia.
Qed.
Lemma iter_bound t r n : ptup t <= n -> forall a, In a (iter_list t r) -> ptup a <= n.
Proof. intros H a Ha. apply in_iter in Ha. apply ptup_le in Ha. lia. Qed.
Lemma upd_tuples_cost d (term : tuple -> tuple -> hm -> res (T -> T)) r n ts : (forall t, In t ts -> ptup t <= n) ->
  forall m, fst (upd_tuples_c N d term r ts m) <= length ts * (d * (n * (n + 1))).
Proof.
  induction ts as [|t ts IH]; intros Hn m; [cbn; lia|]. cbn [upd_tuples_c length].
  pose proof (Hn t (or_introl eq_refl)) as Ht.
  eapply Nat.le_trans; [apply (cbind_le _ _ (length ts * (d * (n * (n + 1)))))|].
  - intros m' _. apply IH. intros u Hu. apply Hn. right. exact Hu.
  - pose proof (upd_a_cost d term n (iter_list t r) (iter_bound t r n Ht) m) as Ha. rewrite iter_len in Ha. nia.
Qed.
Lemma rem_tuples_cost K d count delta n ts : (forall t, In t ts -> ptup t <= n) ->
  forall s m, fst (rem_tuples_c N K d count delta ts s m) <= length ts * (d * (n * (n + 1)) + K).
Proof.
  induction ts as [|t ts IH]; intros Hn s m; [cbn; lia|]. cbn [rem_tuples_c length].
  pose proof (Hn t (or_introl eq_refl)) as Ht.
  eapply Nat.le_trans; [apply (cbind_le _ _ (K + length ts * (d * (n * (n + 1)) + K)))|].
  - intros m' _. cbn [steps fst]. apply Nat.add_le_mono_l, IH. intros u Hu. apply Hn. right. exact Hu.
  - pose proof (upd_a_cost d (rem_term N count delta s) n (iter_list t false) (iter_bound t false n Ht) m) as Ha. rewrite iter_len in Ha. nia.
Qed.

(** One insertion, and one removal *)
Definition add_steps (d : nat) (ts : list tuple) : nat :=
  d + length ts * (d * (pmax ts * (pmax ts + 1))) + nkeys ts.
Definition remove_steps (d : nat) (ts : list tuple) : nat :=
  d + length ts * (d * (pmax ts * (pmax ts + 1))) + (length ts + 2) * nkeys ts.

Lemma j_add_cost (c : @vcore T) xs : fst (j_add_c N c xs) <= add_steps (vars c) (j_tuples c).
Proof.
  unfold j_add_c, add_steps. eapply Nat.le_trans; [apply (cbind_le _ _ (nkeys (j_tuples c)))|].
  - intros m _. cbn [steps fst lift]. lia.
  - cbn [steps fst]. apply Nat.add_le_mono_r, Nat.add_le_mono_l, upd_tuples_cost. apply pmax_in.
Qed.
Lemma j_add_decay_cost (c : @vcore T) d xs : fst (j_add_decay_c N c d xs) <= add_steps (vars c) (j_tuples c).
Proof.
  unfold j_add_decay_c, add_steps. eapply Nat.le_trans; [apply (cbind_le _ _ (nkeys (j_tuples c)))|].
  - intros m _. cbn [steps fst lift]. lia.
  - cbn [steps fst]. apply Nat.add_le_mono_r, Nat.add_le_mono_l, upd_tuples_cost. apply pmax_in.
Qed.
Lemma j_remove_cost (c : @vcore T) xs : fst (j_remove_c N c xs) <= remove_steps (vars c) (j_tuples c).
Proof.
  unfold j_remove_c, remove_steps. destruct (j_count c - 1 >? 0)%Z; [|cbn [fst]; lia].
  eapply Nat.le_trans; [apply (cbind_le _ _ 0)|].
  - intros [s m] _. cbn. lia.
  - cbn [steps fst]. rewrite Nat.add_0_r.
    pose proof (rem_tuples_cost (nkeys (j_tuples c)) (vars c) (nz N (j_count c - 1))
      (deltas N xs (map (fun p => nsub N (snd p) (ndiv N (nsub N (fst p) (snd p)) (nz N (j_count c - 1)))) (combine xs (j_means c))))
      (pmax (j_tuples c)) (j_tuples c) (pmax_in _) (j_sums c) (j_new c)) as H. lia.
Qed.
Lemma j_remove_shape (c : @vcore T) xs c' : j_remove N c xs = Ok c' -> vars c' <= vars c /\ j_tuples c' = j_tuples c.
Proof.
  unfold j_remove, vars. destruct (j_count c - 1 >? 0)%Z.
  - intros H. apply bind_ok in H as ((s & m) & _ & [= <-]). cbn. rewrite map_length, combine_length. split; [lia|reflexivity].
  - intros [= <-]. cbn. rewrite map_length. auto.
Qed.
Lemma add_steps_mono d d' ts : d <= d' -> add_steps d ts <= add_steps d' ts.
Proof. intros H. unfold add_steps. apply Nat.add_le_mono_r, Nat.add_le_mono; [exact H|]. apply Nat.mul_le_mono_l, Nat.mul_le_mono_r. exact H. Qed.

Lemma j_push_cost (c : @vcore T) xs : fst (j_push_c N (fun l => l) c xs) <=
  add_steps (vars c) (j_tuples c) + (if (j_window c =? 0)%Z then 0 else remove_steps (vars c) (j_tuples c)).
Proof.
  unfold j_push_c. destruct (negb (Nat.eqb _ _)); [cbn; lia|].
  set (R := if (j_window c =? 0)%Z then 0 else remove_steps (vars c) (j_tuples c)).
  rewrite Nat.add_comm.
  assert (Hadd : forall c' : @vcore T, vars c' <= vars c /\ j_tuples c' = j_tuples c ->
    fst (match j_decay c' with None => j_add_c N c' xs | Some d => j_add_decay_c N c' d xs end) <= add_steps (vars c) (j_tuples c)).
  { intros c' [H1 H2]. rewrite <- H2. eapply Nat.le_trans; [|apply add_steps_mono; exact H1].
    destruct (j_decay c'); [apply j_add_decay_cost|apply j_add_cost]. }
  match goal with |- fst (cbind ?m _) <= _ => assert (G : cl m R (fun c' => vars c' <= vars c /\ j_tuples c' = j_tuples c)) end.
  { unfold R. destruct (Z.eqb_spec (j_window c) 0) as [Hw|Hw]; cbn [negb]; [apply cl_ok; auto|].
    eapply (cl_bind _ _ (remove_steps (vars c) (j_tuples c)) 0 _ (fun c' => vars c' <= vars c /\ j_tuples c' = j_tuples c)); [| |lia].
    - destruct (ring_len (j_queue c) =? j_window c)%Z; [|apply cl_ok; auto].
      eapply (cl_bind _ _ 0 (remove_steps (vars c) (j_tuples c))); [apply cl_any| |lia]. intros [y q] _. split.
      + eapply Nat.le_trans; [apply j_remove_cost|]. reflexivity.
      + intros c1 E. rewrite j_remove_erase in E. apply j_remove_shape in E. exact E.
    - intros c1 H1. eapply (cl_bind _ _ 0 0); [apply cl_any| |lia]. intros q _. apply cl_ok. exact H1. }
  destruct (cl_bind _ (fun c' => match j_decay c' with None => j_add_c N c' xs | Some d => j_add_decay_c N c' d xs end)
      _ (add_steps (vars c) (j_tuples c)) (R + add_steps (vars c) (j_tuples c)) _ (fun _ => True) G) as [H1 _].
  - intros c' H'. split; [apply Hadd; exact H'|auto].
  - lia.
  - exact H1.
Qed.

Lemma jcore_run_shape cfg c0 ops (c : @vcore T) : jnew_core N cfg = Ok c0 -> jcore_run N c0 ops = Ok c ->
  vars c = vars c0 /\ j_tuples c = j_tuples c0 /\ j_window c = j_window c0.
Proof.
  intros H0 H. apply jnew_keep in H0 as (v & ts & w & d & E0 & K). rewrite E0 in H |- *. rewrite E0 in K. clear E0 c0.
  assert (G : jkeep N v ts w d c).
  { unfold jcore_run in H. revert c H. induction ops as [|o ops IH] using rev_ind; intros c H.
    - injection H as <-. exact K.
    - rewrite run_app in H. apply bind_ok in H as (c1 & H1 & H). specialize (IH _ H1).
      destruct o as [x|]; cbn [run] in H; apply bind_ok in H as (c2 & H2 & [= <-]).
      + eapply keep_push; eassumption.
      + rewrite (keep_clear N v ts w d c1 IH) in H2. injection H2 as <-. exact K. }
  destruct G as (G1 & G2 & G3 & _). unfold vars. cbn. rewrite repeat_length. auto.
Qed.
End Joint.
