(** Configurations as the code has them: structs of pointers, maps and slices that the caller can
    share and change. MomentModel.v and JointModel.v pass their contents by value. Pointers, maps,
    arrays and tuples live in a heap; a program of the caller's creates and changes them, makes
    cores and uses the cores. *)
From Verif Require Import Base HistSpec RingModel MathModel NumModel MomentModel JointModel.
Local Open Scope Z_scope.

Section Cfg.
Context {T : Type} (N : Num T).
Local Notation "# z" := (nz N z) (at level 5, format "# z").

(** Contents of the pointers to int and to float64, of the maps (SumsConfig of moment/config.go:23: the
    keys), of the tuples and of the arrays behind a SumsConfig of joint/config.go:9 (the tuples' addresses).
    New objects get the address [h_next]. The pointers to int are those of the caller's own variables and
    those made by joint.NewCore. *)
Inductive iptr := Var (n : nat) | Made (n : nat).
Definition iptr_eqb (a b : iptr) : bool :=
  match a, b with Var m, Var n => Nat.eqb m n | Made m, Made n => Nat.eqb m n | _, _ => false end.
Record heap := mkHeap { h_int : iptr -> Z; h_flt : nat -> T; h_map : nat -> list Z; h_tup : nat -> tuple; h_arr : nat -> list nat; h_next : nat }.
Definition put {A} (f : nat -> A) (a : nat) (v : A) : nat -> A := fun b => if Nat.eqb b a then v else f b.
Definition set_int (h : heap) (a : iptr) (z : Z) : heap := mkHeap (fun b => if iptr_eqb b a then z else h_int h b) (h_flt h) (h_map h) (h_tup h) (h_arr h) (h_next h).
Definition set_flt (h : heap) (a : nat) (x : T) : heap := mkHeap (h_int h) (put (h_flt h) a x) (h_map h) (h_tup h) (h_arr h) (h_next h).
Definition set_map (h : heap) (a : nat) (ks : list Z) : heap := mkHeap (h_int h) (h_flt h) (put (h_map h) a ks) (h_tup h) (h_arr h) (h_next h).
Definition set_tup (h : heap) (a : nat) (t : tuple) : heap := mkHeap (h_int h) (h_flt h) (h_map h) (put (h_tup h) a t) (h_arr h) (h_next h).
Definition set_arr (h : heap) (a : nat) (l : list nat) : heap := mkHeap (h_int h) (h_flt h) (h_map h) (h_tup h) (put (h_arr h) a l) (h_next h).
Definition next (h : heap) : heap := mkHeap (h_int h) (h_flt h) (h_map h) (h_tup h) (h_arr h) (S (h_next h)).

(** ** moment *)
(** moment/config.go:9-13 CoreConfig *)
Record pcfg := mkP { p_sums : option nat; p_window : option iptr; p_decay : option nat }.
Definition contents (h : heap) (p : pcfg) : config :=
  mkCfg (option_map (h_map h) (p_sums p)) (option_map (h_int h) (p_window p)) (option_map (h_flt h) (p_decay p)).

(** moment/config.go:15-19: the map of defaultConfig, one for the whole program, is at address 0. Its
    other fields are nil. *)
Definition default_map : nat := 0.
(** moment/config.go:99-113 setConfigDefaults: writes to the caller's struct *)
Definition p_defaults (p : pcfg) : pcfg := mkP (match p_sums p with None => Some default_map | s => s end) (p_window p) (p_decay p).

(** moment/core.go:14-22 Core: the field decay is a pointer. The field [c_decay] of [pk_core] is not
    used; [load] fills it with what the pointer points to at the time of a call. *)
Record pcore := mkPC { pk_core : @core T; pk_decay : option nat }.
Definition load (h : heap) (c : pcore) : core :=
  let k := pk_core c in mkCore (c_mean k) (c_len k) (c_sums k) (c_count k) (c_window k) (option_map (h_flt h) (pk_decay c)) (c_queue k).
(** moment/core.go:37-63 NewCore: the config as it is left behind, and the core *)
Definition p_new_core (h : heap) (p : pcfg) : pcfg * res pcore :=
  let p' := p_defaults p in (p', rmap (fun c => mkPC c (p_decay p')) (new_core N (contents h p'))).
(** moment/core.go:66-98 Push, 244-262 Clear *)
Definition p_push (h : heap) (c : pcore) (x : T) : res pcore := rmap (fun k => mkPC k (pk_decay c)) (c_push N (load h c) x).
Definition p_clear (c : pcore) : res pcore := rmap (fun k => mkPC k (pk_decay c)) (c_clear N (pk_core c)).

(** moment/config.go:49-67 the loop of MergeConfigs: the pointers of the first configs that have them *)
Fixpoint p_merge_loop (h : heap) (cs : list pcfg) (sums : list Z) (w : option iptr) (d : option nat) : res (list Z * option iptr * option nat) :=
  match cs with
  | [] => Ok (sums, w, d)
  | c :: t =>
      let sums' := match p_sums c with Some s => sums_add sums (h_map h s) | None => sums end in
      w' <- match p_window c, w with
            | None, _ => Ok w
            | Some cw, None => Ok (Some cw)
            | Some cw, Some w0 => if h_int h w0 =? h_int h cw then Ok w else Err EDiffWindow
            end ;;
      d' <- match p_decay c, d with
            | None, _ => Ok d
            | Some cd, None => Ok (Some cd)
            | Some cd, Some d0 => if neqb N (h_flt h d0) (h_flt h cd) then Ok d else Err EDiffDecay
            end ;;
      p_merge_loop h t sums' w' d'
  end.

(** A program: variables that point to configs, the configs, the heap, the cores made so far. *)
Record world := mkW { w_heap : heap; w_var : nat -> nat; w_cfg : nat -> pcfg; w_cores : list pcore }.
Definition cfg_of (s : world) (v : nat) : pcfg := w_cfg s (w_var s v).
Definition with_cfg (s : world) (v : nat) (p : pcfg) : world := mkW (w_heap s) (w_var s) (put (w_cfg s) (w_var s v) p) (w_cores s).
Inductive cmd :=
| MkCfg (v : nat) (w : option iptr) (d : option nat) (** v := &CoreConfig{Window: w, Decay: d} *)
| SetWindow (v : nat) (w : option iptr)        (** v.Window = w *)
| SetDecay (v : nat) (d : option nat)         (** v.Decay = d *)
| MkSums (v : nat) (ks : list Z)              (** v.Sums = SumsConfig{k: true, ...} *)
| ShareSums (v u : nat)                       (** v.Sums = u.Sums *)
| AddSum (v : nat) (k : Z)                    (** v.Sums[k] = true *)
| WriteInt (a : iptr) (z : Z)                  (** *a = z *)
| WriteFlt (a : nat) (x : T)                  (** *a = x *)
| Merge (us : list nat) (v : nat)             (** v, _ = MergeConfigs(us...) *)
| New (v : nat)                               (** c, err = NewCore(v) *)
| Push (i : nat) (x : T)                      (** the i-th core: c.Push(x) *)
| Clear (i : nat).                            (** c.Clear() *)

Fixpoint upd_nth {A} (l : list A) (i : nat) (x : A) : list A :=
  match l, i with [], _ => [] | _ :: t, O => x :: t | y :: t, S j => y :: upd_nth t j x end.

(** One command. NewCore and MergeConfigs that return an error leave the variables and cores as they are;
    a Push that returns an error ends the program (C44: it would have no effect); a nil map or slice panics.
    Variables not assigned yet share one empty config. *)
Definition step (s : world) (c : cmd) : res world :=
  let h := w_heap s in
  match c with
  | MkCfg v w d => let a := h_next h in Ok (mkW (next h) (put (w_var s) v a) (put (w_cfg s) a (mkP None w d)) (w_cores s))
  | SetWindow v w => let p := cfg_of s v in Ok (with_cfg s v (mkP (p_sums p) w (p_decay p)))
  | SetDecay v d => let p := cfg_of s v in Ok (with_cfg s v (mkP (p_sums p) (p_window p) d))
  | MkSums v ks => let p := cfg_of s v in let a := h_next h in
      Ok (mkW (set_map (next h) a ks) (w_var s) (put (w_cfg s) (w_var s v) (mkP (Some a) (p_window p) (p_decay p))) (w_cores s))
  | ShareSums v u => let p := cfg_of s v in Ok (with_cfg s v (mkP (p_sums (cfg_of s u)) (p_window p) (p_decay p)))
  | AddSum v k =>
      match p_sums (cfg_of s v) with
      | None => Panic
      | Some a => Ok (mkW (set_map h a (sums_add (h_map h a) [k])) (w_var s) (w_cfg s) (w_cores s))
      end
  | WriteInt a z => Ok (mkW (set_int h a z) (w_var s) (w_cfg s) (w_cores s))
  | WriteFlt a x => Ok (mkW (set_flt h a x) (w_var s) (w_cfg s) (w_cores s))
  (** moment/config.go:32-73: no config is an error; of one config the pointer itself is returned *)
  | Merge us v =>
      match us with
      | [] => Ok s
      | [u] => Ok (mkW h (put (w_var s) v (w_var s u)) (w_cfg s) (w_cores s))
      | _ => match p_merge_loop h (map (cfg_of s) us) [] None None with
             | Ok (ks, w, d) => let a := h_next h in
                 Ok (mkW (set_map (next h) a ks) (put (w_var s) v a) (put (w_cfg s) a (mkP (Some a) w d)) (w_cores s))
             | Err _ => Ok s
             | Panic => Panic | Hang => Hang | NoFuel => NoFuel
             end
      end
  | New v =>
      let '(p, r) := p_new_core h (cfg_of s v) in
      let s' := with_cfg s v p in
      match r with
      | Ok c => Ok (mkW h (w_var s') (w_cfg s') (w_cores s ++ [c]))
      | Err _ => Ok s'
      | Panic => Panic | Hang => Hang | NoFuel => NoFuel
      end
  | Push i x =>
      match nth_error (w_cores s) i with
      | None => Ok s
      | Some c => c' <- p_push h c x ;; Ok (mkW h (w_var s) (w_cfg s) (upd_nth (w_cores s) i c'))
      end
  | Clear i =>
      match nth_error (w_cores s) i with
      | None => Ok s
      | Some c => c' <- p_clear c ;; Ok (mkW h (w_var s) (w_cfg s) (upd_nth (w_cores s) i c'))
      end
  end.
Fixpoint exec (s : world) (cs : list cmd) : res world := match cs with [] => Ok s | c :: t => s' <- step s c ;; exec s' t end.

(** The start: nil configs, zeros in the cells, the default map empty (address 0 is its). *)
Definition start : world := mkW (mkHeap (fun _ => 0) (fun _ => #0) (fun _ => []) (fun _ => []) (fun _ => []) 1%nat) (fun _ => O) (fun _ => mkP None None None) [].
(** What the i-th core answers. *)
Definition core_at (s : world) (i : nat) : res core := match nth_error (w_cores s) i with Some c => Ok (load (w_heap s) c) | None => Panic end.

(** ** joint *)
(** joint/config.go:19-24 CoreConfig *)
Record jpcfg := mkJP { q_sums : option nat; q_window : option iptr; q_vars : option iptr; q_decay : option nat }.
Definition tuples (h : heap) (a : nat) : list tuple := map (h_tup h) (h_arr h a).
Definition jcontents (h : heap) (p : jpcfg) : jconfig :=
  mkJCfg (option_map (tuples h) (q_sums p)) (option_map (h_int h) (q_window p)) (option_map (h_int h) (q_vars p)) (option_map (h_flt h) (q_decay p)).
(** joint/config.go:26-31: the empty slice of defaultConfig, at address 0 *)
Definition default_arr : nat := 0.
(** joint/config.go:199-217 setConfigDefaults *)
Definition q_defaults (p : jpcfg) : jpcfg := mkJP (match q_sums p with None => Some default_arr | s => s end) (q_window p) (q_vars p) (q_decay p).

(** joint/core.go:15-25 Core: the field tuples is the slice of the config, the field decay its pointer;
    [jload] reads both at the time of a call *)
Record jpcore := mkJPC { jk_core : @vcore T; jk_tuples : option nat; jk_decay : option nat }.
Definition jload (h : heap) (c : jpcore) : vcore :=
  let k := jk_core c in
  mkJ (j_means k) (match jk_tuples c with Some a => tuples h a | None => [] end) (j_sums k) (j_new k) (j_count k) (j_window k) (option_map (h_flt h) (jk_decay c)) (j_queue k).
(** joint/core.go:40-77 NewCore: after validation Vars, if nil, is made to point to a new int *)
Definition q_new_core (h : heap) (p : jpcfg) : heap * jpcfg * res jpcore :=
  let p1 := q_defaults p in
  match jnew_core N (jcontents h p1) with
  | Ok c =>
      let '(h', p2) := match q_vars p1, jsums_of (jcontents h p1) with
                       | None, t :: _ => (set_int (next h) (Made (h_next h)) (zlen t), mkJP (q_sums p1) (q_window p1) (Some (Made (h_next h))) (q_decay p1))
                       | _, _ => (h, p1)
                       end in
      (h', p2, Ok (mkJPC c (q_sums p2) (q_decay p2)))
  | Err e => (h, p1, Err e)
  | Panic => (h, p1, Panic) | Hang => (h, p1, Hang) | NoFuel => (h, p1, NoFuel)
  end.
(** joint/core.go:80-128 Push (of a slice not used again by the caller: see C33 for others), 406-429 Clear *)
Definition q_push (h : heap) (c : jpcore) (x : list T) : res jpcore := rmap (fun k => mkJPC k (jk_tuples c) (jk_decay c)) (jpush N (jload h c) x).
Definition q_clear (c : jpcore) : res jpcore := rmap (fun k => mkJPC k (jk_tuples c) (jk_decay c)) (j_clear N (jk_core c)).

(** joint/config.go:90-128 simplifySums, keeping the tuples themselves *)
Fixpoint q_simplify_loop (h : heap) (sums : list nat) (seen : list tuple) (keys : list Z) (kept : list nat) : res (list nat) :=
  match sums with
  | [] => Ok kept
  | a :: t =>
      let m := h_tup h a in
      if existsb (Z.eqb (t_hash m)) keys then q_simplify_loop h t (seen ++ [m]) keys kept
      else b <- some_leq m seen ;;
           if b then q_simplify_loop h t (seen ++ [m]) keys kept
           else q_simplify_loop h t (seen ++ [m]) (t_hash m :: keys) (kept ++ [a])
  end.
(** joint/config.go:50-78 the loop of MergeConfigs *)
Fixpoint q_merge_loop (h : heap) (cs : list jpcfg) (sums : list nat) (w v : option iptr) (d : option nat) : res (list nat * option iptr * option iptr * option nat) :=
  match cs with
  | [] => s <- q_simplify_loop h sums [] [] [] ;; Ok (s, w, v, d)
  | c :: t =>
      let sums' := match q_sums c with Some s => sums ++ h_arr h s | None => sums end in
      w' <- match q_window c, w with
            | None, _ => Ok w
            | Some cw, None => Ok (Some cw)
            | Some cw, Some w0 => if h_int h w0 =? h_int h cw then Ok w else Err EDiffWindow
            end ;;
      v' <- match q_vars c, v with
            | None, _ => Ok v
            | Some cv, None => Ok (Some cv)
            | Some cv, Some v0 => if h_int h v0 =? h_int h cv then Ok v else Err EDiffVars
            end ;;
      d' <- match q_decay c, d with
            | None, _ => Ok d
            | Some cd, None => Ok (Some cd)
            | Some cd, Some d0 => if neqb N (h_flt h d0) (h_flt h cd) then Ok d else Err EDiffDecay
            end ;;
      q_merge_loop h t sums' w' v' d'
  end.

Record jworld := mkJW { jw_heap : heap; jw_var : nat -> nat; jw_cfg : nat -> jpcfg; jw_cores : list jpcore }.
Definition jcfg_of (s : jworld) (v : nat) : jpcfg := jw_cfg s (jw_var s v).
Definition with_jcfg (s : jworld) (v : nat) (p : jpcfg) : jworld := mkJW (jw_heap s) (jw_var s) (put (jw_cfg s) (jw_var s v) p) (jw_cores s).
Inductive jcmd :=
| JMkCfg (v : nat) (w n : option iptr) (d : option nat)  (** v := &CoreConfig{Window: w, Vars: n, Decay: d} *)
| JSetWindow (v : nat) (w : option iptr)      (** v.Window = w *)
| JSetVars (v : nat) (n : option iptr)        (** v.Vars = n *)
| JSetDecay (v : nat) (d : option nat)        (** v.Decay = d *)
| JMkSums (v : nat) (ts : list tuple)         (** v.Sums = SumsConfig{t, ...} *)
| JShareSums (v u : nat)                      (** v.Sums = u.Sums *)
| JSetTuple (v i : nat) (t : tuple)           (** v.Sums[i] = t, a new tuple *)
| JSetPower (v i j : nat) (k : Z)             (** v.Sums[i][j] = k *)
| JWriteInt (a : iptr) (z : Z)                (** *a = z *)
| JWriteFlt (a : nat) (x : T)                 (** *a = x *)
| JMerge (us : list nat) (v : nat)            (** v, _ = MergeConfigs(us...) *)
| JNew (v : nat)                              (** c, err = NewCore(v) *)
| JPush (i : nat) (x : list T)                (** the i-th core: c.Push(x...) *)
| JClear (i : nat).                           (** c.Clear() *)

(** New tuples at the addresses from [h_next] on. *)
Fixpoint mk_tuples (h : heap) (ts : list tuple) : heap * list nat :=
  match ts with
  | [] => (h, [])
  | t :: r => let a := h_next h in let '(h', l) := mk_tuples (next (set_tup h a t)) r in (h', a :: l)
  end.

Definition jstep (s : jworld) (c : jcmd) : res jworld :=
  let h := jw_heap s in
  match c with
  | JMkCfg v w n d => let a := h_next h in Ok (mkJW (next h) (put (jw_var s) v a) (put (jw_cfg s) a (mkJP None w n d)) (jw_cores s))
  | JSetWindow v w => let p := jcfg_of s v in Ok (with_jcfg s v (mkJP (q_sums p) w (q_vars p) (q_decay p)))
  | JSetVars v n => let p := jcfg_of s v in Ok (with_jcfg s v (mkJP (q_sums p) (q_window p) n (q_decay p)))
  | JSetDecay v d => let p := jcfg_of s v in Ok (with_jcfg s v (mkJP (q_sums p) (q_window p) (q_vars p) d))
  | JMkSums v ts => let p := jcfg_of s v in let '(h1, l) := mk_tuples h ts in let a := h_next h1 in
      Ok (mkJW (set_arr (next h1) a l) (jw_var s) (put (jw_cfg s) (jw_var s v) (mkJP (Some a) (q_window p) (q_vars p) (q_decay p))) (jw_cores s))
  | JShareSums v u => let p := jcfg_of s v in Ok (with_jcfg s v (mkJP (q_sums (jcfg_of s u)) (q_window p) (q_vars p) (q_decay p)))
  | JSetTuple v i t =>
      match q_sums (jcfg_of s v) with
      | None => Panic
      | Some a => if (i <? length (h_arr h a))%nat
                  then let b := h_next h in Ok (mkJW (set_arr (set_tup (next h) b t) a (upd_nth (h_arr h a) i b)) (jw_var s) (jw_cfg s) (jw_cores s))
                  else Panic
      end
  | JSetPower v i j k =>
      match q_sums (jcfg_of s v) with
      | None => Panic
      | Some a => match nth_error (h_arr h a) i with
                  | None => Panic
                  | Some b => if (j <? length (h_tup h b))%nat
                              then Ok (mkJW (set_tup h b (upd_nth (h_tup h b) j k)) (jw_var s) (jw_cfg s) (jw_cores s))
                              else Panic
                  end
      end
  | JWriteInt a z => Ok (mkJW (set_int h a z) (jw_var s) (jw_cfg s) (jw_cores s))
  | JWriteFlt a x => Ok (mkJW (set_flt h a x) (jw_var s) (jw_cfg s) (jw_cores s))
  (** joint/config.go:34-86 *)
  | JMerge us v =>
      match us with
      | [] => Ok s
      | [u] => Ok (mkJW h (put (jw_var s) v (jw_var s u)) (jw_cfg s) (jw_cores s))
      | _ => match q_merge_loop h (map (jcfg_of s) us) [] None None None with
             | Ok (l, w, n, d) => let a := h_next h in
                 Ok (mkJW (set_arr (next h) a l) (put (jw_var s) v a) (put (jw_cfg s) a (mkJP (Some a) w n d)) (jw_cores s))
             | Err _ => Ok s
             | Panic => Panic | Hang => Hang | NoFuel => NoFuel
             end
      end
  | JNew v =>
      let '(h', p, r) := q_new_core h (jcfg_of s v) in
      let cfg' := put (jw_cfg s) (jw_var s v) p in
      match r with
      | Ok c => Ok (mkJW h' (jw_var s) cfg' (jw_cores s ++ [c]))
      | Err _ => Ok (mkJW h' (jw_var s) cfg' (jw_cores s))
      | Panic => Panic | Hang => Hang | NoFuel => NoFuel
      end
  | JPush i x =>
      match nth_error (jw_cores s) i with
      | None => Ok s
      | Some c => c' <- q_push h c x ;; Ok (mkJW h (jw_var s) (jw_cfg s) (upd_nth (jw_cores s) i c'))
      end
  | JClear i =>
      match nth_error (jw_cores s) i with
      | None => Ok s
      | Some c => c' <- q_clear c ;; Ok (mkJW h (jw_var s) (jw_cfg s) (upd_nth (jw_cores s) i c'))
      end
  end.
Fixpoint jexec (s : jworld) (cs : list jcmd) : res jworld := match cs with [] => Ok s | c :: t => s' <- jstep s c ;; jexec s' t end.
Definition jstart : jworld := mkJW (mkHeap (fun _ => 0) (fun _ => #0) (fun _ => []) (fun _ => []) (fun _ => []) 1%nat) (fun _ => O) (fun _ => mkJP None None None None) [].
Definition jcore_at (s : jworld) (i : nat) : res vcore := match nth_error (jw_cores s) i with Some c => Ok (jload (jw_heap s) c) | None => Panic end.
End Cfg.
