(** Model of [ParamConcatenation], what [m[regexp]] gives when several parameters match:
    /repo/paramz/param.py:391-498, on top of the hierarchy of PzModel.v.

    Not modelled here: printing (param.py:511-545); for comparison and in-place operators see IpModel.v. Not modelled:
    [checkgrad] of a concatenation. An index [s] is the list of the positions it selects in the
    concatenation, in the order of [s], as NumPy resolves it for a flat array. *)
From Coq Require Import List ZArith Bool Arith.
From Verif Require Import NpModel IndexOpsModel PzModel.
Import ListNotations.
Open Scope Z_scope.

(** [flattened_parameters]; param.py:234-236, parameterized.py:368-370. *)
Fixpoint flattened (f : nat) (t : struct) (x : oid) : list oid :=
  match f with
  | O => []
  | S f' => if is_leaf t x then [x] else flat_map (flattened f' t) (kids t x)
  end.
(** The parameters, each once; param.py:401-406. [ArrayList] compares by identity (lists_and_dicts.py:45-54). *)
Definition once (l : list oid) : list oid := fold_left (fun acc p => if omem p acc then acc else acc ++ [p]) l [].
Definition conc_params (t : struct) (xs : list oid) : list oid := once (flat_map (flattened (fuel t) t) xs).

(** [parents[parent] = max(level, ...)]; a dict keeps the order in which keys came; param.py:416-419. *)
Fixpoint put_level (d : list (oid * nat)) (q : oid) (level : nat) : list (oid * nat) :=
  match d with
  | [] => [(q, level)]
  | (q', l') :: r => if (q' =? q)%nat then (q, Nat.max level l') :: r else (q', l') :: put_level r q level
  end.
(** The loop over the parents of one parameter; param.py:413-421. *)
Fixpoint climb (f : nat) (t : struct) (q : option oid) (level : nat) (d : list (oid * nat)) : list (oid * nat) :=
  match f, q with
  | S f', Some q => climb f' t (par t q) (S level) (put_level d q level)
  | _, _ => d
  end.
(** [sorted(..., key=level)], stable; param.py:426. *)
Fixpoint insert_level (e : oid * nat) (l : list (oid * nat)) : list (oid * nat) :=
  match l with
  | [] => [e]
  | e' :: r => if (snd e' <=? snd e)%nat then e' :: insert_level e r else e :: e' :: r
  end.
Definition sort_levels (l : list (oid * nat)) : list (oid * nat) := fold_left (fun acc e => insert_level e acc) l [].
Definition conc_parents (t : struct) (ps : list oid) : list oid :=
  map fst (sort_levels (fold_left (fun d p => climb (fuel t) t (par t p) 0 d) ps [])).

(** A concatenation: the parameters, and what is left of [self.parents]: [map] gives an iterator,
    which a loop uses up; param.py:426, 451. *)
Record conc : Type := mkC { cparams : list oid; cleft : list oid }.
(** [ParamConcatenation(xs)]; param.py:392-426. *)
Definition concatenation (t : struct) (xs : list oid) : conc := let ps := conc_params t xs in mkC ps (conc_parents t ps).

Local Notation "a ;; b" := (andthen a b) (at level 61, right associativity).

Section Concat.
Context {V : Type}.
Variable tinit : nat -> V -> V.
(** [bool(v)] of a number. *)
Variable nonzero : V -> bool.
Implicit Types s : @state V.

(** The values of a Param. *)
Definition leaf_vals s (p : oid) : list V := let (m1, a) := param_array (st s) (mem s) p in read_arr m1 a.
(** [values()] of a concatenation of at least one parameter; param.py:445-446. *)
Definition conc_values s (c : conc) : list V := flat_map (leaf_vals s) (cparams c).
(** [sum(self._param_sizes)]; param.py:407, 431. *)
Definition conc_size s (c : conc) : Z := sum_sizes (st s) (cparams c).
(** [ind = np.zeros(n, dtype=bool); ind[s] = True]; param.py:431, 439. *)
Definition indicator (n : Z) (sel : list Z) : res (list bool) :=
  if forallb (fun k => (0 <=? k) && (k <? n)) sel then Ok (map (fun k => zmem k sel) (arange n)) else Er IndexError.
(** [self[s]]: the arrays of selected values of the parameters, without those that contain zeros only;
    param.py:430-434. *)
Fixpoint pieces s (ps : list oid) (mask : list bool) : list (list V) :=
  match ps with
  | [] => []
  | p :: r =>
      let n := Z.to_nat (size (st s) p) in
      let l := select (firstn n mask) (leaf_vals s p) in
      (if existsb nonzero l then [l] else []) ++ pieces s r (skipn n mask)
  end.
Definition conc_get s (c : conc) (sel : list Z) : res (list (list V)) :=
  rbind (indicator (conc_size s c) sel) (fun mask => Ok (pieces s (cparams c) mask)).
(** The values of the result: of the single array, or [values()] of the new concatenation, where
    [np.hstack] fails if there is nothing; param.py:433-434, 446. *)
Definition shown (l : list (list V)) : res (list V) := match l with [] => Er ValueError | _ => Ok (concat l) end.

(** [vals[s] = val] for a flat array, [val] having one element or as many as [s] selects; NumPy
    assigns in order. *)
Definition np_set (l : list V) (k : Z) (v : V) : list V := firstn (Z.to_nat k) l ++ v :: skipn (S (Z.to_nat k)) l.
Definition scatter (l : list V) (sel : list Z) (val : list V) : res (list V) :=
  let go vs := Ok (fold_left (fun acc e => np_set acc (fst e) (snd e)) (combine sel vs) l) in
  match val with
  | [v] => go (repeat v (length sel))
  | _ => if (length val =? length sel)%nat then go val else Er ValueError
  end.
(** [p.flat[ind[ps]] = vals[ps]] for each parameter: assigning to [flat] does not notify observers;
    param.py:441-442. *)
Fixpoint write_each (ps : list oid) (mask : list bool) (vals : list V) : @cmd V :=
  match ps with
  | [] => done
  | p :: r =>
      (fun s =>
        let n := Z.to_nat (size (st s) p) in
        let (m1, a) := param_array (st s) (mem s) p in
        (with_mem s (write_arr m1 a (put_mask (firstn n mask) (read_arr m1 a) (firstn n vals) 0)), None)) ;;
      (fun s => write_each r (skipn (Z.to_nat (size (st s) p)) mask) (skipn (Z.to_nat (size (st s) p)) vals) s)
  end.
(** [update_all_params()]; param.py:450-452. *)
Definition update_all (c : conc) : @cmd V := fold_right (fun q k => c_trigger q false ;; k) done (cleft c).
(** What is left of a concatenation after [update_all_params]. *)
Definition used (c : conc) : conc := mkC (cparams c) [].
(** A call on a concatenation: the concatenation and the state afterwards. *)
Definition ccall := conc -> @state V -> conc * @state V * option exn.
(** [self.values()], where [np.hstack] fails if there are no parameters; param.py:445-446. *)
Definition hstacked s (c : conc) : res (list V) := match cparams c with [] => Er ValueError | _ => Ok (conc_values s c) end.
(** [self[s] = val]; param.py:436-443. *)
Definition conc_set (sel : list Z) (val : list V) : ccall := fun c s =>
  match indicator (conc_size s c) sel with
  | Er e => (c, s, Some e)
  | Ok mask =>
    match rbind (hstacked s c) (fun old => scatter old sel val) with
    | Er e => (c, s, Some e)
    | Ok vals => let (s', e) := (write_each (cparams c) mask vals ;; update_all c) s in (used c, s', e)
    end
  end.
(** [[k(param) for param in self.params]]; param.py:455 and others. *)
Definition for_params (k : oid -> @cmd V) (c : conc) : @cmd V := fold_right (fun p r => k p ;; r) done (cparams c).
(** [constrain(transform, trigger_parent=False)] on a Param; constrainable.py:138-156. The assignment to
    [param_array] notifies all observers (observable_array.py:117-119). *)
Definition constrain_below (n : nat) (p : oid) : @cmd V :=
  set_values p None (tinit n) ;; c_notify p true ;; unconstrain p None [] ;; add_cons p None (Tr n) ;; c_trigger p false.
(** [constrain], [constrain_positive], [constrain_negative], [constrain_bounded]; param.py:454-477. *)
Definition conc_constrain (n : nat) : ccall := fun c s =>
  let (s', e) := (for_params (constrain_below n) c ;; update_all c) s in (used c, s', e).
(** [constrain_fixed()]; param.py:464-466. *)
Definition conc_fix : ccall := fun c s => let (s', e) := for_params (fun p => fix_param p None) c s in (c, s', e).
(** [unconstrain_fixed()]; param.py:491-493. *)
Definition conc_unfix : ccall := fun c s => let (s', e) := for_params (fun p => unfix_param p None) c s in (c, s', e).
(** [unconstrain( *constraints)] and its variants; param.py:479-498. *)
Definition conc_unconstrain (ts : list prop) : ccall := fun c s => let (s', e) := for_params (fun p => unconstrain p None ts) c s in (c, s', e).
End Concat.
