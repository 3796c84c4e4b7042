(** Model of copying: [Parameterized.copy] and [Param.copy] with the deep copy they make.

    Files modelled: /repo/paramz/core/pickleable.py:70-128, parameterized.py:344-361, param.py:201-218,
    core/parameter_core.py:511-520, core/index_operations.py:183-185 and 310-312.

    Simplifications: [copy.deepcopy] is taken to do what it documents on the objects it meets (it
    follows [_parent_], [parameters] and the children's attributes once each, by its memo); that an
    [id] put into the memo may belong to an object already freed is left out; attributes of
    subclasses are left out. Copies of an indexed Param are not modelled. *)
From Coq Require Import List ZArith Bool.
From Verif Require Import NpModel IndexOpsModel PzModel.
Import ListNotations.
Open Scope Z_scope.

Section Copy.
Context {V : Type}.
Notation cmd := (@cmd V).
Notation "a ;; b" := (andthen a b) (at level 61, right associativity).

(** [_setup_observers]: pass through to the parent, if present; param.py:211-218,
    parameter_core.py:511-520. *)
Definition default_passes (pp : option oid) : list oid := match pp with Some q => [q] | None => [] end.

(** The attributes of the copy [y] of [x] after [self.__dict__.update(state)] and
    [Pickleable.__setstate__]; pickleable.py:104-128. Not in the state: [_param_array_],
    [_optimizer_copy_], [observers], [_fixes_]. The index operations are copied to an object of their
    own, also from a view. *)
Definition set_attrs (x y : oid) (pp : option oid) (ks : list oid) (a : option (nat * Z * Z)) (s : @state V) : @state V :=
  let t := st s in let i := ios s in let m := mem s in let n := nt s in
  mkS (mkSt (upd (kind t) y (kind t x)) (upd (par t) y pp) (upd (pidx t) y (pidx t x)) (upd (kids t) y ks)
            (upd (size t) y (size t x)) (upd (in_init t) y (in_init t x)) (upd (inited t) y (inited t x)) (next t))
      (mkIo (upd (iop i) y (nrid i, Root))
            (upd (dicts i) (nrid i) (IndexOpsModel.copy (snd (iop i x)) (dicts i (fst (iop i x))))) (S (nrid i)))
      (upd (fix_ s) y None)
      (set_arr m y a)
      (mkN (upd (passes n) y (default_passes pp)) (upd (updates n) y (updates n x)) (upd (visited n) y (visited n x))
           (upd (copied n) y None) (upd (fresh n) y false) (trace n)).
(** [self.__new__(self.__class__)]: an object without attributes; pickleable.py:98. *)
Definition alloc (s : @state V) : @state V :=
  let t := st s in
  with_st s (mkSt (kind t) (par t) (pidx t) (kids t) (size t) (in_init t) (inited t) (S (next t))).

(** [Param.__deepcopy__]; param.py:204-209: a new array with the values. *)
Definition copy_leaf (x : oid) (pp : option oid) (s : @state V) : @state V :=
  let y := next (st s) in
  let (m1, a) := param_array (st s) (mem s) x in
  let vals := read_arr m1 a in
  let b := nbuf m1 in let n := Z.of_nat (length vals) in
  let s1 := with_mem s (write_arr (mkM (cell m1) (S b) (arr m1)) (b, 0, n) vals) in
  set_attrs x y pp [] (Some (b, 0, n)) (alloc s1).

(** The end of [Parameterized.__setstate__]; parameterized.py:346-349. [parameters_changed] is
    called directly. *)
Definition end_setstate (y : oid) : cmd :=
  c_connect y ;; c_connect_fixes y ;; c_notify_parent y ;; c_nt (fun n => add_trace n y).

(** [copy.deepcopy(x, memo)] with [pp] the copy of the parent: pickleable.py:97-102 of a
    Parameterized. The new object exists before its state is copied, so the children's [_parent_] is
    the new object, still without attributes; they are complete before it gets its own. *)
Fixpoint dcopy (f : nat) (x : oid) (pp : option oid) (s : @state V) : @state V * oid * option exn :=
  let y := next (st s) in
  match f with
  | O => (s, y, Some Endless)
  | S f' =>
      if is_leaf (st s) x then (copy_leaf x pp s, y, None)
      else
        let '(s1, ks, e) :=
          fold_left (fun (a : state * list oid * option exn) c =>
            match a with
            | (s0, l, None) => let '(s0', c', e) := dcopy f' c (Some y) s0 in (s0', l ++ [c'], e)
            | _ => a
            end) (kids (st s) x) (alloc s, [], None) in
        match e with
        | Some e => (s1, y, Some e)
        | None => let (s2, e2) := end_setstate y (set_attrs x y pp ks None s1) in (s2, y, e2)
        end
  end.

Variable tfinv : nat -> V -> V.
(** [Pickleable.copy]; pickleable.py:70-95. The parents and everything below them but [x] are put
    into the memo as None, so the copy has no parent. *)
Definition pickle_copy (x : oid) : cmd := fun s =>
  match traverse_parents (fuel (st s)) (st s) (fun _ => false) x (nt s, []) with
  | ((n, _), Some e) => (with_nt s n, Some e)
  | ((n, _), None) =>
      match dcopy (fuel (st s)) x None (with_nt s n) with
      | (s1, y, Some e) => (s1, Some e)
      | (s1, y, None) =>
          (upd_st (fun t => set_pidx t y None) ;;
           lift (fun s => trigger_params (fuel (st s)) (st s) (ios s) y true (nt s)) with_nt) s1
      end
  end.
(** [x.copy()]: of a Param param.py:201-202, of a Parameterized parameterized.py:352-361; the copy is
    the next new object. *)
Definition copy_object (x : oid) : cmd := fun s =>
  let y := next (st s) in
  if is_leaf (st s) x then pickle_copy x s
  else
    ((fun s => match get_optimizer_array tfinv x s with Ok (_, s') => (s', None) | Er e => (s, Some e) end) ;;
     pickle_copy x ;; c_connect y ;; c_connect_fixes y ;; c_notify_parent y) s.
End Copy.
