(** Model of the parameter hierarchy of paramz: the objects (Param and Parameterized), their links,
    constraints, fix masks, memory and notification.

    Files modelled: /repo/paramz/parameterized.py, core/parameter_core.py, core/indexable.py,
    core/constrainable.py, core/parentable.py, core/updateable.py, core/observable.py, param.py.

    An object is a number. The attributes of the objects are functions from objects to values,
    grouped in records by what they are about; every method is a function of these records.
    A Python recursion or loop over the hierarchy takes fuel; running out of fuel is the exception
    [Endless].

    Simplifications, for the whole file:
    - one entry 'constraints' in [_index_operations]; index-operations objects are those of
      IndexOpsModel.v; looking a property up does not insert its key (C07: no observable effect);
    - names (NamesModel.v), logging, warnings and printing are left out;
    - [gradient_full] is handled by the code by the same statements as [param_array], side by side;
      only [param_array] is modelled here, the gradients in GmModel.v;
    - the user's [parameters_changed] neither raises nor changes parameters; its calls are recorded;
    - only the observers made by paramz itself: the object's own [_parameters_changed_notification]
      and the [_pass_through_notify_observers] of parents. *)
From Coq Require Import List ZArith Bool.
From Verif Require Import NpModel IndexOpsModel.
Import ListNotations.
Open Scope Z_scope.

Definition oid := nat.
Bind Scope nat_scope with oid.
Definition upd {A : Type} (f : nat -> A) (x : nat) (v : A) : nat -> A :=
  fun y => if Nat.eqb y x then v else f y.

Inductive exn : Type := HierarchyError | IndexError | AttributeError | ValueError | TypeError | Endless.
Inductive res (A : Type) : Type := Ok (a : A) | Er (e : exn).
Arguments Ok {A}.
Arguments Er {A}.
Definition rbind {A B : Type} (m : res A) (k : A -> res B) : res B :=
  match m with Ok a => k a | Er e => Er e end.

(** [for b in l: a = g(b, a)], stopping at an exception. *)
Fixpoint rfold {A B : Type} (g : B -> A -> res A) (l : list B) (a : A) : res A :=
  match l with [] => Ok a | b :: l' => rbind (g b a) (rfold g l') end.

(** ** Links and sizes *)

(** Param with this many elements / Parameterized. *)
Inductive kindT : Type := KLeaf (n : nat) | KNode.

(** [_parent_], [_parent_index_] (parentable.py:38-39), [parameters] (parameter_core.py:318),
    [size] (parameterized.py:118; of an array its number of elements), [_in_init_] and
    [_model_initialized_] (parameterized.py:49-57; the latter missing until construction ends). *)
Record struct : Type := mkSt {
  kind : oid -> kindT; par : oid -> option oid; pidx : oid -> option Z; kids : oid -> list oid;
  size : oid -> Z; in_init : oid -> bool; inited : oid -> option bool; next : oid }.

Definition set_par st x v := mkSt (kind st) (upd (par st) x v) (pidx st) (kids st) (size st) (in_init st) (inited st) (next st).
Definition set_pidx st x v := mkSt (kind st) (par st) (upd (pidx st) x v) (kids st) (size st) (in_init st) (inited st) (next st).
Definition set_kids st x v := mkSt (kind st) (par st) (pidx st) (upd (kids st) x v) (size st) (in_init st) (inited st) (next st).
Definition set_size st x v := mkSt (kind st) (par st) (pidx st) (kids st) (upd (size st) x v) (in_init st) (inited st) (next st).
Definition set_in_init st x v := mkSt (kind st) (par st) (pidx st) (kids st) (size st) (upd (in_init st) x v) (inited st) (next st).
Definition set_inited st x v := mkSt (kind st) (par st) (pidx st) (kids st) (size st) (in_init st) (upd (inited st) x v) (next st).

Definition is_leaf (st : struct) (x : oid) : bool := match kind st x with KLeaf _ => true | KNode => false end.
(** Enough for any loop over a hierarchy without cycles. *)
Definition fuel (st : struct) : nat := S (next st).

(** [x in l] on an ArrayList (identity); lists_and_dicts.py:50-54. *)
Definition omem (x : oid) (l : list oid) : bool := existsb (Nat.eqb x) l.
(** [sum(p.size for p in l)]; parameterized.py:151, 159. *)
Definition sum_sizes (st : struct) (l : list oid) : Z := fold_right Z.add 0 (map (size st) l).
(** Python slices [l[:i]], [l[i:]], also for negative [i]; [l.insert(i, x)], [del l[i]]. *)
Definition clip {A : Type} (l : list A) (i : Z) : nat :=
  Z.to_nat (if 0 <=? i then i else Z.of_nat (length l) + i).
Definition py_prefix {A : Type} (l : list A) (i : Z) : list A := firstn (clip l i) l.
Definition py_suffix {A : Type} (l : list A) (i : Z) : list A := skipn (clip l i) l.
Definition py_insert {A : Type} (l : list A) (i : Z) (x : A) : list A := py_prefix l i ++ x :: py_suffix l i.
Definition py_nth {A : Type} (l : list A) (i : Z) : res A :=
  if 0 <=? (if 0 <=? i then i else Z.of_nat (length l) + i)
  then match nth_error l (clip l i) with Some a => Ok a | None => Er IndexError end
  else Er IndexError.
Definition py_del {A : Type} (l : list A) (i : Z) : list A := firstn (clip l i) l ++ skipn (S (clip l i)) l.

(** [_highest_parent_]; parentable.py:63-69. *)
Fixpoint highest (f : nat) (st : struct) (x : oid) : res oid :=
  match f with
  | O => Er Endless
  | S f' => match par st x with None => Ok x | Some p => highest f' st p end
  end.

(** [parent.size += n] up the hierarchy from [x]; parameterized.py:171-174, 219-222. *)
Fixpoint add_size (f : nat) (st : struct) (x : option oid) (n : Z) : res struct :=
  match x with
  | None => Ok st
  | Some y =>
      match f with
      | O => Er Endless
      | S f' => add_size f' (set_size st y (size st y + n)) (par st y) n
      end
  end.

(** [_offset_for(param)] on [self], with [_get_original]; indexable.py:130-141,
    constrainable.py:128-132. *)
Fixpoint offset_for (f : nat) (st : struct) (self param : oid) : res Z :=
  match f with
  | O => Er Endless
  | S f' =>
      match par st param, pidx st param with
      | Some pp, Some i =>
          rbind (py_nth (kids st pp) i) (fun p =>
          if omem p (kids st self) then
            match pidx st p with
            | Some j => Ok (sum_sizes st (py_prefix (kids st self) j))
            | None => Er AttributeError
            end
          else rbind (offset_for f' st self pp) (fun a =>
               rbind (offset_for f' st pp param) (fun b => Ok (a + b))))
      | _, _ => Ok 0
      end
  end.

(** ** Constraints and fix masks *)

(** [_index_operations['constraints']] of each object: which root object holds the data, and the
    chain of views to it; the data of the root objects. *)
Record iost : Type := mkIo { iop : oid -> nat * io; dicts : nat -> dict; nrid : nat }.
(** [_fixes_]: [None], or a mask in which True is free; constrainable.py:85-114. *)
Definition fixst := oid -> option (list bool).

Definition set_iop i x v := mkIo (upd (iop i) x v) (dicts i) (nrid i).
Definition set_dict i r v := mkIo (iop i) (upd (dicts i) r v) (nrid i).

(** [self.constraints.items()], [self.constraints[prop]]. *)
Definition cons_items (i : iost) (x : oid) : list (prop * list Z) := items (snd (iop i x)) (dicts i (fst (iop i x))).
Definition cons_get (i : iost) (x : oid) (p : prop) : list Z := fst (getitem (snd (iop i x)) (dicts i (fst (iop i x))) p).
(** An operation on the root data through the object's index operations. *)
Definition cons_upd (i : iost) (x : oid) (g : io -> dict -> dict) : iost :=
  set_dict i (fst (iop i x)) (g (snd (iop i x)) (dicts i (fst (iop i x)))).

(** [_parent_changed(parent)]; indexable.py:220-239. *)
Fixpoint parent_changed (f : nat) (st : struct) (parent x : oid) (s : iost * fixst) : res (iost * fixst) :=
  match f with
  | O => Er Endless
  | S f' =>
      rbind (offset_for (fuel st) st parent x) (fun off =>
      let (i, fx) := s in
      let i' := set_iop i x (fst (iop i parent), View (snd (iop i parent)) off (size st x)) in
      rfold (parent_changed f' st parent) (kids st x) (i', upd fx x None))
  end.
(** [_notify_parent_change()]; parameter_core.py:524-529. *)
Definition notify_parent_change (st : struct) (x : oid) (s : iost * fixst) : res (iost * fixst) :=
  rfold (parent_changed (fuel st) st x) (kids st x) s.

(** [np.ones(n, dtype=bool); m[idx] = False] and [m[idx] = v]; an index outside raises. *)
Definition mask_set (m : list bool) (idx : list Z) (v : bool) : res (list bool) :=
  if forallb (fun i => (0 <=? i) && (i <? Z.of_nat (length m))) idx
  then Ok (map (fun e => if zmem (fst e) idx then v else snd e) (combine (arange (Z.of_nat (length m))) m))
  else Er IndexError.
Definition ones (n : Z) : list bool := repeat true (Z.to_nat n).

(** [_ensure_fixes()]: of a Parameterized constrainable.py:85-91, of a Param param.py:184-185
    (which does not look at the constraints). *)
Definition ensure_fixes (st : struct) (i : iost) (fx : fixst) (x : oid) : res (list bool) :=
  match fx x with
  | Some m => if Z.of_nat (length m) =? size st x then Ok m
              else if is_leaf st x then Ok (ones (size st x)) else mask_set (ones (size st x)) (cons_get i x Fixed) false
  | None => if is_leaf st x then Ok (ones (size st x)) else mask_set (ones (size st x)) (cons_get i x Fixed) false
  end.
(** [_set_fixed(param, index)], [_set_unfixed(param, index)] on [self]; constrainable.py:94-104. *)
Definition set_mask (st : struct) (i : iost) (fx : fixst) (self param : oid) (index : list Z) (v : bool) : res fixst :=
  rbind (ensure_fixes st i fx self) (fun m =>
  rbind (offset_for (fuel st) st self param) (fun off =>
  rbind (mask_set m (plus_off off index) v) (fun m' =>
  Ok (upd fx self (if forallb id m' then None else Some m'))))).
(** [_connect_fixes()]; constrainable.py:106-114. *)
Definition connect_fixes (st : struct) (x : oid) (s : iost * fixst) : res (iost * fixst) :=
  let (i, fx) := s in
  let fixed := cons_get i x Fixed in
  if nonempty fixed then
    rbind (ensure_fixes st i fx x) (fun m =>
    rbind (mask_set (map (fun _ => true) m) fixed false) (fun m' =>
    Ok (i, upd fx x (Some m'))))
  else Ok (cons_upd i x (fun v d => match delitem v d Fixed with Some d' => d' | None => d end), upd fx x None).

(** [_disconnect_parent()], the part about constraints; indexable.py:115-120: a new root object is
    filled with a copy, and the entries are removed from the old one. *)
Definition disconnect_io (i : iost) (x : oid) : iost :=
  let c := copy (snd (iop i x)) (dicts i (fst (iop i x))) in
  let i1 := cons_upd i x clear in
  mkIo (upd (iop i1) x (nrid i1, Root)) (upd (dicts i1) (nrid i1) c) (S (nrid i1)).

(** ** Memory *)

Section Values.
Context {V : Type}.
(** Buffers and their contents; [arr]: the buffer, start and length of [_param_array_] (of a Param:
    the array itself). A buffer that was never allocated has arbitrary contents, which is what
    [np.empty] gives. *)
Record memst : Type := mkM { cell : nat -> Z -> V; nbuf : nat; arr : oid -> option (nat * Z * Z) }.
Definition set_arr m x v := mkM (cell m) (nbuf m) (upd (arr m) x v).

(** The elements of an array. *)
Definition read_arr (m : memst) (a : nat * Z * Z) : list V :=
  let '(b, o, n) := a in map (fun k => cell m b (o + k)) (arange n).
(** [a[...] = vals] on a contiguous array. *)
Definition write_arr (m : memst) (a : nat * Z * Z) (vals : list V) : memst :=
  let '(b, o, n) := a in
  mkM (upd (cell m) b (fun k => if (o <=? k) && (k <? o + n)
                                then nth (Z.to_nat (k - o)) vals (cell m b k) else cell m b k))
      (nbuf m) (arr m).
(** [a[lo:lo+n]] on a contiguous array (clipped to the array). *)
Definition sub_arr (a : nat * Z * Z) (lo n : Z) : nat * Z * Z :=
  let '(b, o, len) := a in
  let lo' := Z.min lo len in (b, o + lo', Z.min (lo + n) len - lo').

(** [param_array]: of a Param the array, of a Parameterized a new [np.empty] if there is none of
    the right size; param.py:124-129, parameter_core.py:340-350. *)
Definition param_array (st : struct) (m : memst) (x : oid) : memst * (nat * Z * Z) :=
  let fresh := (set_arr (mkM (cell m) (S (nbuf m)) (arr m)) x (Some (nbuf m, 0, size st x)), (nbuf m, 0, size st x)) in
  match arr m x with
  | Some (b, o, n) => if is_leaf st x || (n =? size st x) then (m, (b, o, n)) else fresh
  | None => fresh
  end.

(** [self.param_array[lo:lo+n] = p.param_array.flat]; shapes that differ raise (a source with one
    element would be broadcast; not modelled). *)
Definition copy_child (st : struct) (m : memst) (self p : oid) (lo : Z) : res memst :=
  let (m1, src) := param_array st m p in
  let (m2, dst) := param_array st m1 self in
  let d := sub_arr dst lo (size st p) in
  let vals := read_arr m2 src in
  if Z.of_nat (length vals) =? snd d then Ok (write_arr m2 d vals) else Er ValueError.
(** [p.param_array.data = a.data]: the array object keeps its length, its memory is that of [a]. *)
Definition repoint (st : struct) (m : memst) (p : oid) (a : nat * Z * Z) : memst :=
  let (m1, mine) := param_array st m p in
  set_arr m1 p (Some (fst a, snd mine)).

(** [_propagate_param_grad(parray, ...)]; parameter_core.py:270-296 (without
    [_model_initialized_ = True], see [connect_struct]). *)
Fixpoint propagate (f : nat) (st : struct) (self : oid) (parray : nat * Z * Z) (m : memst) : res memst :=
  match f with
  | O => Er Endless
  | S f' =>
      rbind (rfold (fun pi (s : memst * Z) =>
        let (m0, old) := s in
        rbind (copy_child st m0 self pi old) (fun m1 =>
        let slice := sub_arr parray old (size st pi) in
        let m2 := repoint st m1 pi slice in
        rbind (propagate f' st pi slice m2) (fun m3 => Ok (m3, old + size st pi))))
        (kids st self) (m, 0)) (fun s => Ok (fst s))
  end.
(** [_connect_parameters()], the memory; parameterized.py:238-274. *)
Definition connect_mem (st : struct) (self : oid) (m : memst) : res memst :=
  rbind (rfold (fun p (s : memst * Z) =>
    let (m0, old) := s in
    let (m0', _) := param_array st m0 p in
    let (m1, a) := param_array st m0' self in
    rbind (propagate (fuel st) st p (sub_arr a old (size st p)) m1) (fun m2 =>
    rbind (copy_child st m2 self p old) (fun m3 =>
    let (m4, a4) := param_array st m3 self in
    let m5 := repoint st m4 p (sub_arr a4 old (size st p)) in
    Ok (m5, old + size st p))))
    (kids st self) (m, 0)) (fun s => Ok (fst s)).

(** [_model_initialized_ = True] on everything below; parameter_core.py:296. *)
Fixpoint init_below (f : nat) (st : struct) (x : oid) : struct :=
  match f with
  | O => st
  | S f' => set_inited (fold_left (init_below f') (kids st x) st) x (Some true)
  end.
(** [_connect_parameters()], the links; parameterized.py:234, 259-260. The loop also calls
    [_propagate_param_grad] on each child, which sets [_model_initialized_] on everything below. *)
Definition connect_struct (st : struct) (self : oid) : struct :=
  let st1 := set_inited st self (Some true) in
  snd (fold_left (fun (s : Z * struct) p =>
    let (i, t) := s in
    (i + 1, init_below (fuel t) (set_pidx (set_par t p (Some self)) p (Some i)) p))
    (kids st self) (0, st1)).

(** ** Notification *)

(** [passes]: the parents whose [_pass_through_notify_observers] is registered with the object;
    [updates]: [_update_on]; [visited]: [__visited]; [copied]: [_optimizer_copy_]; [fresh]:
    [_optimizer_copy_transformed]; [trace]: ghost, the calls of [parameters_changed], latest first. *)
Record ntst : Type := mkN {
  passes : oid -> list oid; updates : oid -> bool; visited : oid -> bool;
  copied : oid -> option (list V); fresh : oid -> bool; trace : list oid }.
Definition set_passes n x v := mkN (upd (passes n) x v) (updates n) (visited n) (copied n) (fresh n) (trace n).
Definition set_updates n x v := mkN (passes n) (upd (updates n) x v) (visited n) (copied n) (fresh n) (trace n).
Definition set_visited n x v := mkN (passes n) (updates n) (upd (visited n) x v) (copied n) (fresh n) (trace n).
Definition set_copied n x v := mkN (passes n) (updates n) (visited n) (upd (copied n) x v) (fresh n) (trace n).
Definition set_fresh n x v := mkN (passes n) (updates n) (visited n) (copied n) (upd (fresh n) x v) (trace n).
Definition add_trace n x := mkN (passes n) (updates n) (visited n) (copied n) (fresh n) (x :: trace n).

(** [notify_observers]; observable.py:75-97. The object's own notification has priority -100, the
    parents' -inf, so [min_priority = -inf] ([up = false]) runs only the own one.
    [_parameters_changed_notification], [_pass_through_notify_observers]: parameter_core.py:502-510.
    A Param has no notification of its own. *)
Fixpoint notify (f : nat) (st : struct) (x : oid) (up : bool) (n : ntst) : res ntst :=
  match f with
  | O => Er Endless
  | S f' =>
      if updates n x then
        let n1 := if is_leaf st x then n else add_trace (set_fresh n x false) x in
        if up then rfold (fun q => notify f' st q true) (passes n x) n1
        else Ok n1
      else Ok n
  end.

(** [is_fixed]; of a Param param.py:190-193, of a Parameterized constrainable.py:122-126. *)
Fixpoint is_fixed (f : nat) (st : struct) (i : iost) (x : oid) : res bool :=
  match f with
  | O => Er Endless
  | S f' =>
      if is_leaf st x then Ok (Z.of_nat (length (cons_get i x Fixed)) =? size st x)
      else rfold (fun p (b : bool) => if b then is_fixed f' st i p else Ok false) (kids st x) true
  end.

(** [_trigger_params_changed(trigger_parent)]; parameter_core.py:126-134. *)
Fixpoint trigger_params (f : nat) (st : struct) (i : iost) (x : oid) (up : bool) (n : ntst) : res ntst :=
  match f with
  | O => Er Endless
  | S f' =>
      rbind (rfold (fun p n0 =>
        rbind (is_fixed (fuel st) st i p) (fun b : bool =>
        if b then Ok n0 else trigger_params f' st i p false n0)) (kids st x) n) (fun n1 =>
      notify (fuel st) st x up n1)
  end.
(** [trigger_update(trigger_parent)]; updateable.py:68-79. *)
Definition trigger_update (st : struct) (i : iost) (x : oid) (up : bool) (n : ntst) : res ntst :=
  if updates n x && negb (in_init st x) then trigger_params (fuel st) st i x up n else Ok n.

(** [traverse(visit)]; parameter_core.py:368-392. The visitor raises at the objects in [stop];
    [Some v] lists the objects visited before, latest first. *)
Fixpoint traverse (f : nat) (st : struct) (stop : oid -> bool) (x : oid) (s : ntst * list oid) : ntst * list oid * option exn :=
  let (n, seen) := s in
  match f with
  | O => (n, seen, Some Endless)
  | S f' =>
      if visited n x then (n, seen, None)
      else if stop x then (n, seen, Some HierarchyError)
      else
        match fold_left (fun a c => match a with (s', None) => traverse f' st stop c s' | _ => a end)
                        (kids st x) ((set_visited n x true, x :: seen), None) with
        | ((n2, seen2), None) => (set_visited n2 x false, seen2, None)
        | (s2, Some e) => (s2, Some e)
        end
  end.
(** [traverse_parents(visit)]; parameter_core.py:395-410. *)
Fixpoint traverse_parents (f : nat) (st : struct) (stop : oid -> bool) (x : oid) (s : ntst * list oid) : ntst * list oid * option exn :=
  let (n, seen) := s in
  match f with
  | O => (n, seen, Some Endless)
  | S f' =>
      match par st x with
      | None => (n, seen, None)
      | Some p =>
          match traverse_parents f' st stop p (set_visited n x true, seen) with
          | (s1, Some e) => (s1, Some e)
          | (s1, None) =>
              match traverse (fuel st) st stop p s1 with
              | (s2, Some e) => (s2, Some e)
              | ((n2, seen2), None) => (set_visited n2 x false, seen2, None)
              end
          end
      end
  end.

(** ** The whole state and the methods *)

Record state : Type := mkS { st : struct; ios : iost; fix_ : fixst; mem : memst; nt : ntst }.
Definition with_st (s : state) (v : struct) : state := mkS v (ios s) (fix_ s) (mem s) (nt s).
Definition with_io (s : state) (v : iost * fixst) : state := mkS (st s) (fst v) (snd v) (mem s) (nt s).
Definition with_ios (s : state) (v : iost) : state := mkS (st s) v (fix_ s) (mem s) (nt s).
Definition with_fix (s : state) (v : fixst) : state := mkS (st s) (ios s) v (mem s) (nt s).
Definition with_mem (s : state) (v : memst) : state := mkS (st s) (ios s) (fix_ s) v (nt s).
Definition with_nt (s : state) (v : ntst) : state := mkS (st s) (ios s) (fix_ s) (mem s) v.

(** A method call: the state afterwards, and the exception if one was raised. *)
Definition cmd := state -> state * option exn.
Definition done : cmd := fun s => (s, None).
Definition raise (e : exn) : cmd := fun s => (s, Some e).
Definition andthen (a b : cmd) : cmd := fun s => match a s with (s1, None) => b s1 | r => r end.
Notation "a ;; b" := (andthen a b) (at level 61, right associativity).
Definition upd_st (g : struct -> struct) : cmd := fun s => (with_st s (g (st s)), None).
Definition lift {A : Type} (get : state -> res A) (put : state -> A -> state) : cmd :=
  fun s => match get s with Ok a => (put s a, None) | Er e => (s, Some e) end.
(** Run a command that depends on a value computed from the state. *)
Definition get {A : Type} (g : state -> res A) (k : A -> cmd) : cmd :=
  fun s => match g s with Ok a => k a s | Er e => (s, Some e) end.

Definition c_notify_parent (x : oid) : cmd :=
  lift (fun s => notify_parent_change (st s) x (ios s, fix_ s)) with_io.
Definition c_connect_fixes (x : oid) : cmd :=
  lift (fun s => connect_fixes (st s) x (ios s, fix_ s)) with_io.
(** [_connect_parameters()]; parameterized.py:228-277. Without children only
    [_model_initialized_] is set. *)
Definition c_connect (x : oid) : cmd :=
  upd_st (fun t => connect_struct t x) ;; lift (fun s => connect_mem (st s) x (mem s)) with_mem.
Definition c_highest (x : oid) (k : oid -> cmd) : cmd := get (fun s => highest (fuel (st s)) (st s) x) k.
Definition c_trigger (x : oid) (up : bool) : cmd :=
  lift (fun s => trigger_update (st s) (ios s) x up (nt s)) with_nt.
Definition c_ios (g : state -> iost) : cmd := fun s => (with_ios s (g s), None).
Definition c_nt (g : ntst -> ntst) : cmd := fun s => (with_nt s (g (nt s)), None).

(** [_disconnect_parent()]; indexable.py:110-125. *)
Definition disconnect_parent (x : oid) : cmd :=
  c_ios (fun s => disconnect_io (ios s) x) ;;
  upd_st (fun t => set_pidx (set_par t x None) x None) ;;
  c_connect_fixes x ;; c_notify_parent x.

(** [unlink_parameter(param)]; parameterized.py:195-226. [_remove_parameter_name] calls
    [_connect_parameters] (parameter_core.py:488). *)
Definition unlink (self param : oid) : cmd := fun s0 =>
  if negb (omem param (kids (st s0) self)) then (s0, Some HierarchyError) else
  match pidx (st s0) param with
  | None => (s0, Some AttributeError)
  | Some i =>
  let start := sum_sizes (st s0) (py_prefix (kids (st s0) self) i) in
  let n := size (st s0) param in
  (upd_st (fun t => set_kids (set_size t self (size t self - n)) self (py_del (kids t self) i)) ;;
   c_connect self ;;
   disconnect_parent param ;;
   c_nt (fun t => set_passes t param (filter (fun q => negb (Nat.eqb q self)) (passes t param))) ;;
   c_ios (fun s => cons_upd (ios s) self (fun v d => shift_left v d start n)) ;;
   c_connect self ;;
   c_notify_parent self ;;
   lift (fun s => add_size (fuel (st s)) (st s) (par (st s) self) (- n)) with_st ;;
   c_highest self (fun h => c_connect h ;; c_connect_fixes h ;; c_notify_parent h)) s0
  end.

(** [link_parameter(param, index)] for a param that is not a child; parameterized.py:142-184. *)
Definition attach (self param : oid) (index : option Z) : cmd := fun s =>
  let ks := kids (st s) self in
  let n := size (st s) param in
  let '(start, off, ix) := match index with
    | None => (sum_sizes (st s) ks, size (st s) self, Z.of_nat (length ks))
    | Some i => (sum_sizes (st s) (py_prefix ks i), sum_sizes (st s) (py_prefix ks i),
                 if 0 <=? i then i else Z.of_nat (length (py_prefix ks i)))
    end in
  (c_ios (fun s => cons_upd (ios s) self (fun v d => shift_right v d start n)) ;;
   c_ios (fun s => cons_upd (ios s) self (fun v d => update v d (cons_items (ios s) param) off)) ;;
   upd_st (fun t => set_pidx (set_par t param (Some self)) param (Some ix)) ;;
   upd_st (fun t => match index with
                    | None => set_kids t self (ks ++ [param])
                    | Some i => set_kids (fold_left (fun t p => set_pidx t p (option_map (Z.add 1) (pidx t p)))
                                                    (py_suffix ks i) t) self (py_insert ks i param)
                    end) ;;
   c_nt (fun t => set_passes t param (passes t param ++ [self])) ;;
   lift (fun s => add_size (fuel (st s)) (st s) (Some self) n) with_st ;;
   c_notify_parent self ;;
   (fun s => if in_init (st s) self then (s, None) else
     c_highest self (fun h s => match inited (st s) h with
       | None => (s, Some AttributeError)
       | Some false => (s, None)
       | Some true => (c_connect h ;; c_notify_parent h ;; c_connect_fixes h) s
       end) s)) s.
(** The rest of the method: parameterized.py:137-148, 185-186. *)
Definition link_new (self param : oid) (index : option Z) : cmd := fun s =>
  match par (st s) param with
  | None => attach self param index s
  | Some pp =>
      match traverse_parents (fuel (st s)) (st s) (Nat.eqb self) param (nt s, []) with
      | ((n, _), Some e) => (with_nt s n, Some e)
      | ((n, _), None) => (unlink pp param ;; attach self param index) (with_nt s n)
      end
  end.
Definition link (self param : oid) (index : option Z) : cmd := fun s =>
  if omem param (kids (st s) self) then
    match index with
    | Some _ => (unlink self param ;; link_new self param index) s
    | None => (s, Some HierarchyError)
    end
  else link_new self param index s.

(** ** Construction *)

(** [Param(name, values)]; param.py:87-99. The values are copied or shared with the caller's array;
    here they get a buffer of their own. *)
Definition new_leaf (vals : list V) : cmd := fun s =>
  let t := st s in let x := next t in let n := Z.of_nat (length vals) in
  let i := ios s in let m := mem s in
  (mkS (mkSt (upd (kind t) x (KLeaf (length vals))) (upd (par t) x None) (upd (pidx t) x None) (upd (kids t) x [])
             (upd (size t) x n) (upd (in_init t) x false) (upd (inited t) x None) (S x))
       (mkIo (upd (iop i) x (nrid i, Root)) (upd (dicts i) (nrid i) []) (S (nrid i)))
       (upd (fix_ s) x None)
       (write_arr (set_arr (mkM (cell m) (S (nbuf m)) (arr m)) x (Some (nbuf m, 0, n))) (nbuf m, 0, n) vals)
       (mkN (upd (passes (nt s)) x []) (upd (updates (nt s)) x true) (upd (visited (nt s)) x false)
            (upd (copied (nt s)) x None) (upd (fresh (nt s)) x false) (trace (nt s))), None).
(** The object [Parameterized.__init__] works on, before its parameters are linked;
    parameterized.py:49, 116-123, parameter_core.py:313-323. *)
Definition bare_node : cmd := fun s =>
  let t := st s in let x := next t in let i := ios s in let m := mem s in
  (mkS (mkSt (upd (kind t) x KNode) (upd (par t) x None) (upd (pidx t) x None) (upd (kids t) x [])
             (upd (size t) x 0) (upd (in_init t) x true) (upd (inited t) x None) (S x))
       (mkIo (upd (iop i) x (nrid i, Root)) (upd (dicts i) (nrid i) []) (S (nrid i)))
       (upd (fix_ s) x None)
       (set_arr m x None)
       (mkN (upd (passes (nt s)) x []) (upd (updates (nt s)) x true) (upd (visited (nt s)) x false)
            (upd (copied (nt s)) x None) (upd (fresh (nt s)) x false) (trace (nt s))), None).
(** [initialize_parameter()]; parameter_core.py:326-337. *)
Definition initialize_parameter (x : oid) : cmd :=
  c_highest x (fun h => c_notify_parent h) ;;
  c_highest x (fun h => c_connect h) ;;
  c_highest x (fun h => c_connect_fixes h) ;;
  c_trigger x true.
(** [Parameterized(name, parameters, initialize=...)]; parameterized.py:47-64, 116-123, 188-193. *)
Definition new_node (ps : list oid) (initialize : bool) : cmd := fun s =>
  let x := next (st s) in
  (bare_node ;;
   fold_right (fun p c => link x p None ;; c) done ps ;;
   upd_st (fun t => set_inited (set_in_init t x false) x (Some false)) ;;
   (if initialize then initialize_parameter x else done)) s.

(** The end of the construction of [x]; parameterized.py:54-60. The constructor of a subclass may do
    more between [bare_node] and this than link parameters. *)
Definition end_init (x : oid) (initialize : bool) : cmd :=
  upd_st (fun t => set_inited (set_in_init t x false) x (Some false)) ;;
  (if initialize then initialize_parameter x else done).

(** ** Constraining *)

(** [init t v], [f t v], [finv t v]: initialize, f and finv of transformation [t], elementwise. *)
Variables tinit tf tfinv : nat -> V -> V.
Variable tgrad : nat -> V -> V -> V.

(** An object or the part [sel] (flat indices) of a Param, as [x[s]]; [_raveled_index]
    indexable.py:193-198, param.py:170-176. *)
Definition raveled_index (t : struct) (x : oid) (sel : option (list Z)) : list Z :=
  match sel with None => arange (size t x) | Some l => l end.
(** [_highest_parent_] of an indexed Param without parent is the temporary object. *)
Definition c_mask (x : oid) (sel : option (list Z)) (index : list Z) (v : bool) : cmd := fun s =>
  match sel, par (st s) x with
  | Some _, None => (s, None)
  | _, _ => c_highest x (fun h => lift (fun s => set_mask (st s) (ios s) (fix_ s) h x index v) with_fix) s
  end.

(** [_remove_from_index_operations] on the constraints; indexable.py:256-270. *)
Definition remove_one (x : oid) (sel : option (list Z)) (t : prop) : cmd := fun s =>
  let i := ios s in
  let (removed, d) := remove (snd (iop i x)) (dicts i (fst (iop i x))) t (raveled_index (st s) x sel) in
  (c_ios (fun s => set_dict (ios s) (fst (iop i x)) d) ;;
   match t with Fixed => c_mask x sel removed true | Tr _ => done end) s.
(** [unconstrain( *transforms)]; constrainable.py:158-165. *)
Definition unconstrain (x : oid) (sel : option (list Z)) (ts : list prop) : cmd := fun s =>
  let ts' := match ts with [] => map fst (cons_items (ios s) x) | _ => ts end in
  fold_right (fun t c => remove_one x sel t ;; c) done ts' s.
(** [which.add(what, index)]; indexable.py:241-254. *)
Definition add_cons (x : oid) (sel : option (list Z)) (t : prop) : cmd :=
  c_ios (fun s => cons_upd (ios s) x (fun v d => add v d t (raveled_index (st s) x sel))).
Definition c_notify (x : oid) (up : bool) : cmd :=
  lift (fun s => notify (fuel (st s)) (st s) x up (nt s)) with_nt.
(** [self.param_array[...] = vals]: writing to a Param notifies its observers
    (observable_array.py:117-119), writing to the array of a Parameterized does not. *)
Definition set_values (x : oid) (sel : option (list Z)) (g : V -> V) : cmd := fun s =>
  let (m1, a) := param_array (st s) (mem s) x in
  let vals := read_arr m1 a in
  let vals' := map (fun e => if match sel with None => true | Some l => zmem (fst e) l end then g (snd e) else snd e)
                   (combine (arange (Z.of_nat (length vals))) vals) in
  (fun s => (with_mem s (write_arr m1 a vals'), None)) s.
(** [constrain_fixed()]; constrainable.py:52-68. *)
Definition fix_param (x : oid) (sel : option (list Z)) : cmd := fun s =>
  (add_cons x sel Fixed ;; c_mask x sel (raveled_index (st s) x sel) false ;; c_notify x true) s.
(** [unconstrain_fixed()]; constrainable.py:71-82. The second [_set_unfixed] gets the indices the
    first one got. *)
Definition unfix_param (x : oid) (sel : option (list Z)) : cmd := fun s =>
  let i := ios s in
  let (removed, _) := remove (snd (iop i x)) (dicts i (fst (iop i x))) Fixed (raveled_index (st s) x sel) in
  (unconstrain x sel [Fixed] ;; c_mask x sel removed true) s.
(** [constrain(transform)] for a transformation [n]; constrainable.py:138-156. *)
Definition constrain (x : oid) (sel : option (list Z)) (n : nat) : cmd := fun s =>
  (set_values x sel (tinit n) ;;
   (if is_leaf (st s) x then c_notify x true else done) ;;
   unconstrain x sel [] ;; add_cons x sel (Tr n) ;; c_trigger x true) s.

(** ** Values *)

(** [p[...] = v] on a Param: element [k] becomes [g k]; observable_array.py:117-119. *)
Definition assign (x : oid) (g : Z -> V -> V) : cmd := fun s =>
  let (m1, a) := param_array (st s) (mem s) x in
  let vals := read_arr m1 a in
  let vals' := map (fun e => g (fst e) (snd e)) (combine (arange (Z.of_nat (length vals))) vals) in
  ((fun s => (with_mem s (write_arr m1 a vals'), None)) ;;
   (if is_leaf (st s) x then c_notify x true else c_trigger x true)) s.

(** [optimizer_array], reading; parameter_core.py:80-93. *)
Definition put_all (items : list (prop * list Z)) (g : nat -> V -> V) (src dst : list V) : list V :=
  fold_left (fun acc e =>
    match fst e with
    | Fixed => acc
    | Tr n => map (fun kv => if zmem (fst kv) (snd e)
                             then match nth_error src (Z.to_nat (fst kv)) with Some v => g n v | None => snd kv end
                             else snd kv)
                  (combine (arange (Z.of_nat (length acc))) acc)
    end) items dst.
Definition select {A : Type} (mask : list bool) (l : list A) : list A :=
  map snd (filter fst (combine mask l)).
Definition get_optimizer_array (x : oid) (s : state) : res (list V * state) :=
  let (m1, a) := param_array (st s) (mem s) x in
  let vals := read_arr m1 a in
  let sz := size (st s) x in
  let keep := match copied (nt s) x with Some l => Z.of_nat (length l) =? sz | None => false end in
  (* a new [np.empty] for the copy: its contents are those of a new buffer *)
  let m2 := if keep then m1 else mkM (cell m1) (S (nbuf m1)) (arr m1) in
  let old := match copied (nt s) x with
             | Some l => if keep then l else read_arr m1 (nbuf m1, 0, sz)
             | None => read_arr m1 (nbuf m1, 0, sz) end in
  let new := if fresh (nt s) x then old else put_all (cons_items (ios s) x) tfinv vals vals in
  let n1 := set_fresh (set_copied (nt s) x (Some new)) x true in
  let s1 := with_nt (with_mem s m2) n1 in
  if nonempty (cons_get (ios s) x Fixed) then
    match ensure_fixes (st s) (ios s) (fix_ s) x with
    | Er e => Er e
    | Ok mk => Ok (select mk new, with_fix s1 (upd (fix_ s) x (Some mk)))
    end
  else Ok (new, s1).

(** [a.flat = p]: NumPy starts [p] again when it is used up, ignores what is left of it and does
    nothing if it is empty. *)
Definition cyc (p : list V) (k : nat) (d : V) : V := nth (k mod length p) p d.
Definition fill (l p : list V) : list V :=
  map (fun e => cyc p (Z.to_nat (fst e)) (snd e)) (combine (arange (Z.of_nat (length l))) l).
(** [a.flat[mask] = p]: the selected elements become those of [p], in order, likewise. *)
Fixpoint put_mask (mask : list bool) (l p : list V) (k : nat) : list V :=
  match mask, l with
  | true :: mk, a :: l' => cyc p k a :: put_mask mk l' p (S k)
  | false :: mk, a :: l' => a :: put_mask mk l' p k
  | _, _ => l
  end.
(** [for c, ind in items: np.put(l, ind, g(c, l[ind]))], without the fix. *)
Definition apply_all (items : list (prop * list Z)) (g : nat -> Z -> V -> V) (l : list V) : list V :=
  fold_left (fun acc e =>
    match fst e with
    | Fixed => acc
    | Tr n => map (fun kv => if zmem (fst kv) (snd e) then g n (fst kv) (snd kv) else snd kv)
                  (combine (arange (Z.of_nat (length acc))) acc)
    end) items l.
(** [optimizer_array = p]; parameter_core.py:95-124. A mask of another length than the array is
    taken to raise (NumPy does if it is longer, or if an index is outside it). *)
Definition set_optimizer_array (x : oid) (p : list V) : cmd := fun s =>
  let (m1, a) := param_array (st s) (mem s) x in
  let vals := read_arr m1 a in
  let fixed := cons_get (ios s) x Fixed in
  let f := if (match par (st s) x with Some _ => true | None => false end) && nonempty fixed
           then match mask_set (ones (size (st s) x)) fixed false with Ok m => Ok (Some m) | Er e => Er e end
           else if nonempty fixed then Ok (fix_ s x) else Ok None in
  let write vals2 := (fun s => (with_nt (with_mem s (write_arr m1 a vals2)) (set_fresh (nt s) x false), None)) ;; c_trigger x true in
  match f with
  | Er e => (s, Some e)
  | Ok None => write (apply_all (cons_items (ios s) x) (fun n _ => tf n) (fill vals p)) s
  | Ok (Some mk) =>
      if Nat.eqb (length mk) (length vals) then
        let items := map (fun e => (fst e, filter (fun k => nth (Z.to_nat k) mk false) (snd e))) (cons_items (ios s) x) in
        write (apply_all items (fun n _ => tf n) (put_mask mk vals p 0)) s
      else (s, Some IndexError)
  end.

(** [_size_transformed()]; parameter_core.py:136-141. *)
Definition size_transformed (s : state) (x : oid) : Z := size (st s) x - Z.of_nat (length (cons_get (ios s) x Fixed)).
(** [_transform_gradients(g)]; parameter_core.py:143-152; [tgrad n v d]: gradfactor of transformation
    [n] at [v]. With fixes but no mask, [g[None]] has the elements of [g]. *)
Definition transform_gradients (x : oid) (s : state) (g : list V) : res (list V) :=
  let (m1, a) := param_array (st s) (mem s) x in
  let g1 := apply_all (cons_items (ios s) x) (fun n k d => tgrad n (nth (Z.to_nat k) (read_arr m1 a) d) d) g in
  if nonempty (cons_get (ios s) x Fixed) then
    match fix_ s x with
    | Some mk => if Nat.eqb (length mk) (length g1) then Ok (select mk g1) else Er IndexError
    | None => Ok g1
    end
  else Ok g1.
(** [_raveled_index_for(param)], [_raveled_index_for_transformed(param)] on [self];
    indexable.py:150-184. *)
Definition index_for (s : state) (self x : oid) (sel : option (list Z)) : res (list Z) :=
  rbind (offset_for (fuel (st s)) (st s) self x) (fun off => Ok (map (fun k => k + off) (raveled_index (st s) x sel))).
Definition index_for_transformed (s : state) (self x : oid) (sel : option (list Z)) : res (list Z) :=
  rbind (index_for s self x sel) (fun ravi =>
  if nonempty (cons_get (ios s) self Fixed) then
    match fix_ s self with
    | None => Er TypeError
    | Some mk => Ok (map (fun k => k - Z.of_nat (length (filter negb (firstn (Z.to_nat k + 1) mk))))
                         (filter (fun k => nth (Z.to_nat k) mk false) ravi))
    end
  else Ok ravi).

(** [update_model(updates)]; updateable.py:42-60. *)
Definition set_all_updates (h : oid) (on : bool) : cmd := fun s =>
  match traverse (fuel (st s)) (st s) (fun _ => false) h (nt s, []) with
  | ((n, seen), None) => (with_nt s (fold_left (fun n0 y => set_updates n0 y on) seen n), None)
  | ((n, _), Some e) => (with_nt s n, Some e)
  end.
Definition update_model (x : oid) (on : bool) : cmd :=
  c_highest x (fun h => set_all_updates h on) ;; c_trigger x true.

(** [randomize()] with [draw k] the [k]-th number drawn; parameter_core.py:228-250. *)
Definition randomize (x : oid) (draw : nat -> V) : cmd := fun s =>
  (update_model x false ;;
   set_optimizer_array x (map draw (seq 0 (Z.to_nat (size_transformed s x)))) ;;
   (fun s => let (m1, a) := param_array (st s) (mem s) x in
             let vals := read_arr m1 a in
             match mask_set (ones (size (st s) x)) (cons_get (ios s) x Fixed) false with
             | Er e => (s, Some e)
             | Ok mk => (with_mem s (write_arr m1 a (put_mask mk vals (select mk vals) 0)), None)
             end) ;;
   update_model x (updates (nt s) x)) s.

(** The state before anything is built, with arbitrary memory contents. *)
Definition init_state (junk : nat -> Z -> V) : state :=
  mkS (mkSt (fun _ => KNode) (fun _ => None) (fun _ => None) (fun _ => []) (fun _ => 0)
            (fun _ => false) (fun _ => None) 0%nat)
      (mkIo (fun _ => (0%nat, Root)) (fun _ => []) 0%nat) (fun _ => None)
      (mkM junk 0%nat (fun _ => None))
      (mkN (fun _ => []) (fun _ => true) (fun _ => false) (fun _ => None) (fun _ => false) []).
End Values.
