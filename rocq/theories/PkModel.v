(** Model of saving an object with [pickle] and loading it again.

    Files modelled: /repo/paramz/core/pickleable.py:46-68 (pickle) and 104-128 (the state),
    __init__.py:44-77 (load), parameterized.py:344-350, core/observable_array.py:109-115,
    core/indexable.py:55-68, param.py:140-150 and 211-218.

    Taken from the documentation of the standard library: [pickle] writes an object as "new object of
    this class", then everything its state refers to in the order of the attributes, then "set the
    state"; an object it has met already is written as a reference. Loading does the same in the same
    order, so an object met again may be one whose state is not yet set.

    Simplifications: the object is loaded in the process that saved it, before anything else is done
    (so the saved state is the present one); restored index operations are taken as copies of their
    own instead of views of the restored index operations of the whole (as soon as the restored
    parent has its state they are views of the parent's in both cases); gradients are left out. *)
From Coq Require Import List ZArith Bool Arith.
From Verif Require Import NpModel IndexOpsModel PzModel CopyModel.
Import ListNotations.
Open Scope Z_scope.

(** How loading ends; [Unfinished] is an artefact of the recursion bound of the model. *)
Inductive outcome : Type := Done | Raised (e : exn) | Unfinished.

Section Load.
Context {V : Type}.

(** The unpickler: the state of the process, which new object stands for which saved one (the memo of
    [pickle], pickleable.py:58 and __init__.py:47), and the saved objects whose new ones have their
    state. *)
Record reader := mkR { rs : @state V; memo : list (oid * oid); built : list oid }.
(** Looking up a saved object in the memo; pickleable.py:58. *)
Fixpoint assoc (x : oid) (l : list (oid * oid)) : option oid :=
  match l with [] => None | (a, b) :: l' => if Nat.eqb x a then Some b else assoc x l' end.
Definition stands (r : reader) (x : oid) : oid := match assoc x (memo r) with Some y => y | None => x end.

(** What else the attributes of an object refer to: set before [Parameterizable.__init__] has made
    [parameters] (parameter_core.py:311-323), and after it. *)
Variables before after : oid -> list oid.
(** The objects of the hierarchy an object's state refers to, in the order of [__dict__]; [_parent_]
    is not among the attributes left out, pickleable.py:105-112. *)
Definition refs (d : @state V) (x : oid) : list oid :=
  before x ++ kids (st d) x ++ match par (st d) x with Some p => [p] | None => [] end ++ after x.

(** The state of a Param: the array with the saved values, and the attributes;
    observable_array.py:113-115, pickleable.py:119-128. *)
Definition build_leaf (x y : oid) (pp : option oid) (s : @state V) : @state V :=
  let (m1, a) := param_array (st s) (mem s) x in
  let vals := read_arr m1 a in
  let b := nbuf m1 in let n := Z.of_nat (length vals) in
  set_attrs x y pp [] (Some (b, 0, n)) (with_mem s (write_arr (mkM (cell m1) (S b) (arr m1)) (b, 0, n) vals)).

(** [BUILD]: [__setstate__] of the new object. The attributes of a Parameterized are set, then its
    children are connected (parameterized.py:344-350): with a child whose own state is not yet set
    this raises, for it lacks [size] (parameterized.py:118 and 247) or [_realshape_] (param.py:146-148 and
    parameterized.py:264). *)
Definition build (d : @state V) (x y : oid) (r : reader) : reader * outcome :=
  let pp := option_map (stands r) (par (st d) x) in
  if is_leaf (st d) x then (mkR (build_leaf x y pp (rs r)) (memo r) (x :: built r), Done)
  else
    let s1 := set_attrs x y pp (map (stands r) (kids (st d) x)) None (rs r) in
    if forallb (fun c => omem c (built r)) (kids (st d) x) then
      match end_setstate y s1 with
      | (s2, None) => (mkR s2 (memo r) (x :: built r), Done)
      | (s2, Some e) => (mkR s2 (memo r) (built r), Raised e)
      end
    else (mkR s1 (memo r) (built r), Raised AttributeError).

(** Reading the objects of a list one after the other; stops at an exception. *)
Definition each (g : oid -> reader -> reader * outcome) (l : list oid) (r : reader) : reader * outcome :=
  fold_left (fun (a : reader * outcome) c => match a with (r, Done) => g c r | _ => a end) l (r, Done).
(** Reading a saved object: from the memo, or the new object, everything its state refers to, and its
    state; __init__.py:44-51. *)
Fixpoint rd (f : nat) (d : @state V) (x : oid) (r : reader) : reader * outcome :=
  match assoc x (memo r) with
  | Some _ => (r, Done)
  | None =>
      match f with
      | O => (r, Unfinished)
      | S f' =>
          let y := next (st (rs r)) in
          match each (rd f' d) (refs d x) (mkR (alloc (rs r)) ((x, y) :: memo r) (built r)) with
          | (r1, Done) => build d x y r1
          | q => q
          end
      end
  end.
(** [load] of what [x.pickle] has written; pickleable.py:46-65, __init__.py:53-77. The loaded object is
    the next new one. *)
Definition load (x : oid) (s : @state V) : @state V * outcome :=
  let (r, o) := rd (fuel (st s)) s x (mkR s [] []) in (rs r, o).
End Load.
