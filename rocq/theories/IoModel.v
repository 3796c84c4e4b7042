(** Model of index operations beside the constraints (in GPy: priors):
    Indexable.add_index_operation, _add_io, remove_index_operation, _disconnect_parent,
    _parent_changed, /repo/paramz/core/indexable.py:81-125, 220-239, and what link_parameter and
    unlink_parameter do with them, parameterized.py:138-186, 195-226.

    Simplifications: a hierarchy is a Parameterized (here: node) with Params (here: leaves) below it; an
    index operation is the relation between indices and properties that it stands for (IndexOpsModel.v
    has the dictionaries); names and properties are numbers, name 0 is 'constraints'; index operations
    are added to and removed from objects without parent and children only (views keep the object that
    they were made for); linking at an index and values are in PzModel.v. *)
From Coq Require Import List Bool Arith.
Import ListNotations.

(** Index [i] has property [p]; core/index_operations.py:50-194. *)
Definition rel : Type := nat -> nat -> bool.
(** A new ParameterIndexOperations; index_operations.py:90-94. *)
Definition none : rel := fun _ _ => false.
(** [shift_right]; index_operations.py:108-111. *)
Definition shift_right (f : rel) (start n : nat) : rel :=
  fun i p => if Nat.ltb i start then f i p else if Nat.ltb i (start + n) then false else f (i - n) p.
(** [shift_left]; index_operations.py:113-122. *)
Definition shift_left (f : rel) (start n : nat) : rel :=
  fun i p => if Nat.ltb i start then f i p else f (i + n) p.
(** [update]; index_operations.py:175-178. *)
Definition update (f g : rel) (off : nat) : rel :=
  fun i p => f i p || (Nat.leb off i && g (i - off) p).
(** [add] of one index; index_operations.py:161-162. *)
Definition add1 (f : rel) (i p : nat) : rel := fun j q => f j q || (Nat.eqb j i && Nat.eqb q p).
(** What a view shows; index_operations.py:220-228. *)
Definition window (f : rel) (off n : nat) : rel := fun i p => Nat.ltb i n && f (off + i) p.
(** [clear] of a view; index_operations.py:242-244. *)
Definition wipe (f : rel) (off n : nat) : rel :=
  fun i p => f i p && negb (Nat.leb off i && Nat.ltb i (off + n)).

(** An index operation of a leaf: its own, or a view of the one of the parent with the same name;
    index_operations.py:50, 206-210. *)
Inductive cell : Type := Own (f : rel) | View (off : nat).
(** Param: size, parent, [_index_operations]; indexable.py:51-53, parentable.py:39-40. *)
Record leafr : Type := mkL { lsize : nat; lpar : option nat; lops : list (nat * cell) }.
(** Parameterized: parameters, [_index_operations]; parameterized.py:116-123. *)
Record noder : Type := mkN { ch : list nat; nops : list (nat * rel) }.
(** All leaves and nodes; the names that are properties of class Indexable (indexable.py:100-101); the
    attributes of leaves. *)
Record state : Type := mkS {
  nl : nat; leaf : nat -> leafr; nn : nat; node : nat -> noder; props : list nat; attr : nat -> nat -> option nat }.
(** Errors; indexable.py:90, 108, the lookup in lines 100 and 236, parameterized.py:154, 186, 201. *)
Inductive err : Type := AttributeError | KeyError | HierarchyError.
(** Objects: Params (param.py:50), Parameterizeds (parameterized.py:68). *)
Inductive obj : Type := L (x : nat) | N (m : nat).
(** Calls; indexable.py:81, 103, index_operations.py:161, parameterized.py:128, 195. *)
Inductive call : Type :=
  | NewLeaf (n : nat)                  (* Param(name, np.zeros(n)) *)
  | NewNode                            (* Parameterized() *)
  | AddOp (o : obj) (k : nat) (f : rel)(* o.add_index_operation(k, ops) *)
  | RemoveOp (o : obj) (k : nat)       (* o.remove_index_operation(k) *)
  | Mark (x k i p : nat)               (* x.k.add(p, [i]) *)
  | Link (m x : nat)                   (* m.link_parameter(x) *)
  | Unlink (m x : nat)                 (* m.unlink_parameter(x) *)
  | SetAttr (x k v : nat)              (* x.k = v for a name that is no property *)
  | GetAttr (x k : nat).               (* x.k *)

(** Lookup in an OrderedDict; indexable.py:53. *)
Fixpoint get {A : Type} (k : nat) (l : list (nat * A)) : option A :=
  match l with [] => None | (j, a) :: r => if Nat.eqb j k then Some a else get k r end.
(** [delitem]; indexable.py:105. *)
Definition del {A : Type} (k : nat) (l : list (nat * A)) : list (nat * A) := filter (fun e => negb (Nat.eqb (fst e) k)) l.
(** Assignment to an existing key; index operations are changed in memory. *)
Definition set {A : Type} (k : nat) (a : A) (l : list (nat * A)) : list (nat * A) :=
  map (fun e => if Nat.eqb (fst e) k then (fst e, a) else e) l.
(** Membership of a key; indexable.py:87, 104. *)
Definition haskey {A : Type} (k : nat) (l : list (nat * A)) : bool := match get k l with Some _ => true | None => false end.
(** Assignment to attributes of an object of Python, e.g. parameterized.py:150-151; the other objects stay. *)
Definition upd {A : Type} (f : nat -> A) (x : nat) (a : A) : nat -> A := fun y => if Nat.eqb y x then a else f y.
(** Assignments to leaves, see [upd]. *)
Definition set_leaf (s : state) (x : nat) (a : leafr) : state := mkS (nl s) (upd (leaf s) x a) (nn s) (node s) (props s) (attr s).
(** Assignments to nodes, see [upd]. *)
Definition set_node (s : state) (m : nat) (a : noder) : state := mkS (nl s) (leaf s) (nn s) (upd (node s) m a) (props s) (attr s).

(** [_offset_for]: the sizes of the children before; core/parameter_core.py:130-141. *)
Fixpoint offset (s : state) (l : list nat) (x : nat) : nat :=
  match l with [] => 0 | y :: r => if Nat.eqb y x then 0 else lsize (leaf s y) + offset s r x end.
(** The size of a node; parameterized.py:118, 151, 171-174. *)
Definition total (s : state) (l : list nat) : nat := list_sum (map (fun y => lsize (leaf s y)) l).

(** What [x._index_operations[k]] stands for; indexable.py:100, index_operations.py:220-228. *)
Definition rel_of (s : state) (x k : nat) : option rel :=
  match get k (lops (leaf s x)) with
  | None => None
  | Some (Own f) => Some f
  | Some (View off) =>
      match lpar (leaf s x) with
      | Some m => match get k (nops (node s m)) with Some F => Some (window F off (lsize (leaf s x))) | None => None end
      | None => None
      end
  end.
(** The loop over the index operations of the node when a leaf is linked; parameterized.py:152-154. It
    stops with KeyError at the first name that the leaf does not have. *)
Fixpoint merge (g : nat -> option rel) (start n : nat) (l : list (nat * rel)) : list (nat * rel) * bool :=
  match l with
  | [] => ([], true)
  | (k, F) :: r =>
      let F1 := shift_right F start n in
      match g k with
      | None => ((k, F1) :: r, false)
      | Some h => let (r', ok) := merge g start n r in ((k, update F1 h start) :: r', ok)
      end
  end.
(** [_parent_changed] of one leaf; indexable.py:233-236: one name after the other is removed and, if the
    parent has it, put at the end again; KeyError if not. *)
Fixpoint review (names : nat -> bool) (off : nat) (todo : list (nat * cell)) (ops : list (nat * cell)) : list (nat * cell) * bool :=
  match todo with
  | [] => (ops, true)
  | (k, _) :: t => if names k then review names off t (del k ops ++ [(k, View off)]) else (del k ops, false)
  end.
(** [_notify_parent_change]; core/parameter_core.py:524-529: all children in order. *)
Fixpoint notify (s : state) (m : nat) (l : list nat) : state * bool :=
  match l with
  | [] => (s, true)
  | y :: r =>
      let a := leaf s y in
      match review (fun k => haskey k (nops (node s m))) (offset s (ch (node s m)) y) (lops a) (lops a) with
      | (ops, true) => notify (set_leaf s y (mkL (lsize a) (lpar a) ops)) m r
      | (ops, false) => (set_leaf s y (mkL (lsize a) (lpar a) ops), false)
      end
  end.
(** [_disconnect_parent] of a leaf: every index operation is copied, and cleared in the parent;
    indexable.py:110-124. *)
Fixpoint disconnect (F : list (nat * rel)) (n : nat) (ops : list (nat * cell)) : list (nat * cell) * list (nat * rel) :=
  match ops with
  | [] => ([], F)
  | (k, Own f) :: r => let (r', F') := disconnect F n r in ((k, Own f) :: r', F')
  | (k, View off) :: r =>
      let g := match get k F with Some h => h | None => none end in
      let (r', F') := disconnect (set k (wipe g off n) F) n r in ((k, Own (window g off n)) :: r', F')
  end.
(** Result of a call: state, value, error; errors as in [err]. *)
Record out : Type := mkO { st : state; val : option nat; exn : option err }.
(** [unlink_parameter]; parameterized.py:195-226. *)
Definition unlink (s : state) (m x : nat) : out :=
  let (c, F) := node s m in
  if existsb (Nat.eqb x) c then
    let a := leaf s x in
    let start := offset s c x in
    let (ops, F1) := disconnect F (lsize a) (lops a) in
    let F2 := map (fun e => (fst e, shift_left (snd e) start (lsize a))) F1 in
    let c' := filter (fun y => negb (Nat.eqb y x)) c in
    let s1 := set_node (set_leaf s x (mkL (lsize a) None ops)) m (mkN c' F2) in
    let (s2, ok) := notify s1 m c' in mkO s2 None (if ok then None else Some KeyError)
  else mkO s None (Some HierarchyError).
(** [link_parameter] for a leaf without a parent; parameterized.py:149-183. *)
Definition link_free (s : state) (m x : nat) : out :=
  let (c, F) := node s m in
  let a := leaf s x in
  match merge (rel_of s x) (total s c) (lsize a) F with
  | (F', false) => mkO (set_node s m (mkN c F')) None (Some KeyError)
  | (F', true) =>
      let s1 := set_node (set_leaf s x (mkL (lsize a) (Some m) (lops a))) m (mkN (c ++ [x]) F') in
      let (s2, ok) := notify s1 m (c ++ [x]) in mkO s2 None (if ok then None else Some KeyError)
  end.
(** One call; the lines are given with each case. *)
Definition exec (k : call) (s : state) : out :=
  match k with
  | NewLeaf n => mkO (mkS (S (nl s)) (upd (leaf s) (nl s) (mkL n None [(0, Own none)])) (nn s) (node s) (0 :: props s) (attr s)) (Some (nl s)) None
  | NewNode => mkO (mkS (nl s) (leaf s) (S (nn s)) (upd (node s) (nn s) (mkN [] [(0, none)])) (0 :: props s) (attr s)) (Some (nn s)) None
  | AddOp (L x) j f => (* indexable.py:81-101 *)
      let a := leaf s x in
      if haskey j (lops a) then mkO s None (Some AttributeError)
      else mkO (mkS (nl s) (upd (leaf s) x (mkL (lsize a) (lpar a) (lops a ++ [(j, Own f)]))) (nn s) (node s) (j :: props s) (attr s)) None None
  | AddOp (N m) j f =>
      let a := node s m in
      if haskey j (nops a) then mkO s None (Some AttributeError)
      else mkO (mkS (nl s) (leaf s) (nn s) (upd (node s) m (mkN (ch a) (nops a ++ [(j, f)]))) (j :: props s) (attr s)) None None
  | RemoveOp (L x) j => (* indexable.py:103-108; the property of the class stays *)
      let a := leaf s x in
      if haskey j (lops a) then mkO (set_leaf s x (mkL (lsize a) (lpar a) (del j (lops a)))) None None
      else mkO s None (Some AttributeError)
  | RemoveOp (N m) j =>
      let a := node s m in
      if haskey j (nops a) then mkO (set_node s m (mkN (ch a) (del j (nops a)))) None None
      else mkO s None (Some AttributeError)
  | Mark x j i p => (* indexable.py:100, index_operations.py:161-162, 278-279 *)
      let a := leaf s x in
      match get j (lops a) with
      | None => mkO s None (Some KeyError)
      | Some (Own f) => mkO (set_leaf s x (mkL (lsize a) (lpar a) (set j (Own (add1 f i p)) (lops a)))) None None
      | Some (View off) =>
          match lpar a with
          | Some m =>
              match get j (nops (node s m)) with
              | Some F => mkO (set_node s m (mkN (ch (node s m)) (set j (add1 F (off + i) p) (nops (node s m))))) None None
              | None => mkO s None (Some KeyError)   (* does not occur *)
              end
          | None => mkO s None (Some KeyError)       (* does not occur *)
          end
      end
  | Link m x => (* parameterized.py:138-186 *)
      if existsb (Nat.eqb x) (ch (node s m)) then mkO s None (Some HierarchyError)
      else match lpar (leaf s x) with
           | None => link_free s m x
           | Some m' => let o := unlink s m' x in match exn o with Some _ => o | None => link_free (st o) m x end
           end
  | Unlink m x => unlink s m x
  | SetAttr x j v => mkO (mkS (nl s) (leaf s) (nn s) (node s) (props s) (upd (attr s) x (upd (attr s x) j (Some v)))) None None
  | GetAttr x j => (* a property of the class comes before attributes of the object; indexable.py:100 *)
      if existsb (Nat.eqb j) (props s) then
        (if haskey j (lops (leaf s x)) then mkO s None None else mkO s None (Some KeyError))
      else match attr s x j with Some v => mkO s (Some v) None | None => mkO s None (Some AttributeError) end
  end.
(** Before the first call: no objects (indexable.py:51-53). *)
Definition start : state := mkS 0 (fun _ => mkL 0 None []) 0 (fun _ => mkN [] []) [] (fun _ _ => None).
