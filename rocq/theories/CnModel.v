(** Model of making Params from arrays: Param.__new__ and __init__ (/repo/paramz/param.py:85-98) over
    ObsAr.__new__ (core/observable_array.py:56-67) and the constructors of the base classes
    (core/parameter_core.py:58-61, 315-323, core/constrainable.py:36-43, core/indexable.py:55-57,
    core/nameable.py:30-32, core/observable.py:40-44), and of what depends on it: linking
    (parameterized.py:128-186), constraining and assigning.

    Simplifications: arrays have one axis; a hierarchy is one Parameterized (here: node) with Params
    below it; a Param gets memory of its own when it is linked (that this is a part of the array of the
    node is covered by PzModel.v); a whole Param is constrained at a time, with a transformation
    that accepts its values as they are; elements are assigned one at
    a time; the switch of updates, gradients and default constraints are left out. *)
From Coq Require Import List Bool Arith.
Import ListNotations.

(** The classes of arrays: numpy.ndarray, ObsAr (core/observable_array.py:36), Param (param.py:50). *)
Inductive acls : Type := Plain | Obs | Par.

Section Making.
Variable V : Type.

(** An array object: class, memory (number of a buffer and positions in it), name, parent, observers,
    whether [constraints] is a view of those of the parent, and constraints of its own. For classes
    that have no such attribute the value means nothing. param.py:85-98, core/observable.py:40-44,
    core/constrainable.py:36-43, core/parentable.py:39-42. *)
Record arr : Type := mkA {
  cls : acls; buf : nat; pos : list nat; nm : nat; parent : option nat;
  told : list nat; view : bool; own : nat -> option nat }.
(** All arrays, the memory, all nodes: their children and their constraints by element;
    parameterized.py:116-123. *)
Record state : Type := mkS {
  arrs : list arr; mem : nat -> nat -> V; nbuf : nat;
  nodes : list (list nat * (nat -> option nat)) }.
(** Errors: of Python, and core/__init__.py:40, raised at parameterized.py:186. *)
Inductive err : Type := AttributeError | HierarchyError.

(** No constraints: a new ParameterIndexOperations; core/index_operations.py:90-94. *)
Definition no_cons : nat -> option nat := fun _ => None.
(** What [at_] gives for a number that is no array. *)
Definition dead : arr := mkA Plain 0 [] 0 None [] false no_cons.
(** Array number [x]; a reference of Python. *)
Definition at_ (s : state) (x : nat) : arr := nth x (arrs s) dead.
(** Assignment to attributes of array [x]. *)
Definition set_arr (s : state) (x : nat) (a : arr) : state :=
  mkS (firstn x (arrs s) ++ a :: skipn (S x) (arrs s)) (mem s) (nbuf s) (nodes s).
(** [p.size]; numpy. *)
Definition size_of (s : state) (x : nat) : nat := length (pos (at_ s x)).
(** Children and constraints of node [m]; parameterized.py:116-123, core/constrainable.py:36-43. *)
Definition node (s : state) (m : nat) : list nat * (nat -> option nat) := nth m (nodes s) ([], no_cons).
(** [sum(p.size for p in ...)] over the children before [x]; parameterized.py:151, 205. *)
Fixpoint offset (s : state) (l : list nat) (x : nat) : nat :=
  match l with
  | [] => 0
  | y :: r => if Nat.eqb y x then 0 else size_of s y + offset s r x
  end.
(** The size of a node; parameterized.py:171-174. *)
Definition total (s : state) (l : list nat) : nat := list_sum (map (size_of s) l).

(** [np.require(x, dtype=float, requirements=['W','C'])] of an array with positions that follow each
    other is [x]; of any other array it is a copy; observable_array.py:61. *)
Fixpoint contiguous (ps : list nat) : bool :=
  match ps with p :: ((q :: _) as r) => Nat.eqb q (S p) && contiguous r | _ => true end.
(** The memory of an array that is made from plain array [x]; observable_array.py:58-67. *)
Definition required (s : state) (x : nat) : (nat -> nat -> V) * nat * nat * list nat :=
  let a := at_ s x in
  if contiguous (pos a) then (mem s, nbuf s, buf a, pos a)
  else (fun b k => if Nat.eqb b (nbuf s) then mem s (buf a) (nth k (pos a) 0) else mem s b k,
        S (nbuf s), nbuf s, seq 0 (length (pos a))).

(** The calls of a program; param.py:85, observable_array.py:56, parameterized.py:128,
    core/constrainable.py:138, observable_array.py:117. *)
Inductive call : Type :=
  | NewArray (vs : nat -> V) (n : nat)     (* np.array of n values *)
  | Slice (x : nat) (ks : list nat)        (* x[ks] of a plain array, a view *)
  | MakeObs (x : nat)                      (* ObsAr(x) *)
  | MakeParam (n : nat) (x : nat)          (* Param(n, x) *)
  | NewNode                                (* Parameterized() *)
  | Link (m x : nat)                       (* m.link_parameter(x) *)
  | Constrain (x c : nat)                  (* x.constrain(c) *)
  | Put (x k : nat) (v : V).               (* x[k] = v *)

(** The result: the new state, the array that a call returns, the nodes that are told
    (core/observable.py:75-96), in order, an error. *)
Record out : Type := mkOut { st : state; ret : option nat; called : list nat; exn : option err }.
(** A call that tells nobody; observable_array.py:56-67, parameterized.py:128-186. *)
Definition quiet (s : state) (r : option nat) : out := mkOut s r [] None.
(** A call that raises; parameterized.py:143, 186. *)
Definition raises (s : state) (e : err) : out := mkOut s None [] (Some e).

(** Making an array of class [c] from plain array [x]; observable_array.py:58-67. *)
Definition fresh (s : state) (x : nat) (c : acls) (n : nat) : out :=
  let '(m, nb, b, ps) := required s x in
  quiet (mkS (arrs s ++ [mkA c b ps n None [] false no_cons]) m nb (nodes s)) (Some (length (arrs s))).

(** One call; the lines are given with each case. *)
Definition exec (k : call) (s : state) : out :=
  match k with
  | NewArray vs n =>
      quiet (mkS (arrs s ++ [mkA Plain (nbuf s) (seq 0 n) 0 None [] false no_cons])
                 (fun b j => if Nat.eqb b (nbuf s) then vs j else mem s b j) (S (nbuf s)) (nodes s)) (Some (length (arrs s)))
  | Slice x ks =>
      let a := at_ s x in
      quiet (mkS (arrs s ++ [mkA Plain (buf a) (map (fun j => nth j (pos a) 0) ks) 0 None [] false no_cons]) (mem s) (nbuf s) (nodes s))
            (Some (length (arrs s)))
  | MakeObs x =>
      (* observable_array.py:56-67: an ObsAr is returned as it is, without its observers *)
      let a := at_ s x in
      match cls a with
      | Plain => fresh s x Obs 0
      | c => quiet (set_arr s x (mkA c (buf a) (pos a) (nm a) (parent a) [] (view a) (own a))) (Some x)
      end
  | MakeParam n x =>
      (* param.py:85-98. __init__ runs only if __new__ returns a Param; it goes through
         parameter_core.py:315-323, 58-61, constrainable.py:36-43, indexable.py:55-57,
         nameable.py:30-32; _parent_ is not touched (parentable.py:39-42) *)
      let a := at_ s x in
      match cls a with
      | Plain => fresh s x Par n
      | Obs => quiet (set_arr s x (mkA Obs (buf a) (pos a) (nm a) (parent a) [] (view a) (own a))) (Some x)
      | Par => quiet (set_arr s x (mkA Par (buf a) (pos a) n (parent a) [] false no_cons)) (Some x)
      end
  | NewNode => quiet (mkS (arrs s) (mem s) (nbuf s) (nodes s ++ [([], no_cons)])) None
  | Link m x =>
      (* parameterized.py:128-186 for a Param without a parent; [has_parent] is no attribute of
         ObsAr and ndarray *)
      let a := at_ s x in
      match cls a with
      | Par =>
          match parent a with
          | Some _ => raises s HierarchyError (* for the same node; taking a Param over from another node is not modelled *)
          | None =>
              let (ch, cs) := node s m in
              let n := total s ch in
              let cs' := fun i => if Nat.ltb i n then cs i else own a (i - n) in
              let s1 := mkS (arrs s) (fun b j => if Nat.eqb b (nbuf s) then mem s (buf a) (nth j (pos a) 0) else mem s b j)
                            (S (nbuf s)) (firstn m (nodes s) ++ (ch ++ [x], cs') :: skipn (S m) (nodes s)) in
              quiet (set_arr s1 x (mkA Par (nbuf s) (seq 0 (length (pos a))) (nm a) (Some m) (told a ++ [m]) true no_cons)) None
          end
      | _ => raises s AttributeError
      end
  | Constrain x c =>
      (* constrainable.py:138-156: self[...] = transform.initialize(self), which tells the observers;
         then on [self.constraints]; then trigger_update, which tells them again *)
      let a := at_ s x in
      match cls a with
      | Par =>
          match parent a, view a with
          | Some m, true =>
              let (ch, cs) := node s m in
              let o := offset s ch x in
              let cs' := fun i => if Nat.leb o i && Nat.ltb i (o + length (pos a)) then Some c else cs i in
              mkOut (mkS (arrs s) (mem s) (nbuf s) (firstn m (nodes s) ++ (ch, cs') :: skipn (S m) (nodes s))) None (told a ++ told a) None
          | _, _ =>
              mkOut (set_arr s x (mkA Par (buf a) (pos a) (nm a) (parent a) (told a) (view a)
                                      (fun i => if Nat.ltb i (length (pos a)) then Some c else own a i))) None (told a ++ told a) None
          end
      | _ => raises s AttributeError
      end
  | Put x k v =>
      (* observable_array.py:117-119 *)
      let a := at_ s x in
      let s1 := mkS (arrs s) (fun b j => if Nat.eqb b (buf a) && Nat.eqb j (nth k (pos a) 0) then v else mem s b j) (nbuf s) (nodes s) in
      mkOut s1 None (match cls a with Plain => [] | _ => told a end) None
  end.
(** Before the first call. *)
Definition start (m0 : nat -> nat -> V) : state := mkS [] m0 0 [].
End Making.
