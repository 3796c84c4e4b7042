(** Vocabulary for C132-C134: index operations beside the constraints. *)
From Coq Require Import List Bool Arith.
From Verif Require Import IoModel.
Import ListNotations.

(** The entry of a dictionary. *)
Definition entry {A : Type} (k : nat) (l : list (nat * A)) : option A := option_map snd (find (fun e => Nat.eqb (fst e) k) l).
Definition leaf_has (s : state) (x k : nat) : Prop := entry k (lops (leaf s x)) <> None.
Definition node_has (s : state) (m k : nat) : Prop := entry k (nops (node s m)) <> None.
Definition linked (s : state) (m x : nat) : Prop := In x (ch (node s m)).
(** [p in x.k.properties_for(i)]: property [p] of element [i] in index operation [k] of leaf [x]. *)
Definition marked (s : state) (x k i p : nat) : bool :=
  match entry k (lops (leaf s x)), lpar (leaf s x) with
  | Some (Own f), _ => f i p
  | Some (View off), Some m => match entry k (nops (node s m)) with Some F => F (off + i) p | None => false end
  | _, _ => false
  end.
(** The children before [x], and the place of element [i] of [x] among the elements of a node. *)
Fixpoint until (x : nat) (l : list nat) : list nat :=
  match l with [] => [] | y :: r => if Nat.eqb y x then [] else y :: until x r end.
Definition elements (s : state) (l : list nat) : nat := list_sum (map (fun y => lsize (leaf s y)) l).
(** The same property, as the node has it. *)
Definition node_marked (s : state) (m k : nat) (j p : nat) : bool :=
  match entry k (nops (node s m)) with Some F => F j p | None => false end.
Definition place (s : state) (m x i : nat) : nat := elements s (until x (ch (node s m))) + i.

(** Calls on what exists; index operations speak of existing elements; they are added and removed while
    the object has no parent and no children; 'constraints' stays; attributes that are no properties. *)
Definition legal (s : state) (c : call) : Prop :=
  match c with
  | NewLeaf _ | NewNode | GetAttr _ _ => True
  | AddOp (L x) k f => x < nl s /\ lpar (leaf s x) = None /\ forall i p, f i p = true -> i < lsize (leaf s x)
  | AddOp (N m) k f => m < nn s /\ ch (node s m) = [] /\ forall i p, f i p = false
  | RemoveOp (L x) k => x < nl s /\ lpar (leaf s x) = None /\ k <> 0
  | RemoveOp (N m) k => m < nn s /\ ch (node s m) = [] /\ k <> 0
  | Mark x k i p => x < nl s /\ i < lsize (leaf s x)
  | Link m x | Unlink m x => m < nn s /\ x < nl s
  | SetAttr x k v => x < nl s /\ ~ In k (props s)
  end.
(** Only leaves and nodes with index operations of the same names are linked. *)
Definition fitting (s : state) (c : call) : Prop :=
  match c with
  | Link m x => forall k, leaf_has s x k <-> node_has s m k
  | _ => True
  end.
Inductive reach (ok : state -> call -> Prop) : state -> Prop :=
  | reach_start : reach ok start
  | reach_step : forall s c, reach ok s -> legal s c -> ok s c -> reach ok (st (exec c s)).
