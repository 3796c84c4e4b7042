(** Vocabulary for the properties of copying. *)
From Coq Require Import List ZArith Bool.
From Verif Require Import NpModel IndexOpsModel PzModel PzSpec.
Import ListNotations.
Open Scope Z_scope.

(** The object reached from [x] by going to the child with this index, then to that child's child
    with that index and so on. *)
Fixpoint follow (t : struct) (x : oid) (path : list nat) : option oid :=
  match path with
  | [] => Some x
  | i :: p => match nth_error (kids t x) i with Some c => follow t c p | None => None end
  end.

Section Copies.
Context {V : Type}.
Implicit Types s : @state V.

(** [b] in [s'] is what [a] is in [s]: the same kind of object of the same size, with the same
    constraints on the same elements, the same updates switch and the same values. *)
Record as_was s s' (a b : oid) : Prop := mkAsWas {
  aw_kind : kind (st s') b = kind (st s) a;
  aw_size : size (st s') b = size (st s) a;
  aw_has : forall p j, has s' b p j <-> has s a p j;
  aw_updates : updates (nt s') b = updates (nt s) a;
  aw_values : ready (st s) a -> forall j, 0 <= j < size (st s) a -> value s' b j = value s a j }.

(** [y] in [s'] is a copy of [x] in [s]: new, with no parent, and path by path as [x] was, made of
    new objects only, and all new objects are part of it. *)
Record copy_of s s' (x y : oid) : Prop := mkCopyOf {
  co_new : (next (st s) <= y < next (st s'))%nat;
  co_par : par (st s') y = None;
  co_paths : forall path,
    match follow (st s) x path, follow (st s') y path with
    | Some a, Some b => (next (st s) <= b < next (st s'))%nat /\ as_was s s' a b /\ ready (st s') b
    | None, None => True
    | _, _ => False
    end;
  co_all : forall z, (next (st s) <= z < next (st s'))%nat -> part (st s') y z }.

(** The objects there were are as they were. *)
Definition untouched s s' : Prop :=
  forall z, (z < next (st s))%nat -> as_was s s' z z /\ par (st s') z = par (st s) z /\ kids (st s') z = kids (st s) z /\
    (ready (st s) z <-> ready (st s') z).

(** The hierarchy of [x] is as it was: the same objects in the same places. *)
Definition stays s s' (x : oid) : Prop :=
  forall y, together (st s) x y -> as_was s s' y y /\ par (st s') y = par (st s) y /\ kids (st s') y = kids (st s) y /\
    (ready (st s) y <-> ready (st s') y).
(** No [parameters_changed] of the hierarchy of [x] has run. *)
Definition unheard s s' (x : oid) : Prop :=
  exists l, trace (nt s') = l ++ trace (nt s) /\ forall z, In z l -> ~ together (st s') x z.

(** Calls that link and unlink nothing and are not about the hierarchy of [x], or only read or copy it. *)
Definition elsewhere s (x : oid) (c : @call V) : Prop :=
  match c with
  | NewParam _ | Begin | ReadOptimizer _ | Copy _ => True
  | Constrain z _ _ | Unconstrain z _ _ | Fix z _ | Unfix z _ | Assign z _ | SetOptimizer z _ | Updates z _ | Trigger z
  | Randomize z _ => ~ together (st s) x z
  | NewNode _ _ | End _ _ | Link _ _ _ | Unlink _ _ | Initialize _ => False
  end.
End Copies.
