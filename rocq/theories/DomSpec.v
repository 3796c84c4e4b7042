(** Vocabulary for C77: constrained parameters stay in their domains. *)
From Coq Require Import List ZArith Bool.
From Verif Require Import NpModel IndexOpsModel PzModel CopyModel PzSpec.
Import ListNotations.
Open Scope Z_scope.

Section Domains.
Context {V : Type}.
Implicit Types s : @state V.
Variables tinit tf tfinv : nat -> V -> V.
(** [D n]: the domain of transformation [n]. *)
Variable D : nat -> V -> Prop.

(** Every element that carries a transformation has a value of its domain, wherever it is read. *)
Definition inside s : Prop :=
  forall y n j, (y < next (st s))%nat -> ready (st s) y -> has s y (Tr n) j -> exists v, value s y j = Some v /\ D n v.

(** The call leaves the values of the Params that exist as they are (C36 says when linking does). *)
Definition spares s (c : @call V) : Prop :=
  forall s' e, exec tinit tf tfinv c s = (s', e) ->
    forall y j, (y < next (st s))%nat -> is_leaf (st s) y = true -> 0 <= j < size (st s) y -> value s' y j = value s y j.

(** What a user has to observe: values assigned to constrained elements are in their domain, and
    linking loses no values. Nothing is asked of what is passed to the setter of the optimizer array,
    of random draws, and of values at the time a constraint is set. *)
Definition respects s (c : @call V) : Prop :=
  match c with
  | Assign x g => forall n k v, has s x (Tr n) k -> value s x k = Some v -> D n (g k v)
  | NewNode _ _ | End _ _ | Link _ _ _ | Unlink _ _ | Initialize _ => spares s c
  | _ => True
  end.

(** The calls an optimisation makes, in any order, on any objects, with any vectors. *)
Definition tuning (c : @call V) : Prop :=
  match c with
  | SetOptimizer _ _ | ReadOptimizer _ | Randomize _ _ | Updates _ _ | Trigger _ => True
  | _ => False
  end.
End Domains.
