(** Vocabulary for in-place arithmetic on the parameters of a hierarchy. *)
From Coq Require Import List ZArith Bool.
From Verif Require Import NpModel PzModel PzSpec ConcatModel ConcatSpec FlatSpec.
Import ListNotations.
Open Scope Z_scope.

(** The operand for position [k]: the only one, or that at the position. *)
Definition operand {V : Type} (v : list V) (k : Z) (w : V) : Prop := v = [w] \/ (length v <> 1%nat /\ nth_error v (Z.to_nat k) = Some w).
(** The effect of changing every element of [ps] by [op] and the operand for its position: the element itself, as it
    is seen from anywhere in the hierarchy, and no other. *)
Definition operated {V : Type} (op : V -> V -> V) (v : list V) (ps : list oid) (s s' : @state V) : Prop :=
  st s' = st s /\ ios s' = ios s /\
  (forall k p i y j, position_of (st s) ps k p i -> (y < next (st s))%nat -> ready (st s) y -> same_elem (st s) y j p i ->
    exists a w, operand v k w /\ value s y j = Some a /\ value s' y j = Some (op a w)) /\
  (forall y j, (y < next (st s))%nat -> ready (st s) y -> 0 <= j < size (st s) y -> ~ covers (st s) ps y j -> value s' y j = value s y j).
(** The same for the elements of the objects that satisfy [P], and one operand. *)
Definition all_changed {V : Type} (f : V -> V) (s s' : @state V) (P : oid -> Prop) : Prop :=
  st s' = st s /\ ios s' = ios s /\
  forall y j, (y < next (st s))%nat -> ready (st s) y -> 0 <= j < size (st s) y ->
    (inside (st s) P y j -> exists a, value s y j = Some a /\ value s' y j = Some (f a)) /\ (~ inside (st s) P y j -> value s' y j = value s y j).
(** Whether each position compares, in order. *)
Definition compares {V : Type} (cmp : V -> V -> bool) (v : list V) (s : @state V) (ps : list oid) (l : list bool) : Prop :=
  Z.of_nat (length l) = sum_sizes (st s) ps /\
  forall k p i, position_of (st s) ps k p i -> exists a w, operand v k w /\ value s p i = Some a /\ nth_error l (Z.to_nat k) = Some (cmp a w).
