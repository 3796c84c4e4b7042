(** Vocabulary for the properties of flat indices. *)
From Coq Require Import List Arith.
From Verif Require Import RavelModel.
Import ListNotations.

(** [c] are the coordinates of an element of an array of shape [d]. *)
Definition valid (d c : list nat) : Prop := Forall2 lt c d.
(** The number of elements of an array of shape [d]. *)
Definition elements (d : list nat) : nat := fold_right Nat.mul 1 d.
(** [c] comes before [c']: it is smaller at the first place where they differ. *)
Definition earlier (c c' : list nat) : Prop := exists p i j r r', c = p ++ i :: r /\ c' = p ++ j :: r' /\ i < j.
(** Elements of [l] at the positions [ks]. *)
Definition picks {A : Type} (l : list A) (ks : list nat) (r : list A) : Prop := Forall2 (fun k v => nth_error l k = Some v) ks r.
(** There is no integer array, or all integers and integer arrays are next to each other. *)
Definition side_by_side (ix : list item) : Prop :=
  (forall l, ~ In (Arr l) ix) \/
  exists a b c, ix = a ++ b ++ c /\ (forall i, In i a \/ In i c -> exists l, i = Sl l) /\ (forall i, In i b -> forall l, i <> Sl l).
