(** Vocabulary for the properties of saving and loading. *)
From Coq Require Import List ZArith Bool Arith.
From Verif Require Import NpModel IndexOpsModel PzModel PzSpec CopySpec.
Import ListNotations.

(** The object at place [p] of a hierarchy (first child, second child of it, ...) comes before the one
    at place [q]: parents come before their children, and a child with everything in it before the next. *)
Fixpoint earlier (p q : list nat) : Prop :=
  match p, q with
  | [], _ :: _ => True
  | a :: p', b :: q' => (a < b)%nat \/ a = b /\ earlier p' q'
  | _, [] => False
  end.
(** The references among the parts of [m] other than to parent and children, made before and after the
    list of the children: none goes to an object outside, and none to an object that comes later,
    unless it is made afterwards and goes to a part of the object itself. *)
Definition tidy (t : struct) (before after : oid -> list oid) (m : oid) : Prop :=
  forall p x z, follow t m p = Some x ->
    (In z (before x) -> exists q, follow t m q = Some z /\ (q = p \/ earlier q p)) /\
    (In z (after x) -> exists q, follow t m q = Some z /\ (q = p \/ earlier q p \/ exists k, q = p ++ k)).
(** The places of the examples. *)
Definition none (x : oid) : list oid := [].
