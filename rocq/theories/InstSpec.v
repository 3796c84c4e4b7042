(** Vocabulary for the properties of transformation objects. *)
From Coq Require Import List ZArith Bool Arith.
From Verif Require Import InstModel.
Import ListNotations.
Open Scope Z_scope.

Section InstSpec.
Variable mro : nat -> list nat.
Variable bounded : nat -> bool.
Variable fl : Z -> Z.
Variable dflt : Z.
(** [s'] comes later than [s], all calls in between being [ok]. *)
Inductive later (ok : tst -> tcall -> Prop) (s : tst) : tst -> Prop :=
| later_now : later ok s s
| later_step : forall s' k, later ok s s' -> ok s' k -> later ok s (tstep mro bounded fl dflt s' k).
Definition anything (s : tst) (k : tcall) : Prop := True.
(** All bounds given are floating point numbers. *)
Definition exact_bounds (s : tst) (k : tcall) : Prop :=
  match k with Construct _ (Some (lo, hi)) _ => fl lo = lo /\ fl hi = hi | _ => True end.
(** Moreover [c] is the only bounded class in use, no bounded object is copied, and none survives
    the failure of its construction. *)
Definition simple_use (c : nat) (s : tst) (k : tcall) : Prop :=
  exact_bounds s k /\
  match k with
  | Construct c' _ kept => bounded c' = true -> c' = c /\ kept = false
  | Duplicate o => forall c', cls_of s o = Some c' -> bounded c' = false
  | Die _ => True
  end.
End InstSpec.
