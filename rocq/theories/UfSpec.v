(** Vocabulary for what [unfixed_param_array] gives. *)
From Coq Require Import List ZArith Bool.
From Verif Require Import NpModel IndexOpsModel IndexOpsSpec PzModel PzSpec UfModel.
Import ListNotations.
Open Scope Z_scope.

(** Element [i] of the array that was given, read now. *)
Definition entry {V : Type} (s : @state V) (u : given V) (i : nat) : option V :=
  match u with
  | Nothing => None
  | Own l => nth_error l i
  | Itself (b, o, n) => if Z.of_nat i <? n then Some (cell (mem s) b (o + Z.of_nat i)) else None
  end.
(** It has the values of the elements [ks] of [x] and nothing else. *)
Definition holds {V : Type} (s : @state V) (u : given V) (x : oid) (ks : list Z) : Prop :=
  forall i, entry s u i = match nth_error ks i with Some k => value s x k | None => None end.
