(** Vocabulary for the properties of arrays that pass between a model and the optimizer. *)
From Coq Require Import List Reals Bool Arith.
From Verif Require Import ScgModel ScgSpec OwModel.
Import ListNotations.
Open Scope R_scope.

Section Spec.
Variable E : list elem.
Variable obj : vec -> R.
Variable raw : vec -> vec.
Variables xtol ftol gtol : R.

(** The functions the optimizer was given: what [_objective(v)] returns, and the elements of what
    [_grads(v)] returns, right after the call. *)
Definition objective_at (w : world) (v : vec) : R := snd (objective E obj raw w v).
Definition gradient_at (w : world) (v : vec) : vec := let (w', a) := grads E raw w v in cells w' a.
(** [m.objective_function()] now. *)
Definition objective_now (w : world) : R := obj (params w).

(** Number of free elements; [v] has an entry for each of them, which its constraint gives back. *)
Definition nfree : nat := length (filter efree E).
Definition fits (v : vec) : Prop := Forall2 (fun e a => efinv e (ef e a) = a) (filter efree E) v.
(** A model with [E] as elements has that many parameters and gradients. *)
Definition shaped (p : vec) : Prop := length p = length E /\ forall q, length (raw q) = length q.
Definition some_fixed : Prop := exists e, In e E /\ efree e = false.

(** The four values SCG returns. *)
Definition returned (r : option (world * loc * status)) : option (vec * list R * nat * status) :=
  option_map (fun '(w, l, stat) => (cells w (lx l), llog l, lev l, stat)) r.
Definition returned_by (r : option (st * status)) : option (vec * list R * nat * status) :=
  option_map (fun r => (r_x r, r_flog r, r_evals r, r_status r)) r.

(** States of a model that started with parameters [p], with the arrays that the user holds: points and
    gradients. SCG starts from points. *)
Definition allowed (pts grs : list nat) (c : ocall) : Prop :=
  match c with OEdit a _ => In a pts \/ In a grs | OScg x _ => In x pts | _ => True end.
Definition points (c : ocall) (r : option nat) (pts : list nat) : list nat :=
  match c, r with ORead, Some a | OScg _ _, Some a => a :: pts | _, _ => pts end.
Definition gradients (c : ocall) (r : option nat) (grs : list nat) : list nat :=
  match c, r with OGrads _, Some a => a :: grs | _, _ => grs end.
Inductive oreach (p : vec) : world -> list nat -> list nat -> Prop :=
| oreach_init : oreach p (world_init p) [] []
| oreach_call : forall w pts grs c w' r, oreach p w pts grs -> allowed pts grs c -> ostep E obj raw xtol ftol gtol c w = Some (w', r) ->
    oreach p w' (points c r pts) (gradients c r grs).
(** From such a state on, by calls allowed by [ok]. *)
Inductive ohist (ok : ocall -> Prop) (w : world) (pts grs : list nat) : world -> list nat -> list nat -> Prop :=
| ohist_refl : ohist ok w pts grs w pts grs
| ohist_call : forall w1 pts1 grs1 c w2 r, ohist ok w pts grs w1 pts1 grs1 -> allowed pts1 grs1 c -> ok c ->
    ostep E obj raw xtol ftol gtol c w1 = Some (w2, r) -> ohist ok w pts grs w2 (points c r pts1) (gradients c r grs1).
(** Calls that do not write into array [a]. *)
Definition not_into (a : nat) (c : ocall) : Prop := match c with OEdit b _ => b <> a | _ => True end.
(** Calls that only read, or write into arrays. *)
Definition reads_and_edits (c : ocall) : Prop := match c with ORead | OEdit _ _ => True | _ => False end.
Definition reads (c : ocall) : Prop := match c with ORead => True | _ => False end.
End Spec.
