(** Vocabulary for the properties of constraints across copies, pickles and processes (C129). *)
From Coq Require Import List ZArith Bool Arith.
From Verif Require Import NpModel IndexOpsModel InstModel BdModel.
Import ListNotations.
Open Scope Z_scope.

(** What a transformation object is, for a user. *)
Definition kind (t : tst) (o : nat) : option what :=
  match nth_error (objs t) o with
  | Some (mkT (S c) _) => Some (Class c)
  | Some (mkT 0%nat (Some (lo, hi))) => Some (Bounds lo hi)
  | _ => None
  end.
(** The constraints [d] bind element [i] to [w]. *)
Definition binds (t : tst) (d : dict) (i : Z) (w : what) : Prop :=
  exists o l, In (Tr o, l) d /\ In i l /\ kind t o = Some w.
(** Element [i] of the existing model [m] is constrained by [w]. *)
Definition held (s : bst) (m : nat) (i : Z) (w : what) : Prop :=
  exists d, nth_error (mods s) m = Some (Some d) /\ binds (ts s) d i w.
(** Element [i] of the model that was pickled to file [f] was constrained by [w]. *)
Definition stored (s : bst) (f : nat) (i : Z) (w : what) : Prop :=
  exists d, nth_error (files s) f = Some d /\ binds (ts s) d i w.
Definition exists_model (s : bst) (m : nat) : Prop := exists d, nth_error (mods s) m = Some (Some d).

Section Spec.
Variable fl : Z -> Z.
Variable dflt : Z.
(** Bounds are floating point numbers in the right order. *)
Definition proper_what (w : what) : Prop := match w with Class _ => True | Bounds lo hi => lo < hi /\ fl lo = lo /\ fl hi = hi end.
Definition float_what (w : what) : Prop := match w with Class _ => True | Bounds lo hi => fl lo = lo /\ fl hi = hi end.
(** Calls are on models and files that exist, parameters are not empty, bounds are floating point
    numbers. *)
Definition blegal (s : bst) (k : bcall) : Prop :=
  match k with
  | NewModel | NewProcess => True
  | Constrain m ix w => exists_model s m /\ ix <> [] /\ float_what w
  | Unconstrain m ix w => exists_model s m /\ float_what w
  | UnconstrainAll m _ | CopyModel m | Dump m | Delete m => exists_model s m
  | LoadFile f => (f < length (files s))%nat
  end.
(** Nothing is loaded that is bounded like something in memory. *)
Definition no_twins (s : bst) (k : bcall) : Prop :=
  match k with
  | LoadFile f => forall i m j lo hi, stored s f i (Bounds lo hi) -> ~ held s m j (Bounds lo hi)
  | _ => True
  end.
(** What a program can do, its calls being [ok]. *)
Inductive breach (ok : bst -> bcall -> Prop) : bst -> Prop :=
  | breach_start : breach ok bstart
  | breach_step : forall s k, breach ok s -> blegal s k -> ok s k -> breach ok (fst (bexec fl dflt k s)).
Definition any_call (s : bst) (k : bcall) : Prop := True.
End Spec.
