(** Vocabulary for the properties C01-C07: what a user of an index-operations object sees. *)
From Coq Require Import List ZArith Bool.
From Verif Require Import NpModel IndexOpsModel.
Import ListNotations.
Open Scope Z_scope.

(** Index [i] of object/view [v] carries property [p]: it is listed by [v[p]]. *)
Definition carries (v : io) (d : dict) (p : prop) (i : Z) : Prop := In i (fst (getitem v d p)).

(** Position of local index 0 of a view in its root object. *)
Fixpoint base (v : io) : Z := match v with Root => 0 | View q off _ => off + base q end.

(** Local index [i] lies inside the window of the view and of all views it is built on. *)
Fixpoint inside (v : io) (i : Z) : Prop :=
  match v with
  | Root => True
  | View q off sz => 0 <= i < sz /\ inside q (i + off)
  end.

(** Legal calls: the block sizes given to the shift operations are not negative. *)
Definition legal (o : op) : Prop :=
  match o with
  | OShiftRight _ _ n => 0 <= n
  | OShiftLeft _ _ n => 0 <= n
  | _ => True
  end.

(** States reachable from a new object by public calls on it or on views of it. *)
Definition reachable (d : dict) : Prop := exists ops, Forall legal ops /\ d = run [] ops.
