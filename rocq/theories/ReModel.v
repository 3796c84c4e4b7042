(** Model of [parameters_changed] methods that set parameters themselves.

    Files modelled: /repo/paramz/core/observable_array.py:117-119, core/observable.py:75-97,
    core/updateable.py:42-79, core/parameter_core.py:126-134 and 502-510.

    The body of every [parameters_changed] is a list of statements: deriving something from the values
    of the object, writing a Param anywhere in the hierarchy, [update_model(b)].

    Simplifications: which objects a write or an update runs, and in which order, is given by [shape]
    (C99 says what it is); a Param has one value; one hierarchy, so that updates are on or off for all of
    it; the only observers are those of paramz; the statements are straight-line code, but what a
    statement writes, and whether it does, depends on the state when it is reached. *)
From Coq Require Import List Bool Arith.
Import ListNotations.

(** [above p]: the Parameterized objects a write to Param [p] notifies, from the inside out
    (observable_array.py:117-119, parameter_core.py:509-510); [around x]: those an update of [x] runs:
    its parts, itself, those above (parameter_core.py:126-134); [below x]: the Params of [x]. *)
Record shape : Type := mkS { above : nat -> list nat; around : nat -> list nat; below : nat -> list nat }.

Section Re.
Context {V : Type}.
(** Values of the Params, what the objects stored when they derived it last, [_update_on]; observable.py:44-47. *)
Record world : Type := mkW { val : nat -> V; stored : nat -> list V; on : bool }.
(** A statement of a [parameters_changed] method; parameter_core.py:502-508 calls it. *)
Inductive stmt : Type := Derive | Write (g : world -> option (nat * V)) | Switch (b : bool).
(** A call: [p[...] = v]; [x.update_model(b)]. *)
Inductive act : Type := AWrite (p : nat) (v : V) | ASwitch (x : nat) (b : bool).

Variable h : shape.
Variable body : nat -> list stmt.

(** Storing in a Param; observable_array.py:118. *)
Definition put (p : nat) (v : V) (w : world) : world := mkW (fun q => if Nat.eqb q p then v else val w q) (stored w) (on w).
(** An object derives something from its values. *)
Definition derive (x : nat) (w : world) : world := mkW (val w) (fun y => if Nat.eqb y x then map (val w) (below h x) else stored w y) (on w).
(** [update_model] before it triggers; updateable.py:55-59. *)
Definition switch (b : bool) (w : world) : world := mkW (val w) (stored w) b.

(** [Some w]: ended in [w]; [None]: the recursion is deeper than the fuel. *)
Fixpoint fold {A : Type} (f : A -> world -> option world) (l : list A) (w : world) : option world :=
  match l with [] => Some w | a :: r => match f a w with Some w' => fold f r w' | None => None end end.
(** One statement of [x]'s method, given how calls are executed. *)
Definition do_stmt (call : act -> world -> option world) (x : nat) (s : stmt) (w : world) : option world :=
  match s with
  | Derive => Some (derive x w)
  | Write g => match g w with Some (q, v) => call (AWrite q v) w | None => Some w end
  | Switch b => call (ASwitch x b) w
  end.
(** Notifying the objects of a list: each runs its [parameters_changed] if updates are on when it is its
    turn; observable.py:87, parameter_core.py:502-508. *)
Definition run (call : act -> world -> option world) (l : list nat) (w : world) : option world :=
  fold (fun x w => if on w then fold (do_stmt call x) (body x) w else Some w) l w.
(** [p[...] = v] (observable_array.py:117-119) and [x.update_model(b)] (updateable.py:42-79). *)
Fixpoint exec (f : nat) (a : act) (w : world) : option world :=
  match f with
  | O => None
  | S f' =>
      match a with
      | AWrite p v => run (exec f') (above h p) (put p v w)
      | ASwitch x b => run (exec f') (around h x) (switch b w)
      end
  end.
End Re.
