(** Vocabulary for methods that set parameters. *)
From Coq Require Import List Bool Arith.
From Verif Require Import ReModel.
Import ListNotations.

(** A Param belongs to the objects a write to it notifies. *)
Definition sound (h : shape) : Prop := forall p x, In x (above h p) <-> In p (below h x).

Section Spec.
Context {V : Type}.
Variable h : shape.
Variable body : nat -> list (@stmt V).
(** [x]'s method may, in some state, write Param [q]. *)
Definition may_write (x q : nat) : Prop := exists g w v, In (Write g) (body x) /\ g w = Some (q, v).
(** Running [x]'s method may run that of [y]. *)
Definition leads (x y : nat) : Prop :=
  (exists q, may_write x q /\ In y (above h q)) \/ (exists b, In (Switch b) (body x) /\ In y (around h x)).
(** No method leads back to itself: the objects can be ranked so that everything a method leads to is lower. *)
Definition ranked : Prop := exists rank : nat -> nat, forall x y, leads x y -> rank y < rank x.
(** Whatever a method writes is progress: some number goes down, and nothing else makes it go up. *)
Definition progressing : Prop := exists m : @world V -> nat, forall x w,
  (forall b, ~ In (Switch b) (body x)) /\ m (derive h x w) <= m w /\ forall g q v, In (Write g) (body x) -> g w = Some (q, v) -> m (put q v w) < m w.
(** Every method derives something, and none switches updates. *)
Definition deriving : Prop := forall x, In Derive (body x) /\ forall b, ~ In (Switch b) (body x).
(** What [x] stores is derived from its present values. *)
Definition up_to_date (w : @world V) (x : nat) : Prop := stored w x = map (val w) (below h x).
(** A call ends in [w'], given enough stack; it does not end, whatever the stack. *)
Definition ends (a : act) (w w' : @world V) : Prop := exists f, forall f', f <= f' -> exec h body f' a w = Some w'.
Definition never (a : act) (w : @world V) : Prop := forall f, exec h body f a w = None.
(** A set of methods each of which surely leads to one of them: by writing, in whatever state, a Param that
    notifies one, no method switching updates off; or by [update_model(True)] on an object whose update runs one. *)
Definition restless (bad : nat -> bool) : Prop :=
  (forall x, bad x = true -> (In (Switch true) (body x) /\ exists y, In y (around h x) /\ bad y = true) \/
     (~ In (Switch false) (body x) /\ exists g, In (Write g) (body x) /\ forall w, exists q v, g w = Some (q, v) /\ exists y, In y (above h q) /\ bad y = true)) /\
  forall x, bad x = false -> ~ In (Switch false) (body x).
End Spec.
