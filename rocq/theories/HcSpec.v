(** What is said about Cachers as attributes, apart from the functions of the model. *)
From Coq Require Import List Bool Arith ZArith.
From Verif Require Import HcModel.
Import ListNotations.

(** Calls that the simplifications of the model allow: the objects exist, new children have no parent. *)
Definition legal (s : state) (k : call) : Prop :=
  match k with
  | New _ ks => NoDup ks /\ forall x, In x ks -> x < no s /\ par (obj s x) = None
  | Attach o _ t _ lim _ => o < no s /\ t < no s /\ 1 <= lim
  | Invoke o _ _ | SetData o _ | TreeOff o | TreeOn o | One o _ _ | Copy o | Pickle o => o < no s
  end.
(** Sequences of legal calls. *)
Fixpoint run (F : nat -> Z -> nat -> Z) (s : state) (l : list call) : state :=
  match l with [] => s | k :: r => run F (st (exec F k s)) r end.
Fixpoint all_legal (F : nat -> Z -> nat -> Z) (s : state) (l : list call) : Prop :=
  match l with [] => True | k :: r => legal s k /\ all_legal F (st (exec F k s)) r end.
Definition reached (F : nat -> Z -> nat -> Z) (s : state) : Prop := exists l, all_legal F start l /\ s = run F start l.

(** [x] belongs to the hierarchy of [o]. *)
Inductive under (s : state) : nat -> nat -> Prop :=
  | under_self : forall o, under s o o
  | under_kid : forall o k x, In k (kids (obj s o)) -> under s k x -> under s o x.
(** [o] and [x] belong to one hierarchy. *)
Definition related (s : state) (o x : nat) : Prop := exists r, r < no s /\ under s r o /\ under s r x.
(** [o.j] is the Cacher [c]. *)
Definition is_attr (s : state) (o j c : nat) : Prop := get j (attrs (obj s o)) = Some c.
(** No later Cacher was made of the method of [c]. *)
Definition latest (s : state) (c : nat) : Prop :=
  c < nc s /\ forall c', c' < nc s -> c_obj (cch s c') = c_obj (cch s c) -> c_meth (cch s c') = c_meth (cch s c) -> c' <= c.
(** Calling [o.j] executes the method of [c] now, whatever the argument, and keeps nothing. *)
Definition executes (F : nat -> Z -> nat -> Z) (s : state) (o j c : nat) : Prop := forall x,
  ran (exec F (Invoke o j x) s) = true /\ st (exec F (Invoke o j x) s) = s /\
  val (exec F (Invoke o j x) s) = Some (F (c_meth (cch s c)) (data (obj s (c_obj (cch s c)))) x).
(** A call that may switch caching on. *)
Definition turns_on (k : call) : Prop := match k with TreeOn _ => True | One _ _ b => b = true | _ => False end.
(** A call that assigns data. *)
Definition assigns (k : call) : Prop := match k with SetData _ _ => True | _ => False end.

(** In [s'], the Cacher [c'] is a new one for the object and the method of [c]. *)
Definition renewed (s s' : state) (c c' : nat) : Prop :=
  nc s <= c' < nc s' /\ c_obj (cch s' c') = c_obj (cch s c) /\ c_meth (cch s' c') = c_meth (cch s c) /\
  c_lim (cch s' c') = c_lim (cch s c) /\ c_res (cch s' c') = [] /\ c_on (cch s' c') = f_on (obj s (c_obj (cch s c))).
(** In [s'], the new object [x'] is like [x] was in [s], except for its Cachers. *)
Inductive copied (s s' : state) : nat -> nat -> Prop :=
  copied_intro : forall x x', no s <= x' < no s' -> data (obj s' x') = data (obj s x) -> f_on (obj s' x') = true ->
    Forall2 (copied s s') (kids (obj s x)) (kids (obj s' x')) ->
    Forall2 (fun e e' => fst e' = fst e /\ renewed s s' (snd e) (snd e')) (attrs (obj s x)) (attrs (obj s' x')) ->
    copied s s' x x'.
