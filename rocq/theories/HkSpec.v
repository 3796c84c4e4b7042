(** Vocabulary for the properties of observers of a hierarchy. *)
From Coq Require Import List ZArith Bool Arith.
From Verif Require Import NpModel IndexOpsModel IndexOpsSpec PzModel PzSpec HkModel.
From Verif Require ObserversModel.
Import ListNotations.
Open Scope Z_scope.

(** [p] is higher than, or below, the priority -100 of an object's own update. *)
Definition above_own (p : prio) : Prop := match p with Fin z => -100 < z | NegInf => False end.
Definition below_own (p : prio) : Prop := match p with Fin z => z <= -100 | NegInf => True end.
Definition finite (p : prio) : Prop := p <> NegInf.
Definition higher (p r : prio) : Prop :=
  match p, r with Fin a, Fin b => b < a | Fin _, NegInf => True | NegInf, _ => False end.

(** How often user callback [o] is registered with [y], and how often with a finite priority. *)
Definition is_reg (o : nat) (e : reg) : bool := match snd e with User p => Nat.eqb p o | _ => false end.
Definition is_finite (e : reg) : bool := match fst e with NegInf => false | Fin _ => true end.
Definition registered {V : Type} (q : @hstate V) (y : oid) (o : nat) : nat := length (filter (is_reg o) (regs q y)).
Definition registered_finite {V : Type} (q : @hstate V) (y : oid) (o : nat) : nat :=
  length (filter (fun e => is_reg o e && is_finite e) (regs q y)).

(** The user callbacks registered with [y], with their priorities, in the order in which they are called. *)
Definition users {V : Type} (q : @hstate V) (y : oid) : list (prio * nat) :=
  flat_map (fun e : reg => match snd e with User o => [(fst e, o)] | _ => [] end) (regs q y).

(** Every registration of [o] with [y] has a priority with [P]. *)
Definition at_prio {V : Type} (q : @hstate V) (y : oid) (o : nat) (P : prio -> Prop) : Prop :=
  forall p, In (p, User o) (regs q y) -> P p.

(** How often an event occurs. *)
Definition is_heard (y : oid) (o : nat) (e : event) : bool := match e with Heard x p => Nat.eqb x y && Nat.eqb p o | Ran _ => false end.
Definition times (y : oid) (o : nat) (ev : list event) : nat := length (filter (is_heard y o) ev).
(** The calls of [parameters_changed] among the events. *)
Fixpoint runs (ev : list event) : list oid :=
  match ev with [] => [] | Ran x :: r => x :: runs r | Heard _ _ :: r => runs r end.
(** All occurrences of [a] come before all occurrences of [b]. *)
Definition precedes (ev : list event) (a b : event) : Prop := forall l1 l2, ev = l1 ++ b :: l2 -> ~ In a l2.

(** The order of the calls: by priority; before the object's own update or after it; and, except
    for those registered at -inf, for a part before anything for what it is part of. *)
Record ordered {V : Type} (q : @hstate V) (ev : list event) : Prop := mkOrdered {
  od_prio : forall y o o', (forall p p', In (p, User o) (regs q y) -> In (p', User o') (regs q y) -> higher p p') -> precedes ev (Heard y o) (Heard y o');
  od_before : forall y o, at_prio q y o above_own -> precedes ev (Heard y o) (Ran y);
  od_after : forall y o, at_prio q y o below_own -> precedes ev (Ran y) (Heard y o);
  od_up : forall y z o, part (st (base q)) z y -> z <> y -> at_prio q y o finite ->
    precedes ev (Heard y o) (Ran z) /\ forall o', precedes ev (Heard y o) (Heard z o');
  od_ran : forall y z, part (st (base q)) z y -> z <> y -> precedes ev (Ran y) (Ran z) /\ forall o', precedes ev (Ran y) (Heard z o') }.

(** Updates are on in all of the hierarchy of [x]. *)
Definition all_on {V : Type} (s : @state V) (x : oid) : Prop := forall y, together (st s) x y -> updates (nt s) y = true.
(** What [x] and the objects above it, or also the parts of [x], are told. *)
Definition told_above {V : Type} (q : @hstate V) (x : oid) (ev : list event) : Prop :=
  forall y o, (part (st (base q)) y x -> times y o ev = registered q y o) /\ (~ part (st (base q)) y x -> times y o ev = 0%nat).
Definition told {V : Type} (q q' : @hstate V) (x : oid) (ev : list event) : Prop :=
  forall y o, (part (st (base q)) y x -> times y o ev = registered q y o) /\
    (woken (base q') x y -> times y o ev = registered_finite q y o) /\
    (~ part (st (base q)) y x -> ~ woken (base q') x y -> times y o ev = 0%nat).
(** The values of [y] are the same in both states. *)
Definition same_values {V : Type} (s s' : @state V) (y : oid) : Prop := forall j, 0 <= j < size (st s) y -> value s' y j = value s y j.

(** The calls that set values: of a Param; of the free elements of [x]; initial values for a constraint. *)
Inductive value_call {V : Type} (s : @state V) : oid -> @call V -> Prop :=
| vc_assign : forall x g, is_leaf (st s) x = true -> value_call s x (Assign x g)
| vc_opt : forall x p, value_call s x (SetOptimizer x p)
| vc_random : forall x draw, value_call s x (Randomize x draw)
| vc_constrain : forall x sel n, value_call s x (Constrain x sel n).

(** The calls that notify [x]: writing to a Param, fixing. *)
Inductive notify_call {V : Type} (s : @state V) : oid -> @call V -> Prop :=
| nc_assign : forall x g, is_leaf (st s) x = true -> notify_call s x (Assign x g)
| nc_fix : forall x sel, notify_call s x (Fix x sel).
(** The calls that trigger an update of [x], updates being on. *)
Inductive trigger_call {V : Type} (s : @state V) : oid -> @call V -> Prop :=
| tc_assign : forall x g, is_leaf (st s) x = false -> all_on s x -> trigger_call s x (Assign x g)
| tc_opt : forall x p, all_on s x -> trigger_call s x (SetOptimizer x p)
| tc_trigger : forall x, all_on s x -> trigger_call s x (Trigger x)
| tc_random : forall x draw, all_on s x -> trigger_call s x (Randomize x draw)
| tc_constrain : forall x sel n, is_leaf (st s) x = false -> all_on s x -> trigger_call s x (Constrain x sel n)
| tc_on : forall x, trigger_call s x (Updates x true).

(** ** Derived quantities *)
(** An object stores what it derives from its values in [parameters_changed]; an observer reads it. *)
Section Derived.
Context {V : Type}.
(** The values of [x], read now. *)
Definition values (s : @state V) (x : oid) : list (option V) := map (value s x) (arange (size (st s) x)).
Definition report : Type := (oid * nat) * list (option V).
Fixpoint observe (now : oid -> list (option V)) (ev : list event) (stored : oid -> list (option V)) : (oid -> list (option V)) * list report :=
  match ev with
  | [] => (stored, [])
  | Ran x :: r => observe now r (fun y => if Nat.eqb y x then now x else stored y)
  | Heard x o :: r => let (s', l) := observe now r stored in (s', (x, o, stored x) :: l)
  end.
End Derived.

Section Spec.
Context {V : Type}.
Variables tinit tf tfinv : nat -> V -> V.
Implicit Types q : @hstate V.

(** What every Parameterized stores is derived from its present values. *)
Definition current q (stored : oid -> list (option V)) : Prop :=
  forall y, (y < next (st (base q)))%nat -> ready (st (base q)) y -> kind (st (base q)) y = KNode -> stored y = values (base q) y.

(** What a user has to observe, as for the hierarchy alone. *)
Definition hlegal q (c : @hcall V) : Prop :=
  match c with
  | Base c => legal (base q) c
  | AddObserver x _ _ | RemoveObserver x _ => (x < next (st (base q)))%nat
  end.
Definition hcareful q (c : @hcall V) : Prop :=
  match c with Base c => careful (base q) c | _ => hlegal q c end.
Inductive hreach (ok : hstate -> hcall -> Prop) (junk : nat -> Z -> V) : hstate -> Prop :=
| hreach_init : hreach ok junk (hinit junk)
| hreach_call : forall q c, hreach ok junk q -> ok q c -> hreach ok junk (fst (hexec tinit tf tfinv c q)).

(** The states after each of a sequence of calls; each call is allowed when it is made. *)
Fixpoint afters (cs : list hcall) q : list hstate :=
  match cs with [] => [] | c :: r => let q' := fst (hexec tinit tf tfinv c q) in q' :: afters r q' end.
Fixpoint each (ok : hstate -> hcall -> Prop) (cs : list hcall) q : Prop :=
  match cs with [] => True | c :: r => ok q c /\ each ok r (fst (hexec tinit tf tfinv c q)) end.
(** A call that sets values somewhere in a finished hierarchy with updates on, or deals with observers. *)
Definition settling q (c : @hcall V) : Prop :=
  hcareful q c /\ match c with
    | Base c => exists x, value_call (base q) x c /\ all_on (base q) x /\ in_init (st (base q)) x = false
    | _ => True
    end.
(** What [o] at [x] read, in order. *)
Definition readings (x : oid) (o : nat) (l : list (@report V)) : list (list (option V)) :=
  map snd (filter (fun r => Nat.eqb (fst (fst r)) x && Nat.eqb (snd (fst r)) o) l).

(** A sequence of calls, with what is stored and what observers read. *)
Fixpoint watch (cs : list hcall) q (stored : oid -> list (option V)) : @hstate V * (oid -> list (option V)) * list (@report V) :=
  match cs with
  | [] => (q, stored, [])
  | c :: r =>
      let (q', e) := hexec tinit tf tfinv c q in
      let (stored', l) := match e with Ok ev => observe (values (base q')) ev stored | Er _ => (stored, []) end in
      let '(q2, stored2, l2) := watch r q' stored' in (q2, stored2, l ++ l2)
  end.
End Spec.
