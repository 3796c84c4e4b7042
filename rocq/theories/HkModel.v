(** Model of observers that users register with the objects of a hierarchy.

    Files modelled: /repo/paramz/core/observable.py:49-101, core/lists_and_dicts.py:91-101, 129-138,
    core/parameter_core.py:126-134 and 502-520, core/updateable.py:42-79, core/observable_array.py:117-119,
    parameterized.py:119, 169, 212, param.py:211-218.

    The hierarchy itself is the state of PzModel. There the observers that paramz registers are built into
    [notify]; here every object has its list of registrations, of paramz and of users alike, in the order
    in which they are called, and a call yields the sequence of what is called.

    Simplifications: as in PzModel; callbacks of users only listen and do not fail (ObserversModel lets
    them change the list); observers live as long as they are registered; what happens while objects
    are built, linked, initialised and copied is followed as far as it changes the lists, not as far as
    it notifies. *)
From Coq Require Import List ZArith Bool Arith.
From Verif Require Import NpModel IndexOpsModel PzModel PzSpec.
From Verif Require ObserversModel.
Import ListNotations.
Open Scope Z_scope.

Notation prio := ObserversModel.prio.
Notation Fin := ObserversModel.Fin.
Notation NegInf := ObserversModel.NegInf.

(** Callbacks: [x._parameters_changed_notification] (parameterized.py:119), the parent's
    [_pass_through_notify_observers] (parameterized.py:169), and those of users. *)
Inductive target : Type := Own | Up (q : oid) | User (o : nat).
Definition reg : Type := prio * target.
(** [ObserverList.add]; lists_and_dicts.py:91-101. *)
Fixpoint insert (e : reg) (l : list reg) : list reg :=
  match l with
  | [] => [e]
  | a :: r => if ObserversModel.prio_gtb (fst e) (fst a) then e :: l else a :: insert e r
  end.
(** [remove_observer] of a user; observable.py:56-73. *)
Definition withdraw (o : nat) (l : list reg) : list reg :=
  filter (fun e => match snd e with User p => negb (Nat.eqb p o) | _ => true end) l.

(** What is called: [parameters_changed] of [x]; callback [o] registered with [x]. *)
Inductive event : Type := Ran (x : oid) | Heard (x : oid) (o : nat).

(** The registrations a notification calls; [up = false] is [min_priority = -inf]; observable.py:87-97. *)
Fixpoint called (up : bool) (l : list reg) : list reg :=
  match l with
  | [] => []
  | a :: r => if negb up && ObserversModel.prio_leb (fst a) NegInf then [] else a :: called up r
  end.

Section Hook.
Variable upd : oid -> bool.
Variable regs : oid -> list reg.

(** [x.notify_observers(which, None if up else -inf)]; observable.py:75-97, parameter_core.py:502-510. *)
Fixpoint hnotify (f : nat) (x : oid) (up : bool) : res (list event) :=
  match f with
  | O => Er Endless
  | S f' =>
      if upd x then
        rfold (fun (e : reg) ev =>
          rbind (match snd e with
                 | Own => Ok [Ran x]
                 | User o => Ok [Heard x o]
                 | Up q => hnotify f' q true
                 end) (fun ev' => Ok (ev ++ ev'))) (called up (regs x)) []
      else Ok []
  end.
(** [x._trigger_params_changed(trigger_parent=up)]; parameter_core.py:126-134. *)
Fixpoint htrigger_params (f : nat) (t : struct) (i : iost) (x : oid) (up : bool) : res (list event) :=
  match f with
  | O => Er Endless
  | S f' =>
      rbind (rfold (fun p ev =>
        rbind (is_fixed (fuel t) t i p) (fun b : bool =>
        if b then Ok ev else rbind (htrigger_params f' t i p false) (fun ev' => Ok (ev ++ ev')))) (kids t x) []) (fun ev =>
      rbind (hnotify (fuel t) x up) (fun ev' => Ok (ev ++ ev')))
  end.
(** [x.trigger_update()]; updateable.py:68-79. *)
Definition htrigger (t : struct) (i : iost) (x : oid) : res (list event) :=
  if upd x && negb (in_init t x) then htrigger_params (fuel t) t i x true else Ok [].
End Hook.

Section State.
Context {V : Type}.
Variables tinit tf tfinv : nat -> V -> V.

Record hstate : Type := mkH { base : @state V; regs : oid -> list reg }.

(** The registrations of [x] after a call on the hierarchy: a new Parameterized registers itself
    (parameterized.py:119), a parent is registered by linking and taken off by unlinking
    (parameterized.py:169, 212). [again]: [x] was linked by this call. *)
Definition is_up (e : reg) : bool := match snd e with Up _ => true | _ => false end.
Definition sync (s s' : @state V) (again : oid -> bool) (r : oid -> list reg) (x : oid) : list reg :=
  let l : list reg := if Nat.ltb x (next (st s)) then r x else if is_leaf (st s') x then [] else [(Fin (-100), Own)] in
  let kept := filter (fun e : reg => match snd e with Up q => negb (again x) && omem q (passes (nt s') x) | _ => true end) l in
  fold_left (fun l q => if existsb (fun e : reg => match snd e with Up p => Nat.eqb p q | _ => false end) l then l else insert (NegInf, Up q) l)
            (passes (nt s') x) kept.

(** Calls: those on the hierarchy; [x.add_observer(o, callback, p)]; [x.remove_observer(o)]. *)
Inductive hcall : Type := Base (c : @call V) | AddObserver (x : oid) (p : prio) (o : nat) | RemoveObserver (x : oid) (o : nat).

(** What a call on the hierarchy calls, in the state it ends in: writing to a Param notifies
    (observable_array.py:117-119), also while [constrain] stores its initial values; writing to a
    Parameterized and [optimizer_array = v] trigger an update (parameterized.py:327,
    parameter_core.py:124); fixing notifies (constrainable.py:67); [constrain] and [update_model]
    trigger an update (constrainable.py:155, updateable.py:60), [randomize] does so last, with updates
    off until then (parameter_core.py:242-250), and so does initialising, by hand or at the end of a
    construction (parameterized.py:51-61, parameter_core.py:326-337). Copying calls
    [parameters_changed] of the new objects (parameterized.py:344-349, pickleable.py:94), which have no
    observers but themselves and their parents, in the order of [trace].
    Linking, unlinking, unfixing and unconstraining call nothing. [s0]: the state before the call. *)
Definition calls (c : @call V) (s0 s : @state V) (r : oid -> list reg) : res (list event) :=
  let notify_ x := hnotify (updates (nt s)) r (fuel (st s)) x true in
  let trigger x := htrigger (updates (nt s)) r (st s) (ios s) x in
  match c with
  | Assign x _ => if is_leaf (st s) x then notify_ x else trigger x
  | SetOptimizer x _ | Trigger x | Updates x _ | Randomize x _ | Initialize x | End x true => trigger x
  | NewNode _ true => trigger (next (st s0))
  | Copy _ => Ok (map Ran (rev (firstn (length (trace (nt s)) - length (trace (nt s0))) (trace (nt s)))))
  | Fix x _ => notify_ x
  | Constrain x _ _ =>
      rbind (if is_leaf (st s) x then notify_ x else Ok []) (fun ev => rbind (trigger x) (fun ev' => Ok (ev ++ ev')))
  | _ => Ok []
  end.

Definition hexec (c : hcall) (q : hstate) : hstate * res (list event) :=
  match c with
  | Base c =>
      let (s', e) := exec tinit tf tfinv c (base q) in
      let again x := match c, e with Link _ p _, None => Nat.eqb p x | _, _ => false end in
      let r := sync (base q) s' again (regs q) in
      (mkH s' r, match e with None => calls c (base q) s' r | Some x => Er x end)
  | AddObserver x p o => (mkH (base q) (fun y => if Nat.eqb y x then insert (p, User o) (regs q x) else regs q y), Ok [])
  | RemoveObserver x o => (mkH (base q) (fun y => if Nat.eqb y x then withdraw o (regs q x) else regs q y), Ok [])
  end.
End State.
(** Before anything is built. *)
Definition hinit {V : Type} (junk : nat -> Z -> V) : hstate := mkH (init_state junk) (fun _ => []).
