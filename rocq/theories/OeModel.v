(** Model of the removal of observers that have an equality of their own, as arrays have:
    Observable.remove_observer and change_priority, /repo/paramz/core/observable.py:56-73, 98-101, and
    ObserverList.remove, /repo/paramz/core/lists_and_dicts.py:78-86. ObserversModel.v has the same for
    observers that are compared by identity; the state and the other calls are those of that file.

    The truth value of [observer==o] is an arbitrary function, None if it cannot be had (NumPy's
    ValueError for arrays of several elements). Callbacks are compared by identity. *)
From Coq Require Import List ZArith Bool.
From Verif Require Import ObserversModel.
Import ListNotations.

Section Equality.
Variable eq : nat -> nat -> option bool.

(** [priority==p and observer==o and callble==c]; lists_and_dicts.py:85. *)
Definition same (r e : entry) : option bool :=
  if prio_eqb (e_prio r) (e_prio e) then
    match eq (e_obs r) (e_obs e) with
    | Some true => Some (Nat.eqb (e_cb r) (e_cb e))
    | other => other
    end
  else Some false.
(** The backwards loop; lists_and_dicts.py:83-86. The flag says whether it raised. *)
Fixpoint remove_loop_eq (n : nat) (r : entry) (l : list entry) : list entry * bool :=
  match n with
  | O => (l, false)
  | S i =>
      match nth_error l i with
      | Some e =>
          match same r e with
          | None => (l, true)
          | Some b => remove_loop_eq i r (if b then del_at i l else l)
          end
      | None => (l, false)   (* does not occur, as in [remove_loop] *)
      end
  end.
(** [ObserverList.remove]; lists_and_dicts.py:78-86. *)
Definition ol_remove_eq (s : ostate) (r : entry) : ostate * bool :=
  let s1 := flush (flush s) in
  let l := lists s1 (cur s1) in
  let (l', e) := remove_loop_eq (length l) r l in (set_poc s1 l', e).
(** [for r in to_remove: self.observers.remove( *r)]; observable.py:72-73. *)
Fixpoint ol_remove_all (s : ostate) (rs : list entry) : ostate * bool :=
  match rs with
  | [] => (s, false)
  | r :: rs' => match ol_remove_eq s r with (s1, true) => (s1, true) | (s1, false) => ol_remove_all s1 rs' end
  end.
(** [remove_observer]; observable.py:56-73: which registrations, is decided by [is]. *)
Definition remove_observer_eq (s : ostate) (o : nat) (c : option nat) : ostate * bool :=
  let s1 := flush s in ol_remove_all s1 (filter (rm_match o c) (lists s1 (cur s1))).
(** [change_priority]; observable.py:98-101. *)
Definition change_priority_eq (s : ostate) (o c : nat) (p : prio) : ostate * bool :=
  match remove_observer_eq s o (Some c) with
  | (s1, true) => (s1, true)
  | (s1, false) => (add_observer s1 p o c, false)
  end.
End Equality.

(** Equality of NumPy arrays with one axis and of objects without an [__eq__]; used by
    lists_and_dicts.py:85 when an ObsAr or a Param is an observer. [vals o] is None for an object,
    which equals itself only; [other] stands for what arrays of lengths that do not fit give, an error
    or False depending on the version. *)
Definition truth (l : list bool) : option bool :=
  match l with [] => Some false | [b] => Some b | _ => None end.
(** See [truth]. *)
Definition np_eq (vals : nat -> option (list Z)) (other : option bool) (a b : nat) : option bool :=
  match vals a, vals b with
  | None, None => Some (Nat.eqb a b)
  | Some v, None => truth (map (fun _ => false) v)
  | None, Some w => truth (map (fun _ => false) w)
  | Some v, Some w =>
      if Nat.eqb (length v) (length w) then truth (map (fun p => Z.eqb (fst p) (snd p)) (combine v w))
      else match v, w with
           | [x], _ => truth (map (Z.eqb x) w)
           | _, [y] => truth (map (Z.eqb y) v)
           | _, _ => other
           end
  end.
