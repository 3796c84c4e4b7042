(** Model of /repo/paramz/core/observable.py (Observable) and of ObserverList in
    /repo/paramz/core/lists_and_dicts.py:65-144.

    The Python list objects behind [self._poc] have identity ([lid]), because callbacks may add
    and remove observers while a notification iterates over a list.
    Simplifications: observers and callbacks are numbers, compared by identity ([==] on observers
    in lists_and_dicts.py:85 is object identity for the observers used in /repo); priorities are
    integers or minus infinity; one observable. *)
From Coq Require Import List ZArith Bool.
Import ListNotations.
Open Scope Z_scope.

(** Priorities; [-np.inf] is used in /repo/paramz/parameterized.py:169 and
    core/parameter_core.py:134. *)
Inductive prio : Type := NegInf | Fin (z : Z).

(** [a > b] and [a <= b] on priorities; lists_and_dicts.py:98, observable.py:95. *)
Definition prio_gtb (a b : prio) : bool :=
  match a, b with
  | NegInf, _ => false
  | Fin _, NegInf => true
  | Fin x, Fin y => y <? x
  end.
Definition prio_leb (a b : prio) : bool := negb (prio_gtb a b).
Definition prio_eqb (a b : prio) : bool :=
  match a, b with
  | NegInf, NegInf => true
  | Fin x, Fin y => x =? y
  | _, _ => false
  end.

(** One registration (priority, weakref(observer), callback); lists_and_dicts.py:101. *)
Record entry : Type := mkE { e_prio : prio; e_obs : nat; e_cb : nat }.
Definition entry_eqb (a b : entry) : bool :=
  prio_eqb (e_prio a) (e_prio b) && Nat.eqb (e_obs a) (e_obs b) && Nat.eqb (e_cb a) (e_cb b).

(** State of one observable: its list objects, the one bound to [_poc], the next free list
    identity, which observers are still alive (weak references), and [_update_on];
    observable.py:40-44, lists_and_dicts.py:71-72. *)
Record ostate : Type := mkO {
  lists : nat -> list entry;
  cur : nat;
  nextl : nat;
  alive : nat -> bool;
  updates : bool }.

Definition set_list (f : nat -> list entry) (k : nat) (l : list entry) : nat -> list entry :=
  fun x => if Nat.eqb x k then l else f x.

(** A fresh observable; observable.py:40-44. *)
Definition onew : ostate := mkO (fun _ => []) 0 1 (fun _ => true) true.

(** [flush] binds [_poc] to a new list without the dead observers; lists_and_dicts.py:129-133. *)
Definition flush (s : ostate) : ostate :=
  mkO (set_list (lists s) (nextl s) (filter (fun e => alive s (e_obs e)) (lists s (cur s))))
      (nextl s) (S (nextl s)) (alive s) (updates s).

(** In-place change of the list bound to [_poc]. *)
Definition set_poc (s : ostate) (l : list entry) : ostate :=
  mkO (set_list (lists s) (cur s) l) (cur s) (nextl s) (alive s) (updates s).

(** The insertion position counted by the loop of [add]; lists_and_dicts.py:96-101. *)
Fixpoint ins_pos (p : prio) (l : list entry) : nat :=
  match l with
  | [] => 0
  | e :: r => if prio_gtb p (e_prio e) then 0 else S (ins_pos p r)
  end.
(** [list.insert]. *)
Definition list_insert {A} (k : nat) (x : A) (l : list A) : list A := firstn k l ++ x :: skipn k l.

(** [ObserverList.add] via [Observable.add_observer]; lists_and_dicts.py:91-101 (iterating self
    flushes, 135-138), observable.py:49-54. *)
Definition add_observer (s : ostate) (p : prio) (o c : nat) : ostate :=
  let s1 := flush s in
  let l := lists s1 (cur s1) in
  set_poc s1 (list_insert (ins_pos p l) (mkE p o c) l).

(** The backwards loop [for i in range(len-1,-1,-1): ... del self._poc[i]];
    lists_and_dicts.py:78-86.  [n] counts the positions still to be looked at. *)
Fixpoint del_at {A} (k : nat) (l : list A) : list A :=
  match l, k with
  | [], _ => []
  | _ :: r, O => r
  | x :: r, S k' => x :: del_at k' r
  end.
Fixpoint remove_loop (n : nat) (r : entry) (l : list entry) : list entry :=
  match n with
  | O => l
  | S i =>
      match nth_error l i with
      | Some e => remove_loop i r (if entry_eqb r e then del_at i l else l)
      | None => l   (* IndexError; does not occur, the list only shrinks above i *)
      end
  end.
(** [ObserverList.remove]: flush, [len] flushes again; lists_and_dicts.py:78-86, 140-142. *)
Definition ol_remove (s : ostate) (r : entry) : ostate :=
  let s1 := flush (flush s) in
  let l := lists s1 (cur s1) in
  set_poc s1 (remove_loop (length l) r l).

(** [Observable.remove_observer]; observable.py:56-73. *)
Definition rm_match (o : nat) (c : option nat) (e : entry) : bool :=
  match c with
  | Some c' => Nat.eqb (e_obs e) o && Nat.eqb c' (e_cb e)
  | None => Nat.eqb (e_obs e) o
  end.
Definition remove_observer (s : ostate) (o : nat) (c : option nat) : ostate :=
  let s1 := flush s in
  let to_remove := filter (rm_match o c) (lists s1 (cur s1)) in
  fold_left ol_remove to_remove s1.

(** [change_priority]; observable.py:98-101. *)
Definition change_priority (s : ostate) (o c : nat) (p : prio) : ostate :=
  add_observer (remove_observer s o (Some c)) p o c.

(** [set_updates]; observable.py:46-47. *)
Definition set_updates (s : ostate) (b : bool) : ostate :=
  mkO (lists s) (cur s) (nextl s) (alive s) b.

(** An observer is garbage collected (its weak reference becomes None). *)
Definition kill (s : ostate) (o : nat) : ostate :=
  mkO (lists s) (cur s) (nextl s) (fun x => if Nat.eqb x o then false else alive s x) (updates s).

(** What user code (in particular callbacks) can do to an observable. [OIter] stands for the
    effect of starting any iteration, e.g. a nested notification: it flushes. *)
Inductive oop : Type :=
| OAddO (p : prio) (o c : nat)
| ORemO (o : nat) (c : option nat)
| OChP (o c : nat) (p : prio)
| OUpd (b : bool)
| OKill (o : nat)
| OIter.
Definition oexec (s : ostate) (a : oop) : ostate :=
  match a with
  | OAddO p o c => add_observer s p o c
  | ORemO o c => remove_observer s o c
  | OChP o c p => change_priority s o c p
  | OUpd b => set_updates s b
  | OKill o => kill s o
  | OIter => flush s
  end.
Definition orun (s : ostate) (l : list oop) : ostate := fold_left oexec l s.

(** A call of a callback: (callback, first argument, [which]). *)
Definition call : Type := nat * nat * nat.

(** The loop of [notify_observers], iterating the list object [l] from position [pos]
    (Python list iterator: stops when [pos] reaches the current length).  The callback invoked
    as number [k] of this round does [script k] to the observable.
    observable.py:87-97; [fuel] bounds the number of iterator steps, [None] = not finished. *)
Fixpoint notify_loop (fuel : nat) (self which : nat) (minp : option prio) (script : nat -> list oop)
         (l pos k : nat) (s : ostate) : option (list call * ostate) :=
  match fuel with
  | O => None
  | S fuel' =>
      match nth_error (lists s l) pos with
      | None => Some ([], s)
      | Some e =>
          if match minp with Some m => prio_leb (e_prio e) m | None => false end
          then Some ([], s)                                              (* break *)
          else
            let s' := orun s (script k) in
            match notify_loop fuel' self which minp script l (S pos) (S k) s' with
            | Some (tr, s'') => Some ((e_cb e, self, which) :: tr, s'')
            | None => None
            end
      end
  end.

(** [notify_observers]; observable.py:75-97. *)
Definition notify_observers (fuel : nat) (self : nat) (which : option nat) (minp : option prio)
           (script : nat -> list oop) (s : ostate) : option (list call * ostate) :=
  if updates s then
    let w := match which with Some w => w | None => self end in
    let s1 := flush s in
    notify_loop fuel self w minp script (cur s1) 0 0 s1
  else Some ([], s).

(** [ObsAr(a)] for an [a] that already is an ObsAr returns [a] itself after running
    [Observable.__init__] on it again; /repo/paramz/core/observable_array.py:56-67 with
    observable.py:40-44. *)
Definition rewrap (s : ostate) : ostate :=
  mkO (set_list (lists s) (nextl s) []) (nextl s) (S (nextl s)) (alive s) true.
