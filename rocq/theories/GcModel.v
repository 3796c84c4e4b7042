(** Model of the lifetime of observers.

    Files modelled: /repo/paramz/core/lists_and_dicts.py:65-144 (ObserverList), core/observable.py:49-97.

    Objects live as long as they can be reached from what the program holds, following strong
    references: attributes, and from an observable to the objects that the callbacks in its list are bound
    to. The references of the list to the observers are weak (lists_and_dicts.py:101).

    Simplifications: priorities are left out (see ObserversModel); objects are numbers that are not used
    again; a callback is a bound method of one object, or bound to none; an object that can no longer be
    reached is freed at any time later. *)
From Coq Require Import List Bool Arith.
Import ListNotations.

(** (weak reference to the observer, callback, the object the callback is bound to); lists_and_dicts.py:101. *)
Record entry : Type := mkE { obs : nat; cb : nat; bound : option nat }.
(** [held]: the program's variables; [refs]: attributes; [poc x]: the list of [x] (lists_and_dicts.py:71-72);
    [freed]: weak references to these give None. *)
Record heap : Type := mkH { held : nat -> bool; refs : list (nat * nat); poc : nat -> list entry; freed : nat -> bool }.
(** At the start the program holds all objects, none of which refers to another. *)
Definition start : heap := mkH (fun _ => true) [] (fun _ => []) (fun _ => false).

(** Without the dead observers; lists_and_dicts.py:129-133. *)
Definition flush (s : heap) (l : list entry) : list entry := filter (fun e => negb (freed s (obs e))) l.
Definition set_poc (s : heap) (x : nat) (l : list entry) : heap := mkH (held s) (refs s) (fun y => if Nat.eqb y x then l else poc s y) (freed s).

(** What a program does: takes and drops a variable, sets and deletes an attribute, [x.add_observer(o, c)]
    (observable.py:49-54, lists_and_dicts.py:91-101), [x.remove_observer(o)] (observable.py:56-73),
    [x.notify_observers()] (observable.py:75-97), an object is freed. *)
Inductive op : Type :=
| Hold (x : nat) | Drop (x : nat) | Refer (x y : nat) | Forget (x y : nat)
| Add (x o c : nat) (b : option nat) | Remove (x o : nat) | Notify (x : nat) | Free (x : nat).
(** The state after, and the (observer, callback) pairs called. *)
Definition step (a : op) (s : heap) : heap * list (nat * nat) :=
  match a with
  | Hold x => (mkH (fun y => Nat.eqb y x || held s y) (refs s) (poc s) (freed s), [])
  | Drop x => (mkH (fun y => negb (Nat.eqb y x) && held s y) (refs s) (poc s) (freed s), [])
  | Refer x y => (mkH (held s) ((x, y) :: refs s) (poc s) (freed s), [])
  | Forget x y => (mkH (held s) (filter (fun r => negb (Nat.eqb (fst r) x && Nat.eqb (snd r) y)) (refs s)) (poc s) (freed s), [])
  | Add x o c b => (set_poc s x (flush s (poc s x) ++ [mkE o c b]), [])
  | Remove x o => (set_poc s x (filter (fun e => negb (Nat.eqb (obs e) o)) (flush s (poc s x))), [])
  | Notify x => let l := flush s (poc s x) in (set_poc s x l, map (fun e => (obs e, cb e)) l)
  | Free x => (mkH (held s) (refs s) (poc s) (fun y => Nat.eqb y x || freed s y), [])
  end.
(** A program: the state after it, and all calls in order. *)
Fixpoint steps (l : list op) (s : heap) : heap * list (nat * nat) :=
  match l with
  | [] => (s, [])
  | a :: r => let (s1, c1) := step a s in let (s2, c2) := steps r s1 in (s2, c1 ++ c2)
  end.
