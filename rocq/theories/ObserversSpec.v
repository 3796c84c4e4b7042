(** Vocabulary for C08-C11: the registrations of an observable, as a user understands them. *)
From Coq Require Import List ZArith Bool Sorting.Sorted.
From Verif Require Import ObserversModel.
Import ListNotations.
Open Scope Z_scope.

(** The registrations a notification started now would work on. *)
Definition registered (s : ostate) : list entry :=
  filter (fun e => alive s (e_obs e)) (lists s (cur s)).

(** The user's log book: registrations in the order in which they were made. *)
Definition log_step (g : list entry) (a : oop) : list entry :=
  match a with
  | OAddO p o c => g ++ [mkE p o c]
  | ORemO o (Some c) => filter (fun e => negb (Nat.eqb (e_obs e) o && Nat.eqb (e_cb e) c)) g
  | ORemO o None => filter (fun e => negb (Nat.eqb (e_obs e) o)) g
  | OChP o c p => filter (fun e => negb (Nat.eqb (e_obs e) o && Nat.eqb (e_cb e) c)) g ++ [mkE p o c]
  | OUpd _ | OIter => g
  | OKill o => filter (fun e => negb (Nat.eqb (e_obs e) o)) g
  end.
Definition log_of (l : list oop) : list entry := fold_left log_step l [].

(** A dead observer is not registered again. *)
Fixpoint legal_from (dead : list nat) (l : list oop) : Prop :=
  match l with
  | [] => True
  | a :: r =>
      match a with
      | OAddO _ o _ | OChP o _ _ => ~ In o dead /\ legal_from dead r
      | OKill o => legal_from (o :: dead) r
      | _ => legal_from dead r
      end
  end.

(** [l] is [g] sorted by decreasing priority, equal priorities in the order of [g]. *)
Definition stable_by_priority (l g : list entry) : Prop :=
  StronglySorted (fun a b => prio_leb (e_prio b) (e_prio a) = true) l /\
  forall p, filter (fun e => prio_eqb (e_prio e) p) l = filter (fun e => prio_eqb (e_prio e) p) g.
