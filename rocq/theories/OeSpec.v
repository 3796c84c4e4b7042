(** Vocabulary for C130: removing observers that have an equality of their own. *)
From Coq Require Import List ZArith Bool.
From Verif Require Import ObserversModel ObserversSpec.
Import ListNotations.

(** The registrations a user means by [remove_observer(o)] and [remove_observer(o, c)]. *)
Definition meant (o : nat) (c : option nat) (e : entry) : Prop :=
  e_obs e = o /\ match c with Some k => e_cb e = k | None => True end.
(** A registration that looks like one that is meant: same priority, same callback, an observer that
    is [eq]ual to [o]. *)
Definition looks_meant (eq : nat -> nat -> option bool) (s : ostate) (o : nat) (c : option nat) (e : entry) : Prop :=
  eq o (e_obs e) = Some true /\
  exists r, In r (registered s) /\ meant o c r /\ e_prio r = e_prio e /\ e_cb r = e_cb e.
(** A registration beside one that is meant, of an observer that cannot be compared with [o]. *)
Definition in_the_way (eq : nat -> nat -> option bool) (s : ostate) (o : nat) (c : option nat) (e : entry) : Prop :=
  In e (registered s) /\ eq o (e_obs e) = None /\
  exists r, In r (registered s) /\ meant o c r /\ e_prio r = e_prio e.
(** [k] is [l] without some elements, all of which are [gone]. *)
Inductive part {A} (gone : A -> Prop) : list A -> list A -> Prop :=
  | part_nil : part gone [] []
  | part_keep : forall x l k, part gone l k -> part gone (x :: l) (x :: k)
  | part_drop : forall x l k, gone x -> part gone l k -> part gone (x :: l) k.
