(** What is said about restarts in parallel. *)
From Coq Require Import List Arith.
From Verif Require Import RunModel.
Import ListNotations.

(** What the runs of the copies did: job [i] starts at a random point, the last where the model is. *)
Definition job_results {X : Type} (start : option X) (rnd : nat -> X -> X) (run : nat -> X -> outcome X) (n : nat) (x : X) (l : list (outcome X)) : Prop :=
  length l = n /\ forall i, i < n ->
    nth_error l i = Some (run i (match start with Some y => y | None => if Nat.eqb (S i) n then x else rnd i x end)).
