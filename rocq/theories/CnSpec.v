(** Vocabulary for C131: making Params from arrays. *)
From Coq Require Import List Bool Arith.
From Verif Require Import CnModel.
Import ListNotations.

Section Spec.
Context {V : Type}.
Notation state := (state V).

(** Element [i] of array [x]. *)
Definition value (s : state) (x i : nat) : V := mem V s (buf (at_ V s x)) (nth i (pos (at_ V s x)) 0).
Definition exists_arr (s : state) (x : nat) : Prop := x < length (arrs V s).
(** [x] is among the parameters of [m]. *)
Definition linked (s : state) (m x : nat) : Prop := m < length (nodes V s) /\ In x (fst (node V s m)).
(** The constraint of element [i] of [x] as node [m] has it, which is what optimisation follows: the
    elements of [m] are those of its parameters one after the other. *)
Fixpoint before (s : state) (l : list nat) (x : nat) : nat :=
  match l with [] => 0 | y :: r => if Nat.eqb y x then 0 else length (pos (at_ V s y)) + before s r x end.
Definition effective (s : state) (m x i : nat) : option nat := snd (node V s m) (before s (fst (node V s m)) x + i).
(** The constraint of element [i] as [x.constraints] shows it. *)
Definition seen (s : state) (x i : nat) : option nat :=
  match parent (at_ V s x), view (at_ V s x) with
  | Some m, true => effective s m x i
  | _, _ => own (at_ V s x) i
  end.

(** Calls are on what exists; Params are linked once. *)
Definition legal (s : state) (k : call V) : Prop :=
  match k with
  | NewArray _ _ _ | NewNode _ => True
  | Slice _ x ks => exists_arr s x /\ cls (at_ V s x) = Plain
  | MakeObs _ x | MakeParam _ _ x | Constrain _ x _ => exists_arr s x
  | Link _ m x => m < length (nodes V s) /\ exists_arr s x /\ (parent (at_ V s x) = None \/ parent (at_ V s x) = Some m)
  | Put _ x k _ => exists_arr s x /\ k < length (pos (at_ V s x))
  end.
(** Observable arrays and Params are made from plain arrays only. *)
Definition from_plain (s : state) (k : call V) : Prop :=
  match k with
  | MakeObs _ x | MakeParam _ _ x => cls (at_ V s x) = Plain
  | _ => True
  end.
Definition any (s : state) (k : call V) : Prop := True.
Inductive reach (ok : state -> call V -> Prop) : state -> Prop :=
  | reach_start : forall m0, reach ok (start V m0)
  | reach_step : forall s k, reach ok s -> legal s k -> ok s k -> reach ok (st V (exec V k s)).
End Spec.
(** Positions that follow each other. *)
Definition block (ps : list nat) : Prop := forall i, S i < length ps -> nth (S i) ps 0 = S (nth i ps 0).
