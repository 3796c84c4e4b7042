(** Vocabulary for the lifetime of observers. *)
From Coq Require Import List Bool Arith.
From Verif Require Import GcModel.
Import ListNotations.

(** [x] can be reached by the program. *)
Inductive reachable (s : heap) : nat -> Prop :=
| re_held : forall x, held s x = true -> reachable s x
| re_ref : forall x y, reachable s x -> In (x, y) (refs s) -> reachable s y
| re_bound : forall x e y, reachable s x -> In e (poc s x) -> bound e = Some y -> reachable s y.
(** A program uses only what it can reach; what it can reach is not freed. *)
Definition allowed (s : heap) (a : op) : Prop :=
  match a with
  | Hold x | Notify x => reachable s x
  | Drop _ | Forget _ _ => True
  | Refer x y => reachable s x /\ reachable s y
  | Add x o _ b => reachable s x /\ reachable s o /\ match b with Some y => reachable s y | None => True end
  | Remove x o => reachable s x /\ reachable s o
  | Free x => ~ reachable s x
  end.
Fixpoint program (l : list op) (s : heap) : Prop :=
  match l with [] => True | a :: r => allowed s a /\ program r (fst (step a s)) end.
(** [o] is not taken off [x]. *)
Definition keeps (x o : nat) (l : list op) : Prop := ~ In (Remove x o) l.
(** How often callback [c] of [o] is called. *)
Definition count (o c : nat) (calls : list (nat * nat)) : nat := length (filter (fun p => Nat.eqb (fst p) o && Nat.eqb (snd p) c) calls).
(** States of all programs. *)
Definition reached (s : heap) : Prop := exists l, program l start /\ s = fst (steps l start).
