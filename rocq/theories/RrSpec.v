(** Vocabulary for the properties of the regression example: the loss it is documented to minimise. *)
From Coq Require Import List Arith Reals.
From Verif Require Import RrModel.
Import ListNotations.
Open Scope R_scope.

Definition sum (n : nat) (f : nat -> R) : R := fold_right Rplus 0 (map f (seq 0 n)).
(** The size of a weight as the penalty counts it. *)
Definition weight_of (p : penalty) (v : R) : R := match p with Ridge => v * v | Lasso => Rabs v end.
(** Squared differences between targets and fitted values, plus the penalty. *)
Definition fit (c : setup) (x w : matrix) (r : nat) : R := sum (S (degree c)) (fun i => sum (dims c) (fun j => basis c x i r j * w i j)).
Definition loss (c : setup) (x y w : matrix) : R :=
  sum (rows c) (fun r => sum (cols c) (fun k => (y r k - fit c x w r) * (y r k - fit c x w r))) +
  lambda c * sum (S (degree c)) (fun i => sum (dims c) (fun j => weight_of (reg c) (w i j))).
(** The weights with one of them replaced. *)
Definition put (w : matrix) (i j : nat) (t : R) : matrix := fun a b => if andb (Nat.eqb a i) (Nat.eqb b j) then t else w a b.
Definition inside (c : setup) (i j : nat) : Prop := (i <= degree c)%nat /\ (j < dims c)%nat.
(** What the model reports is the loss of the weights it has and its derivative (for Lasso where there
    is one). *)
Definition right_obj (c : setup) (s : st) : Prop := obj s = loss c (X s) (Y s) (W s).
Definition smooth (c : setup) (v : R) : Prop := match reg c with Ridge => True | Lasso => v <> 0 end.
Definition right_grad (c : setup) (s : st) : Prop :=
  forall i j, inside c i j -> smooth c (W s i j) -> derivable_pt_lim (fun t => loss c (X s) (Y s) (put (W s) i j t)) (W s i j) (grad s i j).
(** A step below the graph of the loss, in all directions at once. *)
Definition supports (c : setup) (s : st) : Prop :=
  forall w, loss c (X s) (Y s) (W s) + sum (S (degree c)) (fun i => sum (dims c) (fun j => grad s i j * (w i j - W s i j))) <= loss c (X s) (Y s) w.
(** Calls after which everything has been computed anew. *)
Definition computes (s : st) (a : call) : Prop :=
  match a with
  | SetWeights _ | FixAll => on s = true
  | SetOptimizer _ | Trigger => on s = true /\ fixed s = false
  | Updates b => b = true /\ fixed s = false
  | _ => False
  end.
(** Calls that leave the weights and what was computed from them alone. *)
Definition harmless (a : call) : Prop := a = UnfixAll \/ a = Updates false.
Inductive runs (c : setup) (ok : st -> call -> Prop) (s : st) : st -> Prop :=
| runs_here : runs c ok s s
| runs_step : forall s1 a s2, runs c ok s s1 -> ok s1 a -> step c s1 a = Some s2 -> runs c ok s s2.
