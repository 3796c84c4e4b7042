(** What is said about optimizer lookup, failing evaluations and restarts. *)
From Coq Require Import List NArith ZArith Bool String Arith.
From Verif Require Import RunModel.
Import ListNotations.
Open Scope list_scope.

(** ** Lookup *)
Definition contains (p s : chars) : Prop := exists a b, s = a ++ p ++ b.
(** Alphabetical order. *)
Inductive before : chars -> chars -> Prop :=
| Bnil s : before [] s
| Blt a b s t : (a < b)%N -> before (a :: s) (b :: t)
| Beq a s t : before s t -> before (a :: s) (a :: t).
(** [s.lower()]: capital letters become small ones, the rest stays. *)
Definition same_letter (a b : N) : Prop := (65 <= a <= 90 /\ b = a + 32)%N \/ (~ (65 <= a <= 90) /\ b = a)%N.

(** ** Evaluations *)
(** The steps of an evaluation in their order, and the first that raises. *)
Definition of_sum {A B : Type} (x : A + B) : option B := match x with inl _ => None | inr b => Some b end.
Definition steps {A : Type} (c : callback) (a : attempt A) : list (option err) :=
  a_set a :: match c with
             | CObjective => [of_sum (a_obj a)]
             | CGrads => [of_sum (a_grad a)]
             | CObjectiveGrads => [of_sum (a_obj a); of_sum (a_grad a)]
             end.
Fixpoint first {B : Type} (l : list (option B)) : option B :=
  match l with [] => None | Some e :: _ => Some e | None :: r => first r end.
Definition failure {A : Type} (c : callback) (a : attempt A) : option err := first (steps c a).
(** The errors that are to be tolerated: those of linear algebra, divisions by zero and values a
    function cannot work with. *)
Definition numerical (e : err) : bool := match e with LinAlgError => true | ZeroDivisionError => true | ValueError => true | OtherError _ => false end.
(** The failures in a row at the end of a history (latest first). Errors of another kind are raised
    at once and do not count. *)
Fixpoint streak {A : Type} (h : list (callback * attempt A)) : nat :=
  match h with
  | [] => 0
  | (c, a) :: r => match failure c a with
                   | None => 0
                   | Some e => if numerical e then S (streak r) else streak r
                   end
  end.
(** The gradients can be had after the failure (the code asks for them once more). *)
Definition has_clip {A : Type} (c : callback) (a : attempt A) : Prop :=
  match c with CObjective => True | _ => exists g, a_again a = inl g end.
(** An answer that reports an infinite objective, with the (clipped) gradients had after the failure. *)
Definition tolerated {A : Type} (c : callback) (a : attempt A) (x : answer A) : Prop :=
  match c, x with
  | CObjective, Inf => True
  | CGrads, Clip g => a_again a = inl g
  | CObjectiveGrads, InfClip g => a_again a = inl g
  | _, _ => False
  end.

(** ** Restarts *)
(** The outcomes of the runs one after the other: the first starts where the model is, the others at
    a random place; a run that raises leaves the model somewhere. *)
Fixpoint outcomes {X : Type} (start : option X) (rnd : nat -> X -> X) (run : nat -> X -> outcome X) (k i : nat) (x : X) : list (outcome X) :=
  match k with
  | O => []
  | S k' =>
      let x1 := if Nat.eqb i 0 then x else rnd i x in
      let r := run i (match start with Some y => y | None => x1 end) in
      r :: outcomes start rnd run k' (S i) (match r with Fails _ y => y | Ends _ y => y end)
  end.
Fixpoint successes {X : Type} (l : list (outcome X)) : list (fval * X) :=
  match l with [] => [] | Ends f x :: r => (f, x) :: successes r | Fails _ _ :: r => successes r end.
Fixpoint first_failure {X : Type} (l : list (outcome X)) : option nat :=
  match l with [] => None | Fails e _ :: _ => Some e | Ends _ _ :: r => first_failure r end.
Fixpoint until_failure {X : Type} (l : list (outcome X)) : list (outcome X) :=
  match l with [] => [] | Fails e x :: _ => [Fails e x] | Ends f x :: r => Ends f x :: until_failure r end.
Definition number (f : fval) : Prop := exists z, f = FNum z.
Definition at_most (f g : fval) : Prop := exists a b, f = FNum a /\ g = FNum b /\ (a <= b)%Z.
(** [x] belongs to the first of the best results. *)
Definition best {X : Type} (l : list (fval * X)) (x : X) : Prop :=
  exists l1 f l2, l = l1 ++ (f, x) :: l2 /\
  (forall g y, In (g, y) l1 -> exists a b, f = FNum a /\ g = FNum b /\ (a < b)%Z) /\
  (forall g y, In (g, y) l2 -> at_most f g).
