(** Vocabulary for the properties of observable arrays (C78-C82). *)
From Coq Require Import List Arith Bool.
From Verif Require Import ArrModel.
Import ListNotations.

Section Spec.
Context {V : Type}.
Implicit Types s : @state V.

(** Calls use arrays that exist; a slice selects a position once. *)
Definition legal s (c : @call V) : Prop :=
  match target c with Some x => x < next s | None => True end /\
  match c with Slice _ sel | Aug _ sel _ => NoDup sel | _ => True end.

(** States a program can be in, and what can follow on a state when the calls satisfy [ok]. *)
Inductive hist (ok : state -> call -> Prop) (s : state) : state -> Prop :=
  | hist_none : hist ok s s
  | hist_step : forall s1 c, hist ok s s1 -> legal s1 c -> ok s1 c -> hist ok s (fst (exec c s1)).
Definition reach (junk : nat -> nat -> V) s : Prop := hist (fun _ _ => True) (init junk) s.

(** Two arrays have memory in common. *)
Definition overlap s (x y : nat) : Prop :=
  buf (arrs s x) = buf (arrs s y) /\ exists p, In p (pos (arrs s x)) /\ In p (pos (arrs s y)).

(** Callback [c] is registered with array [a], whose updates are on, and the same is true of every
    ObsAr on its memory. *)
Definition watches s (c a : nat) : Prop :=
  obs (arrs s a) = true /\ on (arrs s a) = true /\ In c (lists s (olist (arrs s a))) /\
  forall y, y < next s -> obs (arrs s y) = true -> overlap s y a ->
    olist (arrs s y) = olist (arrs s a) /\ on (arrs s y) = true.

(** A program that plays by the rules: it changes the memory of [a] by indexed assignment and
    in-place operators of ObsArs only, makes no second ObsAr from it, does not switch updates and
    leaves the callback registered. *)
Definition by_rules (c a : nat) s (k : @call V) : Prop :=
  match k with
  | Put x _ _ | Iop x _ | Aug x _ _ | AugPick x _ _ => overlap s x a -> obs (arrs s x) = true
  | Raw x _ => ~ overlap s x a
  | Wrap x | Updates x _ => x <> a /\ ~ overlap s x a
  | Forget x d => d = c -> olist (arrs s x) <> olist (arrs s a)
  | _ => True
  end.

(** What callback [c] saw in array [a] when it was called last, according to the calls [l]. *)
Fixpoint last_seen (l : list (@note V)) (c : nat) (a : arr) : option (list V) :=
  match l with
  | [] => None
  | n :: r => match last_seen r c a with
              | Some vs => Some vs
              | None => if Nat.eqb (who n) c then Some (map (seen n (buf a)) (pos a)) else None
              end
  end.
(** The observer is up to date: what it saw last, or [before] if it was not called, is what the
    array holds. *)
Definition up_to_date s (before : list V) (old : nat) (c a : nat) : Prop :=
  read s a = match last_seen (skipn old (log s)) c (arrs s a) with Some vs => vs | None => before end.

(** The element of a buffer after element [k] of the selection [sel] of array [x] became [f k] of it. *)
Definition changed s s' (x : nat) (sel : list nat) (f : nat -> V -> V) : Prop :=
  (forall k p, nth_error sel k = Some p -> forall q, nth_error (pos (arrs s x)) p = Some q ->
     mem s' (buf (arrs s x)) q = f k (mem s (buf (arrs s x)) q)) /\
  (forall b q, b < nbuf s -> (b = buf (arrs s x) -> forall p, In p sel -> nth_error (pos (arrs s x)) p <> Some q) ->
     mem s' b q = mem s b q).
(** The callbacks a change of array [x] has to call, and the calls made between two states. *)
Definition callers s (x : nat) : list nat := if on (arrs s x) then lists s (olist (arrs s x)) else [].
Definition told s s' (new : list (@note V)) : Prop := log s' = log s ++ new.
(** The notes are calls of [cs], in this order, by array [x], at a time when memory was [m] as far as
    the buffers of state [s] go. *)
Definition tells s (cs : list nat) (x : nat) (m : nat -> nat -> V) (new : list note) : Prop :=
  map who new = cs /\ Forall (fun n => from n = x /\ forall b q, b < nbuf s -> seen n b q = m b q) new.

(** The elements of an array follow each other in memory. *)
Definition block s (x : nat) : Prop := exists p, pos (arrs s x) = seq p (length (read s x)).
(** Statements that do not make sense, and the error that has to tell: an index outside the array, not
    one value for every element, attributes that plain arrays do not have. *)
Inductive refused s : @call V -> err -> Prop :=
  | refuse_slice : forall x sel k, In k sel -> length (read s x) <= k -> refused s (Slice x sel) IndexError
  | refuse_pick : forall x sel k, In k sel -> length (read s x) <= k -> refused s (Pick x sel) IndexError
  | refuse_index : forall x sel vs k, In k sel -> length (read s x) <= k -> refused s (Put x sel vs) IndexError
  | refuse_aug : forall x sel g k, In k sel -> length (read s x) <= k -> refused s (Aug x sel g) IndexError
  | refuse_augpick : forall x sel g k, In k sel -> length (read s x) <= k -> refused s (AugPick x sel g) IndexError
  | refuse_values : forall x sel vs, (forall k, In k sel -> k < length (read s x)) -> length vs <> length sel ->
      refused s (Put x sel vs) ValueError
  | refuse_raw : forall x vs, length vs <> length (read s x) -> refused s (Raw x vs) ValueError
  | refuse_attribute : forall x c, obs (arrs s x) = false ->
      (c = Values x \/ (exists b, c = Updates x b) \/ (exists d, c = Observe x d) \/ (exists d, c = Forget x d)) ->
      refused s c AttributeError.

(** Calls on arrays made from number [b] on. *)
Definition on_new (b : nat) s (k : @call V) : Prop := match target k with Some y => b <= y | None => True end.
End Spec.
