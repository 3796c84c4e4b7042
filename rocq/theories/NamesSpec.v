(** What is said about names, independently of how the conversion and the renaming work. *)
From Coq Require Import List NArith Bool String Arith.
From Verif Require Import NamesModel.
Import ListNotations.
Open Scope list_scope.

(** Python identifiers (of ASCII characters): [docs: Identifiers and keywords]. *)
Definition letter (c : N) : Prop := (97 <= c <= 122 \/ 65 <= c <= 90)%N.
Definition digit (c : N) : Prop := (48 <= c <= 57)%N.
Definition ident (s : str) : Prop :=
  exists c r, s = c :: r /\ (letter c \/ c = 95%N) /\ Forall (fun a => letter a \/ digit a \/ a = 95%N) r.

(** The table of replacements of the documentation string, as a map on characters; two stars in a
    row are read together. *)
Definition code (c : N) : str :=
  match c with
  | 32%N => lit "_" | 46%N => lit "_" | 45%N => lit "_m_" | 43%N => lit "_p_" | 33%N => lit "_I_"
  | 42%N => lit "_x_" | 47%N => lit "_l_" | 64%N => lit "_at_" | 40%N => lit "_of_" | 41%N => []
  | c => [c]
  end.
Fixpoint translate (s : str) : str :=
  match s with
  | 42%N :: ((42%N :: r) as t) => lit "_xx_" ++ translate r
  | c :: r => code c ++ translate r
  | [] => []
  end.

(** The names that can be converted: without closing parentheses, a word of letters, digits and the
    characters with a replacement, not starting with a digit, maybe followed by a newline. *)
Definition allowed (c : N) : Prop := letter c \/ digit c \/ In c (lit "_ .-+!*/@(").
Definition convertible (s : str) : Prop :=
  exists c b, let t := filter (fun a => negb (N.eqb a 41)) s in
  (t = c :: b \/ t = c :: b ++ [10%N]) /\ Forall allowed (c :: b) /\ ~ digit c.

(** The children have different names. *)
Definition distinct_among (s : nst) (l : list nat) : Prop :=
  forall p q, In p l -> In q l -> p <> q -> nm s p <> nm s q.
Definition distinct (s : nst) : Prop := distinct_among s (kids s).

(** [getattr(obj, n)] when it is one of the attributes made for children. *)
Definition attribute (s : nst) (n : str) (p : nat) : Prop :=
  exists e, find (fun e => streq (fst e) n) (attrs s) = Some e /\ snd e = p.

(** What a user can do with the children of one object. [top]: nothing is above the object when it
    is called. Errors do not end a history. *)
Inductive nop : Type :=
| NLink (top : bool) (p : nat) (index : option nat)
| NUnlink (p : nat)
| NRename (p : nat) (n : str).
Definition nrun (f : nat) (o : nop) (s : nst) : outcome :=
  match o with
  | NLink top p k => link f top p k s
  | NUnlink p => unlink f p s
  | NRename p n => if existsb (Nat.eqb p) (kids s) then rename f p n s else (set_nm s p n, None)
  end.
(** The name an object should have after a call. *)
Definition subject (o : nop) : nat := match o with NLink _ p _ => p | NUnlink p => p | NRename p _ => p end.
Definition wanted (o : nop) (s : nst) (q : nat) : str :=
  match o with NRename p n => if Nat.eqb q p then n else nm s q | _ => nm s q end.
(** The calls after which the names of the children are put in order: all but linking into an object
    that is itself part of a larger one, and renaming an object that is no child. *)
Definition connects (o : nop) (s : nst) : Prop :=
  match o with NLink top _ _ => top = true | NUnlink _ => True | NRename p _ => In p (kids s) end.
(** A new object without children. *)
Definition fresh (s : nst) : Prop := kids s = [] /\ attrs s = [].
Inductive history : nst -> Prop :=
| Hstart s : fresh s -> history s
| Hcall s f o : history s -> history (fst (nrun f o s)).

(** ** Numbered names (C127) *)
Definition numeral (d : str) : Prop := d <> [] /\ Forall digit d.
Definition numval (d : str) : N := fold_left (fun a c => 10 * a + (c - 48))%N d 0%N.
(** A decimal number as it is printed. *)
Definition plain (d : str) : Prop := numeral d /\ forall r, d = 48%N :: r -> r = [].
(** [n] is [b], an underscore and the number [d], maybe with a newline at the end. *)
Definition counted (n b d : str) : Prop := numeral d /\ ~ In 10%N b /\ (n = b ++ lit "_" ++ d \/ n = b ++ lit "_" ++ d ++ [10%N]).
(** The name to try after [n]: the next number, or number 1. *)
Definition successor (n m : str) : Prop :=
  (exists b d d', counted n b d /\ plain d' /\ numval d' = (numval d + 1)%N /\ m = b ++ lit "_" ++ d') \/
  ((forall b d, ~ counted n b d) /\ m = n ++ lit "_1").
(** The names tried one after the other until one is not [used]. *)
Inductive first_free (used : str -> Prop) : str -> str -> Prop :=
| free_here : forall n, ~ used n -> first_free used n n
| free_later : forall n m k, used n -> successor n m -> first_free used m k -> first_free used n k.
