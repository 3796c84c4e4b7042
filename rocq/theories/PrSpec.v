(** Vocabulary for the properties of printing. *)
From Coq Require Import String List ZArith NArith Bool Arith.
From Verif Require NamesModel.
From Verif Require Import NpModel IndexOpsModel PzModel PzSpec RavelModel RavelSpec ConcatModel FlatModel FlatSpec PrModel.
Import ListNotations.
Local Open Scope list_scope.
Local Open Scope Z_scope.

(** ** Layout *)
Definition blank (l : str) : Prop := forall a, In a l -> a = 32%N.
(** [txt] is [cell] with blanks behind it, before it, or on both sides (one more behind if they cannot be equal), and
    has the length [w]. *)
Definition flush_left (w : nat) (cell txt : str) : Prop := exists pad, txt = cell ++ pad /\ blank pad /\ length txt = w.
Definition flush_right (w : nat) (cell txt : str) : Prop := exists pad, txt = pad ++ cell /\ blank pad /\ length txt = w.
Definition centred (w : nat) (cell txt : str) : Prop :=
  exists l r, txt = l ++ cell ++ r /\ blank l /\ blank r /\ length txt = w /\ (length l <= length r <= S (length l))%nat.
(** Bold, if the terminal knows it. *)
Definition emphasised (vt : bool) (txt : str) : str := if vt then (27%N :: lit "[1m") ++ txt ++ (27%N :: lit "[0;0m") else txt.
(** The line shows the three cells in columns of the widths [w1], [w2] and [w3]. *)
Definition shows (vt : bool) (w1 w2 w3 : nat) (c : cells) (ln : str) : Prop :=
  exists a b d, flush_left w1 (fst (fst c)) a /\ flush_right w2 (snd (fst c)) b /\ centred w3 (snd c) d /\
    ln = lit "  " ++ emphasised vt a ++ lit "  |  " ++ b ++ lit "  |  " ++ d.
(** The same, but the second column may be wider in some lines. *)
Definition shows_loosely (vt : bool) (w1 w3 : nat) (c : cells) (ln : str) : Prop := exists w2, shows vt w1 w2 w3 c ln.
(** [w] is the width of the widest cell in a column. *)
Definition width_of (f : cells -> str) (l : list cells) (w : nat) : Prop :=
  (forall c, In c l -> (length (f c) <= w)%nat) /\ exists c, In c l /\ length (f c) = w.
(** Words with one blank between them; numbers with a comma and a blank. *)
Inductive parted (sep : str) : list str -> str -> Prop :=
| parted_none : parted sep [] []
| parted_one : forall a, parted sep [a] a
| parted_more : forall a b l r, parted sep (b :: l) r -> parted sep (a :: b :: l) (a ++ sep ++ r).
(** How Python shows a tuple of numbers. *)
Definition number (k : nat) : str := NamesModel.py_str (N.of_nat k).
Definition tuple_text (d : list nat) (txt : str) : Prop :=
  match d with
  | [n] => txt = lit "(" ++ number n ++ lit ",)"
  | _ => exists r, parted (lit ", ") (map number d) r /\ txt = lit "(" ++ r ++ lit ")"
  end.
(** [txt] shows the coordinates of element [j] of an array of shape [d], written with the width of the widest. *)
Definition index_text (d : list nat) (j : Z) (txt : str) : Prop :=
  exists c w row k, place d j c /\ spaced w c row /\ In k c /\ padded w k (number k) /\ txt = lit "[" ++ row ++ lit "]".

(** ** Contents *)
Section Spec.
Context {V : Type}.
Implicit Types s : @state V.
Variable nm : oid -> str.
Variable shp : oid -> list nat.
Variable pstr : prop -> str.
Variables fixed_str short_str : V -> str.
Variable array_str : list nat -> list V -> str.

(** [txt] lists exactly the constraints that element [j] of [y] carries, each once. *)
Definition carried_text s (y : oid) (j : Z) (txt : str) : Prop :=
  exists ps, NoDup ps /\ (forall p, In p ps <-> has s y p j) /\ parted (lit " ") (map pstr ps) txt.
(** The cells for element [j] of [y]: its index, its value, its constraints. *)
Definition elem_cells s (y : oid) (j : Z) (c : cells) : Prop :=
  index_text (shp y) j (fst (fst c)) /\ (exists v, value s y j = Some v /\ snd (fst c) = fixed_str v) /\ carried_text s y j (snd c).
(** The cells [r] are those of the elements of [y], in their order. *)
Definition table_cells s (y : oid) (r : list cells) : Prop :=
  Z.of_nat (length r) = size (st s) y /\ forall j c, 0 <= j < size (st s) y -> nth_error r (Z.to_nat j) = Some c -> elem_cells s y j c.

(** All elements of [y] carry [p]. *)
Definition everywhere s (y : oid) (p : prop) : Prop := forall j, 0 <= j < size (st s) y -> has s y p j.
(** [txt] lists the constraints that some element of [y] carries, each once, in braces those that not all carry. *)
Definition constraints_text s (y : oid) (txt : str) : Prop :=
  exists ps ws, NoDup ps /\ (forall p, In p ps <-> exists j, has s y p j) /\
    Forall2 (fun p w => (everywhere s y p /\ w = pstr p) \/ (~ everywhere s y p /\ w = lit "{" ++ pstr p ++ lit "}")) ps ws /\
    parted (lit " ") ws txt.
(** [txt] shows the value of [y], which has at most one, or its shape. *)
Definition described s (y : oid) (txt : str) : Prop :=
  (size (st s) y <= 1 /\ exists vals, Z.of_nat (length vals) = size (st s) y /\
     (forall j, 0 <= j < size (st s) y -> value s y j = nth_error vals (Z.to_nat j)) /\ txt = array_str (tl (shp y)) vals) \/
  (1 < size (st s) y /\ tuple_text (shp y) txt).
(** The cells for the Param [y] below [x]: its name as seen from [x], its value or shape, its constraints. *)
Definition param_cells s (x y : oid) (c : cells) : Prop :=
  path_name (st s) nm x y (fst (fst c)) /\ described s y (snd (fst c)) /\ constraints_text s y (snd c).
(** The Params below [x], in their order. *)
Definition params_in_order (t : struct) (x : oid) (l : list oid) : Prop :=
  exists l0, preorder t x l0 /\ kept_of (fun y => is_leaf t y = true) l0 l.
(** No Param below [x] has a first axis of length 0. *)
Definition has_rows (t : struct) (x : oid) : Prop := forall y, part t x y -> is_leaf t y = true -> exists n d, shp y = S n :: d.
End Spec.

(** ** Several tables *)
(** The first line of the [i]-th table: what the columns are, or only the name between dashes. *)
Definition heading (w1 w3 i : nat) (h : str) : cells :=
  match i with O => (lit "index", h, lit "constraints") | _ => (repeat 45%N w1, h, repeat 45%N w3) end.
