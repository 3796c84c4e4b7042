(** Vocabulary for the properties of the HTML. *)
From Coq Require Import String List ZArith NArith Bool Arith.
From Verif Require NamesModel.
From Verif Require Import NpModel IndexOpsModel PzModel PzSpec FlatModel FlatSpec PrModel PrSpec.
Import ListNotations.
Local Open Scope list_scope.

(** ** Reading HTML *)
(** Text without markup characters: [<], [>], [&]. *)
Definition plain (l : str) : Prop := forall a, In a l -> a <> 60%N /\ a <> 62%N /\ a <> 38%N.
(** The text has exactly these tags, in this order, and nothing else in it is markup. *)
Inductive tags : str -> list str -> Prop :=
| tags_none : forall l, plain l -> tags l []
| tags_more : forall l g r gs, plain l -> plain g -> tags r gs -> tags (l ++ [60%N] ++ g ++ [62%N] ++ r) (g :: gs).
(** [g] opens the element [n], maybe with attributes. *)
Definition opens (n g : str) : Prop := g = n \/ exists a, g = n ++ lit " " ++ a.
(** The elements that occur. *)
Definition elements_known : list str := [lit "style"; lit "table"; lit "tr"; lit "th"; lit "td"; lit "b"; lit "p"].
(** Every element is closed, in the reverse order; [br] needs no closing. *)
Inductive closed : list str -> Prop :=
| closed_none : closed []
| closed_break : closed [lit "br"]
| closed_app : forall a b, closed a -> closed b -> closed (a ++ b)
| closed_elem : forall n g l, In n elements_known -> opens n g -> closed l -> closed (g :: l ++ [lit "/" ++ n]).

(** ** Contents *)
(** The cells of a line, between these tags, in columns of the widths [w1], [w2] and [w3]. *)
Definition cell_line (t1 t2 t3 t4 : string) (w1 w2 w3 : nat) (c : cells) (ln : str) : Prop :=
  exists a b d, flush_left w1 (fst (fst c)) a /\ flush_right w2 (snd (fst c)) b /\ centred w3 (snd c) d /\
    ln = lit t1 ++ lit "  " ++ a ++ lit t2 ++ b ++ lit t3 ++ d ++ lit t4.
Definition heading_line := cell_line "<tr><th><b>" "</b></th><th><b>" "</b></th><th><b>" "</b></th></tr>".
Definition summary_line := cell_line "<tr><td class=tg-left>" "</td><td class=tg-right>" "</td><td class=tg-center>" "</td></tr>".
Definition element_line (w1 w3 : nat) (c : cells) (ln : str) : Prop :=
  exists w2, cell_line "<tr><td class=tg-left>" "</td><td class=tg-right>" "</td><td class=tg-left>" "</td></tr>" w1 w2 w3 c ln.
(** The names of [y] and of the objects between [x] and [y], as they are. *)
Inductive raw_path (t : struct) (nm : oid -> str) (x : oid) : oid -> str -> Prop :=
| raw_kid : forall y, In y (kids t x) -> raw_path t nm x y (nm y)
| raw_step : forall y z a, raw_path t nm x y a -> In z (kids t y) -> raw_path t nm x z (a ++ lit "." ++ nm z).
(** The cells for the Param [y] below [x]: its name as seen from [x], its value or shape, its constraints. *)
Definition raw_cells {V : Type} (nm : oid -> str) (shp : oid -> list nat) (pstr : prop -> str) (array_str : list nat -> list V -> str)
  (s : @state V) (x y : oid) (c : cells) : Prop :=
  raw_path (st s) nm x y (fst (fst c)) /\ described shp array_str s y (snd (fst c)) /\ constraints_text pstr s y (snd c).
(** How often a tag occurs. *)
Definition times (P : str -> Prop) (l : list str) (n : nat) : Prop := exists k, kept_of P l k /\ length k = n.
