(** Vocabulary for the properties of names in a hierarchy. *)
From Coq Require Import String List ZArith NArith Bool Arith.
From Verif Require NamesModel.
From Verif Require Import NpModel IndexOpsModel PzModel PzSpec RavelModel RavelSpec ConcatModel FlatModel.
Import ListNotations.
Local Open Scope list_scope.
Local Open Scope Z_scope.

(** [b] is the printing form of the name of [x] (C47 says what that is). *)
Definition form (nm : oid -> str) (x : oid) (b : str) : Prop := NamesModel.adjust (nm x) = Some b.
(** The name of an object with those of all objects above it. *)
Inductive full_name (t : struct) (nm : oid -> str) : oid -> str -> Prop :=
| full_top : forall x b, par t x = None -> form nm x b -> full_name t nm x b
| full_kid : forall x y a b, In y (kids t x) -> full_name t nm x a -> form nm y b -> full_name t nm y (a ++ lit "." ++ b).
(** The name of [y] as seen from [x], which is above it. *)
Inductive path_name (t : struct) (nm : oid -> str) (x : oid) : oid -> str -> Prop :=
| path_kid : forall y b, In y (kids t x) -> form nm y b -> path_name t nm x y b
| path_step : forall y z a b, path_name t nm x y a -> In z (kids t y) -> form nm z b -> path_name t nm x z (a ++ lit "." ++ b).

(** [txt] shows the numbers [c]: written with the same width, blanks in front, one blank between them. *)
Definition padded (w : nat) (k : nat) (s : str) : Prop :=
  exists pad, s = pad ++ NamesModel.py_str (N.of_nat k) /\ (forall a, In a pad -> a = 32%N) /\ length s = w.
Inductive spaced (w : nat) : list nat -> str -> Prop :=
| spaced_one : forall k s, padded w k s -> spaced w [k] s
| spaced_more : forall k s c r, padded w k s -> spaced w c r -> spaced w (k :: c) (s ++ lit " " ++ r).
(** Element [j] of an array of shape [d] has the coordinates [c]: [j] elements come before it. *)
Definition place (d : list nat) (j : Z) (c : list nat) : Prop :=
  valid d c /\ exists l, NoDup l /\ (forall c', In c' l <-> valid d c' /\ earlier c' c) /\ j = Z.of_nat (length l).
(** [txt] is the name of element [j] of a Param of shape [d] with full name [h]; the width is that of the widest coordinate. *)
Definition label (d : list nat) (h : str) (j : Z) (txt : str) : Prop :=
  match elements d with
  | 1%nat => txt = h
  | _ => exists c w row k, place d j c /\ spaced w c row /\ In k c /\ padded w k (NamesModel.py_str (N.of_nat k)) /\ txt = h ++ lit "[[" ++ row ++ lit "]]"
  end.

(** All names in the hierarchy of [x] have a printing form. *)
Definition named (t : struct) (nm : oid -> str) (x : oid) : Prop := forall y, together t x y -> exists b, form nm y b.
(** The Params below [x] have the shapes [shp]. *)
Definition shaped (t : struct) (shp : oid -> list nat) (x : oid) : Prop :=
  forall y, part t x y -> is_leaf t y = true -> shp y <> [] /\ size t y = Z.of_nat (elements (shp y)).
(** No Param below [x] is without elements. *)
Definition filled (t : struct) (x : oid) : Prop := forall y, part t x y -> is_leaf t y = true -> 0 < size t y.
(** Children of the same object have different printing forms. *)
Definition told_apart (t : struct) (nm : oid -> str) (x : oid) : Prop :=
  forall p y z b, part t x p -> In y (kids t p) -> In z (kids t p) -> form nm y b -> form nm z b -> y = z.
(** Every element of [x] has its name in [l]. *)
Definition all_labelled (t : struct) (nm : oid -> str) (shp : oid -> list nat) (x : oid) (l : list str) : Prop :=
  Z.of_nat (length l) = size t x /\
  forall y o n j, below t x y o n -> is_leaf t y = true -> 0 <= j < size t y ->
    exists h txt, full_name t nm y h /\ label (shp y) h j txt /\ nth_error l (Z.to_nat (o + j)) = Some txt.
(** The objects properly below [x], whose name as seen from [r] is matched. *)
Definition matches (t : struct) (nm : oid -> str) (mt : str -> bool) (r x y : oid) : Prop :=
  part t x y /\ y <> x /\ exists a, path_name t nm r y a /\ mt a = true.
(** Element [j] of [y] belongs to one of the objects that satisfy [P]. *)
Definition inside (t : struct) (P : oid -> Prop) (y : oid) (j : Z) : Prop := exists z k, P z /\ same_elem t y j z k.

(** The effect of setting all elements of the objects that satisfy [P] to [v]. *)
Definition all_set {V : Type} (s s' : @state V) (P : oid -> Prop) (v : V) : Prop :=
  st s' = st s /\ ios s' = ios s /\
  forall y j, (y < next (st s))%nat -> ready (st s) y -> 0 <= j < size (st s) y ->
    (inside (st s) P y j -> value s' y j = Some v) /\ (~ inside (st s) P y j -> value s' y j = value s y j).
(** Every object above one that satisfies [P] and has a Param was updated. *)
Definition all_updated {V : Type} (s s' : @state V) (P : oid -> Prop) : Prop :=
  exists l, trace (nt s') = rev l ++ trace (nt s) /\
  forall q z p, P z -> part (st s) z p -> is_leaf (st s) p = true -> part (st s) q z -> kind (st s) q = KNode -> In q l.
(** In the hierarchy of [x] updates are on and all constructors have ended. *)
Definition quiet {V : Type} (s : @state V) (x : oid) : Prop :=
  (forall y, together (st s) x y -> updates (nt s) y = true) /\ (forall y, together (st s) x y -> in_init (st s) y = false).
(** No hierarchy, constraint, fix or value changed, and no update ran. *)
Definition untouched {V : Type} (s s' : @state V) : Prop :=
  st s' = st s /\ ios s' = ios s /\ fix_ s' = fix_ s /\ mem s' = mem s /\ trace (nt s') = trace (nt s) /\ updates (nt s') = updates (nt s).
