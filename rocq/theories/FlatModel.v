(** Model of the access to parameters by name: [hierarchy_name], [parameter_names_flat],
    [grep_param_names], [m[regexp]], [m[regexp] = v] and [m.name = v].

    Files modelled: /repo/paramz/core/nameable.py:76-88, core/parameter_core.py:200-224,
    parameterized.py:282-342, on top of the hierarchy of PzModel.v, the strings of NamesModel.v and the indices of
    RavelModel.v. The names and the shapes of the objects are given by functions. A regular
    expression is what [regexp.match] says of a string. Assigned is a single number. *)
From Coq Require Import String List ZArith NArith Bool Arith.
From Verif Require NamesModel.
From Verif Require Import NpModel IndexOpsModel PzModel RavelModel ConcatModel.
Import ListNotations.
Notation str := NamesModel.str.
Notation lit s := (NamesModel.lit s%string).
Local Open Scope list_scope.
Local Open Scope Z_scope.

Inductive ferr : Type := NameError | Py (e : exn).
Inductive fres (A : Type) : Type := Got (a : A) | Err (e : ferr).
Arguments Got {A}.
Arguments Err {A}.
Definition fbind {A B : Type} (r : fres A) (k : A -> fres B) : fres B := match r with Got a => k a | Err e => Err e end.
Definition of_res {A : Type} (r : res A) : fres A := match r with Ok a => Got a | Er e => Err (Py e) end.
Fixpoint all_of {A B : Type} (g : A -> fres B) (l : list A) : fres (list B) :=
  match l with
  | [] => Got []
  | a :: r => fbind (g a) (fun b => fbind (all_of g r) (fun bs => Got (b :: bs)))
  end.

(** The objects above, the nearest first: [_parent_], its [_parent_] and so on. *)
Fixpoint uppers (f : nat) (t : struct) (x : oid) : list oid :=
  match f with
  | O => []
  | S f' => match par t x with Some p => p :: uppers f' t p | None => [] end
  end.
(** [hierarchy_name()]; nameable.py:76-88. *)
Definition hname (t : struct) (nm : oid -> str) (x : oid) : fres str :=
  match NamesModel.hierarchy_name true (nm x) (map nm (uppers (fuel t) t x)) with Some h => Got h | None => Err NameError end.

(** [str(row)] for a row of integers of NumPy: the numbers, padded on the left to the same width,
    between brackets. Long rows, which NumPy breaks into lines, are not broken. *)
Definition rjust (w : nat) (s : str) : str := repeat 32%N (w - length s) ++ s.
Fixpoint join (sep : str) (l : list str) : str :=
  match l with
  | [] => []
  | [a] => a
  | a :: r => a ++ sep ++ join sep r
  end.
Definition row_str (c : list nat) : str :=
  let e := map (fun k => NamesModel.py_str (N.of_nat k)) c in
  let w := fold_right Nat.max 0%nat (map (@length N) e) in
  lit "[" ++ join (lit " ") (map (rjust w) e) ++ lit "]".
(** The names one parameter adds to the list; parameter_core.py:212-219. *)
Definition elem_names (t : struct) (nm : oid -> str) (shp : oid -> list nat) (p : oid) : fres (list str) :=
  fbind (hname t nm p) (fun h =>
  if 1 <? size t p
  then fbind (of_res (indices (shp p) (whole (shp p)))) (fun rows => Got (map (fun c => h ++ lit "[" ++ row_str c ++ lit "]") rows))
  else Got [h]).
(** What [parameter_names_flat] returns: an array of names, or one with an axis more of length 1. *)
Inductive names : Type := Flat (l : list str) | Deep (l : list str).

Section Flat.
Context {V : Type}.
Implicit Types s : @state V.
Variable nm : oid -> str.

(** [parameter_names_flat(include_fixed)]; parameter_core.py:200-224. With fixed elements but
    [_fixes_] being [None], the array is indexed by [None]. *)
Definition parameter_names_flat (shp : oid -> list nat) (s : @state V) (x : oid) (include_fixed : bool) : fres names :=
  fbind (all_of (elem_names (st s) nm shp) (flattened (fuel (st s)) (st s) x)) (fun ls =>
  let l := concat ls in
  if negb include_fixed && nonempty (cons_get (ios s) x Fixed) then
    match fix_ s x with
    | Some mk => if (length mk =? length l)%nat then Got (Flat (select mk l)) else Err (Py IndexError)
    | None => Got (Deep l)
    end
  else Got (Flat l)).

(** [s.partition('.')[2]]: what follows the first dot. *)
Fixpoint after_dot (l : str) : str := match l with [] => [] | a :: r => if N.eqb a 46 then r else after_dot r end.
(** [grep_param_names(regexp)]; parameterized.py:282-292. The flags of [traverse] afterwards, and the
    objects found. *)
Definition unnamed (t : struct) (y : oid) : bool := match hname t nm y with Got _ => false | Err _ => true end.
Definition found (t : struct) (mt : str -> bool) (x y : oid) : bool :=
  negb (y =? x)%nat && match hname t nm y with Got h => mt (after_dot h) | Err _ => false end.
Definition grep (mt : str -> bool) (x : oid) s : @state V * fres (list oid) :=
  match traverse (fuel (st s)) (st s) (fun y => negb (y =? x)%nat && unnamed (st s) y) x (nt s, []) with
  | (n, seen, None) => (with_nt s n, Got (filter (found (st s) mt x) (rev seen)))
  | (n, _, Some _) => (with_nt s n, Err NameError)
  end.
(** [m[regexp]]; parameterized.py:294-308. *)
Inductive item : Type := One (y : oid) | Many (c : conc).
Definition getitem (mt : str -> bool) (x : oid) s : @state V * fres item :=
  match grep mt x s with
  | (s1, Got []) => (s1, Err (Py AttributeError))
  | (s1, Got [y]) => (s1, Got (One y))
  | (s1, Got l) => (s1, Got (Many (concatenation (st s1) l)))
  | (s1, Err e) => (s1, Err e)
  end.
Definition outcome := (@state V * option ferr)%type.
Definition lift_py (r : @state V * option exn) : outcome := match r with (s, e) => (s, option_map Py e) end.
(** [y[:] = v] on a Param (observable_array.py:117-119) or a Parameterized (parameterized.py:310-327). *)
Definition set_all (y : oid) (v : V) s : outcome :=
  if is_leaf (st s) y || (match inited (st s) y with Some true => true | _ => false end)
  then lift_py (assign y (fun _ _ => v) s) else (s, Some (Py AttributeError)).
(** [m[regexp] = v]; parameterized.py:310-330, and param.py:436-443 for several. *)
Definition setitem (mt : str -> bool) (v : V) (x : oid) s : outcome :=
  match inited (st s) x with
  | Some true =>
      match getitem mt x s with
      | (s1, Err e) => (s1, Some e)
      | (s1, Got (One y)) => set_all y v s1
      | (s1, Got (Many c)) => match conc_set (arange (conc_size s1 c)) [v] c s1 with (_, s2, e) => (s2, option_map Py e) end
      end
  | _ => (s, Some (Py AttributeError))
  end.
(** [m.name = v]: the child that is assigned to, or none, if an attribute is made; parameterized.py:335-342. *)
Definition attr_target (t : struct) (x : oid) (n : str) : fres (option oid) :=
  fbind (all_of (fun y => match NamesModel.adjust (nm y) with Some a => Got (y, a) | None => Err NameError end) (kids t x)) (fun l =>
  Got (match find (fun e => NamesModel.streq (snd e) n) l with Some e => Some (fst e) | None => None end)).
Definition setattr (x : oid) (n : str) (v : V) s : outcome :=
  match attr_target (st s) x n with
  | Err e => (s, Some e)
  | Got (Some y) => set_all y v s
  | Got None => (s, None)
  end.
End Flat.
