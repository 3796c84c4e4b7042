(** Model of what [print] shows: the table of a Param, of a part of a Param and of several Params found by name, the
    summary of a Parameterized, and the lines above it for a Model.

    Files modelled: /repo/paramz/param.py:223-243, 266-273, 313-349 (and 249-264, 170-176 by RavelModel.v and
    SlModel.v), 511-545, parameterized.py:372-380, 414-450, core/parameter_core.py:173-198, model.py:427-439.
    The strings that Python and NumPy make of numbers and constraints, and that of the objective, are given by
    functions. [_repr_html_] is in HtModel.v. Not modelled: [__repr__]. *)
From Coq Require Import String List ZArith NArith Bool Arith.
From Verif Require NamesModel SlModel.
From Verif Require Import NpModel IndexOpsModel PzModel RavelModel ConcatModel FlatModel.
Import ListNotations.
Local Open Scope nat_scope.
Local Open Scope list_scope.

(** Python's [{:<w}], [{:>w}] and [{:^w}] of a string; the last has the larger half of the blanks on the right.
    [rjust] is in FlatModel.v. *)
Definition ljust (w : nat) (s : str) : str := s ++ repeat 32%N (w - length s).
Definition centre (w : nat) (s : str) : str :=
  let n := w - length s in repeat 32%N (n / 2) ++ s ++ repeat 32%N (n - n / 2).
(** The escape sequences of bold print; param.py:319, parameterized.py:421. *)
Definition bold_on : str := 27%N :: lit "[1m".
Definition bold_off : str := 27%N :: lit "[0;0m".
(** The three cells of a line. *)
Notation cells := (str * str * str)%type.
(** ['  |  '.join(format_spec)] with the three widths, filled in; param.py:313-327, 339, parameterized.py:420-429, 439. *)
Definition line (vt : bool) (w1 w2 w3 : nat) (c : cells) : str :=
  match c with (a, b, d) =>
    lit "  " ++ (if vt then bold_on ++ ljust w1 a ++ bold_off else ljust w1 a) ++ lit "  |  " ++ rjust w2 b ++ lit "  |  " ++ centre w3 d
  end.
(** [reduce(lambda a, b: max(a, len(b)), l, len(h))]; param.py:266-273, parameterized.py:415-418. *)
Definition widest (h : str) (l : list str) : nat := fold_left (fun a b => Nat.max a (length b)) l (length h).
(** [str(self.shape)]; param.py:227. *)
Definition num (k : nat) : str := NamesModel.py_str (N.of_nat k).
Definition shape_str (d : list nat) : str :=
  match d with
  | [n] => lit "(" ++ num n ++ lit ",)"
  | _ => lit "(" ++ join (lit ", ") (map num d) ++ lit ")"
  end.

Section Print.
Context {V : Type}.
Implicit Types s : @state V.
Variable nm : oid -> str.                      (* [name] *)
Variable shp : oid -> list nat.                (* [shape] *)
Variable pstr : prop -> str.                   (* [str] of a constraint *)
Variables fixed_str short_str : V -> str.      (* [{:.8f}] and [{:=.8g}] of a number *)
Variable array_str : list nat -> list V -> str. (* [str] of an array of this shape with these values *)

(** [iop.properties_for(ravi)], as strings: [' '.join(map(str, ...))]; param.py:266-267, 335-337, 348. *)
Definition carried s (x : oid) (ravi : list Z) : list str :=
  map (fun ps => join (lit " ") (map pstr ps)) (properties_for (snd (iop (ios s) x)) (dicts (ios s) (fst (iop (ios s) x))) ravi).
(** The rows of a table, [indices[i]], [vals[i]], [iops[name][i]] for [i] below the number of values; param.py:347-348. *)
Fixpoint rows (ind : list str) (vals : list V) (con : list str) : fres (list cells) :=
  match vals, ind, con with
  | [], _, _ => Got []
  | v :: vs, i :: ind', c :: con' => fbind (rows ind' vs con') (fun r => Got ((i, fixed_str v, c) :: r))
  | _, _, _ => Err (Py IndexError)
  end.
(** [__str__] of a Param or a part of one, when [lx], [li] and [lls] are given; param.py:330-349. *)
Definition table_with (vt only_name : bool) (li lx l3 : nat) (h : str) (ind : list str) (vals : list V) (con : list str) : fres (list str) :=
  fbind (rows ind vals con) (fun r =>
  let head := if only_name then (repeat 45%N li, h, repeat 45%N l3) else (lit "index", h, lit "constraints") in
  Got (map (line vt li lx l3) (head :: r))).
(** [_max_len_values()]; param.py:269-270. *)
Definition value_width (h : str) (vals : list V) : nat := widest h (map short_str vals).
(** [str(p)]; param.py:330-349. *)
Definition param_indices (y : oid) : fres (list str) := fbind (of_res (indices (shp y) (whole (shp y)))) (fun i => Got (map row_str i)).
Definition param_carried s (y : oid) : fres (list str) :=
  fbind (of_res (raveled_index (shp y) (whole (shp y)))) (fun ravi => Got (carried s y (map Z.of_nat ravi))).
Definition param_table (vt : bool) s (y : oid) : fres (list str) :=
  fbind (param_indices y) (fun ind =>
  fbind (param_carried s y) (fun con =>
  fbind (hname (st s) nm y) (fun h =>
  let vals := leaf_vals s y in
  table_with vt false (widest (lit "index") ind) (value_width h vals) (widest (lit "constraints") con) h ind vals con))).
(** [str(c)] for several Params found by name; param.py:511-540. *)
Definition maximum (l : list nat) : fres nat := match l with [] => Err (Py ValueError) | a :: r => Got (fold_left Nat.max r a) end.
Definition several_tables (vt : bool) s (ps : list oid) : fres (list str) :=
  fbind (all_of (fun p => fbind (param_indices p) (fun i => Got (p, i))) ps) (fun inds =>
  fbind (all_of (hname (st s) nm) ps) (fun hs =>
  fbind (maximum (map (fun e => value_width (snd e) (leaf_vals s (fst e))) (combine ps hs))) (fun lx =>
  fbind (maximum (map (fun e => widest (lit "index") (snd e)) inds)) (fun li =>
  fbind (all_of (param_carried s) ps) (fun cons =>
  fbind (maximum (map (widest (lit "constraints")) cons)) (fun l3 =>
  fbind (all_of (fun e => match e with (k, (p, ind), (h, con)) => table_with vt (negb (k =? 0)) li lx l3 h ind (leaf_vals s p) con end)
          (combine (combine (seq 0 (length ps)) inds) (combine hs cons))) (fun ts =>
  Got (concat ts)))))))).

(** [str(q)] for a part [q = p[ix]] of a Param of one dimension: the index it was made with, applied to the shape of
    the whole Param; the names of the objects above at the time it was made; param.py:104-122, 330-349. *)
Definition part_hname (t : struct) (q : SlModel.piece) : fres str :=
  match NamesModel.hierarchy_name true (nm (SlModel.of q)) (map nm (match SlModel.ppar q with Some p => p :: uppers (fuel t) t p | None => [] end)) with
  | Some h => Got h
  | None => Err NameError
  end.
Definition part_table (vt : bool) (z : @SlModel.sstate V) (q : SlModel.piece) : fres (list str) :=
  let s := SlModel.base z in
  fbind (of_res (SlModel.part_index s q)) (fun ravi =>
  let ind := map (fun k => row_str [Z.to_nat k]) ravi in
  let con := carried s (SlModel.of q) ravi in
  fbind (part_hname (st s) q) (fun h =>
  let vals := SlModel.look z q in
  table_with vt false (widest (lit "index") ind) (value_width h vals) (widest (lit "constraints") con) h ind vals con)).

(** [_description_str] of a Param; param.py:223-227. With one element or none, that is [str(self.view(np.ndarray)[0])]. *)
Definition description s (y : oid) : fres str :=
  if (size (st s) y <=? 1)%Z then
    match shp y with
    | S _ :: d => Got (array_str d (firstn (fold_right Nat.mul 1 d) (leaf_vals s y)))
    | _ => Err (Py IndexError)
    end
  else Got (shape_str (shp y)).
(** [get_property_string('constraints')] of a Param; param.py:241-243. *)
Definition property_string s (y : oid) : str :=
  join (lit " ") (map (fun c => if (Z.of_nat (length (snd c)) =? size (st s) y)%Z then pstr (fst c) else lit "{" ++ pstr (fst c) ++ lit "}") (cons_items (ios s) y)).
(** [_description_str], [get_property_string] of a Parameterized: those of the children, one after the other;
    parameterized.py:372-380. *)
Fixpoint gather (f : nat) (t : struct) (g : oid -> fres str) (x : oid) : fres (list str) :=
  match f with
  | O => Got []
  | S f' =>
      if is_leaf t x then fbind (g x) (fun a => Got [a])
      else fbind (all_of (gather f' t g) (kids t x)) (fun ls => Got (concat ls))
  end.
(** [adjust_name_for_printing(self.name)]; nameable.py:33-47. *)
Definition adjusted (x : oid) : fres str := match NamesModel.adjust (nm x) with Some a => Got a | None => Err NameError end.
(** [parameter_names(add_self, adjust_for_printing=True)]; parameter_core.py:173-198, param.py:228-233. *)
Fixpoint parameter_names (f : nat) (t : struct) (add_self : bool) (x : oid) : fres (list str) :=
  match f with
  | O => Got []
  | S f' =>
      if is_leaf t x then fbind (adjusted x) (fun a => Got [a])
      else fbind (all_of (parameter_names f' t true) (kids t x)) (fun ls =>
           if add_self then all_of (fun n => fbind (adjusted x) (fun a => Got (a ++ lit "." ++ n))) (concat ls) else Got (concat ls))
  end.
(** The rows of the summary, [names[i]], [desc[i]], [iops[name][i]]; parameterized.py:447-449. *)
Fixpoint zip3 (a b c : list str) : fres (list cells) :=
  match a, b, c with
  | [], _, _ => Got []
  | x :: a', y :: b', z :: c' => fbind (zip3 a' b' c') (fun r => Got ((x, y, z) :: r))
  | _, _, _ => Err (Py IndexError)
  end.
(** [Parameterized.__str__(header, VT100)]; parameterized.py:431-450. *)
Definition summary (header vt : bool) s (x : oid) : fres (list str) :=
  let t := st s in
  fbind (adjusted x) (fun a =>
  let name := a ++ lit "." in
  fbind (parameter_names (fuel t) t false x) (fun names =>
  fbind (gather (fuel t) t (description s) x) (fun desc =>
  fbind (gather (fuel t) t (fun y => Got (property_string s y)) x) (fun con =>
  fbind (zip3 names desc con) (fun r =>
  let f := line vt (widest name names) (widest (lit "value") desc) (widest (lit "constraints") con) in
  Got (map f ((if header then [(name, lit "value", lit "constraints")] else []) ++ r))))))).

(** [Model.__str__(VT100)]; model.py:427-439. [max_len] is the largest length of the pairs, which is 2. [objective]
    is the string of the objective, or the exception it raises. *)
Definition detail (max_len : nat) (d : str * str) : str := ljust max_len (fst d) ++ lit " : " ++ snd d.
Definition model_text (vt : bool) s (x : oid) (objective : fres str) : fres (list str) :=
  fbind objective (fun o =>
  let details :=
    [ (lit "Name", nm x); (lit "Objective", o);
      (lit "Number of Parameters", NamesModel.py_str (Z.to_N (size (st s) x)));
      (lit "Number of Optimization Parameters", NamesModel.py_str (Z.to_N (size_transformed s x)));
      (lit "Updates", if updates (nt s) x then lit "True" else lit "False") ] in
  fbind (summary true vt s x) (fun ls =>
  Got ([[]] ++ map (detail 2) details ++ [lit "Parameters:"] ++ ls))).
End Print.
