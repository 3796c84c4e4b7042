(** Property theorems about what is printed (C122, C123, C124, C125). *)
From Coq Require Import String List ZArith NArith Bool Arith.
From Verif Require NamesModel SlModel SlSpec SlEx.
From Verif Require Import NpModel IndexOpsModel IndexOpsSpec PzModel PzSpec PzEx RavelModel RavelSpec ConcatModel FlatModel FlatSpec FlatEx PrModel PrSpec PrLast PrEx.
Import ListNotations.
Local Open Scope list_scope.
Local Open Scope Z_scope.

Section Statements.
Context {V : Type}.
Variables tinit tf tfinv : nat -> V -> V.
Variables junk junk' : nat -> Z -> V.
Variable nm : oid -> str.
Variable shp : oid -> list nat.
Variable pstr : prop -> str.
Variables fixed_str short_str : V -> str.
Variable array_str : list nat -> list V -> str.
Notation reachable := (reach tinit tf tfinv legal junk).
Notation preachable := (SlSpec.sreach tinit tf tfinv SlSpec.slegal junk junk').

(** ** C122 *)
(** The table of a Param: a heading with its full name, then one line for each element with its index, its value and
    exactly the constraints it carries. The index and the constraints are in columns as wide as their widest cell. *)
Theorem C122_table : forall vt (s : @state V) y h, reachable s -> (y < next (st s))%nat -> is_leaf (st s) y = true -> shp y <> [] -> size (st s) y = Z.of_nat (elements (shp y)) ->
  0 < size (st s) y -> full_name (st s) nm y h ->
  exists lines r, param_table nm shp pstr fixed_str short_str vt s y = Got lines /\ table_cells shp pstr fixed_str s y r /\
    let all := (lit "index", h, lit "constraints") :: r in
    exists w1 w3, width_of (fun c => fst (fst c)) all w1 /\ width_of (fun c => snd c) all w3 /\ Forall2 (shows_loosely vt w1 w3) all lines.
Proof. exact (table_final tinit tf tfinv junk nm shp pstr fixed_str short_str array_str). Qed.
(** A Param without elements cannot be printed. *)
Theorem C122_empty : forall vt (s : @state V) y, shp y <> [] -> elements (shp y) = 0%nat -> param_table nm shp pstr fixed_str short_str vt s y = Err (Py ValueError).
Proof. exact (param_empty_final nm shp pstr fixed_str short_str). Qed.
(** The table of a part of a Param of one dimension that is up to date. Missing from the full statement: parts of
    parts, see the refutation, and parts that are not up to date. A part made by a list of positions shows its own values. *)
Theorem C122_part_partial : forall vt (z : @SlModel.sstate V) k q l h, preachable z -> SlSpec.part_at z k q l -> full_name (st (SlModel.base z)) nm (SlModel.of q) h ->
  exists lines r, part_table nm pstr fixed_str short_str vt z q = Got lines /\ length r = length l /\
    (forall i j c, nth_error l i = Some j -> nth_error r i = Some c ->
       index_text [Z.to_nat (size (st (SlModel.base z)) (SlModel.of q))] j (fst (fst c)) /\ carried_text pstr (SlModel.base z) (SlModel.of q) j (snd c) /\
       exists v, nth_error (SlModel.look z q) i = Some v /\ snd (fst c) = fixed_str v /\ (SlModel.shared q = true -> value (SlModel.base z) (SlModel.of q) j = Some v)) /\
    let all := (lit "index", h, lit "constraints") :: r in
    exists w1 w3, width_of (fun c => fst (fst c)) all w1 /\ width_of (fun c => snd c) all w3 /\ Forall2 (shows_loosely vt w1 w3) all lines.
Proof. exact (part_final tinit tf tfinv junk junk' nm shp pstr fixed_str short_str array_str). Qed.
Theorem C122_part_empty : forall vt (z : @SlModel.sstate V) q, SlModel.positions (SlModel.cur q) (size (st (SlModel.base z)) (SlModel.of q)) = Ok [] ->
  part_table nm pstr fixed_str short_str vt z q = Err (Py ValueError).
Proof. exact (part_empty_final nm pstr fixed_str short_str). Qed.
(** The table of several Params: their tables one after the other, with common columns. *)
Theorem C122_several : forall vt (s : @state V) ps, reachable s -> ps <> [] ->
  (forall p, In p ps -> (p < next (st s))%nat /\ is_leaf (st s) p = true /\ shp p <> [] /\ size (st s) p = Z.of_nat (elements (shp p)) /\ 0 < size (st s) p /\ exists h, full_name (st s) nm p h) ->
  exists tbls w1 w3, several_tables nm shp pstr fixed_str short_str vt s ps = Got (concat tbls) /\ length tbls = length ps /\
    forall i p tbl, nth_error ps i = Some p -> nth_error tbls i = Some tbl ->
      exists h r, full_name (st s) nm p h /\ table_cells shp pstr fixed_str s p r /\ Forall2 (shows_loosely vt w1 w3) (heading w1 w3 i h :: r) tbl.
Proof. exact (several_final tinit tf tfinv junk nm shp pstr fixed_str short_str array_str). Qed.

(** ** C123 *)
(** The summary of a Parameterized: one line for each Param below it, in their order, with its name as seen from the
    object, its value (if there is one at most) or its shape, and the constraints that some of its elements carry, in
    braces if not all do. *)
Theorem C123_summary : forall header vt (s : @state V) x b, reachable s -> (x < next (st s))%nat -> is_leaf (st s) x = false -> named (st s) nm x -> form nm x b -> shaped (st s) shp x -> has_rows shp (st s) x ->
  exists lines l r, summary nm shp pstr array_str header vt s x = Got lines /\ params_in_order (st s) x l /\ Forall2 (param_cells nm shp pstr array_str s x) l r /\
    let head := (b ++ lit ".", lit "value", lit "constraints") in
    exists w1 w2 w3, width_of (fun c => fst (fst c)) (head :: r) w1 /\ width_of (fun c => snd (fst c)) (head :: r) w2 /\ width_of (fun c => snd c) (head :: r) w3 /\
    Forall2 (shows vt w1 w2 w3) ((if header then [head] else []) ++ r) lines.
Proof. exact (summary_final tinit tf tfinv junk nm shp pstr array_str). Qed.
(** One Param whose first axis has length 0, anywhere below, and nothing can be printed. *)
Theorem C123_empty : forall header vt (s : @state V) x, reachable s -> (x < next (st s))%nat -> is_leaf (st s) x = false -> named (st s) nm x -> shaped (st s) shp x ->
  (exists y d, part (st s) x y /\ is_leaf (st s) y = true /\ shp y = 0%nat :: d) -> summary nm shp pstr array_str header vt s x = Err (Py IndexError).
Proof. exact (summary_empty_final tinit tf tfinv junk nm shp pstr array_str). Qed.

(** ** C124 *)
(** All lines of a summary have the same length. *)
Theorem C124_summary : forall header vt (s : @state V) x lines, reachable s -> (x < next (st s))%nat -> is_leaf (st s) x = false -> named (st s) nm x -> shaped (st s) shp x -> has_rows shp (st s) x ->
  summary nm shp pstr array_str header vt s x = Got lines -> exists n, forall ln, In ln lines -> length ln = n.
Proof. exact (aligned_final tinit tf tfinv junk nm shp pstr array_str). Qed.
(** So have those of the table of a Param, if no value with eight decimals is longer than the full name or than the
    same value with eight digits. Missing from the full statement: other values; see the refutation. *)
Theorem C124_table_partial : forall vt (s : @state V) y h lines, reachable s -> (y < next (st s))%nat -> is_leaf (st s) y = true -> shp y <> [] -> size (st s) y = Z.of_nat (elements (shp y)) ->
  0 < size (st s) y -> full_name (st s) nm y h ->
  (forall j v, value s y j = Some v -> (length (fixed_str v) <= length h)%nat \/ (length (fixed_str v) <= length (short_str v))%nat) ->
  param_table nm shp pstr fixed_str short_str vt s y = Got lines -> exists n, forall ln, In ln lines -> length ln = n.
Proof. exact (table_aligned_final tinit tf tfinv junk nm shp pstr fixed_str short_str array_str). Qed.

(** ** C125 *)
(** What is printed of a Model: its name, its objective, the number of its elements, that of its free elements, whether
    updates are on, and the summary. *)
Theorem C125_model : forall vt (s : @state V) x o ks ls, reachable s -> (x < next (st s))%nat -> free s x ks -> summary nm shp pstr array_str true vt s x = Got ls ->
  model_text nm shp pstr array_str vt s x (Got o) = Got
    ([[]; lit "Name : " ++ nm x; lit "Objective : " ++ o; lit "Number of Parameters : " ++ number (Z.to_nat (size (st s) x));
      lit "Number of Optimization Parameters : " ++ number (length ks); lit "Updates : " ++ (if updates (nt s) x then lit "True" else lit "False"); lit "Parameters:"] ++ ls).
Proof. exact (model_final tinit tf tfinv junk nm shp pstr array_str). Qed.
End Statements.
Print Assumptions C122_table.
Print Assumptions C122_empty.
Print Assumptions C122_part_partial.
Print Assumptions C122_part_empty.
Print Assumptions C122_several.
Print Assumptions C123_summary.
Print Assumptions C123_empty.
Print Assumptions C124_summary.
Print Assumptions C124_table_partial.
Print Assumptions C125_model.

Example C122_example : ex_reach ex /\ (3 < next (st ex))%nat /\ is_leaf (st ex) 3 = true /\ fshp 3 <> [] /\ size (st ex) 3 = Z.of_nat (elements (fshp 3)) /\ 0 < size (st ex) 3 /\ full_name (st ex) enm 3 (lit "m.lengthscale") /\
  (forall j v, value ex 3 j = Some v -> (length (zfixed v) <= length (lit "m.lengthscale"))%nat \/ (length (zfixed v) <= length (zstr v))%nat) /\
  plain_lines (ztable false ex 3)
   ["  index  |  m.lengthscale  |  constraints";
    "  [0 0]  |     4.00000000  |             ";
    "  [1 0]  |     5.00000000  |     fixed   "]%string.
Proof. exact ex_table. Qed.
Example C122_part_example : SlEx.zreach SlEx.sx /\ SlSpec.part_at SlEx.sx 0 (SlEx.sx_part 0) [1;2;3] /\ full_name (st (SlModel.base SlEx.sx)) snm (SlModel.of (SlEx.sx_part 0)) (lit "model.k.a") /\
  plain_lines (part_table snm zprop zfixed zstr false SlEx.sx (SlEx.sx_part 0))
   ["  index  |  model.k.a  |  constraints";
    "  [1]    |  2.00000000  |             ";
    "  [2]    |  -3.00000000  |             ";
    "  [3]    |  4.00000000  |             "]%string.
Proof. exact ex_part. Qed.
Example C122_empty_example : exists z k q, SlEx.zreach z /\ nth_error (SlModel.parts z) k = Some (Some q) /\ SlModel.positions (SlModel.cur q) (size (st (SlModel.base z)) (SlModel.of q)) = Ok [].
Proof. exact empty_print. Qed.
Example C122_several_example : (forall p, In p [0;3]%nat -> (p < next (st ex))%nat /\ is_leaf (st ex) p = true /\ fshp p <> [] /\ size (st ex) p = Z.of_nat (elements (fshp p)) /\ 0 < size (st ex) p /\ exists h, full_name (st ex) enm p h) /\
  plain_lines (several_tables enm fshp zprop zfixed zstr false ex [0;3]%nat)
   ["  index  |  m.k_of_x.variance  |  constraints";
    "  [0]    |         1.00000000  |      +7     ";
    "  [1]    |         2.00000000  |             ";
    "  -----  |      m.lengthscale  |  -----------";
    "  [0 0]  |         4.00000000  |             ";
    "  [1 0]  |         5.00000000  |     fixed   "]%string.
Proof. exact ex_several. Qed.
(** [print(p[2:][0:1])] shows the value of element 2 as that of element 0. *)
Theorem C122_nested_refuted : exists z k q a, SlEx.zreach z /\ nth_error (SlModel.parts z) k = Some (Some q) /\ SlModel.shared q = true /\ map Some (SlModel.look z q) = [value (SlModel.base z) (SlModel.of q) a] /\ a = 2 /\
  value (SlModel.base z) (SlModel.of q) 0 <> value (SlModel.base z) (SlModel.of q) 2 /\
  plain_lines (part_table snm zprop zfixed zstr false z q)
   ["  index  |  model.k.a  |  constraints";
    "  [0]    |  -3.00000000  |             "]%string.
Proof. exact nested_print. Qed.
Print Assumptions C122_nested_refuted.
Example C123_example : ex_reach ex /\ (4 < next (st ex))%nat /\ is_leaf (st ex) 4 = false /\ named (st ex) enm 4 /\ form enm 4 (lit "m") /\ shaped (st ex) fshp 4 /\ has_rows fshp (st ex) 4 /\
  plain_lines (zsummary true false ex 4)
   ["  m.               |   value  |  constraints";
    "  k_of_x.variance  |    (2,)  |     {+7}    ";
    "  k_of_x.b         |     3.0  |     fixed   ";
    "  lengthscale      |  (2, 1)  |    {fixed}  "]%string.
Proof. exact ex_summary. Qed.
Example C123_empty_example : ex_reach ex_empty /\ named (st ex_empty) hnm 2 /\ shaped (st ex_empty) hshp 2 /\ (2 < next (st ex_empty))%nat /\ is_leaf (st ex_empty) 2 = false /\
  part (st ex_empty) 2 1 /\ is_leaf (st ex_empty) 1 = true /\ hshp 1 = [0%nat].
Proof. exact ex_nothing. Qed.
(** A short name: the lines of the table of a Param have different lengths. *)
Theorem C124_table_refuted : exists s y h lines a b, ex_reach s /\ (y < next (st s))%nat /\ is_leaf (st s) y = true /\ fshp y <> [] /\ size (st s) y = Z.of_nat (elements (fshp y)) /\ 0 < size (st s) y /\ full_name (st s) fnm y h /\
  param_table fnm fshp zprop zfixed zstr true s y = Got lines /\ In a lines /\ In b lines /\ length a <> length b.
Proof. exact table_refuted. Qed.
Print Assumptions C124_table_refuted.
(** The colons behind the labels of a Model are not below each other. *)
Theorem C124_labels_refuted : exists s x o lines a b i j, ex_reach s /\ (x < next (st s))%nat /\ model_text enm fshp zprop zarray true s x (Got o) = Got lines /\
  In a (firstn 5 (tl lines)) /\ In b (firstn 5 (tl lines)) /\ colon_at i a /\ colon_at j b /\ i <> j.
Proof. exact labels_refuted. Qed.
Print Assumptions C124_labels_refuted.
Example C125_example : free ex 4 [0;1;3] /\ plain_lines (model_text enm fshp zprop zarray false ex 4 (Got (lit "5.0")))
   [""; "Name : m"; "Objective : 5.0"; "Number of Parameters : 5"; "Number of Optimization Parameters : 3"; "Updates : True"; "Parameters:";
    "  m.               |   value  |  constraints";
    "  k_of_x.variance  |    (2,)  |     {+7}    ";
    "  k_of_x.b         |     3.0  |     fixed   ";
    "  lengthscale      |  (2, 1)  |    {fixed}  "]%string.
Proof. exact ex_model. Qed.
