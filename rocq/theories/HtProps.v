(** Property theorems about what a notebook shows (C141, C142). *)
From Coq Require Import String List ZArith NArith Bool Arith.
From Verif Require NamesModel.
From Verif Require Import NpModel IndexOpsModel IndexOpsSpec PzModel PzSpec PzEx RavelModel RavelSpec ConcatModel FlatModel FlatSpec FlatEx PrModel PrSpec PrEx HtModel HtSpec HtLast HtEx.
Import ListNotations.
Local Open Scope list_scope.
Local Open Scope Z_scope.

Section Statements.
Context {V : Type}.
Variables tinit tf tfinv : nat -> V -> V.
Variable junk : nat -> Z -> V.
Variable nm : oid -> str.
Variable shp : oid -> list nat.
Variable pstr : prop -> str.
Variables fixed_str short_str : V -> str.
Variable array_str : list nat -> list V -> str.
Notation reachable := (reach tinit tf tfinv legal junk).

(** ** C141 *)
(** The HTML of a Parameterized: a style sheet and one table, with one row for each Param below it, in their order: the
    names from the object down to it, as they are, its value (if there is one at most) or its shape, and the constraints
    that some of its elements carry, in braces if not all do. *)
Theorem C141_summary : forall header (s : @state V) x b, reachable s -> (x < next (st s))%nat -> is_leaf (st s) x = false -> named (st s) nm x -> form nm x b -> shaped (st s) shp x -> has_rows shp (st s) x ->
  exists txt l r w1 w2 w3, summary_html nm shp pstr array_str header s x = Got txt /\ params_in_order (st s) x l /\ Forall2 (raw_cells nm shp pstr array_str s x) l r /\
    let head := (b ++ lit ".", lit "value", lit "constraints") in
    width_of (fun c => fst (fst c)) (head :: r) w1 /\ width_of (fun c => snd (fst c)) (head :: r) w2 /\ width_of (fun c => snd c) (head :: r) w3 /\
    exists style hd lns body, tags style [lit "style type=""text/css"""; lit "/style"] /\ txt = style ++ [10%N] ++ lit "<table class=""tg"">" ++ body ++ [10%N] ++ lit "</table>" /\
      parted [10%N] (hd ++ lns) body /\ Forall2 (heading_line w1 w2 w3) (if header then [head] else []) hd /\ Forall2 (summary_line w1 w2 w3) r lns.
Proof. exact (html_final tinit tf tfinv junk nm shp pstr array_str). Qed.
(** The names shown are those of the printed summary if they need no adjustment. Missing from the full statement: other
    names; see the refutation. *)
Theorem C141_names_partial : forall (t : struct) x y n, (forall z, part t x z -> form nm z (nm z)) -> raw_path t nm x y n -> path_name t nm x y n.
Proof. exact (raw_same nm). Qed.
(** The HTML of a Param: a heading with its full name, then one row for each element with its index, its value and
    exactly the constraints it carries. *)
Theorem C141_param : forall (s : @state V) y h, reachable s -> (y < next (st s))%nat -> is_leaf (st s) y = true -> shp y <> [] -> size (st s) y = Z.of_nat (elements (shp y)) ->
  0 < size (st s) y -> full_name (st s) nm y h ->
  exists txt r w1 w3, param_html nm shp pstr fixed_str short_str s y = Got txt /\ table_cells shp pstr fixed_str s y r /\
    let all := (lit "index", h, lit "constraints") :: r in
    width_of (fun c => fst (fst c)) all w1 /\ width_of (fun c => snd c) all w3 /\
    exists style hd lns, tags style [lit "style type=""text/css"""; lit "/style"] /\ parted [10%N] (style :: lit "<table class=""tg"">" :: hd :: lns) txt /\
      hd = lit "
<tr>
  <th><b>index</b></th>
  <th><b>" ++ h ++ lit "</b></th>
  <th><b>constraints</b></th>
</tr>" /\ Forall2 (element_line w1 w3) r lns.
Proof. exact (phtml_final tinit tf tfinv junk nm shp pstr fixed_str short_str array_str). Qed.
(** The HTML of a Model: its name, its objective, the number of its elements, that of its free elements, whether updates
    are on, and the table of a Parameterized. *)
Theorem C141_model : forall (s : @state V) x o ks inner, reachable s -> (x < next (st s))%nat -> free s x ks -> summary_html nm shp pstr array_str true s x = Got inner ->
  exists txt style, model_html nm shp pstr array_str s x (Got o) = Got txt /\ tags style [lit "style type=""text/css"""; lit "/style"] /\
    parted [10%N]
      [style; lit "<p class=pd>"; lit "<b>Model</b>: " ++ nm x ++ lit "<br>"; lit "<b>Objective</b>: " ++ o ++ lit "<br>"; lit "<b>Number of Parameters</b>: " ++ number (Z.to_nat (size (st s) x)) ++ lit "<br>";
       lit "<b>Number of Optimization Parameters</b>: " ++ number (length ks) ++ lit "<br>"; lit "<b>Updates</b>: " ++ (if updates (nt s) x then lit "True" else lit "False") ++ lit "<br>"; lit "</p>"; inner] txt.
Proof. exact (mhtml_final tinit tf tfinv junk nm shp pstr array_str). Qed.

(** ** C142 *)
(** If constraints and numbers are shown without markup characters, every element of the HTML of a Parameterized is
    closed; there are three cells for each Param, and one row for each and for the heading. *)
Theorem C142_summary_partial : forall header (s : @state V) x txt, reachable s -> (x < next (st s))%nat -> is_leaf (st s) x = false -> named (st s) nm x -> shaped (st s) shp x -> has_rows shp (st s) x ->
  (forall p, plain (pstr p)) -> (forall d l, plain (array_str d l)) -> summary_html nm shp pstr array_str header s x = Got txt ->
  exists gs l, tags txt gs /\ closed gs /\ params_in_order (st s) x l /\ times (opens (lit "td")) gs (3 * length l) /\ times (opens (lit "tr")) gs (length l + if header then 1 else 0).
Proof. exact (html_tags tinit tf tfinv junk nm shp pstr array_str). Qed.
(** So is that of a Model. *)
Theorem C142_model_partial : forall (s : @state V) x o ks txt, reachable s -> (x < next (st s))%nat -> is_leaf (st s) x = false -> named (st s) nm x -> shaped (st s) shp x -> has_rows shp (st s) x -> free s x ks ->
  (forall p, plain (pstr p)) -> (forall d l, plain (array_str d l)) -> plain o -> model_html nm shp pstr array_str s x (Got o) = Got txt ->
  exists gs, tags txt gs /\ closed gs.
Proof. exact (mhtml_tags tinit tf tfinv junk nm shp pstr array_str). Qed.
(** In the HTML of a Param the table is not closed, and this is all that is missing. *)
Theorem C142_param : forall (s : @state V) y h txt, reachable s -> (y < next (st s))%nat -> is_leaf (st s) y = true -> shp y <> [] -> size (st s) y = Z.of_nat (elements (shp y)) ->
  0 < size (st s) y -> full_name (st s) nm y h -> (forall p, plain (pstr p)) -> (forall v, plain (fixed_str v)) -> param_html nm shp pstr fixed_str short_str s y = Got txt ->
  (exists gs, tags txt gs /\ closed (gs ++ [lit "/table"]) /\ times (opens (lit "td")) gs (3 * Z.to_nat (size (st s) y))) /\ forall gs, tags txt gs -> ~ closed gs.
Proof. exact (phtml_open tinit tf tfinv junk nm shp pstr fixed_str short_str array_str). Qed.
End Statements.
Print Assumptions C141_summary.
Print Assumptions C141_names_partial.
Print Assumptions C141_param.
Print Assumptions C141_model.
Print Assumptions C142_summary_partial.
Print Assumptions C142_model_partial.
Print Assumptions C142_param.
(** The hypotheses are met: [m = [k(x) = [variance, b], lengthscale]], and its Param [lengthscale]. *)
Example C141_summary_case : ex_reach ex /\ (4 < next (st ex))%nat /\ is_leaf (st ex) 4 = false /\ named (st ex) enm 4 /\ form enm 4 (lit "m") /\ shaped (st ex) fshp 4 /\ has_rows fshp (st ex) 4 /\
  (forall p, plain (zprop p)) /\ (forall d l, plain (zarray d l)) /\ free ex 4 [0;1;3].
Proof. exact ex_hyps. Qed.
Example C141_summary_shown : zsummary_html true ex 4 = Got (summary_style ++ nl ++ lit "<table class=""tg"">" ++ ex_html ++ nl ++ lit "</table>").
Proof. exact ex_shown. Qed.
Example C141_param_case : ex_reach ex /\ (3 < next (st ex))%nat /\ is_leaf (st ex) 3 = true /\ fshp 3 <> [] /\ size (st ex) 3 = Z.of_nat (elements (fshp 3)) /\ 0 < size (st ex) 3 /\ full_name (st ex) enm 3 (lit "m.lengthscale") /\
  (forall p, plain (zprop p)) /\ (forall v, plain (zfixed v)).
Proof. exact ex_param_hyps. Qed.
Example C141_names_case : raw_path (st ex) pnm 4 0 (lit "k.variance") /\ forall z, part (st ex) 4 z -> form pnm z (pnm z).
Proof. exact ex_names_case. Qed.

(** The names are not always those of the printed summary. *)
Theorem C141_names_refuted : exists s x y b, ex_reach s /\ (x < next (st s))%nat /\ named (st s) enm x /\ part (st s) x y /\ is_leaf (st s) y = true /\
  path_name (st s) enm x y b /\ (exists a, raw_path (st s) enm x y a) /\ forall a, raw_path (st s) enm x y a -> a <> b.
Proof. exact names_refuted. Qed.
Print Assumptions C141_names_refuted.
(** The HTML of a Param is not well-formed. *)
Theorem C142_param_refuted : exists s y h txt, ex_reach s /\ (y < next (st s))%nat /\ is_leaf (st s) y = true /\ full_name (st s) enm y h /\ zparam_html s y = Got txt /\ forall gs, tags txt gs -> ~ closed gs.
Proof. exact param_refuted. Qed.
Print Assumptions C142_param_refuted.
(** Nothing is escaped: a constraint whose text has a markup character spoils the HTML. *)
Theorem C142_escape_refuted : exists s x (pstr : prop -> str) txt, ex_reach s /\ (x < next (st s))%nat /\ is_leaf (st s) x = false /\ named (st s) enm x /\ shaped (st s) fshp x /\ has_rows fshp (st s) x /\
  summary_html enm fshp pstr zarray true s x = Got txt /\ forall gs, ~ tags txt gs.
Proof. exact escape_refuted. Qed.
Print Assumptions C142_escape_refuted.
