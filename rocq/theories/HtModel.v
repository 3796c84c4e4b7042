(** Model of what a notebook shows: the HTML of a Param, of a Parameterized and of a Model.

    Files modelled: /repo/paramz/param.py:275-311, parameterized.py:382-412, model.py:410-427, with the parts of
    PrModel.v and core/parameter_core.py:174-199 for names that are not adjusted. Not modelled: the HTML of several
    Params found by name, and of parts of Params. *)
From Coq Require Import String List ZArith NArith Bool Arith.
From Verif Require NamesModel.
From Verif Require Import NpModel IndexOpsModel PzModel RavelModel ConcatModel FlatModel PrModel.
Import ListNotations.
Local Open Scope nat_scope.
Local Open Scope list_scope.

(** A newline. *)
Definition nl : str := [10%N].
(** The style sheets; param.py:296-302, parameterized.py:404-411, model.py:418-424. *)
Definition param_style : str := lit "<style type=""text/css"">
.tg  {padding:2px 3px;word-break:normal;border-collapse:collapse;border-spacing:0;border-color:#DCDCDC;margin:0px auto;width:100%;}
.tg td{font-family:""Courier New"", Courier, monospace !important;font-weight:bold;color:#444;background-color:#F7FDFA;border-style:solid;border-width:1px;overflow:hidden;word-break:normal;border-color:#DCDCDC;}
.tg th{font-family:""Courier New"", Courier, monospace !important;font-weight:normal;color:#fff;background-color:#26ADE4;border-style:solid;border-width:1px;overflow:hidden;word-break:normal;border-color:#DCDCDC;}
.tg .tg-left{font-family:""Courier New"", Courier, monospace !important;font-weight:normal;text-align:left;}
.tg .tg-right{font-family:""Courier New"", Courier, monospace !important;font-weight:normal;text-align:right;}
</style>".
Definition summary_style : str := lit "<style type=""text/css"">
.tg  {font-family:""Courier New"", Courier, monospace !important;padding:2px 3px;word-break:normal;border-collapse:collapse;border-spacing:0;border-color:#DCDCDC;margin:0px auto;width:100%;}
.tg td{font-family:""Courier New"", Courier, monospace !important;font-weight:bold;color:#444;background-color:#F7FDFA;border-style:solid;border-width:1px;overflow:hidden;word-break:normal;border-color:#DCDCDC;}
.tg th{font-family:""Courier New"", Courier, monospace !important;font-weight:normal;color:#fff;background-color:#26ADE4;border-style:solid;border-width:1px;overflow:hidden;word-break:normal;border-color:#DCDCDC;}
.tg .tg-left{font-family:""Courier New"", Courier, monospace !important;font-weight:normal;text-align:left;}
.tg .tg-center{font-family:""Courier New"", Courier, monospace !important;font-weight:normal;text-align:center;}
.tg .tg-right{font-family:""Courier New"", Courier, monospace !important;font-weight:normal;text-align:right;}
</style>".
Definition model_style : str := lit "<style type=""text/css"">
.pd{
    font-family: ""Courier New"", Courier, monospace !important;
    width: 100%;
    padding: 3px;
}
</style>
".

(** [format_spec] between tags: the first cell has two blanks before it; parameterized.py:398, 400, param.py:306-309. *)
Definition between (t1 t2 t3 t4 : string) (w1 w2 w3 : nat) (c : cells) : str :=
  match c with (a, b, d) => lit t1 ++ (lit "  " ++ ljust w1 a) ++ lit t2 ++ rjust w2 b ++ lit t3 ++ centre w3 d ++ lit t4 end.
Definition head_row : nat -> nat -> nat -> cells -> str := between "<tr><th><b>" "</b></th><th><b>" "</b></th><th><b>" "</b></th></tr>".
Definition summary_row : nat -> nat -> nat -> cells -> str :=
  between "<tr><td class=tg-left>" "</td><td class=tg-right>" "</td><td class=tg-center>" "</td></tr>".
Definition param_row : nat -> nat -> nat -> cells -> str :=
  between "<tr><td class=tg-left>" "</td><td class=tg-right>" "</td><td class=tg-left>" "</td></tr>".
(** The header of the table of a Param; param.py:286-292. *)
Definition param_header (h : str) : str :=
  nl ++ lit "<tr>" ++ nl ++ lit "  <th><b>" ++ lit "index" ++ lit "</b></th>" ++ nl ++ lit "  <th><b>" ++ h ++ lit "</b></th>" ++ nl ++
  lit "  <th><b>" ++ lit "constraints" ++ lit "</b></th>" ++ nl ++ lit "</tr>".

Section Html.
Context {V : Type}.
Implicit Types s : @state V.
Variable nm : oid -> str.                      (* [name] *)
Variable shp : oid -> list nat.                (* [shape] *)
Variable pstr : prop -> str.                   (* [str] of a constraint *)
Variables fixed_str short_str : V -> str.      (* [{:.8f}] and [{:=.8g}] of a number *)
Variable array_str : list nat -> list V -> str. (* [str] of an array of this shape with these values *)

(** [parameter_names(add_self)], not adjusted; parameter_core.py:174-199, param.py:228-233. *)
Fixpoint raw_names (f : nat) (t : struct) (add_self : bool) (x : oid) : list str :=
  match f with
  | O => []
  | S f' =>
      if is_leaf t x then [nm x]
      else let l := flat_map (raw_names f' t true) (kids t x) in
           if add_self then map (fun n => nm x ++ lit "." ++ n) l else l
  end.
(** [Parameterized._repr_html_(header)]; parameterized.py:382-412. *)
Definition summary_html (header : bool) s (x : oid) : fres str :=
  let t := st s in
  fbind (adjusted nm x) (fun a =>
  let name := a ++ lit "." in
  let names := raw_names (fuel t) t false x in
  fbind (gather (fuel t) t (description shp array_str s) x) (fun desc =>
  fbind (gather (fuel t) t (fun y => Got (property_string pstr s y)) x) (fun con =>
  fbind (zip3 names desc con) (fun r =>
  let w1 := widest name names in let w2 := widest (lit "value") desc in let w3 := widest (lit "constraints") con in
  let to_print := (if header then [head_row w1 w2 w3 (name, lit "value", lit "constraints")] else []) ++ map (summary_row w1 w2 w3) r in
  Got (summary_style ++ nl ++ lit "<table class=""tg"">" ++ join nl to_print ++ nl ++ lit "</table>"))))).
(** [Param._repr_html_()]; param.py:275-311. *)
Definition param_html s (y : oid) : fres str :=
  fbind (param_indices shp y) (fun ind =>
  fbind (param_carried shp pstr s y) (fun con =>
  fbind (hname (st s) nm y) (fun h =>
  let vals := leaf_vals s y in
  fbind (rows fixed_str ind vals con) (fun r =>
  let w1 := widest (lit "index") ind in let w2 := value_width short_str h vals in let w3 := widest (lit "constraints") con in
  Got (join nl ([param_style; lit "<table class=""tg"">"; param_header h] ++ map (param_row w1 w2 w3) r)))))).
(** [Model._repr_html_()]; model.py:410-427. [objective] as in PrModel.v. *)
Definition model_html s (x : oid) (objective : fres str) : fres str :=
  fbind objective (fun o =>
  let details :=
    [ (lit "<b>Model</b>", nm x ++ lit "<br>"); (lit "<b>Objective</b>", o ++ lit "<br>");
      (lit "<b>Number of Parameters</b>", NamesModel.py_str (Z.to_N (size (st s) x)) ++ lit "<br>");
      (lit "<b>Number of Optimization Parameters</b>", NamesModel.py_str (Z.to_N (size_transformed s x)) ++ lit "<br>");
      (lit "<b>Updates</b>", (if updates (nt s) x then lit "True" else lit "False") ++ lit "<br>") ] in
  fbind (summary_html true s x) (fun inner =>
  Got (join nl ([model_style; lit "<p class=pd>"] ++ map (fun d => fst d ++ lit ": " ++ snd d) details ++ [lit "</p>"; inner])))).
End Html.
