(** Model of the naming of parameters.

    Files modelled: /repo/paramz/core/nameable.py (adjust_name_for_printing, the name setter,
    hierarchy_name) and core/parameter_core.py (_name_digit, _add_parameter_name,
    _remove_parameter_name, _name_changed), parameterized.py (the naming part of
    _connect_parameters, link_parameter, unlink_parameter).

    A string is a list of code points. Simplification: [\d] is taken to be 0-9 only. *)
From Coq Require Import List NArith Bool Ascii String Arith DecimalN.
Import ListNotations.
Open Scope list_scope.

Definition str := list N.
Definition lit (s : string) : str := map N_of_ascii (list_ascii_of_string s).
Definition streq (a b : str) : bool := if list_eq_dec N.eq_dec a b then true else false.

(** ** adjust_name_for_printing *)

(** [s.replace(c, by)] for a single character; nameable.py:39-43. *)
Definition replace1 (c : ascii) (by_ : string) (s : str) : str :=
  flat_map (fun a => if N.eqb a (N_of_ascii c) then lit by_ else [a]) s.
(** [s.replace("**", by)]: from left to right, without overlaps; nameable.py:41. *)
Fixpoint replace2 (by_ : str) (s : str) : str :=
  match s with
  | a :: ((b :: r) as t) => if N.eqb a 42 && N.eqb b 42 then by_ ++ replace2 by_ r else a :: replace2 by_ t
  | _ => s
  end.
Definition in_range (lo hi a : N) : bool := N.leb lo a && N.leb a hi.
(** The classes [[a-zA-Z_]] and [[a-zA-Z0-9-_]]; nameable.py:44. *)
Definition re_first (a : N) : bool := in_range 97 122 a || in_range 65 90 a || N.eqb a 95.
Definition re_rest (a : N) : bool := re_first a || in_range 48 57 a || N.eqb a 45.
(** [re.match(r'^[a-zA-Z_][a-zA-Z0-9-_]*$', s)]; [$] also matches before a final newline. *)
Fixpoint re_tail (s : str) : bool :=
  match s with
  | [] => true
  | [a] => re_rest a || N.eqb a 10
  | a :: r => re_rest a && re_tail r
  end.
Definition re_name (s : str) : bool := match s with a :: r => re_first a && re_tail r | [] => false end.
(** nameable.py:33-47; [None]: NameError. *)
Definition adjust (name : str) : option str :=
  let n1 := replace1 "-" "_m_" (replace1 "." "_" (replace1 " " "_" name)) in
  let n2 := replace1 "!" "_I_" (replace1 "+" "_p_" n1) in
  let n3 := replace1 "*" "_x_" (replace2 (lit "_xx_") n2) in
  let n4 := replace1 "@" "_at_" (replace1 "/" "_l_" n3) in
  let n5 := replace1 ")" "" (replace1 "(" "_of_" n4) in
  if re_name n5 then Some n5 else None.

(** ** Making names unique *)

Definition is_digit (a : N) : bool := in_range 48 57 a.
(** [_name_digit.match(s)], [(.* )_(\d+)$]; parameter_core.py:302. The characters before the last
    underscore, and the digits after it; a final newline is not looked at. *)
Fixpoint split_digits (s : str) : option (str * str) :=
  match s with
  | [] => None
  | a :: r =>
      match split_digits r with
      | Some (b, d) => Some (a :: b, d)
      | None => if N.eqb a 95 && forallb is_digit r && (match r with [] => false | _ => true end) then Some ([], r) else None
      end
  end.
Fixpoint chop (s : str) : str :=
  match s with
  | [] => []
  | [a] => if N.eqb a 10 then [] else [a]
  | a :: r => a :: chop r
  end.
Definition name_digit (s : str) : option (str * str) :=
  match split_digits (chop s) with
  | Some (b, d) => if forallb (fun a => negb (N.eqb a 10)) b then Some (b, d) else None
  | None => None
  end.
(** [int(d)], [str(n)]. *)
Fixpoint uint_of (d : str) : Decimal.uint :=
  match d with
  | [] => Decimal.Nil
  | a :: r =>
      match (a - 48)%N with
      | 0%N => Decimal.D0 (uint_of r) | 1%N => Decimal.D1 (uint_of r) | 2%N => Decimal.D2 (uint_of r)
      | 3%N => Decimal.D3 (uint_of r) | 4%N => Decimal.D4 (uint_of r) | 5%N => Decimal.D5 (uint_of r)
      | 6%N => Decimal.D6 (uint_of r) | 7%N => Decimal.D7 (uint_of r) | 8%N => Decimal.D8 (uint_of r)
      | _ => Decimal.D9 (uint_of r)
      end
  end.
Fixpoint of_uint (u : Decimal.uint) : str :=
  match u with
  | Decimal.Nil => []
  | Decimal.D0 r => 48%N :: of_uint r | Decimal.D1 r => 49%N :: of_uint r | Decimal.D2 r => 50%N :: of_uint r
  | Decimal.D3 r => 51%N :: of_uint r | Decimal.D4 r => 52%N :: of_uint r | Decimal.D5 r => 53%N :: of_uint r
  | Decimal.D6 r => 54%N :: of_uint r | Decimal.D7 r => 55%N :: of_uint r | Decimal.D8 r => 56%N :: of_uint r
  | Decimal.D9 r => 57%N :: of_uint r
  end.
Definition py_int (d : str) : N := N.of_uint (uint_of d).
Definition py_str (n : N) : str := of_uint (N.to_uint n).
(** [warn_and_retry]: the new name of a child; parameter_core.py:447-461. *)
Definition next_name (s : str) : str :=
  match name_digit s with
  | None => s ++ lit "_1"
  | Some (b, d) => b ++ lit "_" ++ py_str (py_int d + 1)
  end.

(** The naming state of one Parameterized: its children in order, their names, the attributes made
    for them ([__dict__] entries whose keys are in [_added_names_]) and the other names in
    [dir(self)]. *)
Record nst : Type := mkNs { kids : list nat; nm : nat -> str; attrs : list (str * nat); reserved : str -> bool }.
Inductive exn : Type := NameError | RecursionError | HierarchyError.
Definition outcome := (nst * option exn)%type.

Definition set_nm (s : nst) (p : nat) (n : str) : nst :=
  mkNs (kids s) (fun q => if Nat.eqb q p then n else nm s q) (attrs s) (reserved s).
Definition has_attr (s : nst) (n : str) : bool := existsb (fun e => streq (fst e) n) (attrs s).
Definition set_attrs (s : nst) (l : list (str * nat)) : nst := mkNs (kids s) (nm s) l (reserved s).
Definition set_kids (s : nst) (l : list nat) : nst := mkNs l (nm s) (attrs s) (reserved s).

(** The first part of [_remove_parameter_name]; parameter_core.py:482-487. *)
Definition drop_attr (s : nst) (n : str) : nst := set_attrs s (filter (fun e => negb (streq (fst e) n)) (attrs s)).
Definition each (g : nat -> nst -> outcome) (l : list nat) (s : nst) : outcome :=
  fold_left (fun a p => match a with (s', None) => g p s' | _ => a end) l (s, None).

(** [_add_parameter_name(param)]; parameter_core.py:444-479. Renaming another child goes through the
    name setter (nameable.py:64-74), [_name_changed] (parameter_core.py:490-492) and so through
    [_remove_parameter_name], which ends in [_connect_parameters], which adds the names of all
    children (parameterized.py:276), and [_add_parameter_name(other)]; then [warn_and_retry] adds the
    name of the renamed child once more (its argument hides the outer [param]). *)
Fixpoint add_name (f : nat) (p : nat) (s : nst) : outcome :=
  match f with
  | O => (s, Some RecursionError)
  | S f' =>
      match adjust (nm s p) with
      | None => (s, Some NameError)
      | Some pname =>
          match find (fun o => negb (Nat.eqb o p) && streq (nm s o) (nm s p)) (kids s) with
          | Some o =>
              let s1 := drop_attr (set_nm s o (next_name (nm s o))) pname in
              match each (add_name f') (kids s1) s1 with
              | (s2, None) =>
                  match add_name f' o s2 with
                  | (s3, None) => add_name f' o s3
                  | r => r
                  end
              | r => r
              end
          | None =>
              if has_attr s pname || reserved s pname then (s, None)
              else (set_attrs s ((pname, p) :: attrs s), None)
          end
      end
  end.
(** [_connect_parameters()]; parameterized.py:228-277. *)
Definition connect (f : nat) (s : nst) : outcome := each (add_name f) (kids s) s.
(** The name setter of a child; nameable.py:64-74, parameter_core.py:482-492. *)
Definition rename (f : nat) (p : nat) (new : str) (s : nst) : outcome :=
  let s1 := set_nm s p new in
  match adjust (nm s p) with
  | None => (s1, Some NameError)
  | Some old =>
      match connect f (drop_attr s1 old) with
      | (s2, None) => add_name f p s2
      | r => r
      end
  end.
(** [unlink_parameter(param)]: the child is removed, then its attribute, then the rest is connected;
    parameterized.py:207-209, parameter_core.py:482-488. *)
Definition unlink (f : nat) (p : nat) (s : nst) : outcome :=
  if negb (existsb (Nat.eqb p) (kids s)) then (s, Some HierarchyError) else
  let s1 := set_kids s (filter (fun q => negb (Nat.eqb q p)) (kids s)) in
  match adjust (nm s p) with
  | None => (s1, Some NameError)
  | Some old => connect f (drop_attr s1 old)
  end.

(** [link_parameter(param, index)], the naming: the child is inserted; if the object is the top of
    the hierarchy ([top]) it is connected, otherwise only the top is (whose children are others);
    a child that is there already is moved if there is an index; parameterized.py:138-186.
    Simplification: the index is not negative. *)
Definition insert (f : nat) (top : bool) (p : nat) (k : nat) (s : nst) : outcome :=
  let s1 := set_kids s (firstn k (kids s) ++ p :: skipn k (kids s)) in
  if top then connect f s1 else (s1, None).
Definition link (f : nat) (top : bool) (p : nat) (index : option nat) (s : nst) : outcome :=
  if existsb (Nat.eqb p) (kids s) then
    match index with
    | None => (s, Some HierarchyError)
    | Some k => match unlink f p s with
                | (s1, None) => insert f top p k s1
                | r => r
                end
    end
  else insert f top p (match index with Some k => k | None => List.length (kids s) end) s.

(** [hierarchy_name(adjust_for_printing)] of an object with these names of the objects above, the
    nearest first; nameable.py:76-88. The names above are adjusted in any case. *)
Fixpoint hierarchy_name (adj : bool) (n : str) (above : list str) : option str :=
  let own := if adj then adjust n else Some n in
  match above with
  | [] => own
  | a :: r => match hierarchy_name true a r, own with
              | Some h, Some o => Some (h ++ lit "." ++ o)
              | _, _ => None
              end
  end.
