(** Model of in-place arithmetic and comparisons on the parameters of a hierarchy: on a concatenation
    (/repo/paramz/param.py:504-509, 547-584), on a Param (core/observable_array.py:127-201), and [m[regexp] op= v]
    (parameterized.py:294-330); on top of ConcatModel.v and FlatModel.v.

    The operator is an arbitrary function [op] on numbers. The operand is a number (a list of one element) or a flat
    array. Not modelled: operands with more axes, and what NumPy does for operators that floats do not have. *)
From Coq Require Import List ZArith Bool.
From Verif Require Import NpModel PzModel ConcatModel FlatModel.
Import ListNotations.
Open Scope Z_scope.

Section Ip.
Context {V : Type}.
Implicit Types s : @state V.
Variable op : V -> V -> V.

(** [np.ndarray.__iadd__(a, v)] and the like for a flat array [a]: one value for all elements or one for each. *)
Definition in_place (a v : list V) : res (list V) :=
  match v with
  | [y] => Ok (map (fun x => op x y) a)
  | _ => if (length v =? length a)%nat then Ok (map (fun e => op (fst e) (snd e)) (combine a v)) else Er ValueError
  end.
(** [c.__iadd__(v)] and the like: [self[:] = np.ndarray.__iadd__(self.values(), v)]; param.py:547-584. *)
Definition conc_inplace (v : list V) : @ccall V := fun c s =>
  match rbind (hstacked s c) (fun old => in_place old v) with
  | Er e => (c, s, Some e)
  | Ok l => conc_set (arange (conc_size s c)) l c s
  end.
(** What a name of the user's refers to. *)
Inductive bound : Type := BConc (c : conc) | BNone.
(** The statement [c op= v]: the name is bound to what the method returns, and that is [None]; param.py:547-584. *)
Definition stmt_inplace (v : list V) (b : bound) s : bound * @state V * option exn :=
  match b with
  | BNone => (BNone, s, Some TypeError)
  | BConc c =>
      match conc_inplace v c s with
      | (_, s', None) => (BNone, s', None)
      | (c', s', Some e) => (BConc c', s', Some e)
      end
  end.
(** [p.__iadd__(v)] and the like on a Param, which returns the Param; observable_array.py:127-201. *)
Definition param_inplace (v : list V) (y : oid) : @cmd V := fun s =>
  let old := leaf_vals s y in
  match in_place old v with
  | Er e => (s, Some e)
  | Ok l => assign y (fun k w => nth (Z.to_nat k) l w) s
  end.
Variable nm : oid -> str.
(** The statement [m[regexp] op= v]: reading, the operation in place, and [m[regexp] = result]. A Parameterized has no
    such operation. Assigning [None], the result for a concatenation, does nothing; parameterized.py:294-330. *)
Definition item_inplace (mt : str -> bool) (v : list V) (x : oid) s : @outcome V :=
  match getitem nm mt x s with
  | (s1, Err e) => (s1, Some e)
  | (s1, Got (One y)) =>
      if is_leaf (st s1) y then
        match param_inplace v y s1 with
        | (s2, Some e) => (s2, Some (Py e))
        | (s2, None) =>
            match inited (st s2) x with
            | Some true =>
                match getitem nm mt x s2 with
                | (s3, Got (One z)) => lift_py (assign z (fun _ w => w) s3)
                | (s3, Got (Many _)) => (s3, None)
                | (s3, Err e) => (s3, Some e)
                end
            | _ => (s2, Some (Py AttributeError))
            end
        end
      else (s1, Some (Py TypeError))
  | (s1, Got (Many c)) =>
      match conc_inplace v c s1 with
      | (_, s2, Some e) => (s2, Some (Py e))
      | (_, s2, None) => (s2, match inited (st s2) x with Some true => None | _ => Some (Py AttributeError) end)
      end
  end.
End Ip.
(** [c < v] and the like, for an operand that fits; param.py:504-509. *)
Definition conc_compare {V : Type} (cmp : V -> V -> bool) (v : list V) (c : conc) (s : @state V) : res (list bool) :=
  rbind (hstacked s c) (fun a =>
  match v with
  | [y] => Ok (map (fun x => cmp x y) a)
  | _ => if (length v =? length a)%nat then Ok (map (fun e => cmp (fst e) (snd e)) (combine a v)) else Er ValueError
  end).
