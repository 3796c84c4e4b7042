(** Model of [save], /repo/paramz/core/parameter_core.py:540-579: writing the values of a hierarchy to an HDF5 file.

    Simplifications: names are the names adjusted for printing (NamesModel.v), so without '.'; arrays are lists of
    numbers (shapes and dtypes are left out); an HDF5 file is the list of its datasets; of h5py it is
    taken from its documentation that opening with 'w' empties the file and that a second dataset of a name is
    an error; what was written before an error is in the file. h5py is installed, the file can be written. *)
From Coq Require Import List Bool NArith ZArith.
Import ListNotations.

(** Strings, as in nameable.py:36-50: lists of characters. *)
Definition str : Type := list N.
(** Equality of strings. h5py's test whether a dataset exists; parameter_core.py:570, 573. *)
Fixpoint str_eqb (a b : str) : bool :=
  match a, b with [], [] => true | x :: a', y :: b' => N.eqb x y && str_eqb a' b' | _, _ => false end.
(** A Param with its values (param.py:50), a Parameterized with its parameters (parameterized.py:116). *)
Inductive tree : Type := Par (n : str) (vs : list Z) | Grp (n : str) (ks : list tree).
(** Errors: the string that is raised is no exception, parameter_core.py:578. *)
Inductive err : Type := TypeError.
(** The character '.' ; parameter_core.py:198. *)
Definition dot : N := 46%N.
(** ['param_array']; parameter_core.py:574. *)
Definition whole_name : str := [112; 97; 114; 97; 109; 95; 97; 114; 114; 97; 121]%N.

(** [gather_params] over [traverse]: the values of the Params; parameter_core.py:557-561, 571, 384-392. *)
Fixpoint gather (t : tree) : list (list Z) :=
  match t with Par _ vs => [vs] | Grp _ ks => flat_map gather ks end.
(** [parameter_names(add_self, adjust_for_printing=True)]; parameter_core.py:174-198, param.py:228-233. *)
Fixpoint parameter_names (add_self : bool) (t : tree) : list str :=
  match t with
  | Par n _ => [n]
  | Grp n ks =>
      let l := flat_map (parameter_names true) ks in
      if add_self then map (fun x => n ++ dot :: x) l else l
  end.
(** [param_array]; parameter_core.py:325-351, param.py:126-131. *)
Definition param_array (t : tree) : list Z := concat (gather t).
(** [n.replace('.', '_')]; parameter_core.py:569. *)
Definition replace_dots (n : str) : str := map (fun c => if N.eqb c dot then 95%N else c) n.
(** [f.create_dataset(n, ...)] and the assignment to it; parameter_core.py:571-572, 574-575. *)
Definition create (f : list (str * list Z)) (n : str) (vs : list Z) : option (list (str * list Z)) :=
  if existsb (fun e => str_eqb (fst e) n) f then None else Some (f ++ [(n, vs)]).
(** The loop over [zip(plist, names)]; parameter_core.py:568-572. *)
Fixpoint write (f : list (str * list Z)) (l : list (list Z * str)) : list (str * list Z) * bool :=
  match l with
  | [] => (f, true)
  | (vs, n) :: r => match create f (replace_dots n) vs with Some f' => write f' r | None => (f, false) end
  end.
(** [zip]; parameter_core.py:568. *)
Fixpoint zip (a : list (list Z)) (b : list str) : list (list Z * str) :=
  match a, b with x :: a', y :: b' => (x, y) :: zip a' b' | _, _ => [] end.
(** The file after [save], whatever it was before, and the error; parameter_core.py:562-578. *)
Definition save (t : tree) (before : list (str * list Z)) : list (str * list Z) * option err :=
  match write [] (zip (gather t) (parameter_names false t)) with
  | (f, false) => (f, Some TypeError)
  | (f, true) =>
      match create f whole_name (param_array t) with Some f' => (f', None) | None => (f, Some TypeError) end
  end.
(** [h5_file[n]]. Loading as the documentation of [save] has it, parameter_core.py:546-550. *)
Fixpoint dataset (f : list (str * list Z)) (n : str) : option (list Z) :=
  match f with [] => None | (m, vs) :: r => if str_eqb m n then Some vs else dataset r n end.
(** [m[:] = vs] of a hierarchy: the elements in the order of [param_array]; parameterized.py:307-315, and
    documentation of [save], parameter_core.py:551. Returns what is left over. *)
Fixpoint fill (t : tree) (vs : list Z) : tree * list Z :=
  match t with
  | Par n old => (Par n (firstn (length old) vs), skipn (length old) vs)
  | Grp n ks =>
      let (ks', r) := (fix go (ks : list tree) (vs : list Z) : list tree * list Z :=
        match ks with [] => ([], vs) | k :: ks1 => let (k', r) := fill k vs in let (l, r') := go ks1 r in (k' :: l, r') end) ks vs in
      (Grp n ks', r)
  end.
