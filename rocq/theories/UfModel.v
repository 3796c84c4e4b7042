(** Model of [unfixed_param_array].

    File modelled: /repo/paramz/core/parameter_core.py:352-366, on the hierarchies of PzModel.

    Simplifications: those of PzModel. The second argument of NumPy's indexing by a mask is taken to be
    checked: a mask of another length than the array raises. *)
From Coq Require Import List ZArith Bool.
From Verif Require Import NpModel IndexOpsModel PzModel.
Import ListNotations.
Open Scope Z_scope.

Section Values.
Context {V : Type}.
(** What the user gets: [None], an array of its own with these elements, or [_param_array_] itself;
    parameter_core.py:364, 366. *)
Inductive given : Type := Nothing | Own (l : list V) | Itself (a : nat * Z * Z).

(** [self._param_array_]: a Param never sets it (parameter_core.py:319; its [param_array] is another
    property, param.py:124-129); of a Parameterized it is what [param_array] or the last
    connection left there. *)
Definition stored (s : @state V) (x : oid) : option (nat * Z * Z) :=
  if is_leaf (st s) x then None else arr (mem s) x.

(** [self.unfixed_param_array]; parameter_core.py:352-366. *)
Definition unfixed_param_array (x : oid) (s : @state V) : res given :=
  let fixed := cons_get (ios s) x Fixed in
  if nonempty fixed then
    rbind (mask_set (ones (size (st s) x)) fixed false) (fun mk =>
    match stored s x with
    | None => Er TypeError
    | Some a => let l := read_arr (mem s) a in
                if Nat.eqb (length mk) (length l) then Ok (Own (select mk l)) else Er IndexError
    end)
  else Ok (match stored s x with Some a => Itself a | None => Nothing end).

(** [u[k] = v] on what was given: writes to the memory of the array. Writing to an array of its own
    reaches nothing of the hierarchy; [None] does not allow it. parameter_core.py:355-360 tells users
    to write in memory. *)
Definition poke (u : given) (k : Z) (v : V) (s : @state V) : @state V * option exn :=
  match u with
  | Nothing => (s, Some TypeError)
  | Own l => if (0 <=? k) && (k <? Z.of_nat (length l)) then (s, None) else (s, Some IndexError)
  | Itself a =>
      let l := read_arr (mem s) a in
      if (0 <=? k) && (k <? Z.of_nat (length l))
      then (with_mem s (write_arr (mem s) a (map (fun e => if fst e =? k then v else snd e) (combine (arange (Z.of_nat (length l))) l))), None)
      else (s, Some IndexError)
  end.
End Values.
Arguments given V : clear implicits.
