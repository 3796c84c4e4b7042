(** Model of the gradients: the second array every object of a hierarchy has beside its values.

    Files modelled: /repo/paramz/core/parameter_core.py:257-296 and 425-438, param.py:139-152,
    parameterized.py:262-272, core/pickleable.py:90 and 104-112, model.py:206-246.

    The code treats [_gradient_array_] and [_param_array_] by the same statements, side by side: where
    a method allocates, copies or re-points the one, it does the same to the other. So the gradients
    are a second memory, and a method that builds or changes a hierarchy runs a second time, on the
    same links and constraints, with the gradients in place of the values ([twin]).

    Simplifications:
    - a Param allocates its gradient when it is read for the first time; here when it is made, with
      arbitrary contents ([np.empty]) both times;
    - [p.param_array.flags] (parameterized.py:239) is asked of the values only; the second run
      allocates the gradient of [p] there, one statement before the code does;
    - [parameters_changed] stores gradients in the middle of the call that runs it; here these are
      calls of their own that follow (no call reads gradients, and none moves memory after it has run
      [parameters_changed], except for copies);
    - [val] has the shape of the gradient or is broadcast to it, other shapes (they raise) are left
      out. *)
From Coq Require Import List ZArith Bool.
From Verif Require Import NpModel IndexOpsModel PzModel PzSpec.
Import ListNotations.
Open Scope Z_scope.

Section Grad.
Context {V : Type}.
Variables tinit tf tfinv : nat -> V -> V.
Variable tgrad : nat -> V -> V -> V.

(** The hierarchy with its values, and the buffers and arrays of the gradients ([_gradient_array_];
    parameter_core.py:430-438, param.py:139-152). *)
Record gstate : Type := mkG { base : @state V; grd : @memst V }.

(** The same hierarchy with [m] in place of the values. *)
Definition twin (s : @state V) (m : @memst V) : @state V := mkS (st s) (ios s) (fix_ s) m (nt s).

(** What a call does to the gradients. [Param(name, values)]: a new [np.empty] (param.py:146).
    Copies: [_gradient_array_] is not in the state that is copied (pickleable.py:106), the arrays of
    the copy are new, with contents of their own ([cell g]: contents of buffers never allocated). *)
Definition grd_after (c : @call V) (s : @state V) (g : @memst V) : @memst V :=
  match c with
  | NewParam vals =>
      mem (fst (exec tinit tf tfinv (NewParam (read_arr g (nbuf g, 0, Z.of_nat (length vals)))) (twin s g)))
  | NewNode _ _ | Begin | End _ _ | Link _ _ _ | Unlink _ _ | Initialize _ => mem (fst (exec tinit tf tfinv c (twin s g)))
  | Copy _ =>
      let m := mem (fst (exec tinit tf tfinv c (twin s g))) in
      mkM (fun b => if Nat.ltb b (nbuf g) then cell m b else cell g b) (nbuf m) (arr m)
  | _ => g
  end.

(** [x.gradient]: of a Param param.py:139-148, of a Parameterized parameter_core.py:430-434; a new
    [np.empty] if there is none of the right size. The statements are those of [param_array]. *)
Definition gradient_array (t : struct) (g : @memst V) (x : oid) : @memst V * (nat * Z * Z) := param_array t g x.

(** [a[...] = val]: element [k] becomes [f k]. *)
Definition write_all (g : @memst V) (a : nat * Z * Z) (f : Z -> V -> V) : @memst V :=
  write_arr g a (map (fun e => f (fst e) (snd e)) (combine (arange (snd a)) (read_arr g a))).

(** [x.gradient = val]: of a Param through the getter (param.py:150-152), of a Parameterized into the
    attribute, whatever its size (parameter_core.py:436-438). *)
Definition set_gradient (t : struct) (x : oid) (f : Z -> V -> V) (g : @memst V) : @memst V * option exn :=
  if is_leaf t x then let (g1, a) := gradient_array t g x in (write_all g1 a f, None)
  else match arr g x with
       | Some a => (write_all g a f, None)
       | None => (g, Some AttributeError)
       end.
(** [x.gradient[...] = val], [x.gradient += val] and the like on what the getter returns. *)
Definition edit_gradient (t : struct) (x : oid) (f : Z -> V -> V) (g : @memst V) : @memst V :=
  let (g1, a) := gradient_array t g x in write_all g1 a f.

(** [_transform_gradients(self.gradient)], what the optimizer gets from a model whose
    [objective_function_gradients] returns its gradient, as the default one does; model.py:206-246,
    parameter_core.py:143-152. The factors are written into the gradient array itself; without fixed
    elements the array itself is returned ([inr]), else a new one with the selected elements. An
    [IndexError] (a mask of another length) comes after the writing; here the state is then not given. *)
Definition take_gradient (x : oid) (q : gstate) : res (gstate * (list V + (nat * Z * Z))) :=
  let s := base q in
  let (g1, a) := gradient_array (st s) (grd q) x in
  let (m1, pa) := param_array (st s) (mem s) x in
  let all := apply_all (cons_items (ios s) x) (fun n k d => tgrad n (nth (Z.to_nat k) (read_arr m1 pa) d) d) (read_arr g1 a) in
  let q' := mkG s (write_arr g1 a all) in
  if nonempty (cons_get (ios s) x Fixed) then
    match fix_ s x with
    | Some mk => if Nat.eqb (length mk) (length all) then Ok (q', inl (select mk all)) else Er IndexError
    | None => Ok (q', inr a)
    end
  else Ok (q', inr a).
(** The elements of what was returned, when they are looked at in state [q]. *)
Definition look (q : gstate) (r : list V + nat * Z * Z) : list V :=
  match r with inl l => l | inr a => read_arr (grd q) a end.

(** A call on the hierarchy, gradients stored, or taken by the optimizer. *)
Inductive gcall : Type :=
| Call (c : @call V) | SetGradient (x : oid) (f : Z -> V -> V) | EditGradient (x : oid) (f : Z -> V -> V)
| TakeGradient (x : oid).
Definition gexec (c : gcall) (q : gstate) : gstate * option exn :=
  match c with
  | Call c => let (s', e) := exec tinit tf tfinv c (base q) in (mkG s' (grd_after c (base q) (grd q)), e)
  | SetGradient x f => let (g', e) := set_gradient (st (base q)) x f (grd q) in (mkG (base q) g', e)
  | EditGradient x f => (mkG (base q) (edit_gradient (st (base q)) x f (grd q)), None)
  | TakeGradient x => match take_gradient x q with Ok (q', _) => (q', None) | Er e => (q, Some e) end
  end.

(** Nothing built yet; memory with arbitrary contents. *)
Definition ginit (junk junk' : nat -> Z -> V) : gstate := mkG (init_state junk) (mkM junk' 0%nat (fun _ => None)).
End Grad.
