(** Model of the regression example: objective, gradient and when they are computed.

    Files modelled: /repo/paramz/examples/ridge_regression.py:14-191; core/parameter_core.py:126-134 and
    core/updateable.py:50-79 (who updates on a trigger).

    Simplifications: real numbers instead of floats; a matrix is a function of row and column,
    with its sizes kept apart. The cache of the basis functions is left out (a Cacher returns what the
    function returns, C12-C17). *)
From Coq Require Import List Arith Reals Bool.
Import ListNotations.
Open Scope R_scope.

Definition matrix : Type := nat -> nat -> R.
(** [sum] of a range of numbers; numpy's sum as used in lines 84 and 85. *)
Fixpoint total (n : nat) (f : nat -> R) : R := match n with O => 0 | S k => total k f + f k end.

Inductive penalty : Type := Ridge | Lasso.
(** [np.sign]; line 183. *)
Definition sign (x : R) : R := if Rlt_dec 0 x then 1 else if Rlt_dec x 0 then -1 else 0.
(** What the example is made of: numbers of samples, of input and of output columns, the degree, the basis,
    the regularizer; lines 20-44. *)
Record setup := mkSetup { rows : nat; dims : nat; cols : nat; degree : nat; basis : matrix -> nat -> matrix; reg : penalty; lambda : R }.
(** The data, the weights, their gradient, the error of the regularizer, [_obj]; whether all weights
    are fixed; whether updates are on. *)
Record st := mkSt { X : matrix; Y : matrix; W : matrix; grad : matrix; err : nat -> R; obj : R; fixed : bool; on : bool }.

Section Example.
Variable c : setup.

(** [update_error] of Lasso and Ridge; lines 181-183 and 189-191. *)
Definition update_error (s : st) : st :=
  match reg c with
  | Ridge => mkSt (X s) (Y s) (W s) (fun i j => lambda c * 2 * W s i j) (fun i => lambda c * total (dims c) (fun j => W s i j ^ 2)) (obj s) (fixed s) (on s)
  | Lasso => mkSt (X s) (Y s) (W s) (fun i j => lambda c * sign (W s i j)) (fun i => lambda c * total (dims c) (fun j => Rabs (W s i j))) (obj s) (fixed s) (on s)
  end.
(** [tmp_outer] after the first loop; lines 71-75. *)
Definition fitted (x : matrix) (w : matrix) (r : nat) : R :=
  total (S (degree c)) (fun i => total (dims c) (fun j => basis c x i r j * w i j)).
(** [predict]; lines 90-97. *)
Definition predict (s : st) (x : matrix) : nat -> R := fitted x (W s).
(** [tmp_outer] of line 77. The fitted values are one column, which is used for every column of Y. *)
Definition outer (s : st) (r k : nat) : R := Y s r k - fitted (X s) (W s) r.
(** Whether [self.weights.gradient[i] -= 2*(tmp_outer*tmp_X).sum(0)] has shapes that go together: one
    output column, or as many as input columns; line 84. *)
Definition shapes_fit : bool := orb (Nat.eqb (cols c) 1) (Nat.eqb (cols c) (dims c)).
(** [parameters_changed] of the model; lines 69-85. None: raises ValueError. *)
Definition parameters_changed (s : st) : option st :=
  if shapes_fit then
    let col j := if Nat.eqb (cols c) 1 then 0%nat else j in
    Some (mkSt (X s) (Y s) (W s)
      (fun i j => grad s i j - 2 * total (rows c) (fun r => outer s r (col j) * basis c (X s) i r j))
      (err s)
      (total (rows c) (fun r => total (cols c) (fun k => outer s r k ^ 2)) + total (S (degree c)) (err s))
      (fixed s) (on s))
  else None.
(** A change of the weights tells the regularizer, and it the model; parameter_core.py:126-134. *)
Definition upwards (s : st) : option st := if on s then parameters_changed (update_error s) else Some s.
(** [m.trigger_update()]: children that are fixed are left out; parameter_core.py:133, updateable.py:68-79. *)
Definition trigger (s : st) : option st :=
  if on s then parameters_changed (if fixed s then s else update_error s) else Some s.

Inductive call : Type :=
| SetWeights (f : matrix -> matrix)   (* any assignment to weights *)
| SetOptimizer (f : matrix -> matrix) (* m.optimizer_array = ... *)
| FixAll                              (* m.weights.fix() *)
| UnfixAll                            (* m.weights.unfix() *)
| Trigger                             (* m.trigger_update() *)
| Updates (b : bool)                  (* m.update_model(b) *)
| SetData (f : matrix -> matrix)      (* m.X[...] = ... *)
| SetTarget (f : matrix -> matrix)    (* m.Y[...] = ... *)
| Again.                              (* m.parameters_changed() *)
Definition with_W (s : st) (w : matrix) : st := mkSt (X s) (Y s) w (grad s) (err s) (obj s) (fixed s) (on s).
Definition with_fixed (s : st) (b : bool) : st := mkSt (X s) (Y s) (W s) (grad s) (err s) (obj s) b (on s).
Definition with_on (s : st) (b : bool) : st := mkSt (X s) (Y s) (W s) (grad s) (err s) (obj s) (fixed s) b.
(** The calls. Setting the optimizer array of a fixed model changes nothing and triggers
    (parameter_core.py:95-124); fixing tells the observers (constrainable.py:52-68), unfixing does not
    (71-82); assigning to X or Y tells the cachers only (observable_array.py:117-119). *)
Definition step (s : st) (a : call) : option st :=
  match a with
  | SetWeights f => upwards (with_W s (f (W s)))
  | SetOptimizer f => trigger (if fixed s then s else with_W s (f (W s)))
  | FixAll => upwards (with_fixed s true)
  | UnfixAll => Some (with_fixed s false)
  | Trigger => trigger s
  | Updates b => trigger (with_on s b)
  | SetData f => Some (mkSt (f (X s)) (Y s) (W s) (grad s) (err s) (obj s) (fixed s) (on s))
  | SetTarget f => Some (mkSt (X s) (f (Y s)) (W s) (grad s) (err s) (obj s) (fixed s) (on s))
  | Again => parameters_changed s
  end.
Fixpoint steps (s : st) (l : list call) : option st :=
  match l with [] => Some s | a :: l' => match step s a with Some s' => steps s' l' | None => None end end.
(** The weights a new model starts from: row i is i divided by the basis function at i; lines 146-148. *)
Definition first_weights : matrix := fun i j => INR i / basis c (fun _ _ => INR i) i 0%nat j.
(** The constructor: the regularizer computes, then the model; lines 20-44, 142-159. *)
Definition create (x y : matrix) : option st :=
  upwards (mkSt x y first_weights (fun _ _ => 0) (fun _ => 0) 0 false true).
End Example.
(** The polynomial basis; lines 127-132. *)
Definition polynomial (x : matrix) (i r j : nat) : R := x r j ^ i.
