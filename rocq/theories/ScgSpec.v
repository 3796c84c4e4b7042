(** Vocabulary for C52-C54, C64 and C126: what a caller of SCG sees. *)
From Coq Require Import List Reals Sorting.Sorted.
From Verif Require Import ScgModel.
Import ListNotations.
Open Scope R_scope.

(** [gradf] returns vectors of the dimension of its argument. *)
Definition grad_dim (gradf : vec -> vec) : Prop := forall v, length (gradf v) = length v.
(** A vector that is not zero. *)
Definition nonzero (v : vec) : Prop := exists a, In a v /\ a <> 0.
Definition non_increasing (l : list R) : Prop := StronglySorted (fun a b => b <= a) l.
(** The four values returned, scg.py:174. *)
Definition r_x (r : st * status) : vec := x (fst r).
Definition r_flog (r : st * status) : list R := flog (fst r).
Definition r_evals (r : st * status) : nat := fevals (fst r).
Definition r_status (r : st * status) : status := snd r.

(** What one recorded iteration proposed and where it left the iterate. *)
Definition proposal (i : stepinfo) : vec := vadd (i_x i) (vscale (i_alpha i) (i_d i)).
Definition accepted (f : vec -> R) (i : stepinfo) : Prop := f (proposal i) <= f (i_x i).
(** One of the three convergence tests holds after the iteration. *)
Definition fired (f : vec -> R) (gradf : vec -> vec) (xtol ftol gtol : R) (i : stepinfo) : Prop :=
  accepted f i /\
  (Rabs (f (proposal i) - f (i_x i)) < ftol \/ maxabs (vscale (i_alpha i) (i_d i)) < xtol \/
   dot (gradf (proposal i)) (gradf (proposal i)) <= gtol).
(** [path f x0 steps y]: the iterations (latest first) lead from [x0] to [y], each one moving to its
    proposal exactly when that does not increase the objective. *)
Inductive path (f : vec -> R) (x0 : vec) : list stepinfo -> vec -> Prop :=
| path_nil : path f x0 [] x0
| path_yes : forall i l, path f x0 l (i_x i) -> accepted f i -> path f x0 (i :: l) (proposal i)
| path_no : forall i l, path f x0 l (i_x i) -> ~ accepted f i -> path f x0 (i :: l) (i_x i).
(** The objective at every point of the path, oldest first. *)
Inductive values (f : vec -> R) (x0 : vec) : list stepinfo -> list R -> Prop :=
| values_nil : values f x0 [] [f x0]
| values_cons : forall i l y vs, values f x0 l vs -> path f x0 (i :: l) y ->
    values f x0 (i :: l) (vs ++ [f y]).

(** ** The method (C126) *)
(** Where a run stands between two iterations: the point, the direction to try, the scale, and the
    number of steps accepted since the last restart. *)
Record stand : Type := mkP { p_x : vec; p_d : vec; p_scale : R; p_count : nat }.
(** The derivative of the gradient along [v], as a difference quotient over the length 10^-7. *)
Definition quotient (gradf : vec -> vec) (y v : vec) : R :=
  let h := / 10 ^ 7 / sqrt (dot v v) in dot v (vsub (gradf (vadd y (vscale h v))) (gradf y)) / h.
(** Iteration [i] starts at [p]: down the direction, or down the gradient where the direction does not
    descend; curvature plus scale is the denominator of the step, and where that is not positive the scale
    is raised first. [b] is the scale then. *)
Definition taken (gradf : vec -> vec) (p : stand) (i : stepinfo) (b : R) : Prop :=
  i_x i = p_x p /\
  (dot (p_d p) (gradf (p_x p)) < 0 -> i_d i = p_d p) /\
  (0 <= dot (p_d p) (gradf (p_x p)) -> i_d i = vneg (gradf (p_x p))) /\
  let k := dot (i_d i) (i_d i) in let t := quotient gradf (i_x i) (i_d i) in
  (0 < t + p_scale p * k -> i_delta i = t + p_scale p * k /\ b = p_scale p) /\
  (t + p_scale p * k <= 0 -> i_delta i = p_scale p * k /\ b = p_scale p - t / k).
(** How well the quadratic approximation predicted the objective, and the scale that follows from it. *)
Definition ratio (f : vec -> R) (i : stepinfo) : R := 2 * (f (proposal i) - f (i_x i)) / (i_alpha i * i_mu i).
Definition rescaled (r b b' : R) : Prop :=
  (r < 1 / 4 -> b' = Rmin (4 * b) (10 ^ 15)) /\ (1 / 4 <= r <= 3 / 4 -> b' = b) /\ (3 / 4 < r -> b' = Rmax (b / 4) (/ 10 ^ 15)).
(** [follows l p]: the iterations [l] (latest first) follow the method and end at [p]. An accepted step
    moves the point and turns the direction by Polak and Ribiere's formula; as many accepted steps as there
    are dimensions make a restart. A rejected step changes the scale only. *)
Inductive follows (f : vec -> R) (gradf : vec -> vec) (x0 : vec) : list stepinfo -> stand -> Prop :=
| follows_start : follows f gradf x0 [] (mkP x0 (vneg (gradf x0)) 1 0)
| follows_restart : forall l p i b, follows f gradf x0 l p -> taken gradf p i b -> accepted f i -> S (p_count p) = length x0 -> i_beta i = 1 ->
    follows f gradf x0 (i :: l) (mkP (proposal i) (vneg (gradf (proposal i))) 1 0)
| follows_yes : forall l p i b, follows f gradf x0 l p -> taken gradf p i b -> accepted f i -> S (p_count p) <> length x0 -> rescaled (ratio f i) b (i_beta i) ->
    let g := gradf (proposal i) in
    follows f gradf x0 (i :: l) (mkP (proposal i) (vsub (vscale (dot (vsub (gradf (i_x i)) g) g / i_mu i) (i_d i)) g) (i_beta i) (S (p_count p)))
| follows_no : forall l p i b, follows f gradf x0 l p -> taken gradf p i b -> ~ accepted f i -> rescaled (ratio f i) b (i_beta i) ->
    follows f gradf x0 (i :: l) (mkP (i_x i) (i_d i) (i_beta i) (p_count p)).
