(** Vocabulary for the properties of transformations (C21-C26): a transformation seen from
    outside, and what is expected of its methods. *)
From Coq Require Import Reals.
From Verif Require Import TransformModel.
Open Scope R_scope.

(** The six methods of a transformation object that a user or the hierarchy calls, on one element.
    [gf x dL], [jac] and [jacgrad] may be infinite or nan. *)
Record transf : Type := mkT {
  t_f : R -> R; t_finv : R -> ext; t_gf : R -> R -> ext; t_init : R -> R;
  t_jac : R -> ext; t_jacgrad : R -> ext }.

(** The classes; transformations.py:105-218. *)
Definition Logexp := mkT logexp_f logexp_finv (fun f d => Fin (logexp_gradfactor f d))
  logexp_initialize logexp_log_jacobian logexp_log_jacobian_grad.
Definition Exponent := mkT exponent_f exponent_finv (fun f d => Fin (exponent_gradfactor f d))
  exponent_initialize exponent_log_jacobian exponent_log_jacobian_grad.
Definition NegativeLogexp := mkT neglogexp_f neglogexp_finv (fun f d => Fin (neglogexp_gradfactor f d))
  neglogexp_initialize default_log_jacobian default_log_jacobian_grad.
Definition NegativeExponent := mkT negexponent_f negexponent_finv (fun f d => Fin (negexponent_gradfactor f d))
  negexponent_initialize negexponent_log_jacobian negexponent_log_jacobian_grad.
Definition Square := mkT square_f square_finv square_gradfactor
  square_initialize default_log_jacobian default_log_jacobian_grad.
Definition Logistic (l u : R) := mkT (logistic_f l u) (logistic_finv l u)
  (fun f d => Fin (logistic_gradfactor l u f d)) (logistic_initialize l u)
  default_log_jacobian default_log_jacobian_grad.

(** every optimizer value is mapped into [D] *)
Definition maps_into (t : transf) (D : R -> Prop) : Prop := forall x, D (t_f t x).
(** finv(f(x)) = x on [W] *)
Definition finv_undoes_f (t : transf) (W : R -> Prop) : Prop :=
  forall x, W x -> t_finv t (t_f t x) = Fin x.
(** f(finv(y)) = y on [W] *)
Definition f_undoes_finv (t : transf) (W : R -> Prop) : Prop :=
  forall y, W y -> exists x, t_finv t y = Fin x /\ t_f t x = y.
(** gradfactor(f(x), dL) = dL * f'(x) on [W]; derivatives are unique, so [d] is the derivative *)
Definition chain_rule (t : transf) (W : R -> Prop) : Prop :=
  forall x dL, W x -> exists d, derivable_pt_lim (t_f t) x d /\ t_gf t (t_f t x) dL = Fin (dL * d).
(** initialize ends in [D], leaves [D] alone and is idempotent *)
Definition init_ok (t : transf) (D : R -> Prop) : Prop :=
  (forall y, D (t_init t y)) /\ (forall y, D y -> t_init t y = y) /\
  (forall y, t_init t (t_init t y) = t_init t y).
(** log_jacobian(f(x)) = log |f'(x)| on [W] *)
Definition jac_ok (t : transf) (W : R -> Prop) : Prop :=
  forall x, W x -> exists d, derivable_pt_lim (t_f t) x d /\ d <> 0 /\ t_jac t (t_f t x) = Fin (ln (Rabs d)).
(** log_jacobian_grad is the derivative of log_jacobian on [W], where log_jacobian is finite nearby
    (it is given there by the real function [j]) *)
Definition jacgrad_ok (t : transf) (W : R -> Prop) : Prop :=
  forall y, W y -> exists (j : R -> R) (e g : R),
    0 < e /\ (forall z, Rabs (z - y) < e -> t_jac t z = Fin (j z)) /\
    derivable_pt_lim j y g /\ t_jacgrad t y = Fin g.

(** The logarithm of the largest float64, below which (with a minus) Logexp does not tell its arguments apart. *)
Definition log_max : R := ln ((2 - / 2 ^ 52) * 2 ^ 1023).
(** Where undoing Logexp is exact: not in the gap below 36, and not below the limit. *)
Definition logexp_range (x : R) : Prop := - log_max <= x <= ln (exp 36 - 1) \/ 36 < x.
