(** Model of /repo/paramz/transformations.py:40-220 (the numerical methods of the classes).

    All methods act element by element on arrays; they are modelled for one element.
    Floating point numbers are replaced by reals (no rounding); results of log, sqrt and division,
    which in numpy can be infinite or nan, are in the extended type [ext], so that Coq's total [ln]
    and [/] cannot hide an error. Warnings logged by [initialize] and [log_jacobian] are left out. *)
From Coq Require Import Reals.
Open Scope R_scope.

Inductive ext : Type := Fin (r : R) | PInf | NInf | NaN.

(** numpy's log, sqrt, division on finite arguments. *)
Definition np_log (r : R) : ext :=
  if Rlt_dec 0 r then Fin (ln r) else if Req_EM_T r 0 then NInf else NaN.
Definition np_sqrt (r : R) : ext := if Rle_dec 0 r then Fin (sqrt r) else NaN.
Definition np_div (a b : R) : ext :=
  if Req_EM_T b 0 then
    if Rlt_dec 0 a then PInf else if Rlt_dec a 0 then NInf else NaN
  else Fin (a / b).
Definition ext_neg (e : ext) : ext :=
  match e with Fin r => Fin (- r) | PInf => NInf | NInf => PInf | NaN => NaN end.
(** finite multiple / shift of an extended number (factor used here is never 0 * inf: if it is,
    the result is nan). *)
Definition ext_sub (e : ext) (r : R) : ext := match e with Fin x => Fin (x - r) | x => x end.
Definition ext_scale (a : R) (e : ext) : ext :=
  match e with
  | Fin x => Fin (a * x)
  | NaN => NaN
  | PInf => if Rlt_dec 0 a then PInf else if Rlt_dec a 0 then NInf else NaN
  | NInf => if Rlt_dec 0 a then NInf else if Rlt_dec a 0 then PInf else NaN
  end.
Definition expm1 (x : R) : R := exp x - 1.
(** log1p(x) = log(1+x); only used with x > -1. *)
Definition log1p (x : R) : R := ln (1 + x).
Definition clip (x lo hi : R) : R := Rmin (Rmax x lo) hi.

(** [_lim_val], [np.finfo(np.float64).max], [_log_lim_val]; transformations.py:40-42. *)
Definition lim_val : R := 36.
Definition float_max : R := (2 - / 2 ^ 52) * 2 ^ 1023.
Definition log_lim_val : R := ln float_max.

(** Logexp; transformations.py:105-121. *)
Definition logexp_f (x : R) : R :=
  if Rlt_dec lim_val x then x else log1p (exp (clip x (- log_lim_val) lim_val)).
(** the same on a possibly infinite argument: np.clip maps -inf to the lower limit. *)
Definition logexp_f_ext (x : ext) : ext :=
  match x with
  | Fin r => Fin (logexp_f r)
  | PInf => PInf
  | NInf => Fin (log1p (exp (- log_lim_val)))
  | NaN => NaN
  end.
Definition logexp_finv (f : R) : ext :=
  if Rlt_dec lim_val f then Fin f else np_log (expm1 f).
Definition logexp_gradfactor (f df : R) : R :=
  df * (if Rlt_dec lim_val f then 1 else - expm1 (- f)).
Definition logexp_initialize (f : R) : R := Rabs f.
Definition logexp_log_jacobian (y : R) : ext :=
  ext_sub (if Rlt_dec lim_val y then Fin y else np_log (expm1 y)) y.
Definition logexp_log_jacobian_grad (y : R) : ext := np_div 1 (expm1 y).

(** Exponent; transformations.py:125-140. *)
Definition exponent_f (x : R) : R :=
  if Rlt_dec x lim_val then
    if Rlt_dec (- lim_val) x then exp x else exp (- lim_val)
  else exp lim_val.
Definition exponent_f_ext (x : ext) : ext :=
  match x with
  | Fin r => Fin (exponent_f r)
  | PInf => Fin (exp lim_val)
  | NInf => Fin (exp (- lim_val))
  | NaN => Fin (exp lim_val)   (* nan < _lim_val is False *)
  end.
Definition exponent_finv (x : R) : ext := np_log x.
Definition exponent_gradfactor (f df : R) : R := df * f.
Definition exponent_initialize (f : R) : R := Rabs f.
Definition exponent_log_jacobian (y : R) : ext := np_log y.
Definition exponent_log_jacobian_grad (y : R) : ext := np_div 1 y.

(** NegativeLogexp; transformations.py:144-154. log_jacobian and its gradient are those of
    Transformation (lines 64-75): 0. *)
Definition neglogexp_f (x : R) : R := - logexp_f x.
Definition neglogexp_finv (f : R) : ext := logexp_finv (- f).
Definition neglogexp_gradfactor (f df : R) : R := logexp_gradfactor (- f) (- df).
Definition neglogexp_initialize (f : R) : R := - logexp_initialize (- f).
Definition default_log_jacobian (y : R) : ext := Fin 0.
Definition default_log_jacobian_grad (y : R) : ext := Fin 0.

(** NegativeExponent, a subclass of Exponent; transformations.py:158-167. log_jacobian and its
    gradient are inherited from Exponent. *)
Definition negexponent_f (x : R) : R := - exponent_f x.
Definition negexponent_finv (f : R) : ext := ext_neg (exponent_finv (- f)).
Definition negexponent_gradfactor (f df : R) : R := - exponent_gradfactor f df.
Definition negexponent_initialize (f : R) : R := - exponent_initialize f.
Definition negexponent_log_jacobian (y : R) : ext := exponent_log_jacobian y.
Definition negexponent_log_jacobian_grad (y : R) : ext := exponent_log_jacobian_grad y.

(** Square; transformations.py:171-180. *)
Definition square_f (x : R) : R := x ^ 2.
Definition square_finv (x : R) : ext := np_sqrt x.
Definition square_gradfactor (f df : R) : ext := ext_scale (df * 2) (np_sqrt f).
Definition square_initialize (f : R) : R := Rabs f.

(** Logistic(lower, upper); transformations.py:200-218. *)
Definition logistic_f (lower upper x : R) : R :=
  let x := if Rlt_dec x (- 300) then - 300 else x in
  lower + (upper - lower) / (1 + exp (- x)).
Definition clip_lo (x lo : R) : R := Rmax x lo.
Definition tiny : R := / 10 ^ 10.
Definition logistic_finv (lower upper f : R) : ext :=
  np_log (clip_lo (f - lower) tiny / clip_lo (upper - f) tiny).
Definition logistic_gradfactor (lower upper f df : R) : R :=
  df * ((f - lower) * (upper - f) / (upper - lower)).
Definition logistic_initialize (lower upper f : R) : R :=
  if Rlt_dec f lower then logistic_f lower upper 0
  else if Rlt_dec upper f then logistic_f lower upper 0 else f.
