(** Properties C21-C26: transformations, over the reals. *)
From Coq Require Import Reals Lra.
From Verif Require Import TransformModel TransformSpec TransformProofs TransformProofs2.
Open Scope R_scope.

(** C21. *)
Theorem C21_domains : maps_into Logexp (fun y => 0 < y) /\ maps_into Exponent (fun y => 0 < y) /\
  maps_into Square (fun y => 0 <= y) /\ maps_into NegativeLogexp (fun y => y < 0) /\
  maps_into NegativeExponent (fun y => y < 0) /\
  (forall l u, l < u -> maps_into (Logistic l u) (fun y => l < y < u)).
Proof. exact domains. Qed.
Print Assumptions C21_domains.
Example C21_example : -1 < 2 /\ t_f (Logistic (-1) 2) 0 = 1 / 2.
Proof. split; [lra|]. simpl. rewrite logistic_f_in by lra. rewrite Ropp_0, exp_0. lra. Qed.

(** C22. [logexp_range x] is [-L <= x <= ln(e^36-1)] or [36 < x], L = log of the largest float. *)
Theorem C22_logexp : finv_undoes_f Logexp logexp_range.
Proof. exact logexp_rt. Qed.
Print Assumptions C22_logexp.
Theorem C22_neglogexp : finv_undoes_f NegativeLogexp logexp_range.
Proof. exact neglogexp_rt. Qed.
Print Assumptions C22_neglogexp.
Theorem C22_logexp_gap_error : forall t, t = Logexp \/ t = NegativeLogexp ->
  forall x, ln (exp 36 - 1) < x <= 36 ->
  exists r, t_finv t (t_f t x) = Fin r /\ 0 < r - x <= exp (- x).
Proof. exact logexp_rt_gap. Qed.
Print Assumptions C22_logexp_gap_error.
Theorem C22_logexp_below : forall t, t = Logexp \/ t = NegativeLogexp ->
  forall x, x <= - log_max -> t_finv t (t_f t x) = Fin (- log_max).
Proof. exact logexp_rt_low. Qed.
Print Assumptions C22_logexp_below.
Theorem C22_exponent : finv_undoes_f Exponent (fun x => - 36 <= x <= 36).
Proof. exact exponent_rt. Qed.
Print Assumptions C22_exponent.
Theorem C22_exponent_all : forall x, t_finv Exponent (t_f Exponent x) = Fin (Rmin (Rmax x (- 36)) 36).
Proof. exact exponent_finv_f. Qed.
Print Assumptions C22_exponent_all.
Theorem C22_square : finv_undoes_f Square (fun x => 0 <= x).
Proof. exact square_rt. Qed.
Print Assumptions C22_square.
Theorem C22_square_all : forall x, t_finv Square (t_f Square x) = Fin (Rabs x).
Proof. exact square_finv_f. Qed.
Print Assumptions C22_square_all.
Theorem C22_logistic : forall l u, l < u -> finv_undoes_f (Logistic l u) (fun x =>
  - 300 <= x /\ / 10 ^ 10 <= (u - l) / (1 + exp (- x)) /\ / 10 ^ 10 <= (u - l) / (1 + exp x)).
Proof. exact logistic_rt. Qed.
Print Assumptions C22_logistic.
(** NegativeExponent.finv has the wrong sign: finv(f(x)) = -x. *)
Theorem C22_negexponent_refuted : exists x, - 36 <= x <= 36 /\
  t_finv NegativeExponent (t_f NegativeExponent x) <> Fin x.
Proof. exact negexponent_rt_bad. Qed.
Print Assumptions C22_negexponent_refuted.
Example C22_example : logexp_range 0 /\ logexp_range 40 /\
  (- 300 <= 0 /\ / 10 ^ 10 <= (1 - 0) / (1 + exp (- 0)) /\ / 10 ^ 10 <= (1 - 0) / (1 + exp 0)).
Proof.
  pose proof log_lim_big as Hl. change log_lim_val with log_max in Hl. pose proof exp36_big. split.
  - left. split; [lra|]. rewrite <- ln_1. apply ln_le_iff; lra.
  - split; [right; lra|]. rewrite Ropp_0, exp_0.
    assert (/ 10 ^ 10 <= 1 / 2) by (simpl; lra). lra.
Qed.
Example C22_gap_example : ln (exp 36 - 1) < 36 <= 36.
Proof. pose proof gap_lt36. lra. Qed.

(** C23. *)
Theorem C23_logexp : f_undoes_finv Logexp (fun y => ln (1 + exp (- log_max)) <= y).
Proof. exact logexp_back. Qed.
Print Assumptions C23_logexp.
Theorem C23_neglogexp : f_undoes_finv NegativeLogexp (fun y => y <= - ln (1 + exp (- log_max))).
Proof. exact neglogexp_back. Qed.
Print Assumptions C23_neglogexp.
Theorem C23_exponent : f_undoes_finv Exponent (fun y => exp (- 36) <= y <= exp 36).
Proof. exact exponent_back. Qed.
Print Assumptions C23_exponent.
Theorem C23_square : f_undoes_finv Square (fun y => 0 <= y).
Proof. exact square_back. Qed.
Print Assumptions C23_square.
Theorem C23_logistic : forall l u, l < u -> f_undoes_finv (Logistic l u) (fun y =>
  l + / 10 ^ 10 <= y <= u - / 10 ^ 10 /\ exp (- 300) * (u - y) <= y - l).
Proof. exact logistic_back. Qed.
Print Assumptions C23_logistic.
(** f(finv(y)) = 1/y for NegativeExponent. *)
Theorem C23_negexponent_refuted : exists y, - exp 36 <= y <= - exp (- 36) /\
  exists x, t_finv NegativeExponent y = Fin x /\ t_f NegativeExponent x <> y.
Proof. exact negexponent_back_bad. Qed.
Print Assumptions C23_negexponent_refuted.
(** A parameter that is 0 when it is constrained to be positive stays 0 (initialize keeps it), has
    the optimizer value -inf and becomes positive when that is set back. *)
Theorem C23_zero_refuted : t_init Logexp 0 = 0 /\ t_finv Logexp 0 = NInf /\ logexp_f_ext NInf <> Fin 0 /\
  t_init Exponent 0 = 0 /\ t_finv Exponent 0 = NInf /\ exponent_f_ext NInf <> Fin 0.
Proof. exact zero_moves. Qed.
Print Assumptions C23_zero_refuted.
Example C23_example : exp (- 36) <= 1 <= exp 36 /\ (0 + / 10 ^ 10 <= 1 / 2 <= 1 - / 10 ^ 10 /\
  exp (- 300) * (1 - 1 / 2) <= 1 / 2 - 0).
Proof.
  pose proof exp36_big. pose proof (exp_increasing (- 36) 0 ltac:(lra)).
  pose proof (exp_increasing (- 300) 0 ltac:(lra)). rewrite exp_0 in *.
  assert (/ 10 ^ 10 <= 1 / 4) by (simpl; lra). lra.
Qed.

(** C24. *)
Theorem C24_logexp : chain_rule Logexp (fun x => - log_max < x <= ln (exp 36 - 1) \/ 36 < x).
Proof. exact logexp_cr. Qed.
Print Assumptions C24_logexp.
Theorem C24_logexp_gap_error : forall x dL, ln (exp 36 - 1) < x < 36 ->
  exists d g, derivable_pt_lim (t_f Logexp) x d /\ t_gf Logexp (t_f Logexp x) dL = Fin g /\
    Rabs (g - dL * d) <= Rabs dL * exp (- x).
Proof. exact logexp_cr_gap. Qed.
Print Assumptions C24_logexp_gap_error.
Theorem C24_logexp_below_error : forall x dL, x < - log_max ->
  exists d g, derivable_pt_lim (t_f Logexp) x d /\ t_gf Logexp (t_f Logexp x) dL = Fin g /\
    Rabs (g - dL * d) <= Rabs dL * exp (- log_max).
Proof. exact logexp_cr_low. Qed.
Print Assumptions C24_logexp_below_error.
Theorem C24_neglogexp : chain_rule NegativeLogexp (fun x => - log_max < x <= ln (exp 36 - 1) \/ 36 < x).
Proof. exact neglogexp_cr. Qed.
Print Assumptions C24_neglogexp.
Theorem C24_exponent : chain_rule Exponent (fun x => - 36 < x < 36).
Proof. exact exponent_cr. Qed.
Print Assumptions C24_exponent.
Theorem C24_square : chain_rule Square (fun x => 0 <= x).
Proof. exact square_cr. Qed.
Print Assumptions C24_square.
Theorem C24_logistic : forall l u, l < u -> chain_rule (Logistic l u) (fun x => - 300 < x).
Proof. exact logistic_cr. Qed.
Print Assumptions C24_logistic.
(** Wrong sign everywhere. *)
Theorem C24_negexponent_refuted : forall x dL, - 36 < x < 36 -> dL <> 0 ->
  ~ exists d, derivable_pt_lim (t_f NegativeExponent) x d /\
      t_gf NegativeExponent (t_f NegativeExponent x) dL = Fin (dL * d).
Proof. exact negexponent_cr_bad. Qed.
Print Assumptions C24_negexponent_refuted.
(** Outside the clipping limits f is constant but gradfactor does not vanish. *)
Theorem C24_exponent_outside_refuted : forall x dL, x < - 36 \/ 36 < x -> dL <> 0 ->
  ~ exists d, derivable_pt_lim (t_f Exponent) x d /\ t_gf Exponent (t_f Exponent x) dL = Fin (dL * d).
Proof. exact exponent_cr_bad. Qed.
Print Assumptions C24_exponent_outside_refuted.
(** Negative optimizer values: wrong sign. *)
Theorem C24_square_negative_refuted : forall x dL, x < 0 -> dL <> 0 ->
  ~ exists d, derivable_pt_lim (t_f Square) x d /\ t_gf Square (t_f Square x) dL = Fin (dL * d).
Proof. exact square_cr_bad. Qed.
Print Assumptions C24_square_negative_refuted.
Example C24_example : - log_max < 0 <= ln (exp 36 - 1) /\ (- 36 < 0 < 36 /\ 1 <> 0).
Proof.
  pose proof log_lim_big as Hl. change log_lim_val with log_max in Hl. pose proof exp36_big. split; [|lra]. split; [lra|].
  rewrite <- ln_1. apply ln_le_iff; lra.
Qed.

(** C25. *)
Theorem C25_initialize : init_ok Logexp (fun y => 0 <= y) /\ init_ok Exponent (fun y => 0 <= y) /\
  init_ok Square (fun y => 0 <= y) /\ init_ok NegativeLogexp (fun y => y <= 0) /\
  init_ok NegativeExponent (fun y => y <= 0) /\
  (forall l u, l < u -> init_ok (Logistic l u) (fun y => l <= y <= u)).
Proof. exact inits. Qed.
Print Assumptions C25_initialize.
Theorem C25_logistic_midpoint : forall l u y, l < u -> y < l \/ u < y ->
  t_init (Logistic l u) y = (l + u) / 2.
Proof. exact init_outside. Qed.
Print Assumptions C25_logistic_midpoint.
Example C25_example : 0 < 1 /\ (5 < 0 \/ 1 < 5) /\ t_init (Logistic 0 1) 5 = 1 / 2.
Proof. split; [lra|]. split; [lra|]. rewrite C25_logistic_midpoint; lra. Qed.

(** C26. *)
Theorem C26_logexp : jac_ok Logexp (fun x => - log_max < x <= ln (exp 36 - 1) \/ 36 < x).
Proof. exact logexp_j. Qed.
Print Assumptions C26_logexp.
Theorem C26_exponent : jac_ok Exponent (fun x => - 36 < x < 36).
Proof. exact exponent_j. Qed.
Print Assumptions C26_exponent.
Theorem C26_logexp_grad : jacgrad_ok Logexp (fun y => 0 < y < 36).
Proof. exact logexp_jg. Qed.
Print Assumptions C26_logexp_grad.
Theorem C26_exponent_grad : jacgrad_ok Exponent (fun y => 0 < y).
Proof. exact exponent_jg. Qed.
Print Assumptions C26_exponent_grad.
(** NegativeExponent inherits log(model_param), the log of a negative number. *)
Theorem C26_negexponent_refuted : forall x, t_jac NegativeExponent (t_f NegativeExponent x) = NaN.
Proof. exact negexponent_j_bad. Qed.
Print Assumptions C26_negexponent_refuted.
(** Above 36 log_jacobian is 0 but log_jacobian_grad is not. *)
Theorem C26_logexp_grad_above_refuted : forall y, 36 < y -> ~ exists (j : R -> R) (e g : R),
    0 < e /\ (forall z, Rabs (z - y) < e -> t_jac Logexp z = Fin (j z)) /\
    derivable_pt_lim j y g /\ t_jacgrad Logexp y = Fin g.
Proof. exact logexp_jg_bad. Qed.
Print Assumptions C26_logexp_grad_above_refuted.
(** Square, NegativeLogexp and Logistic have the default 0. *)
Theorem C26_default_refuted : (exists x d, derivable_pt_lim (t_f Square) x d /\ 0 < d /\
    t_jac Square (t_f Square x) <> Fin (ln (Rabs d))) /\
  (exists x d, derivable_pt_lim (t_f NegativeLogexp) x d /\ d < 0 /\
    t_jac NegativeLogexp (t_f NegativeLogexp x) <> Fin (ln (Rabs d))) /\
  (exists x d, derivable_pt_lim (t_f (Logistic 0 1)) x d /\ 0 < d /\
    t_jac (Logistic 0 1) (t_f (Logistic 0 1) x) <> Fin (ln (Rabs d))).
Proof. exact default_j_bad. Qed.
Print Assumptions C26_default_refuted.
Example C26_example : 0 < 1 < 36 /\ - 36 < 1 < 36 /\ 36 < 40.
Proof. lra. Qed.
