(** Property theorems about the scaled conjugate gradient optimizer (C52-C54, C64). *)
From Coq Require Import List Reals Lra Arith Sorting.Sorted.
From Verif Require Import ScgModel ScgSpec ScgProofs ScgTrace ScgEx.
Import ListNotations.
Open Scope R_scope.

(** C52: the log never increases, starts with the objective at the start and ends with the objective
    at the returned point. *)
Theorem C52_monotone : forall f gradf xtol ftol gtol x0 n m,
  grad_dim gradf -> 0 <= gtol -> nonzero (gradf x0) ->
  exists r, SCG f gradf xtol ftol gtol x0 n m = Some r /\
    non_increasing (r_flog r) /\ hd_error (r_flog r) = Some (f x0) /\
    (exists l, r_flog r = l ++ [f (r_x r)]) /\ f (r_x r) <= f x0.
Proof. exact scg_monotone. Qed.
Print Assumptions C52_monotone.
Example C52_example : grad_dim pg /\ 0 <= / 10 ^ 5 /\ nonzero (pg [1]) /\
  exists s, SCG pf pg (/ 10 ^ 6) (/ 10 ^ 6) (/ 10 ^ 5) [1] 1 100 = Some (s, MaxIter) /\ flog s = [1/2; 1/8].
Proof.
  split; [exact pg_dim|]. split; [lra|]. split; [exact pg_nonzero|].
  destruct (p_run 100) as (s & H & _ & H2 & _). exists s. auto.
Qed.

(** C53: one log entry per iteration plus the initial one, at most [maxiters] iterations, and the
    reported number of evaluations is the number made, at most 2 + 3 maxiters. *)
Theorem C53_budget : forall f gradf xtol ftol gtol x0 n m,
  grad_dim gradf -> 0 <= gtol -> nonzero (gradf x0) ->
  exists r, SCG f gradf xtol ftol gtol x0 n m = Some r /\
    length (r_flog r) = S (length (steps (fst r))) /\ (length (steps (fst r)) <= n)%nat /\
    r_evals r = length (calls (fst r)) /\ (r_evals r <= 2 + 3 * n)%nat.
Proof. exact scg_budget. Qed.
Print Assumptions C53_budget.
(** 'maxiter exceeded' is reported iff no convergence test held after any iteration (and then all
    iterations were made); otherwise the test named in the status held after the last iteration
    and none held before. *)
Theorem C53_status : forall f gradf xtol ftol gtol x0 n m,
  grad_dim gradf -> 0 <= gtol -> nonzero (gradf x0) ->
  exists r, SCG f gradf xtol ftol gtol x0 n m = Some r /\
    (r_status r = MaxIter <-> Forall (fun i => ~ fired f gradf xtol ftol gtol i) (steps (fst r))) /\
    Forall (fun i => ~ fired f gradf xtol ftol gtol i) (tl (steps (fst r))) /\
    match r_status r with
    | ConvObjective => exists l a, r_flog r = l ++ [a; f (r_x r)] /\ Rabs (f (r_x r) - a) < ftol
    | ConvStep => exists i l, steps (fst r) = i :: l /\ r_x r = proposal i /\
                              maxabs (vscale (i_alpha i) (i_d i)) < xtol
    | ConvGradient => dot (gradf (r_x r)) (gradf (r_x r)) <= gtol
    | MaxIter => length (steps (fst r)) = n
    end.
Proof. exact scg_status. Qed.
Print Assumptions C53_status.
Example C53_example : exists s i, SCG pf pg (/ 10 ^ 6) (/ 10 ^ 6) (/ 10 ^ 5) [1] 1 100 = Some (s, MaxIter) /\
  fevals s = 5%nat /\ steps s = [i].
Proof. destruct (p_run 100) as (s & H & _ & _ & H2 & i & H3). exists s, i. auto. Qed.

(** C54: the run never divides by zero (it has a result); in every iteration the direction is one of
    descent, the curvature and the step size are positive and the scale is at least its lower
    bound; the iterate moves to a proposal iff that does not increase the objective, and the log
    holds the objective along this path. *)
Theorem C54_steps : forall f gradf xtol ftol gtol x0 n m,
  grad_dim gradf -> 0 <= gtol -> nonzero (gradf x0) ->
  exists r, SCG f gradf xtol ftol gtol x0 n m = Some r /\
    Forall (fun i => dot (i_d i) (gradf (i_x i)) = i_mu i /\ i_mu i < 0 /\ 0 < i_delta i /\
                     i_alpha i = - i_mu i / i_delta i /\ 0 < i_alpha i /\ betamin <= i_beta i)
           (steps (fst r)) /\
    path f x0 (steps (fst r)) (r_x r) /\ values f x0 (steps (fst r)) (r_flog r).
Proof. exact scg_steps. Qed.
Print Assumptions C54_steps.
Example C54_example : exists s i, SCG pf pg (/ 10 ^ 6) (/ 10 ^ 6) (/ 10 ^ 5) [1] 1 100 = Some (s, MaxIter) /\
  x s = [1/2] /\ steps s = [i].
Proof. destruct (p_run 100) as (s & H & H1 & _ & _ & i & H3). exists s, i. auto. Qed.
(** The upper bound of the scale is not kept: lines 105-107 raise it without a bound. The objective
    is a quadratic and its true gradient is passed. *)
Theorem C54_scale_bound_refuted : exists f gradf x0 n r i,
  grad_dim gradf /\ nonzero (gradf x0) /\
  (forall a b, derivable_pt_lim (fun t => f [t; b]) a (nth 0 (gradf [a; b]) 0) /\
               derivable_pt_lim (fun t => f [a; t]) b (nth 1 (gradf [a; b]) 0)) /\
  SCG f gradf (/ 10 ^ 6) (/ 10 ^ 6) (/ 10 ^ 5) x0 n n = Some r /\ In i (steps (fst r)) /\ betamax < i_beta i.
Proof. exact scale_bound_bad. Qed.
Print Assumptions C54_scale_bound_refuted.
(** Started where the gradient is zero, the first iteration divides by zero. *)
Theorem C54_zero_gradient_refuted : forall f gradf xtol ftol gtol x0 n m, ~ nonzero (gradf x0) ->
  SCG f gradf xtol ftol gtol x0 (S n) m = None.
Proof. exact scg_zero_gradient. Qed.
Print Assumptions C54_zero_gradient_refuted.
Example C54_zero_gradient_example : ~ nonzero (pg [0]).
Proof. intros (a & [<- | []] & H). apply H. reflexivity. Qed.

(** C64: the limit on evaluations is ignored: here the two initial evaluations use it up and the
    run makes five. *)
Theorem C64_evaluation_limit_refuted : exists f gradf x0 n m r,
  grad_dim gradf /\ nonzero (gradf x0) /\
  SCG f gradf (/ 10 ^ 6) (/ 10 ^ 6) (/ 10 ^ 5) x0 n m = Some r /\ m = 2%nat /\ r_evals r = 5%nat.
Proof. exact evaluation_limit_bad. Qed.
Print Assumptions C64_evaluation_limit_refuted.

(** C126: the iterations are those of the method, whatever objective and gradient: direction, curvature,
    scale and restarts follow from the iterations before. A run that converged ends with a step of the
    method that was accepted. *)
Theorem C126_method : forall f gradf xtol ftol gtol x0 n m,
  grad_dim gradf -> 0 <= gtol -> nonzero (gradf x0) ->
  exists r, SCG f gradf xtol ftol gtol x0 n m = Some r /\
    (r_status r = MaxIter -> exists p, follows f gradf x0 (steps (fst r)) p /\ r_x r = p_x p) /\
    (r_status r <> MaxIter -> exists i l p b, steps (fst r) = i :: l /\ follows f gradf x0 l p /\ taken gradf p i b /\ accepted f i /\ r_x r = proposal i).
Proof. exact scg_method. Qed.
Print Assumptions C126_method.
(** The arithmetic on vectors is the usual one. *)
Theorem C126_vectors : forall a b k, length a = length b ->
  (forall j, (j < length a)%nat -> nth j (vadd a b) 0 = nth j a 0 + nth j b 0 /\ nth j (vsub a b) 0 = nth j a 0 - nth j b 0 /\
    nth j (vscale k a) 0 = k * nth j a 0 /\ nth j (vneg a) 0 = - nth j a 0 /\ Rabs (nth j a 0) <= maxabs a) /\
  (a <> [] -> exists j, (j < length a)%nat /\ maxabs a = Rabs (nth j a 0)) /\
  dot a b = fold_right Rplus 0 (map (fun j => nth j a 0 * nth j b 0) (seq 0 (length a))).
Proof. exact vectors_ok. Qed.
Print Assumptions C126_vectors.
Example C126_example : grad_dim pg /\ 0 <= / 10 ^ 5 /\ nonzero (pg [1]) /\ length [1; 2] = length [3; 4] /\
  exists s, SCG pf pg (/ 10 ^ 6) (/ 10 ^ 6) (/ 10 ^ 5) [1] 1 100 = Some (s, MaxIter) /\ length (steps s) = 1%nat.
Proof.
  split; [exact pg_dim|]. split; [lra|]. split; [exact pg_nonzero|]. split; [reflexivity|].
  destruct (p_run 100) as (s & H & _ & _ & _ & i & H3). exists s. split; [exact H | rewrite H3; reflexivity].
Qed.
