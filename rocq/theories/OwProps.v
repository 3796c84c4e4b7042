(** Property theorems about arrays that pass between a model and the optimizer (C95 to C98). *)
From Coq Require Import List Reals Bool Arith.
From Verif Require Import ScgModel ScgSpec OwModel OwSpec OwLast OwEx.
Import ListNotations.
Open Scope R_scope.

(** ** C95 *)
(** If some element is fixed, SCG on a model returns what it returns on the functions the model computes.
    The full claim has no such hypothesis. *)
Theorem C95_refines_partial : forall E obj raw xtol ftol gtol p w pts grs x n m, oreach E obj raw xtol ftol gtol p w pts grs -> some_fixed E -> In x pts ->
  returned (scg E obj raw xtol ftol gtol w x n) = returned_by (SCG (objective_at E obj raw w) (gradient_at E raw w) xtol ftol gtol (cells w x) n m).
Proof. exact refines_final. Qed.
Print Assumptions C95_refines_partial.
Example C95_example : oreach E2 steep steep_grad tol6 tol6 tol5 [1; 7] w2_read [2%nat] [] /\ some_fixed E2 /\ cells w2_read 2 = [1] /\
  exists l n stat, returned (scg E2 steep steep_grad tol6 tol6 tol5 w2_read 2 1) = Some ([1 / 101], l, n, stat).
Proof. exact ex_refines. Qed.
(** If nothing is fixed it can fail: for [50 x^2] and one iteration, SCG stays where it started on the model, and goes
    from [1] to [1/101] on the same objective and gradient given as functions. *)
Theorem C95_refines_refuted : exists E obj raw p w pts grs ix n l1 n1 s1 l2 n2 s2, oreach E obj raw tol6 tol6 tol5 p w pts grs /\ shaped E raw p /\ In ix pts /\
  (forall a, derivable_pt_lim (fun t => obj [t]) a (hd 0 (raw [a]))) /\
  returned (scg E obj raw tol6 tol6 tol5 w ix n) = Some ([1], l1, n1, s1) /\
  returned_by (SCG (objective_at E obj raw w) (gradient_at E raw w) tol6 tol6 tol5 (cells w ix) n n) = Some ([1 / 101], l2, n2, s2).
Proof. exact refines_refuted. Qed.
Print Assumptions C95_refines_refuted.

(** ** C96 *)
(** SCG on a model, whether or not something is fixed: it ends, its log starts at the objective of the start, never
    rises and ends at the objective of what is returned; the steps, the values and the counts are what they claim to be. *)
Theorem C96_run : forall E obj raw xtol ftol gtol p w pts grs x n, oreach E obj raw xtol ftol gtol p w pts grs -> shaped E raw p -> In x pts ->
  length (cells w x) = nfree E -> 0 <= gtol -> nonzero (gradient_at E raw w (cells w x)) ->
  exists w' l stat, scg E obj raw xtol ftol gtol w x n = Some (w', l, stat) /\
    non_increasing (llog l) /\ hd_error (llog l) = Some (objective_at E obj raw w (cells w x)) /\
    (exists k, llog l = k ++ [objective_at E obj raw w (cells w' (lx l))]) /\
    objective_at E obj raw w (cells w' (lx l)) <= objective_at E obj raw w (cells w x) /\
    (length (lsteps l) <= n)%nat /\ (made w' = made w + lev l)%nat /\ (lev l <= 2 + 3 * n)%nat /\
    path (objective_at E obj raw w) (cells w x) (lsteps l) (cells w' (lx l)) /\
    values (objective_at E obj raw w) (cells w x) (lsteps l) (llog l) /\
    (* if nothing is fixed, every step goes along the negative gradient, by [1/b] with [b] in the range of beta *)
    (~ some_fixed E -> Forall (fun i => exists b, betamin <= b <= betamax /\ i_d i = vneg (gradient_at E raw w (i_x i)) /\ i_alpha i = / b) (lsteps l)).
Proof. exact run_final. Qed.
Print Assumptions C96_run.
Example C96_example :
  oreach E1 steep steep_grad tol6 tol6 tol5 [1] w1_read [1%nat] [] /\ shaped E1 steep_grad [1] /\ length (cells w1_read 1) = nfree E1 /\ nonzero (gradient_at E1 steep_grad w1_read (cells w1_read 1)) /\
  oreach E2 steep steep_grad tol6 tol6 tol5 [1; 7] w2_read [2%nat] [] /\ shaped E2 steep_grad [1; 7] /\ length (cells w2_read 2) = nfree E2 /\ nonzero (gradient_at E2 steep_grad w2_read (cells w2_read 2)).
Proof. exact ex_run. Qed.

(** ** C97 *)
(** [m.optimize()] records one run, which starts at the parameters of the model, and leaves the model where the objective
    is the recorded [f_opt]. *)
Theorem C97_optimize : forall E obj raw xtol ftol gtol p w pts grs n runs w' runs', oreach E obj raw xtol ftol gtol p w pts grs -> (exists e, In e E /\ efree e = true) ->
  optimize E obj raw xtol ftol gtol n w runs = Some (w', runs') ->
  exists r pts', runs' = runs ++ [r] /\ oreach E obj raw xtol ftol gtol p w' pts' grs /\ objective_now obj w' = f_opt r /\ f_opt r = objective_at E obj raw w (xend r) /\
    f0 r = objective_at E obj raw w (let (w1, x) := read_array E w in cells w1 x).
Proof. exact optimize_final. Qed.
Print Assumptions C97_optimize.
Example C97_optimize_example : oreach E2 steep steep_grad tol6 tol6 tol5 [1; 7] w2_read [2%nat] [] /\ (exists e, In e E2 /\ efree e = true) /\
  exists w' r, optimize E2 steep steep_grad tol6 tol6 tol5 1 w2_read [] = Some (w', [r]) /\ f_opt r = 50 / 10201 /\ params w' = [1 / 101; 7].
Proof. exact ex_optimize. Qed.
(** [m.optimize_restarts()] records a run more than it draws starts, and if something is fixed or every run improved, it
    leaves the model where the objective is the least recorded. The full claim has no such condition. *)
Theorem C97_restarts_partial : forall E obj raw xtol ftol gtol p w pts grs n draws runs w' runs', oreach E obj raw xtol ftol gtol p w pts grs -> (exists e, In e E /\ efree e = true) ->
  restarts E obj raw xtol ftol gtol n draws w runs = Some (w', runs') ->
  exists new, runs' = runs ++ new /\ length new = S (length draws) /\
    (forall r, In r new -> f_opt r = objective_at E obj raw w (xend r)) /\
    (some_fixed E \/ (forall r, In r new -> f_opt r < f0 r) ->
     exists r, In r new /\ (forall q, In q new -> f_opt r <= f_opt q) /\ objective_now obj w' = f_opt r).
Proof. exact restarts_final. Qed.
Print Assumptions C97_restarts_partial.
Example C97_restarts_example : oreach E2 steep steep_grad tol6 tol6 tol5 [1; 7] w2_read [2%nat] [] /\ (exists e, In e E2 /\ efree e = true) /\ some_fixed E2 /\
  exists w' r1 r2, restarts E2 steep steep_grad tol6 tol6 tol5 1 [[2]] w2_read [] = Some (w', [r1; r2]) /\ f_opt r1 = 50 / 10201 /\ f_opt r2 = 200 / 10201.
Proof. exact ex_restarts. Qed.
(** Without it, the run that is chosen as the best may have kept the array that later runs overwrite. *)
Theorem C97_restarts_refuted : exists E obj raw p w pts grs n draws w' runs r, oreach E obj raw tol6 tol6 tol5 p w pts grs /\ shaped E raw p /\ (exists e, In e E /\ efree e = true) /\
  restarts E obj raw tol6 tol6 tol5 n draws w [] = Some (w', runs) /\ In r runs /\ f_opt r = 50 /\ objective_now obj w' = 200.
Proof. exact restarts_refuted. Qed.
Print Assumptions C97_restarts_refuted.

(** ** C98 *)
(** If some element is fixed, an array that [m.optimizer_array] or the gradient function returned keeps its elements
    unless the user writes into it. The full claim has no such hypothesis. *)
Theorem C98_snapshot_partial : forall E obj raw xtol ftol gtol p w pts grs a w' pts' grs', oreach E obj raw xtol ftol gtol p w pts grs -> some_fixed E -> In a pts \/ In a grs ->
  ohist E obj raw xtol ftol gtol (not_into a) w pts grs w' pts' grs' -> cells w' a = cells w a.
Proof. exact snapshot_final. Qed.
Print Assumptions C98_snapshot_partial.
Example C98_snapshot_example : oreach E2 steep steep_grad tol6 tol6 tol5 [1; 7] w2_read [2%nat] [] /\ some_fixed E2 /\ cells w2_read 2 = [1] /\
  exists w' pts' grs', ohist E2 steep steep_grad tol6 tol6 tol5 (not_into 2) w2_read [2%nat] [] w' pts' grs' /\ params w' = [5; 7].
Proof. exact ex_snapshot. Qed.
(** If nothing is fixed, reading [m.optimizer_array] again changes the array that was returned before. *)
Theorem C98_snapshot_refuted : exists E obj raw p w pts grs a w' pts' grs', oreach E obj raw tol6 tol6 tol5 p w pts grs /\ shaped E raw p /\ In a pts /\
  ohist E obj raw tol6 tol6 tol5 (not_into a) w pts grs w' pts' grs' /\ cells w a = [1] /\ cells w' a = [2].
Proof. exact snapshot_refuted. Qed.
Print Assumptions C98_snapshot_refuted.
(** If some element is fixed, [m.optimizer_array] is what it was last set to, whatever the user does to the arrays. *)
Theorem C98_last_set_partial : forall E obj raw xtol ftol gtol p w pts grs v w2 pts2 grs2 w3 a, oreach E obj raw xtol ftol gtol p w pts grs -> shaped E raw p -> fits E v -> some_fixed E ->
  ohist E obj raw xtol ftol gtol reads_and_edits (set_array E raw w v) pts grs w2 pts2 grs2 -> read_array E w2 = (w3, a) -> cells w3 a = v.
Proof. exact last_set_final. Qed.
Print Assumptions C98_last_set_partial.
Example C98_last_set_example : oreach E2 steep steep_grad tol6 tol6 tol5 [1; 7] w2_read [2%nat] [] /\ shaped E2 steep_grad [1; 7] /\ fits E2 [5] /\ some_fixed E2 /\
  exists w' pts' grs', ohist E2 steep steep_grad tol6 tol6 tol5 reads_and_edits (set_array E2 steep_grad w2_read [5]) [2%nat] [] w' pts' grs' /\ cells w' 3 = [9].
Proof. exact ex_last_set. Qed.
(** With reads only it is so for every model. *)
Theorem C98_last_set_reads_partial : forall E obj raw xtol ftol gtol p w pts grs v w2 pts2 grs2 w3 a, oreach E obj raw xtol ftol gtol p w pts grs -> shaped E raw p -> fits E v ->
  ohist E obj raw xtol ftol gtol reads (set_array E raw w v) pts grs w2 pts2 grs2 -> read_array E w2 = (w3, a) -> cells w3 a = v.
Proof. exact last_set_reads_final. Qed.
Print Assumptions C98_last_set_reads_partial.
Example C98_last_set_reads_example : oreach E1 steep steep_grad tol6 tol6 tol5 [1] w1_read [1%nat] [] /\ shaped E1 steep_grad [1] /\ fits E1 [5] /\
  exists w' pts' grs', ohist E1 steep steep_grad tol6 tol6 tol5 reads (set_array E1 steep_grad w1_read [5]) [1%nat] [] w' pts' grs' /\ cells w' 1 = [5].
Proof. exact ex_last_set_reads. Qed.
(** If nothing is fixed, writing into the array that was returned changes what [m.optimizer_array] returns, though no
    parameter changes. *)
Theorem C98_last_set_refuted : exists E obj raw p w pts grs v w2 pts2 grs2 w3 a, oreach E obj raw tol6 tol6 tol5 p w pts grs /\ shaped E raw p /\ fits E v /\
  ohist E obj raw tol6 tol6 tol5 reads_and_edits (set_array E raw w v) pts grs w2 pts2 grs2 /\ read_array E w2 = (w3, a) /\ v = [5] /\ params w3 = [5] /\ cells w3 a = [9].
Proof. exact last_set_refuted. Qed.
Print Assumptions C98_last_set_refuted.
