(** Property theorems about the regression example (C113, C114, C115). *)
From Coq Require Import List Arith Reals.
From Verif Require Import RrModel RrSpec RrFinal.
Import ListNotations.
Open Scope R_scope.

(** ** C113 *)
(** After every call that updates a model with one output column, from whatever state, the objective is
    the loss of the weights and the gradient its derivative, for Lasso where the weight is not 0. *)
Theorem C113_gradient_partial : forall c s a s', cols c = 1%nat -> computes s a -> step c s a = Some s' -> right_obj c s' /\ right_grad c s'.
Proof. exact step_final. Qed.
Print Assumptions C113_gradient_partial.
(** Predict returns the fit of the weights at the inputs it is given, and the loss is made of the differences between
    the targets and what it returns for the model's own inputs. *)
Theorem C113_predict : forall c s, (forall x r, predict c s x r = fit c x (W s) r) /\ (right_obj c s -> obj s = sum (rows c) (fun r => sum (cols c) (fun k => (Y s r k - predict c s (X s) r) ^ 2)) +
  lambda c * sum (S (degree c)) (fun i => sum (dims c) (fun j => weight_of (reg c) (W s i j)))).
Proof. exact predicts_final. Qed.
Print Assumptions C113_predict.
(** A model whose targets have other numbers of columns is refused, unless they have as many as the inputs. *)
Theorem C113_refused : forall c x y, (create c x y = None <-> cols c <> 1%nat /\ cols c <> dims c).
Proof. exact raises_final. Qed.
Print Assumptions C113_refused.
Example C113_example : cols (line Ridge) = 1%nat /\ create (line Ridge) inputs targets = Some start /\ obj start = 6 /\ grad start 1%nat 0%nat = -6 /\
  computes start (SetWeights (fun _ => ones)) /\ runs (line Ridge) (fun s a => computes s a \/ harmless a) start worked /\ W worked 0%nat 0%nat = 3 / 2 /\
  cols dot = 1%nat /\ create dot inputs quarter = Some dotted.
Proof. exact line_case. Qed.
(** With as many output as input columns the model is made, and its gradient is wrong. *)
Theorem C113_columns_refuted : exists c x y s, reg c = Ridge /\ create c x y = Some s /\ right_obj c s /\ ~ right_grad c s.
Proof. exact wide_bad. Qed.
Print Assumptions C113_columns_refuted.

(** ** C114 *)
(** Where the gradient is zero no weights have a smaller loss. *)
Theorem C114_minimum : forall c s a s', cols c = 1%nat -> 0 <= lambda c -> computes s a -> step c s a = Some s' -> (forall i j, inside c i j -> grad s' i j = 0) ->
  forall w, loss c (X s') (Y s') (W s') <= loss c (X s') (Y s') w.
Proof. exact minimum_final. Qed.
Print Assumptions C114_minimum.
(** With ridge regression all other weights have a larger one. *)
Theorem C114_unique : forall c s a s', cols c = 1%nat -> reg c = Ridge -> 0 < lambda c -> computes s a -> step c s a = Some s' -> (forall i j, inside c i j -> grad s' i j = 0) ->
  forall w i j, inside c i j -> w i j <> W s' i j -> loss c (X s') (Y s') (W s') < loss c (X s') (Y s') w.
Proof. exact unique_final. Qed.
Print Assumptions C114_unique.
(** The gradient, everywhere, bounds the loss from below; also where the Lasso has no derivative. *)
Theorem C114_supports : forall c s a s', cols c = 1%nat -> 0 <= lambda c -> computes s a -> step c s a = Some s' -> supports c s'.
Proof. exact supports_final. Qed.
Print Assumptions C114_supports.
(** With ridge regression the gradient is zero at the best weights. *)
Theorem C114_stationary_partial : forall c s a s', cols c = 1%nat -> reg c = Ridge -> 0 <= lambda c -> computes s a -> step c s a = Some s' ->
  (forall w, loss c (X s') (Y s') (W s') <= loss c (X s') (Y s') w) -> forall i j, inside c i j -> grad s' i j = 0.
Proof. exact stationary_final. Qed.
Print Assumptions C114_stationary_partial.
Example C114_example : exists s', computes start (SetWeights (fun _ => ones)) /\ step (line Ridge) start (SetWeights (fun _ => ones)) = Some s' /\ W s' = ones /\
  (forall i j, inside (line Ridge) i j -> grad s' i j = 0) /\ loss (line Ridge) (X s') (Y s') (W s') = 3 /\ loss (line Ridge) (X s') (Y s') (first_weights (line Ridge)) = 6.
Proof. exact best_case. Qed.
(** With the Lasso it need not be: best weights with another gradient, where the loss has no derivative. *)
Theorem C114_lasso_refuted : exists c x y s, cols c = 1%nat /\ create c x y = Some s /\ (forall w, loss c (X s) (Y s) (W s) <= loss c (X s) (Y s) w) /\ inside c 0 0 /\ grad s 0%nat 0%nat <> 0 /\
  forall g, ~ derivable_pt_lim (fun t => loss c (X s) (Y s) (put (W s) 0 0 t)) (W s 0%nat 0%nat) g.
Proof. exact lasso_bad. Qed.
Print Assumptions C114_lasso_refuted.

(** ** C115 *)
(** Objective and gradient are those of the weights at every moment of a history of updating calls, of
    releasing the weights and of switching updates off. *)
Theorem C115_always_partial : forall c x y s0 s, cols c = 1%nat -> create c x y = Some s0 -> runs c (fun s a => computes s a \/ harmless a) s0 s -> right_obj c s /\ right_grad c s.
Proof. exact always_final. Qed.
Print Assumptions C115_always_partial.
Example C115_example : runs (line Ridge) (fun s a => computes s a \/ harmless a) start worked /\
  W worked 0%nat 0%nat = 3 / 2 /\ W worked 1%nat 0%nat = 0 /\ X worked = inputs /\ Y worked = targets.
Proof. exact work_runs. Qed.
(** Not if parameters_changed is called once more, *)
Theorem C115_again_refuted : exists s, steps (line Ridge) start [Again] = Some s /\ on s = true /\ fixed s = false /\ ~ right_grad (line Ridge) s.
Proof. exact again_bad. Qed.
Print Assumptions C115_again_refuted.
(** if an update is triggered while all weights are fixed, *)
Theorem C115_fixed_refuted : exists s, steps (line Ridge) start [FixAll; Trigger; UnfixAll] = Some s /\ on s = true /\ fixed s = false /\ ~ right_grad (line Ridge) s.
Proof. exact fixed_bad. Qed.
Print Assumptions C115_fixed_refuted.
(** or if the data are assigned to. *)
Theorem C115_data_refuted : exists s, step (line Ridge) start (SetData (fun x r k => x r k + 1)) = Some s /\ on s = true /\ ~ right_obj (line Ridge) s.
Proof. exact data_bad. Qed.
Print Assumptions C115_data_refuted.
