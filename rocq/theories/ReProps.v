(** Property theorems about [parameters_changed] methods that set parameters (C104). *)
From Coq Require Import List Bool Arith.
From Verif Require Import ReModel ReSpec ReProofs ReEx.
Import ListNotations.

(** ** C104 *)
(** If no method leads back to itself, every call ends; *)
Theorem C104_ends_partial : forall V h body a w, @ranked V h body -> exists w', ends h body a w w'.
Proof. exact @ends_final. Qed.
Print Assumptions C104_ends_partial.
(** the value written stays; *)
Theorem C104_stays_partial : forall V h body p v w w', @ranked V h body -> ends h body (AWrite p v) w w' -> val w' p = v.
Proof. exact @stays_final. Qed.
Print Assumptions C104_stays_partial.
(** and whenever a write ends, what every object derived is up to date, if it was before or belongs to the Param written. *)
Theorem C104_up_to_date : forall V h body p v w w', @deriving V body -> sound h -> on w = true -> ends h body (AWrite p v) w w' ->
  on w' = true /\ forall x, up_to_date h w x \/ In x (above h p) -> up_to_date h w' x.
Proof. exact @date_final. Qed.
Print Assumptions C104_up_to_date.
Example C104_example : sound ex_shape /\ ranked ex_shape ex_body /\ deriving ex_body /\ on ex_world = true /\ (forall x, up_to_date ex_shape ex_world x) /\
  match exec ex_shape ex_body 5 (AWrite 0 7) ex_world with
  | Some w => ends ex_shape ex_body (AWrite 0 7) ex_world w /\ map (val w) [0; 1; 2] = [7; 14; 3] /\ stored w 10 = [7; 14; 3] /\ stored w 6 = [14]
  | None => False
  end.
Proof. exact ex_ends. Qed.
(** Methods that do lead back to themselves, but only write what makes progress, end too. *)
Theorem C104_progress_partial : forall V h body p v w, @progressing V h body -> exists w', ends h body (AWrite p v) w w'.
Proof. exact @progress_final. Qed.
Print Assumptions C104_progress_partial.
Example C104_progress_example : progressing ex_shape clamp /\
  match exec ex_shape clamp 5 (AWrite 0 7) ex_world with Some w => val w 0 = 5 /\ stored w 10 = [5; 2; 3] /\ stored w 5 = [5] | None => False end.
Proof. exact ex_clamp. Qed.
(** Methods that surely lead back to themselves never end, also if they switch updates off meanwhile. *)
Theorem C104_never : forall V h body bad a w, @restless V h body bad ->
  (match a with AWrite p _ => on w = true /\ (exists y, In y (above h p) /\ bad y = true) | ASwitch x b => b = true /\ exists y, In y (around h x) /\ bad y = true end) ->
  never h body a w.
Proof. exact @never_final. Qed.
Print Assumptions C104_never.
Example C104_never_example : restless ex_shape own is5 /\ on ex_world = true /\ (exists y, In y (above ex_shape 0) /\ is5 y = true) /\ never ex_shape own (AWrite 0 7) ex_world /\
  restless ex_shape guarded is5 /\ never ex_shape guarded (AWrite 0 7) ex_world.
Proof. exact ex_never. Qed.
(** So a method that sets only its own object's parameters need not end. *)
Theorem C104_own_refuted : exists (h : shape) (body : nat -> list (@stmt nat)) p v w, sound h /\ (forall x, In Derive (body x)) /\ on w = true /\ (forall x, up_to_date h w x) /\
  (forall x q, may_write body x q -> In q (below h x)) /\ never h body (AWrite p v) w.
Proof. exact own_refuted. Qed.
Print Assumptions C104_own_refuted.
