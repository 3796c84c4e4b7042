(** Property theorems about the optimizer classes (C106 to C108). *)
From Coq Require Import List ZArith Bool String.
From Verif Require Import RunModel WrModel WrSpec WrProofs.
Import ListNotations.
Open Scope Z_scope.

(** ** C106 *)
(** Whatever the routine returned, and also if the report of its return code fails: point and number of
    evaluations are recorded, and an objective: that of the point, the routine's own, or the last of its log. *)
Theorem C106_recorded : forall A X (c : optimizer) (obj : X -> A) (r : answer A X),
  let f := fst (record c obj r) in
  x_opt f = Some (r_x r) /\
  (c = OptTnc \/ c = OptLbfgsb \/ c = OptBfgs -> f_opt f = Some (obj (r_x r))) /\
  (c = OptSimplex -> f_opt f = Some (r_f r)) /\
  (c = OptScg -> forall l v, r_log r = l ++ [v] -> f_opt f = Some v) /\
  (~ of_climin c -> funct_eval f = Some (r_count r) /\ printable f = true).
Proof. exact @recorded_final. Qed.
Print Assumptions C106_recorded.
Example C106_example : let r := record OptLbfgsb (fun x : Z => x * x) (ans 2) in r = (mkF (Some 3) (Some 9) (Some 4) (Some "ErrorABNORMAL"%string), false) /\
  fst (record OptScg (fun x : Z => x * x) (ans 0)) = mkF (Some 3) (Some 9) (Some 4) (Some "ABNORMAL"%string) /\ ~ of_climin OptScg /\ r_log (ans 0) = [16; 10] ++ [9].
Proof. exact ex_recorded. Qed.
(** The climin classes record the point only, and such an optimizer cannot be printed. *)
Theorem C106_climin : forall A X c (obj : X -> A) (r : answer A X), of_climin c ->
  let f := fst (record c obj r) in x_opt f = Some (r_x r) /\ f_opt f = None /\ funct_eval f = None /\ printable f = false.
Proof. exact @climin_fields_final. Qed.
Print Assumptions C106_climin.
(** The status says how the run ended, for the return codes the class knows. *)
Theorem C106_status_partial : forall A X c (obj : X -> A) (r : answer A X) k, documented c (r_code r) k -> reportable c (r_code r) ->
  exists t, record c obj r = (fst (record c obj r), false) /\ status (fst (record c obj r)) = Some t /\ reads t = Some k.
Proof. exact @status_final. Qed.
Print Assumptions C106_status_partial.
Example C106_status_example : documented OptTnc (r_code (ans 3)) KLimit /\ reportable OptTnc (r_code (ans 3)) /\ documented OptLbfgsb (r_code (ans 2)) KOther /\ reportable OptLbfgsb (r_code (ans 2)).
Proof. exact ex_status. Qed.
(** Exactly the codes outside the table, counted from both ends, end the run with an IndexError. *)
Theorem C106_raises : forall A X c (obj : X -> A) (r : answer A X), of_scipy c ->
  (snd (record c obj r) = true <-> ~ (match c with OptTnc => -6 <= r_code r <= 5 | _ => -3 <= r_code r <= 2 end)).
Proof. exact @status_raises_final. Qed.
Print Assumptions C106_raises.
(** The other classes record their fields without an error, whatever the routine returned. *)
Theorem C106_quiet : forall A X c (obj : X -> A) (r : answer A X), ~ of_scipy c -> snd (record c obj r) = false.
Proof. exact @quiet_final. Qed.
Print Assumptions C106_quiet.
Example C106_quiet_example : ~ of_scipy OptScg /\ ~ of_scipy OptRprop.
Proof. split; intros [H|[H|[H|H]]]; discriminate. Qed.
(** Documented outcomes that are reported as another one, not at all, or by a crash. *)
Theorem C106_wrong_refuted : exists c r k t, documented c (r_code r) k /\ snd (record c (fun x : Z => x * x) r) = false /\ status (fst (record c (fun x => x * x) r)) = Some t /\ reads t <> Some k /\ reads t <> None.
Proof. exact status_wrong. Qed.
Print Assumptions C106_wrong_refuted.
Theorem C106_silent_refuted : exists c r k t, documented c (r_code r) k /\ snd (record c (fun x : Z => x * x) r) = false /\ status (fst (record c (fun x => x * x) r)) = Some t /\ reads t = None.
Proof. exact status_silent. Qed.
Print Assumptions C106_silent_refuted.
Theorem C106_crash_refuted : (exists r, documented OptTnc (r_code r) KStuck /\ snd (record OptTnc (fun x : Z => x * x) r) = true) /\
  (exists r, documented OptTnc (r_code r) KAborted /\ snd (record OptTnc (fun x : Z => x * x) r) = true) /\
  exists r, documented OptBfgs (r_code r) KNaN /\ snd (record OptBfgs (fun x : Z => x * x) r) = true.
Proof. exact status_crash. Qed.
Print Assumptions C106_crash_refuted.

(** ** C107 *)
(** [max_iters] is the limit of every optimizer, and the only one: [max_f_eval] is without effect. *)
Theorem C107_limit : forall A c (g : given A), limits (call_of c g) <> [] /\ forall n, In n (limits (call_of c g)) -> n = g_max_iters g.
Proof. exact @limit_final. Qed.
Print Assumptions C107_limit.
Theorem C107_max_f_eval : forall A c m m' n (a b d e : option A), call_of c (mkG m n a b d e) = call_of c (mkG m' n a b d e).
Proof. exact @limit_eval_final. Qed.
Print Assumptions C107_max_f_eval.
(** A tolerance reaches the routine as given, or the user is told that it is ignored; not both. *)
Theorem C107_tolerance_partial : forall A c (g : given A) t v, ~ of_climin c -> gave g t = Some v ->
  (gets (call_of c g) t = Some v /\ ~ In (tol_name t) (announced c g)) \/ (gets (call_of c g) t = None /\ In (tol_name t) (announced c g)).
Proof. exact @tolerance_final. Qed.
Print Assumptions C107_tolerance_partial.
(** What is not given is left to the routine. *)
Theorem C107_default : forall A c (g : given A), (forall t, gave g t = None -> gets (call_of c g) t = None) /\ (g_bfgs g = None -> p_factr (call_of c g) = None).
Proof. exact @default_final. Qed.
Print Assumptions C107_default.
Theorem C107_factor : forall A (g : given A), p_factr (call_of OptLbfgsb g) = g_bfgs g.
Proof. exact @factor_final. Qed.
Print Assumptions C107_factor.
Example C107_example : let g := mkG (Some 5) 7 (Some 1) (Some 2) (Some 3) (Some 4) in ~ of_climin OptLbfgsb /\ gave g Gtol = Some 2 /\ gets (call_of OptLbfgsb g) Gtol = Some 2 /\
  gave g Ftol = Some 1 /\ gets (call_of OptLbfgsb g) Ftol = None /\ announced OptLbfgsb g = [NXtol; NFtol] /\ limits (call_of OptLbfgsb g) = [7; 7].
Proof. exact ex_options. Qed.
(** The climin classes drop all tolerances in silence. *)
Theorem C107_climin : forall A c (g : given A) t, of_climin c -> gets (call_of c g) t = None /\ announced c g = [].
Proof. exact @silent_final. Qed.
Print Assumptions C107_climin.
(** Not every option given has an effect or a warning: [max_f_eval], [bfgs_factor], tolerances for climin. *)
Theorem C107_dropped_refuted : (exists c (g g' : given Z), ~ of_climin c /\ g_max_f_eval g <> g_max_f_eval g' /\ call_of c g = call_of c g' /\ announced c g = [] /\ announced c g' = []) /\
  (exists c (g : given Z) v, ~ of_climin c /\ g_bfgs g = Some v /\ p_factr (call_of c g) = None /\ announced c g = []) /\
  exists c (g : given Z) t v, gave g t = Some v /\ gets (call_of c g) t = None /\ announced c g = [].
Proof. exact dropped_refuted. Qed.
Print Assumptions C107_dropped_refuted.

(** ** C108 *)
(** A climin run whose steps are numbered from [n0] always ends, with the first step whose number is at least the
    limit; at least one step is made. *)
Theorem C108_ends : forall n0 limit, exists k, (forall fuel, (k <= fuel)%nat -> climin fuel n0 limit = Some k) /\ Z.of_nat k = Z.max 1 (limit - n0 + 1).
Proof. exact climin_final. Qed.
Print Assumptions C108_ends.
Theorem C108_steps : forall fuel n0 limit k, climin fuel n0 limit = Some k -> Z.of_nat k = Z.max 1 (limit - n0 + 1).
Proof. exact climin_unique. Qed.
Print Assumptions C108_steps.
Example C108_example : climin 9 1 3 = Some 3%nat /\ climin 9 1 0 = Some 1%nat.
Proof. exact ex_climin. Qed.
