(** Property theorems about optimizing a model (C49, C50, C51). *)
From Coq Require Import List NArith ZArith Bool String Arith.
From Verif Require Import RunModel RunSpec RunProofs.
Import ListNotations.
Open Scope list_scope.

(** ** C49 *)
(** A failure after fewer than ten failures in a row, over all three kinds of evaluation, is reported
    as an infinite objective. Missing from the full statement: the evaluations that need gradients
    are only tolerated when the gradients can be had after the failure, see [C49_gradient_refuted]. *)
Theorem C49_tolerated_partial : forall A (h : list (callback * attempt A)) c (a : attempt A) e,
  failure c a = Some e -> numerical e = true -> streak h < 10 -> has_clip c a ->
  tolerated c a (snd (evaluate c (evaluations 0 (rev h)) a)).
Proof. exact eval_tolerated. Qed.
Print Assumptions C49_tolerated_partial.
(** Two failures, with a success of another kind before. *)
Example C49_tolerated_example :
  let bad := mkAt (Some LinAlgError) (inl 1) (inl 2) (inl 3) in
  let h := [(CGrads, bad); (CObjective, bad); (CObjectiveGrads, mkAt None (inl 4) (inl 5) (inl 6))] in
  failure CObjectiveGrads bad = Some LinAlgError /\ streak h = 2 /\ has_clip CObjectiveGrads bad /\
  snd (evaluate CObjectiveGrads (evaluations 0 (rev h)) bad) = InfClip 3.
Proof. cbn. repeat split. eauto. Qed.
(** The failure after ten failures in a row raises its own exception; so does at once an error that is
    not one of the three numerical ones. *)
Theorem C49_raised : forall A (h : list (callback * attempt A)) c (a : attempt A) e,
  failure c a = Some e -> numerical e = false \/ 10 <= streak h ->
  snd (evaluate c (evaluations 0 (rev h)) a) = Raised e.
Proof. exact eval_raised. Qed.
Print Assumptions C49_raised.
Example C49_raised_example :
  let bad := fun e => mkAt (A := nat) (Some e) (inl 1) (inl 2) (inl 3) in
  let h := repeat (CObjective, bad LinAlgError) 3 ++ (CGrads, bad (OtherError 1)) :: repeat (CGrads, bad ZeroDivisionError) 7 in
  streak h = 10 /\ snd (evaluate CObjective (evaluations 0 (rev h)) (bad ValueError)) = Raised ValueError /\
  snd (evaluate CObjective (evaluations 0 (rev (tl h))) (bad ValueError)) = Inf.
Proof. vm_compute. auto. Qed.
(** A success gives the computed values and failures are counted from zero again. *)
Theorem C49_success : forall A n c (a : attempt A), failure c a = None ->
  fst (evaluate c n a) = 0 /\
  match c with
  | CObjective => exists v, a_obj a = inl v /\ snd (evaluate c n a) = Val v
  | CGrads => exists v, a_grad a = inl v /\ snd (evaluate c n a) = Val v
  | CObjectiveGrads => exists v g, a_obj a = inl v /\ a_grad a = inl g /\ snd (evaluate c n a) = Both v g
  end.
Proof. exact eval_value. Qed.
Print Assumptions C49_success.
Example C49_success_example : failure CObjectiveGrads (mkAt None (inl 4) (inl 5) (inr ValueError)) = None /\
  evaluate CObjectiveGrads 10 (mkAt None (inl 4) (inl 5) (inr ValueError)) = (0, Both 4 5).
Proof. split; reflexivity. Qed.
(** Gradients that cannot be computed at a point raise on the very first failure. *)
Theorem C49_gradient_refuted : exists (a : attempt nat) e, failure CGrads a = Some e /\ numerical e = true /\
  snd (evaluate CGrads 0 a) = Raised e.
Proof. exists (mkAt None (inl 1) (inr LinAlgError) (inr LinAlgError)), LinAlgError. auto. Qed.
Print Assumptions C49_gradient_refuted.

(** ** C50 *)
(** With [robust], when every run uses its own Optimizer object and the completed runs report numbers:
    nothing is raised, and the model ends at the point of the first run with the smallest objective
    among the completed runs of this call, or where it was when there are none. Missing from the full
    statement: the conditions, see the refutations below. *)
Theorem C50_robust_partial : forall X start rnd run verbose n (s s' : rst X) e,
  let r := successes (outcomes start rnd run n 0 (params s)) in
  Forall (fun x => number (fst x)) r ->
  restarts true None start rnd run verbose true n s = (s', e) ->
  e = None /\ done s' = done s ++ r /\ (r = [] -> params s' = params s) /\ (r <> [] -> best r (params s')).
Proof. exact restarts_robust. Qed.
Print Assumptions C50_robust_partial.
Definition ex_start : rst nat := mkR 7 [] (fun _ => None) 0 [].
Definition ex_run (l : list (outcome nat)) (i : nat) (x : nat) : outcome nat := nth i l (Ends (FNum 100) x).
Example C50_robust_example :
  let run := ex_run [Ends (FNum 5) 50; Fails 1 60; Ends (FNum 3) 30; Ends (FNum 4) 40; Ends (FNum 3) 31] in
  let '(s', e) := restarts true None None (fun i x => x + i) run true true 5 ex_start in
  (params s', runs s', e) = (30, [0; 2; 3; 4], None).
Proof. vm_compute. reflexivity. Qed.
Example C50_all_fail_example :
  let run := ex_run [Fails 1 50; Fails 2 60] in
  let '(s', e) := restarts true None None (fun i x => x + i) run true true 2 ex_start in (params s', runs s', e) = (7, [], None).
Proof. vm_compute. reflexivity. Qed.
(** Without [robust] the first failure is raised and the runs completed before it are kept; when no
    run fails the model ends at the best. *)
Theorem C50_strict_partial : forall X start rnd run verbose n (s s' : rst X) e,
  let l := outcomes start rnd run n 0 (params s) in
  Forall (fun x => number (fst x)) (successes l) ->
  restarts true None start rnd run verbose false n s = (s', e) ->
  match first_failure l with
  | Some x => e = Some (RunError x) /\ done s' = done s ++ successes (until_failure l)
  | None => e = None /\ done s' = done s ++ successes l /\ (successes l = [] -> params s' = params s) /\
            (successes l <> [] -> best (successes l) (params s'))
  end.
Proof. exact restarts_strict. Qed.
Print Assumptions C50_strict_partial.
Example C50_strict_example :
  let run := ex_run [Ends (FNum 5) 50; Fails 1 60; Ends (FNum 3) 30] in
  let '(s', e) := restarts true None None (fun i x => x + i) run false false 3 ex_start in
  (runs s', e) = ([0], Some (RunError 1)).
Proof. vm_compute. reflexivity. Qed.
(** With nothing to optimize nothing changes (the output switched off). *)
Theorem C50_nothing : forall X shared start rnd run robust n (s s' : rst X) e,
  restarts false shared start rnd run false robust n s = (s', e) -> s' = s /\ e = None.
Proof. exact restarts_nothing. Qed.
Print Assumptions C50_nothing.
Example C50_nothing_example : let '(s', e) := restarts false None None (fun i x => x + i) (ex_run []) false false 3 ex_start in
  (params s', e) = (7, None).
Proof. vm_compute. reflexivity. Qed.
(** A run that reports [nan] wins over the better ones. *)
Theorem C50_nan_refuted : exists (run : nat -> nat -> outcome nat) s' z x,
  restarts true None None (fun i x => x) run false true 2 ex_start = (s', None) /\
  In (FNum z, x) (done s') /\ params s' <> x /\ ~ In (FNum 0, params s') (done s') /\ In (FNaN, params s') (done s').
Proof.
  exists (ex_run [Ends (FNum 3) 30; Ends FNaN 99]). eexists. exists 3%Z, 30. split; [reflexivity|].
  cbn. repeat split; auto; try discriminate. intros [H|[H|[]]]; discriminate.
Qed.
Print Assumptions C50_nan_refuted.
(** One Optimizer object passed to all restarts holds the last run only: the model ends at the last
    point, which is not the best. *)
Theorem C50_shared_refuted : exists (run : nat -> nat -> outcome nat) s0 s' z y,
  restarts true (Some 0) None (fun i x => x) run false true 2 s0 = (s', None) /\
  In (FNum y, params s') (done s') /\ (exists x, In (FNum z, x) (done s')) /\ (z < y)%Z /\
  (forall f, In (f, params s') (done s') -> f = FNum y).
Proof.
  exists (ex_run [Ends (FNum 3) 30; Ends (FNum 5) 50]), (mkR 7 [] (fun _ => None) 1 []). eexists. exists 3%Z, 5%Z.
  split; [reflexivity|]. cbn. split; auto. split; [exists 30; auto|]. split; [reflexivity|].
  intros f [H|[H|[]]]; congruence.
Qed.
Print Assumptions C50_shared_refuted.
(** Optimizers that report no objective (those of climin) end in a TypeError, even with [robust]. *)
Theorem C50_none_refuted : exists (run : nat -> nat -> outcome nat) s',
  restarts true None None (fun i x => x) run false true 2 ex_start = (s', Some TypeError) /\ List.length (done s') = 2.
Proof. exists (ex_run [Ends FNone 30; Ends FNone 50]). eexists. split; reflexivity. Qed.
Print Assumptions C50_none_refuted.
(** With nothing to optimize and the output on, IndexError. *)
Theorem C50_verbose_refuted : exists (run : nat -> nat -> outcome nat) s',
  restarts false None None (fun i x => x) run true false 1 ex_start = (s', Some IndexError).
Proof. exists (ex_run []). eexists. reflexivity. Qed.
Print Assumptions C50_verbose_refuted.

(** ** C51 *)
Theorem C51_first : forall q o, get_optimizer q = Some o ->
  exists n, In (n, o) optimizers /\ contains (lower q) n /\
  forall n' o', In (n', o') optimizers -> contains (lower q) n' -> before n n'.
Proof. exact lookup_some. Qed.
Print Assumptions C51_first.
Example C51_first_example : get_optimizer (text "BFGS") = Some OptLbfgsb /\ get_optimizer (text "ad") = Some OptAdadelta /\
  get_optimizer (text "") = Some OptAdadelta.
Proof. repeat split; vm_compute; reflexivity. Qed.
Theorem C51_error : forall q, get_optimizer q = None <-> (forall n o, In (n, o) optimizers -> ~ contains (lower q) n).
Proof. exact lookup_none. Qed.
Print Assumptions C51_error.
Example C51_error_example : get_optimizer (text "newton") = None.
Proof. vm_compute. reflexivity. Qed.
Theorem C51_full_name : forall n o, In (n, o) optimizers -> get_optimizer n = Some o.
Proof. exact lookup_full. Qed.
Print Assumptions C51_full_name.
Example C51_full_name_example : In (text "org-bfgs", OptBfgs) optimizers.
Proof. cbn. tauto. Qed.
Theorem C51_case : forall s, Forall2 same_letter s (lower s).
Proof. exact lower_letters. Qed.
Print Assumptions C51_case.
Example C51_case_example : lower (text "L-BFGS_1z") = text "l-bfgs_1z".
Proof. vm_compute. reflexivity. Qed.
(** Names given in the documentation of [optimize] (model.py:80-87) that name another optimizer or
    none. *)
Theorem C51_documented_refuted : get_optimizer (text "sgd") = None /\ get_optimizer (text "lbfgs") = Some OptLbfgsb /\
  OptLbfgsb <> OptBfgs.
Proof. split; [vm_compute; reflexivity|]. split; [vm_compute; reflexivity|discriminate]. Qed.
Print Assumptions C51_documented_refuted.
