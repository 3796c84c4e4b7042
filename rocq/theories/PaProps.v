(** Restarts in parallel: the properties. *)
From Coq Require Import List ZArith Bool Arith.
From Verif Require Import RunModel RunSpec PaModel PaSpec PaProofs.
Import ListNotations.

(** *** C120: restarts in parallel end at the best run *)
(** When no run fails and the runs report numbers, and no Optimizer instance was passed. Missing from the full
    statement: failing runs ([C120_robust_refuted]), a passed instance ([C120_shared_refuted]), nothing to optimize
    ([C120_nothing_refuted]). *)
Theorem C120_best_partial : forall X start rnd run heard verbose robust n (s s' : rst X) e l,
  job_results start rnd run n (params s) l -> first_failure l = None -> Forall (fun x => number (fst x)) (successes l) ->
  parallel true None start rnd run heard false verbose robust n s = (s', e) ->
  e = None /\ done s' = done s ++ successes l /\ length (runs s') = length (runs s) + n /\ (n = 0 -> params s' = params s) /\ (n <> 0 -> best (successes l) (params s')).
Proof. exact parallel_best. Qed.
Print Assumptions C120_best_partial.
Definition pa_start : rst nat := mkR 7 [] (fun _ => None) 0 [].
Definition pa_run (l : list (outcome nat)) (i : nat) (x : nat) : outcome nat := nth i l (Ends (FNum (Z.of_nat x)) x).
Example C120_best_example :
  let run := pa_run [Ends (FNum 50) 60; Ends (FNum 3) 30; Ends (FNum 4) 40] in
  job_results None (fun i x => 100 + i) run 4 7 [Ends (FNum 50) 60; Ends (FNum 3) 30; Ends (FNum 4) 40; Ends (FNum 7) 7] /\
  let '(s', e) := parallel true None None (fun i x => 100 + i) run 0 false true false 4 pa_start in (params s', runs s', e) = (30, [0; 1; 2; 3], None).
Proof.
  split; [|vm_compute; reflexivity]. split; auto. intros [|[|[|[|i]]]] Hi; try reflexivity. exfalso. do 4 apply Nat.succ_lt_mono in Hi. inversion Hi.
Qed.
(** A failing run ends the call with the error of one of the failing runs, and nothing is kept. *)
Theorem C120_failure : forall X shared start rnd run heard verbose robust n (s s' : rst X) e l,
  job_results start rnd run n (params s) l -> first_failure l <> None ->
  parallel true shared start rnd run heard false verbose robust n s = (s', e) ->
  s' = s /\ exists x y, e = Some (JobError x) /\ In (Fails x y) l.
Proof. exact parallel_failure. Qed.
Print Assumptions C120_failure.
Example C120_failure_example : let l := [Ends (FNum 3) 30; Fails 5 40] in
  job_results None (fun i x => x) (pa_run l) 2 7 l /\ first_failure l <> None.
Proof. split; [|discriminate]. split; auto. intros [|[|i]] Hi; try reflexivity. exfalso. do 2 apply Nat.succ_lt_mono in Hi. inversion Hi. Qed.
(** So [robust] is not respected. *)
Theorem C120_robust_refuted : exists (run : nat -> nat -> outcome nat) s' e,
  parallel true None None (fun i x => x) run 0 false false true 2 pa_start = (s', Some (JobError e)) /\
  In (FNum 3, 30) (successes (job_outcomes None (fun i x => x) run 2 (params pa_start))) /\ params s' <> 30.
Proof. exists (pa_run [Ends (FNum 3) 30; Fails 5 40]). do 2 eexists. split; [reflexivity|]. split; [cbn; auto | discriminate]. Qed.
Print Assumptions C120_robust_refuted.
(** Ctrl+c: the model is left as it was. *)
Theorem C120_stopped : forall X free shared start rnd run heard verbose robust n (s s' : rst X) e,
  parallel free shared start rnd run heard true verbose robust n s = (s', e) -> s' = s /\ (robust = true -> e = None) /\ (robust = false -> n <> 0 -> e = Some NoJobs).
Proof. exact parallel_stopped. Qed.
Print Assumptions C120_stopped.
Example C120_stopped_example : parallel true None None (fun i x => x) (pa_run []) 0 true true false 3 pa_start = (pa_start, Some NoJobs).
Proof. reflexivity. Qed.
(** An Optimizer instance passed to the jobs is shared by the jobs of a chunk: the best result is lost. *)
Theorem C120_shared_refuted : exists (run : nat -> nat -> outcome nat) s' z y,
  parallel true (Some 2) None (fun i x => x) run 0 false true true 2 pa_start = (s', None) /\
  In (FNum y, params s') (done s') /\ (exists x, In (FNum z, x) (done s')) /\ (z < y)%Z /\ (forall f, In (f, params s') (done s') -> f = FNum y).
Proof.
  exists (pa_run [Ends (FNum 3) 30; Ends (FNum 5) 50]). eexists. exists 3%Z, 5%Z. split; [reflexivity|]. cbn. split; auto. split; [exists 30; auto|]. split; [reflexivity|].
  intros f [H|[H|[]]]; congruence.
Qed.
Print Assumptions C120_shared_refuted.
(** With nothing to optimize the call fails, whatever is asked for: the point stays, and [None] is left among the runs,
    once for each restart, or once at all if output is on and [robust] is not set. *)
Theorem C120_nothing : forall X shared start rnd run heard verbose robust n (s s' : rst X) e, (forall o, nobj s <= o -> obj s o = None) ->
  parallel false shared start rnd run heard false verbose robust n s = (s', e) ->
  params s' = params s /\ done s' = done s /\ (n = 0 -> s' = s /\ e = None) /\
  (n <> 0 -> e = Some NoAttribute /\ exists l, runs s' = runs s ++ l /\ NoDup l /\ (forall o, In o l -> obj s' o = None /\ nobj s <= o < nobj s') /\
    (robust = true \/ verbose = false -> length l = n) /\ (robust = false -> verbose = true -> length l = 1)).
Proof. exact parallel_nothing. Qed.
Print Assumptions C120_nothing.
Example C120_nothing_example : (forall o, nobj pa_start <= o -> obj pa_start o = None) /\
  runs (fst (parallel false None None (fun i x => x) (pa_run []) 0 false true true 3 pa_start)) = [0; 1; 2] /\ runs (fst (parallel false None None (fun i x => x) (pa_run []) 0 false true false 3 pa_start)) = [0].
Proof. split; [reflexivity | split; reflexivity]. Qed.
(** With nothing to optimize the call fails, with [robust] too, and leaves [None] among the runs. *)
Theorem C120_nothing_refuted : exists s', parallel false None None (fun i x => x) (pa_run []) 0 false false true 2 pa_start = (s', Some NoAttribute) /\
  exists o, In o (runs s') /\ obj s' o = None.
Proof. eexists. split; [reflexivity|]. exists 0. split; [cbn; auto | reflexivity]. Qed.
Print Assumptions C120_nothing_refuted.
