(** Model of [optimize_restarts(parallel=True)]: /repo/paramz/model.py:151-190, [opt_wrapper] model.py:44-47;
    on top of RunModel.v.

    The runs of the copies are arbitrary outcomes. [pool.map] hands out the jobs in chunks of consecutive jobs, each
    pickled as one message, and its results likewise; it raises the error of the failing job it hears of first.
    Not modelled: the output; that a pool whose job failed is never closed. *)
From Coq Require Import List ZArith Bool Arith.
From Verif Require Import RunModel.
Import ListNotations.

(** What the call ends with: the error of a job, [TypeError] of [argmin], [AttributeError] ([None.f_opt]),
    [UnboundLocalError] ([jobs] after an interrupt). *)
Inductive pexn : Type := JobError (e : nat) | NoOrder | NoAttribute | NoJobs.

(** Where job [i] of [n] starts: on a copy of the model, randomized but for the last; model.py:154-155, 92-93. *)
Definition job_start {X : Type} (start : option X) (rnd : nat -> X -> X) (n i : nat) (x : X) : X :=
  match start with Some y => y | None => if i <? n - 1 then rnd i x else x end.
(** What the copies' [optimize] did; model.py:156, 44-47. *)
Definition job_outcomes {X : Type} (start : option X) (rnd : nat -> X -> X) (run : nat -> X -> outcome X) (n : nat) (x : X) : list (outcome X) :=
  map (fun i => run i (job_start start rnd n i x)) (seq 0 n).
Fixpoint failed {X : Type} (l : list (outcome X)) : list nat :=
  match l with [] => [] | Fails e _ :: r => e :: failed r | Ends _ _ :: r => failed r end.
Fixpoint ended {X : Type} (l : list (outcome X)) : list (fval * X) :=
  match l with [] => [] | Ends f x :: r => (f, x) :: ended r | Fails _ _ :: r => ended r end.
(** The object that holds the result of job [i]: a new one, which jobs of a chunk share when they were given an
    Optimizer instance ([kwargs] is pickled once for a chunk); model.py:156. *)
Definition job_object (chunk : option nat) (i : nat) : nat := match chunk with None => i | Some c => i / c end.
(** The objects after the jobs: the last job that wrote to an object. *)
Fixpoint job_objects {X : Type} (chunk : option nat) (base i : nat) (l : list (fval * X)) (o : nat -> option (oobj X)) : nat -> option (oobj X) :=
  match l with
  | [] => o
  | (f, x) :: r => job_objects chunk base (S i) r (fun q => if Nat.eqb q (base + job_object chunk i) then Some (mkO f x) else o q)
  end.
(** The loop over the results, when there are any; model.py:166-182. [None] was appended for each job when there was
    nothing to optimize; with output on, the first lookup of its [f_opt] ends the loop unless [robust]. *)
Definition collected {X : Type} (chunk : option nat) (n : nat) (res : list (fval * X)) (s : rst X) : rst X :=
  mkR (params s) (runs s ++ map (fun i => nobj s + job_object chunk i) (seq 0 n))
      (job_objects chunk (nobj s) 0 res (obj s)) (nobj s + n) (done s ++ res).
(** [optimize_restarts(n, robust, verbose, parallel=True)]. [free]: there is something to optimize; [shared]: an
    Optimizer instance was passed, and the size of the chunks; [heard]: which failure the pool hears of first;
    [stopped]: Ctrl+c during the jobs; model.py:148-190. *)
Definition parallel {X : Type} (free : bool) (shared : option nat) (start : option X) (rnd : nat -> X -> X)
    (run : nat -> X -> outcome X) (heard : nat) (stopped verbose robust : bool) (n : nat) (s : rst X) : rst X * option pexn :=
  if stopped then (s, if robust || Nat.eqb n 0 then None else Some NoJobs) else
  if free then
    let out := job_outcomes start rnd run n (params s) in
    match failed out with
    | [] =>
        let s1 := collected shared n (ended out) s in
        let new := skipn (length (runs s)) (runs s1) in
        match new with
        | [] => (mkR (params s) (runs s1) (obj s1) (nobj s1) (done s1), None)
        | _ =>
            match argmin (map (fun o => match obj s1 o with Some b => f_opt b | None => FNone end) new) with
            | None => (s1, Some NoOrder)
            | Some i =>
                match obj s1 (nth i new 0) with
                | Some b => (mkR (x_opt b) (runs s1) (obj s1) (nobj s1) (done s1), None)
                | None => (s1, Some NoOrder)
                end
            end
        end
    | fs => (s, Some (JobError (nth (heard mod length fs) fs 0)))
    end
  else
    match n with
    | O => (s, None)
    | _ => (mkR (params s) (runs s ++ map (fun i => nobj s + i) (seq 0 (if verbose && negb robust then 1 else n))) (obj s) (nobj s + n) (done s),
            Some NoAttribute)
    end.
