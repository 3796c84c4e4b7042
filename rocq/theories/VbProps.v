(** Property theorems about the display of an optimization (C109, C110). *)
From Coq Require Import List ZArith Bool Arith.
From Verif Require Import NpModel IndexOpsModel IndexOpsSpec PzModel PzSpec PzCheck PzEx HkModel HkSpec HkEx VbModel VbSpec VbProofs.
Import ListNotations.
Open Scope Z_scope.

(** ** C109 *)
(** The runtime shown after [p / q] seconds is the time elapsed, cut off at the last digit shown. *)
Theorem C109_runtime : forall p q, 0 <= p -> 0 < q -> let t := timestring p q in
  proper t /\ hundredths t * q <= 100 * p < (hundredths t + resolution t) * q.
Proof. exact runtime_final. Qed.
Print Assumptions C109_runtime.
Example C109_example : timestring 12345 100 = MinSecCent 2 3 45 /\ timestring 90061 1 = DayHourMin 1 1 1 /\ timestring 7 2 = SecCent 3 50 /\ timestring 3600 1 = HourMinSec 1 0 0.
Proof. exact ex_runtime. Qed.

(** ** C110 *)
(** After a run with messages, whatever it did and whether or not it failed, the model is what it is after the same run
    without messages, and all objects have the observers they had before. *)
Theorem C110_removed : forall V tinit tf tfinv junk cs q x vo, @hreach V tinit tf tfinv hlegal junk q -> (x < next (st (base q)))%nat -> ~ In vo (map snd (users q x)) ->
  each tinit tf tfinv hlegal (map Base cs) (fst (hexec tinit tf tfinv (AddObserver x (Fin 0) vo) q)) ->
  let q' := fst (displayed tinit tf tfinv x vo true (map Base cs) q) in
  base q' = base (fst (hexecs tinit tf tfinv (map Base cs) q)) /\ forall y, (y < next (st (base q)))%nat -> users q' y = users q y.
Proof. exact @removed_final. Qed.
Print Assumptions C110_removed.
(** Every point the routine tries is counted, once. *)
Theorem C110_count : forall V tinit tf tfinv junk ps q x vo, @hreach V tinit tf tfinv hlegal junk q -> (x < next (st (base q)))%nat -> ready (st (base q)) x -> in_init (st (base q)) x = false ->
  all_on (base q) x -> ~ In vo (map snd (users q x)) ->
  times x vo (snd (displayed tinit tf tfinv x vo true (map (fun p => Base (SetOptimizer x p)) ps) q)) = length ps.
Proof. exact @count_final. Qed.
Print Assumptions C110_count.
Example C110_example : ex_hreach exh /\ (4 < next (st (base exh)))%nat /\ ready (st (base exh)) 4 /\ in_init (st (base exh)) 4 = false /\ all_on (base exh) 4 /\ ~ In 9%nat (map snd (users exh 4)) /\
  each ex_init ex_f ex_finv hlegal (map Base [SetOptimizer 4%nat [5;6;7]; SetOptimizer 4%nat [1;2;3]]) (fst (ex_hrun (AddObserver 4%nat (Fin 0) 9) exh)) /\
  times 4 9 (snd (ex_displayed 4%nat 9 true (map Base [SetOptimizer 4%nat [5;6;7]; SetOptimizer 4%nat [1;2;3]]) exh)) = 2%nat.
Proof. exact ex_display_run. Qed.
(** If the objective fails at the start, before the [with] block is entered, the display stays registered and is called at
    every later change (where it fails, having no start time). *)
Theorem C110_left_refuted : exists q x vo run p, ex_hreach q /\ (x < next (st (base q)))%nat /\ ~ In vo (map snd (users q x)) /\
  let q' := fst (ex_displayed x vo false run q) in In vo (map snd (users q' x)) /\ hlegal q' (Base (SetOptimizer x p)) /\ times x vo (events (Base (SetOptimizer x p)) q') = 1%nat.
Proof. exact left_refuted. Qed.
Print Assumptions C110_left_refuted.
