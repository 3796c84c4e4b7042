(** Property theorems about the lifetime of observers (C105). *)
From Coq Require Import List Bool Arith.
From Verif Require Import GcModel GcSpec GcProofs.
Import ListNotations.

(** ** C105 *)
(** A freed observer is never called. One that no attribute and no bound callback refers to can be freed as soon as the
    program drops it: being registered, with callbacks that are not bound to it, does not count. *)
Theorem C105_weak_partial : forall s o, (forall x, reachable s x -> ~ In (x, o) (refs s)) -> (forall x e, reachable s x -> In e (poc s x) -> bound e <> Some o) ->
  program [Drop o; Free o] s /\ forall l c, count o c (snd (steps (Drop o :: Free o :: l) s)) = 0.
Proof. exact weak_final. Qed.
Print Assumptions C105_weak_partial.
Theorem C105_unbound : forall s x o c y, reachable (fst (step (Add x o c None) s)) y -> reachable s y.
Proof. exact unbound_final. Qed.
Print Assumptions C105_unbound.
Theorem C105_freed : forall l s o c, freed s o = true -> count o c (snd (steps l s)) = 0.
Proof. exact freed_final. Qed.
Print Assumptions C105_freed.
Example C105_weak_example : let s := fst (step (Add 0 1 7 None) start) in (forall x, reachable s x -> ~ In (x, 1) (refs s)) /\ (forall x e, reachable s x -> In e (poc s x) -> bound e <> Some 1) /\
  snd (steps [Notify 0; Drop 1; Notify 0; Free 1; Notify 0] s) = [(1, 7); (1, 7)].
Proof. exact ex_weak. Qed.
(** An observer whose callback is one of its own methods, as paramz asks for, lives and is called as long as the
    observable lives and the observer is not removed, whatever else the program does. *)
Theorem C105_bound : forall s l x o c, reached s -> program (Add x o c (Some o) :: l) s -> keeps x o l ->
  let s' := fst (steps (Add x o c (Some o) :: l) s) in reachable s' x ->
  reachable s' o /\ freed s' o = false /\ 1 <= count o c (snd (step (Notify x) s')).
Proof. exact bound_final. Qed.
Print Assumptions C105_bound.
Example C105_bound_example : reached start /\ program (Add 0 1 7 (Some 1) :: [Drop 1; Notify 0; Notify 0]) start /\ keeps 0 1 [Drop 1; Notify 0; Notify 0] /\
  (let r := steps (Add 0 1 7 (Some 1) :: [Drop 1; Notify 0; Notify 0]) start in reachable (fst r) 0 /\ count 1 7 (snd r) = 2).
Proof. exact ex_bound. Qed.
(** So observers do dangle in memory: *)
Theorem C105_dangling_refuted : exists l x o c, program l start /\ (let s := fst (steps l start) in
  held s o = false /\ (forall y, ~ In (y, o) (refs s)) /\ reachable s x /\ reachable s o /\ ~ allowed s (Free o) /\ count o c (snd (step (Notify x) s)) = 1).
Proof. exact dangling_refuted. Qed.
Print Assumptions C105_dangling_refuted.
