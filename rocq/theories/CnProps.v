(** Making Params from arrays: C131. *)
From Coq Require Import List Bool Arith Lia.
From Verif Require Import CnModel CnSpec CnProofs CnProofs2 CnEx.
Import ListNotations.

(** *** C131: Param(name, array) is a new Param with these values, and everything else stays. *)
(** For plain arrays. *)
Theorem C131_made : forall V (s : state V) n x, reach any s -> exists_arr s x -> cls (at_ V s x) = Plain ->
  let o := exec V (MakeParam V n x) s in let s' := st V o in
  exists y, ret V o = Some y /\ exn V o = None /\ called V o = [] /\ ~ exists_arr s y /\ exists_arr s' y /\
    cls (at_ V s' y) = Par /\ nm (at_ V s' y) = n /\ parent (at_ V s' y) = None /\ (forall i, seen s' y i = None) /\
    length (pos (at_ V s' y)) = length (pos (at_ V s x)) /\
    (forall i, i < length (pos (at_ V s x)) -> value s' y i = value s x i) /\
    (forall z, exists_arr s z -> at_ V s' z = at_ V s z /\ forall i, value s' z i = value s z i) /\
    nodes V s' = nodes V s /\
    (block (pos (at_ V s x)) -> forall k v, k < length (pos (at_ V s x)) -> value (st V (exec V (Put V y k v) s')) x k = v) /\
    (~ block (pos (at_ V s x)) -> forall k v z i, exists_arr s z -> value (st V (exec V (Put V y k v) s')) z i = value s z i).
Proof. exact (@plain_effect). Qed.
Print Assumptions C131_made.
(** A program that makes Params from plain arrays only: a Param and its node agree on the constraints,
    and every assignment to the Param is told to the node, once (a new constraint twice: when the values
    are made to fit it, and at the end). *)
Theorem C131_in_step : forall V (s : state V) m x, reach from_plain s -> linked s m x ->
  (forall k v, called V (exec V (Put V x k v) s) = [m]) /\
  (forall i, seen s x i = effective s m x i) /\
  (forall c, let o := exec V (Constrain V x c) s in exn V o = None /\ called V o = [m; m] /\
     (forall i, i < length (pos (at_ V s x)) -> effective (st V o) m x i = Some c) /\
     (forall n y i, linked s n y -> y <> x -> i < length (pos (at_ V s y)) -> effective (st V o) n y i = effective s n y i)).
Proof. exact (@tidy_effect). Qed.
Print Assumptions C131_in_step.
(** From an observable array: what comes back is that array, which is no Param. *)
Theorem C131_observable : forall V (s : state V) n x, exists_arr s x -> cls (at_ V s x) = Obs ->
  let o := exec V (MakeParam V n x) s in let s' := st V o in
  ret V o = Some x /\ exn V o = None /\ cls (at_ V s' x) = Obs /\
  (forall m, exn V (exec V (Link V m x) s') = Some AttributeError) /\
  (forall k v, called V (exec V (Put V x k v) s') = []).
Proof. exact (@obs_effect). Qed.
Print Assumptions C131_observable.
(** From a Param: what comes back is that Param, renamed and cut off from its node, which does not
    know. *)
Theorem C131_again : forall V (s : state V) n x, exists_arr s x -> cls (at_ V s x) = Par ->
  let o := exec V (MakeParam V n x) s in let s' := st V o in
  ret V o = Some x /\ exn V o = None /\ nm (at_ V s' x) = n /\
  (forall k v, called V (exec V (Put V x k v) s') = []) /\
  (forall i, seen s' x i = None) /\
  (forall m y, linked s' m y <-> linked s m y) /\
  (forall m y i, effective s' m y i = effective s m y i) /\
  (forall y i, value s' y i = value s y i) /\
  (forall c, called V (exec V (Constrain V x c) s') = [] /\ forall m y i, effective (st V (exec V (Constrain V x c) s')) m y i = effective s m y i).
Proof. exact (@again_effect). Qed.
Print Assumptions C131_again.
Theorem C131_refuted : exists (s : state nat) m x n, reach any s /\ linked s m x /\ exists_arr s x /\
  let o := exec nat (MakeParam nat n x) s in let s' := st nat o in
  ret nat o = Some x /\ linked s' m x /\ (forall k v, called nat (exec nat (Put nat x k v) s) = [m]) /\
  (forall k v, called nat (exec nat (Put nat x k v) s') = []) /\
  effective s' m x 0 = Some 5 /\ seen s x 0 = Some 5 /\ seen s' x 0 = None.
Proof.
  exists s1, 0, 2, 9. split; [exact (reach_any _ _ s1_reach)|]. split; [split; vm_compute; auto|]. split; [vm_compute; lia|].
  cbv zeta. split; [vm_compute; reflexivity|]. split; [split; vm_compute; auto|]. split; [intros; vm_compute; reflexivity|]. split; [intros; vm_compute; reflexivity|].
  split; [vm_compute; reflexivity|]. split; vm_compute; reflexivity.
Qed.
Print Assumptions C131_refuted.

(** The hypotheses of C131_made: an array that is a block, a view that is not. *)
Example C131_made_case : reach any s1 /\ exists_arr s1 0 /\ cls (at_ nat s1 0) = Plain /\ block (pos (at_ nat s1 0)) /\
  exists_arr s1 1 /\ cls (at_ nat s1 1) = Plain /\ ~ block (pos (at_ nat s1 1)) /\
  map (value s1 0) [0; 1; 2] = [10; 11; 12] /\ map (value s1 1) [0; 1] = [10; 12].
Proof.
  split; [exact (reach_any _ _ s1_reach)|]. split; [vm_compute; lia|]. split; [reflexivity|].
  split; [intros [|[|i]] H; vm_compute in H |- *; try reflexivity; lia|]. split; [vm_compute; lia|]. split; [reflexivity|].
  split; [intros H; specialize (H 0); vm_compute in H; assert (2 = 1) by (apply H; lia); lia|]. split; vm_compute; reflexivity.
Qed.
(** Of C131_in_step: two Params below one node, the second gets a constraint. *)
Example C131_in_step_case : reach from_plain s1 /\ linked s1 0 2 /\ linked s1 0 3 /\
  map (effective s1 0 2) [0; 1; 2] = [Some 5; Some 5; Some 5] /\ map (effective s1 0 3) [0; 1] = [None; None] /\
  map (effective (st nat (exec nat (Constrain nat 3 6) s1)) 0 3) [0; 1] = [Some 6; Some 6].
Proof.
  split; [exact s1_reach|]. split; [split; vm_compute; auto|]. split; [split; vm_compute; auto|]. split; [vm_compute; reflexivity|]. split; vm_compute; reflexivity.
Qed.
(** Of C131_observable and C131_again. *)
Example C131_again_case : let s := st nat (exec nat (MakeObs nat 0) s1) in
  exists_arr s 4 /\ cls (at_ nat s 4) = Obs /\ exists_arr s 2 /\ cls (at_ nat s 2) = Par /\ parent (at_ nat s 2) = Some 0.
Proof. cbv zeta. split; [vm_compute; lia|]. split; [reflexivity|]. split; [vm_compute; lia|]. split; reflexivity. Qed.
