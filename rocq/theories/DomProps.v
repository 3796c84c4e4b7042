(** Property C77: constrained parameters stay in their domains and fixed ones do not move. *)
From Coq Require Import List ZArith Bool Reals.
From Verif Require Import TransformModel TransformSpec NpModel IndexOpsModel PzModel CopyModel PzSpec PzCheck PzEx DomSpec DomProofs DomReal DomEx.
Import ListNotations.
Open Scope Z_scope.

(** Whatever calls are made on whatever objects: elements under a constraint are in the domain of
    their transformation, provided assigned values are, and no linking loses values. *)
Theorem C77_domains : forall V tinit tf tfinv (D : nat -> V -> Prop) junk s s2,
  (forall n v, D n (tf n v)) -> (forall n v, D n (tinit n v)) ->
  reach tinit tf tfinv careful junk s -> inside D s ->
  hist tinit tf tfinv (fun s c => careful s c /\ respects tinit tf tfinv D s c) s s2 -> inside D s2.
Proof. intros V tinit tf tfinv D junk s s2 Hf Hi. exact (inside_final tinit tf tfinv D Hf Hi junk s s2). Qed.
Print Assumptions C77_domains.
Example C77_domains_example : (forall n v, pos n (pos_f n v)) /\ reach pos_f pos_f pos_f careful dom_junk dom_start /\ inside pos dom_start /\ hist pos_f pos_f pos_f pos_ok dom_start dom_last /\
  has dom_start 2 (Tr 1) 0 /\ value dom_start 2 0 = Some 1 /\ value dom_last 2 0 = Some 7 /\ has dom_last 3 (Tr 2) 0 /\ value dom_last 3 0 = Some 120 /\
  value dom_last 1 0 = Some (-7).
Proof. exact dom_case. Qed.

(** Whatever an optimisation does: constraints and structure stay, fixed elements keep their value,
    and constrained ones keep theirs or have one the transformation produced. *)
Theorem C77_optimisation : forall V tinit tf tfinv junk (s s2 : @state V), reach tinit tf tfinv careful junk s ->
  hist tinit tf tfinv (fun s c => legal s c /\ tuning c) s s2 ->
  st s2 = st s /\ (forall y p j, has s2 y p j <-> has s y p j) /\
  forall y j, (y < next (st s))%nat -> ready (st s) y -> 0 <= j < size (st s) y ->
    (has s y Fixed j -> value s2 y j = value s y j) /\
    (forall n, has s y (Tr n) j -> value s2 y j = value s y j \/ exists u, value s2 y j = Some (tf n u)).
Proof. exact @tuned_final. Qed.
Print Assumptions C77_optimisation.
Example C77_optimisation_example : reach pos_f pos_f pos_f careful dom_junk dom_start /\ hist pos_f pos_f pos_f (fun s c => legal s c /\ tuning c) dom_start dom_end /\
  has dom_start 2 Fixed 1 /\ has dom_start 2 (Tr 1) 1 /\ value dom_start 2 1 = Some 2 /\ has dom_start 2 (Tr 1) 0 /\ value dom_start 2 0 = Some 1 /\ value dom_end 2 0 = Some 7.
Proof. exact tune_case. Qed.

(** With the transformations of the library: never outside the closed domain ... *)
Theorem C77_library : forall (tr : nat -> transf) (D : nat -> R -> Prop) tfinv junk s, (forall n, closed (tr n) (D n)) ->
  reach (fun n => t_init (tr n)) (fun n => t_f (tr n)) tfinv (fun s c => careful s c /\ respects (fun n => t_init (tr n)) (fun n => t_f (tr n)) tfinv D s c) junk s -> inside D s.
Proof. exact real_inside. Qed.
Print Assumptions C77_library.
(** ... and what an optimisation changed is strictly inside, except for Square. *)
Theorem C77_library_strict : forall (tr : nat -> transf) tinit tfinv junk s s2 y j n D, reach tinit (fun n => t_f (tr n)) tfinv careful junk s ->
  hist tinit (fun n => t_f (tr n)) tfinv (fun s c => legal s c /\ tuning c) s s2 -> strict (tr n) D ->
  (y < next (st s))%nat -> ready (st s) y -> has s y (Tr n) j ->
  value s2 y j = value s y j \/ exists v, value s2 y j = Some v /\ D v.
Proof. exact real_tuned. Qed.
Print Assumptions C77_library_strict.
Example C77_library_example : closed lib_tr (fun y => (0 <= y)%R) /\ strict lib_tr (fun y => (0 < y)%R) /\
  reach (fun _ => t_init lib_tr) (fun _ => t_f lib_tr) lib_finv (fun s c => careful s c /\ respects (fun _ => t_init lib_tr) (fun _ => t_f lib_tr) lib_finv (fun _ y => (0 <= y)%R) s c) lib_junk lib_start /\
  reach (fun _ => t_init lib_tr) (fun _ => t_f lib_tr) lib_finv careful lib_junk lib_start /\
  hist (fun _ => t_init lib_tr) (fun _ => t_f lib_tr) lib_finv (fun s c => legal s c /\ tuning c) lib_start lib_end /\
  has lib_start 1 (Tr 3) 0 /\ value lib_start 1 0 = Some (t_init lib_tr (-2)%R) /\ value lib_end 1 0 = Some (t_f lib_tr (-4)%R) /\ value lib_end 1 1 = Some (-9)%R.
Proof. exact lib_case. Qed.

(** Assigning a value does not look at the constraints. *)
Theorem C77_assign_refuted : exists s s', reach pos_f pos_f pos_f pos_ok dom_junk s /\ assign 0 (fun _ _ => -4) s = (s', None) /\ has s' 0 (Tr 1) 0 /\ value s' 0 0 = Some (-4).
Proof. exact assign_refuted. Qed.
Print Assumptions C77_assign_refuted.
(** Linking deep in a hierarchy puts what is in fresh memory under a constraint. *)
Theorem C77_link_refuted : exists s s', reach pos_f pos_f pos_f pos_ok dom_junk s /\ careful s (Link 1 4 None) /\ link 1 4 None s = (s', None) /\
  has s' 0 (Tr 1) 0 /\ value s 0 0 = Some 1 /\ value s' 0 0 = Some (-5).
Proof. exact link_refuted. Qed.
Print Assumptions C77_link_refuted.
