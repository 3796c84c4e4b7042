(** Saving to a file: C138. *)
From Coq Require Import List Bool NArith ZArith.
From Verif Require Import SvModel SvSpec SvProofs SvEx.
Import ListNotations.

(** *** C138: save writes all values, and they can be loaded again. *)
(** It works exactly if the names of the Params, with underscores between the levels, are different from each
    other and from 'param_array'. *)
Theorem C138_when : forall t b, tidy t -> (snd (save t b) = None <-> NoDup (keys t)) /\ (snd (save t b) = None \/ snd (save t b) = Some TypeError).
Proof. exact when_ok. Qed.
Print Assumptions C138_when.
(** Then the file has the values of every Param under its name, and all values. *)
Theorem C138_content_partial : forall t b, tidy t -> snd (save t b) = None ->
  let f := fst (save t b) in
  map fst f = keys t /\ (forall p vs, param_at t p vs -> dataset f (underscored p) = Some vs) /\ dataset f whole_name = Some (param_array t).
Proof. exact content_ok. Qed.
Print Assumptions C138_content_partial.
(** Assigning them to a hierarchy of the same form gives the saved one. *)
Theorem C138_restore_partial : forall t t0 b a, tidy t -> snd (save t b) = None -> same_form t0 t -> dataset (fst (save t b)) whole_name = Some a -> fst (fill t0 a) = t.
Proof. exact restore_ok. Qed.
Print Assumptions C138_restore_partial.
(** A model with different names for which it fails; what was saved in the file before is lost. *)
Theorem C138_refuted : exists t b n vs, tidy t /\ NoDup (paths t) /\ snd (save t b) = Some TypeError /\ dataset b n = Some vs /\ dataset (fst (save t b)) n = None.
Proof.
  exists bad_tree, (fst (save (ok_tree 1) [])), [99%N], [1%Z; 2%Z]. split; [exact bad_tidy|].
  split; [repeat constructor; cbn; intros H; repeat (destruct H as [H|H]; [discriminate|]); destruct H|].
  split; [reflexivity|]. split; reflexivity.
Qed.
Print Assumptions C138_refuted.

(** The hypotheses: a model with three Params on two levels. *)
Example C138_case : tidy (ok_tree 1) /\ snd (save (ok_tree 1) []) = None /\ same_form (ok_tree 9) (ok_tree 1) /\ param_at (ok_tree 1) [[97%N]; [98%N]] [3%Z] /\
  dataset (fst (save (ok_tree 1) [])) [97; 95; 98]%N = Some [3%Z] /\ dataset (fst (save (ok_tree 1) [])) whole_name = Some [1; 2; 3; 4; 1; 6]%Z.
Proof.
  split; [apply ok_tidy|]. split; [reflexivity|]. split; [repeat constructor|]. split; [|split; reflexivity].
  eapply at_grp; [right; left; reflexivity|]. eapply below_grp; [left; reflexivity | constructor].
Qed.
