(** Examples for SvProps.v. *)
From Coq Require Import List Bool NArith ZArith.
From Verif Require Import SvModel SvSpec.
Import ListNotations.

(** A model "m" with a Param "c" and a Parameterized "a" that has the Params "b" and "d". *)
Definition ok_tree (v : Z) : tree := Grp [109%N] [Par [99%N] [v; 2%Z]; Grp [97%N] [Par [98%N] [3%Z]; Par [100%N] [4%Z; v; 6%Z]]].
(** A model "m" with a Param "a_b" and a Parameterized "a" that has a Param "b". *)
Definition bad_tree : tree := Grp [109%N] [Par [97; 95; 98]%N [1%Z; 2%Z]; Grp [97%N] [Par [98%N] [3%Z]]].
Lemma ok_tidy : forall v, tidy (ok_tree v).
Proof. intros v. cbn. repeat split; intros H; repeat (destruct H as [H|H]; [discriminate|]); destruct H. Qed.
Lemma bad_tidy : tidy bad_tree.
Proof. cbn. repeat split; intros H; repeat (destruct H as [H|H]; [discriminate|]); destruct H. Qed.
