(** Index operations beside the constraints: a concrete program. *)
From Coq Require Import List Bool Arith Lia.
From Verif Require Import IoModel IoSpec.
Import ListNotations.

Definition go (s : state) (cs : list call) : state := fold_left (fun s c => st (exec c s)) cs s.
(** One index operation that says property 8 of element 2. *)
Definition f8 : rel := fun i p => Nat.eqb i 2 && Nat.eqb p 8.
(** Two leaves and a node with 'constraints' (0) and one further index operation (1); element 1 of the
    first leaf has constraint 7, element 2 of the second has property 8; both are linked. *)
Definition calls1 : list call :=
  [NewLeaf 2; NewLeaf 3; NewNode; AddOp (L 0) 1 none; AddOp (L 1) 1 f8; AddOp (N 0) 1 none; Mark 0 0 1 7; Link 0 0; Link 0 1].
Definition s1 : state := go start calls1.
Lemma step1 : forall s c, reach fitting s -> legal s c -> fitting s c -> reach fitting (st (exec c s)).
Proof. intros. constructor; assumption. Qed.
Ltac keys := let k := fresh "k" in intros k; destruct k as [|[|[|k]]]; vm_compute; (split; let H := fresh "H" in intros H; first [(intros Q; discriminate Q) | (exfalso; apply H; reflexivity)]).
Lemma s1_reach : reach fitting s1.
Proof.
  unfold s1, go, calls1. cbn [fold_left].
  apply step1; [|split; vm_compute; lia | keys].
  apply step1; [|split; vm_compute; lia | keys].
  apply step1; [|split; vm_compute; lia | exact Logic.I].
  apply step1; [|split; [vm_compute; lia | split; [reflexivity | reflexivity]] | exact Logic.I].
  apply step1; [|split; [vm_compute; lia | split; [reflexivity|]] | exact Logic.I].
  2: { intros i p H. unfold f8 in H. apply andb_true_iff in H. destruct H as [H _]. apply Nat.eqb_eq in H. subst i. vm_compute. lia. }
  apply step1; [|split; [vm_compute; lia | split; [reflexivity | discriminate]] | exact Logic.I].
  apply step1; [|exact Logic.I | exact Logic.I].
  apply step1; [|exact Logic.I | exact Logic.I].
  apply step1; [|exact Logic.I | exact Logic.I].
  apply reach_start.
Qed.
(** A third leaf, without the further index operation, with a constraint. *)
Definition s2 : state := go s1 [NewLeaf 2; Mark 2 0 0 7].
Lemma s2_reach : reach fitting s2.
Proof.
  unfold s2, go. cbn [fold_left]. apply step1; [|split; vm_compute; lia | exact Logic.I]. apply step1; [exact s1_reach | exact Logic.I | exact Logic.I].
Qed.
(** A leaf with one more index operation than the node. *)
Definition s3 : state := go s1 [NewLeaf 3; AddOp (L 2) 1 none; AddOp (L 2) 2 f8].
Lemma s3_reach : reach fitting s3.
Proof.
  unfold s3, go. cbn [fold_left].
  apply step1; [|split; [vm_compute; lia | split; [reflexivity|]] | exact Logic.I].
  2: { intros i p H. unfold f8 in H. apply andb_true_iff in H. destruct H as [H _]. apply Nat.eqb_eq in H. subst i. vm_compute. lia. }
  apply step1; [|split; [vm_compute; lia | split; [reflexivity | discriminate]] | exact Logic.I].
  apply step1; [exact s1_reach | exact Logic.I | exact Logic.I].
Qed.
(** A leaf with an attribute. *)
Definition s4 : state := go s1 [NewLeaf 2; SetAttr 0 9 5].
Lemma s4_reach : reach fitting s4.
Proof.
  unfold s4, go. cbn [fold_left]. apply step1; [|split; [vm_compute; lia | vm_compute; intuition discriminate] | exact Logic.I]. apply step1; [exact s1_reach | exact Logic.I | exact Logic.I].
Qed.
