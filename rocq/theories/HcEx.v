(** Examples for HcProps.v. *)
From Coq Require Import List Bool Arith ZArith Lia.
From Verif Require Import HcModel HcSpec.
Import ListNotations.

(** What methods give. *)
Definition F0 (m : nat) (d : Z) (x : nat) : Z := (100 * Z.of_nat m + 10 * d + Z.of_nat x)%Z.
(** A basis (object 0) with a Cacher of its own method 2 as attribute 1, in a model (object 2) with
    another part (object 1); the Cacher was called. *)
Definition lA : list call := [New 10 []; New 7 []; New 5 [0; 1]; Attach 0 1 0 2 3 true; Invoke 0 1 4].
Definition sA : state := run F0 start lA.
Lemma lA_legal : all_legal F0 start lA.
Proof.
  cbn. repeat split; try lia; try (repeat constructor; cbn; intuition discriminate);
  (destruct H as [E|[E|[]]]; subst x; cbn; (lia || reflexivity)) || contradiction.
Qed.
Lemma sA_reached : reached F0 sA.
Proof. exists lA. split; [exact lA_legal | reflexivity]. Qed.
Lemma legal_app : forall F l s l', all_legal F s l -> all_legal F (run F s l) l' -> all_legal F s (l ++ l').
Proof. intros F l. induction l as [|k r IH]; intros s l' H H'; cbn; [exact H'|]. destruct H as [H1 H2]. split; [exact H1 | apply IH; assumption]. Qed.
Lemma lA_latest : latest sA 0.
Proof. split; [vm_compute; lia|]. intros c' L _ _. vm_compute in L. lia. Qed.
