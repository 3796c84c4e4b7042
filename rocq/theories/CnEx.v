(** Making Params from arrays: a concrete program. *)
From Coq Require Import List Bool Arith Lia.
From Verif Require Import CnModel CnSpec.
Import ListNotations.

Definition go (ks : list (call nat)) : state nat := fold_left (fun s k => st nat (exec nat k s)) ks (start nat (fun _ _ => 0)).
(** An array of three values, a view of two of them; Params of both, linked to one node; the first is
    constrained. *)
Definition calls1 : list (call nat) :=
  [NewArray nat (fun j => 10 + j) 3; Slice nat 0 [0; 2]; MakeParam nat 7 0; MakeParam nat 8 1; NewNode nat; Link nat 0 2; Link nat 0 3; Constrain nat 2 5].
Definition s1 : state nat := go calls1.
Lemma step1 : forall ok s k, reach ok s -> legal s k -> ok s k -> reach ok (st nat (exec nat k s)).
Proof. intros. constructor; assumption. Qed.
Lemma s1_reach : reach from_plain s1.
Proof.
  unfold s1, go, calls1. cbn [fold_left].
  apply step1; [|vm_compute; lia | exact Logic.I].
  apply step1; [|split; [vm_compute; lia | split; [vm_compute; lia | left; reflexivity]] | exact Logic.I].
  apply step1; [|split; [vm_compute; lia | split; [vm_compute; lia | left; reflexivity]] | exact Logic.I].
  apply step1; [|exact Logic.I | exact Logic.I].
  apply step1; [|vm_compute; lia | reflexivity].
  apply step1; [|vm_compute; lia | reflexivity].
  apply step1; [|split; [vm_compute; lia | reflexivity] | exact Logic.I].
  apply step1; [apply reach_start | exact Logic.I | exact Logic.I].
Qed.
Lemma reach_any : forall {V} ok (s : state V), reach ok s -> reach any s.
Proof. intros V ok s H. induction H; [constructor | constructor; auto; exact Logic.I]. Qed.
