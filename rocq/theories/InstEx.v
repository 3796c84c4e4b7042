(** Classes and histories used as examples beside the properties of transformation objects, and as witnesses. *)
From Coq Require Import List ZArith Bool Arith Lia.
From Verif Require Import InstModel InstSpec InstProofs.
Import ListNotations.
Open Scope Z_scope.

(** 0 Logexp, 1 Exponent, 2 NegativeExponent (a subclass of 1), 3 Logistic, 4 a subclass of Logistic;
    all are subclasses of 9, Transformation. *)
Definition tx_mro (c : nat) : list nat := match c with 2 => [2;1;9] | 4 => [4;3;9] | _ => [c;9] end%nat.
Definition tx_bounded (c : nat) : bool := (c =? 3)%nat || (c =? 4)%nat.
(** Numbers with too many digits lose the last one. *)
Definition tx_fl (z : Z) : Z := if Z.abs z <? 100 then z else 10 * (z / 10).
Definition tx_later := later tx_mro tx_bounded tx_fl 1.
Definition tx_construct := construct tx_mro tx_bounded tx_fl 1.
Definition tx_duplicate := duplicate tx_mro tx_bounded 1.
Definition tx_from (ks : list tcall) : tst := thistory tx_mro tx_bounded tx_fl 1 ks tstart.
Lemma tx_self : forall c, exists r, tx_mro c = c :: r.
Proof. intros [|[|[|[|[|c]]]]]; eexists; reflexivity. Qed.
Lemma tx_all : forall (ok : tst -> tcall -> Prop) ks s, (forall ks1 k ks2, ks = ks1 ++ k :: ks2 -> ok (thistory tx_mro tx_bounded tx_fl 1 ks1 s) k) ->
  tx_later ok s (thistory tx_mro tx_bounded tx_fl 1 ks s).
Proof.
  intros ok ks s. induction ks as [|k ks IH] using rev_ind; intros H; [constructor|].
  unfold thistory. rewrite fold_left_app. cbn [fold_left]. apply later_step.
  - apply IH. intros ks1 k' ks2 ->. apply (H ks1 k' (ks2 ++ [k])). rewrite <- app_assoc. reflexivity.
  - apply (H ks k []). reflexivity.
Qed.
Lemma tx_any : forall ks s, tx_later anything s (thistory tx_mro tx_bounded tx_fl 1 ks s).
Proof. intros ks s. apply tx_all. intros; exact Logic.I. Qed.

(** Exponent and NegativeExponent, in both orders, with other objects in between. *)
Notation tx_singles := (tx_from [Construct 1 None false; Construct 3 (Some (0, 10)) false; Construct 2 None false; Duplicate 2; Construct 0 None false]).
Lemma tx_single_ok : (forall c, exists r, tx_mro c = c :: r) /\ tx_later anything tstart tx_singles /\ tx_bounded 2 = false /\
  tx_construct 2 None false tx_singles = (tx_singles, inl 2%nat) /\ tx_construct 1 None false tx_singles = (tx_singles, inl 0%nat).
Proof.
  split; [exact tx_self|]. split; [apply tx_any|]. split; [reflexivity|]. split; vm_compute; reflexivity.
Qed.
(** Two pairs of bounds, a failed construction, the death of one of the objects. *)
Definition tx_calls : list tcall := [Construct 3 (Some (0, 10)) false; Construct 3 (Some (5, 2)) false; Construct 3 (Some (0, 20)) false; Die 0; Construct 1 None false].
Notation tx_uses := (tx_from tx_calls).
Lemma tx_uses_simple : tx_later (simple_use tx_bounded tx_fl 3) tstart tx_uses.
Proof.
  apply tx_all. intros ks1 k ks2 E. assert (I : In k tx_calls) by (rewrite E; apply in_or_app; right; left; reflexivity). clear E.
  cbn in I. destruct I as [<-|[<-|[<-|[<-|[<-|[]]]]]]; split; cbn; auto; intros Q; discriminate Q.
Qed.
Lemma tx_bounded_ok : tx_bounded 3 = true /\ tx_later (simple_use tx_bounded tx_fl 3) tstart tx_uses /\ tx_fl 0 = 0 /\ tx_fl 20 = 20 /\
  snd (tx_construct 3 (Some (0, 20)) false tx_uses) = inl 2%nat /\ alive tx_uses 2 = true /\ alive tx_uses 0 = false /\
  snd (tx_construct 3 (Some (0, 10)) false tx_uses) = inl 4%nat.
Proof. split; [reflexivity|]. split; [exact tx_uses_simple|]. repeat split; vm_compute; reflexivity. Qed.
Notation tx_copied := (tx_from [Construct 3 (Some (0, 10)) false; Duplicate 0]).
Lemma tx_copied_exact : tx_later (exact_bounds tx_fl) tstart tx_copied.
Proof.
  apply tx_all. intros ks1 k ks2 E. assert (I : In k [Construct 3 (Some (0, 10)) false; Duplicate 0]) by (rewrite E; apply in_or_app; right; left; reflexivity). clear E.
  cbn in I. destruct I as [<-|[<-|[]]]; cbn; auto.
Qed.
Lemma copy_refuted : exists s o o', tx_later (exact_bounds tx_fl) tstart s /\ o <> o' /\ alive s o = true /\ alive s o' = true /\
  cls_of s o = cls_of s o' /\ bds_of s o = Some (0, 10) /\ bds_of s o' = Some (0, 10) /\ snd (tx_construct 3 (Some (0, 10)) false s) = inl o.
Proof.
  exists tx_copied, 0%nat, 1%nat. split; [exact tx_copied_exact|]. split; [discriminate|]. repeat split; vm_compute; reflexivity.
Qed.
Lemma failed_refuted : exists s, tx_later (exact_bounds tx_fl) tstart s /\ snd (tx_construct 3 (Some (5, 2)) true s) = inr AssertionError /\
  snd (tx_construct 3 (Some (0, 10)) false (fst (tx_construct 3 (Some (5, 2)) true s))) = inr AttributeError.
Proof. exists tstart. split; [constructor|]. split; vm_compute; reflexivity. Qed.
Lemma rounding_refuted : exists s o o', tx_later anything tstart s /\ tx_construct 3 (Some (0, 1003)) false tstart = (s, inl o) /\ alive s o = true /\
  snd (tx_construct 3 (Some (0, 1003)) false s) = inl o' /\ o <> o'.
Proof.
  exists (tx_from [Construct 3 (Some (0, 1003)) false]), 0%nat, 1%nat. split; [apply tx_any|]. split; [reflexivity|]. split; [reflexivity|]. split; [vm_compute; reflexivity | discriminate].
Qed.
Lemma subclass_refuted : exists s o s', tx_later (exact_bounds tx_fl) tstart s /\ tx_construct 3 (Some (0, 10)) false tstart = (s, inl o) /\
  tx_construct 4 (Some (0, 10)) false s = (s', inl o) /\ isinstance tx_mro s' o 4 = false.
Proof.
  exists (tx_from [Construct 3 (Some (0, 10)) false]), 0%nat, (tx_from [Construct 3 (Some (0, 10)) false]).
  split.
  { apply tx_all. intros ks1 k ks2 E. assert (I : In k [Construct 3 (Some (0, 10)) false]) by (rewrite E; apply in_or_app; right; left; reflexivity). destruct I as [<-|[]]. cbn. auto. }
  split; [reflexivity|]. split; vm_compute; reflexivity.
Qed.
