(** Property theorems about transformation objects (C27). *)
From Coq Require Import List ZArith Bool Arith.
From Verif Require Import InstModel InstSpec InstProofs InstEx.
Import ListNotations.
Open Scope Z_scope.

(** ** C27 *)
(** A class without bounds has one object, of exactly this class, whatever happens before and after. *)
Theorem C27_one_per_class : forall mro bounded fl dflt, (forall c, exists r, mro c = c :: r) ->
  forall s c kept, later mro bounded fl dflt anything tstart s -> bounded c = false ->
  exists s1 o, construct mro bounded fl dflt c None kept s = (s1, inl o) /\ cls_of s1 o = Some c /\
    forall s2 kept2, later mro bounded fl dflt anything s1 s2 -> construct mro bounded fl dflt c None kept2 s2 = (s2, inl o).
Proof. exact single_final. Qed.
Print Assumptions C27_one_per_class.
Example C27_one_per_class_example : (forall c, exists r, tx_mro c = c :: r) /\ tx_later anything tstart tx_singles /\ tx_bounded 2 = false /\
  tx_construct 2 None false tx_singles = (tx_singles, inl 2%nat) /\ tx_construct 1 None false tx_singles = (tx_singles, inl 0%nat).
Proof. exact tx_single_ok. Qed.
(** Arguments for such a class: refused when there is no object of it yet, ignored otherwise. *)
Theorem C27_arguments : forall mro bounded fl dflt, (forall c, exists r, mro c = c :: r) ->
  forall s c b kept, later mro bounded fl dflt anything tstart s -> bounded c = false ->
  (construct mro bounded fl dflt c (Some b) kept s = (s, inr TypeError) /\ exists s1 o, construct mro bounded fl dflt c None kept s = (s1, inl o) /\ cls_of s o = None) \/
  (exists o, construct mro bounded fl dflt c (Some b) kept s = (s, inl o) /\ construct mro bounded fl dflt c None kept s = (s, inl o)).
Proof. exact arguments_final. Qed.
Print Assumptions C27_arguments.
Example C27_arguments_example : tx_later anything tstart tx_singles /\ tx_construct 2 (Some (0, 1)) false tstart = (tstart, inr TypeError) /\ tx_construct 2 (Some (0, 1)) false tx_singles = (tx_singles, inl 2%nat).
Proof. split; [apply tx_single_ok | split; vm_compute; reflexivity]. Qed.
(** Logistic: while the object is alive, the same bounds give the same object. Missing from the full
    statement: copies, bounds that are not floating point numbers, subclasses, and failed
    constructions whose traceback is kept; see the refutations below. *)
Theorem C27_one_per_bounds_partial : forall mro bounded fl dflt, (forall c, exists r, mro c = c :: r) ->
  forall c s lo hi kept s1 o, bounded c = true -> later mro bounded fl dflt (simple_use bounded fl c) tstart s -> fl lo = lo -> fl hi = hi ->
  construct mro bounded fl dflt c (Some (lo, hi)) false s = (s1, inl o) ->
  forall s2, later mro bounded fl dflt (simple_use bounded fl c) s1 s2 -> alive s2 o = true ->
  exists s3, construct mro bounded fl dflt c (Some (lo, hi)) kept s2 = (s3, inl o).
Proof. exact bounded_final. Qed.
Print Assumptions C27_one_per_bounds_partial.
Example C27_one_per_bounds_example : tx_bounded 3 = true /\ tx_later (simple_use tx_bounded tx_fl 3) tstart tx_uses /\ tx_fl 0 = 0 /\ tx_fl 20 = 20 /\
  snd (tx_construct 3 (Some (0, 20)) false tx_uses) = inl 2%nat /\ alive tx_uses 2 = true /\ alive tx_uses 0 = false /\
  snd (tx_construct 3 (Some (0, 10)) false tx_uses) = inl 4%nat.
Proof. exact tx_bounded_ok. Qed.
(** The object has the bounds asked for, and nothing changes them later: also not copies, subclasses or failures. *)
Theorem C27_bounds_stay : forall mro bounded fl dflt, (forall c, exists r, mro c = c :: r) ->
  forall s c lo hi kept s1 o, later mro bounded fl dflt (exact_bounds fl) tstart s -> bounded c = true -> fl lo = lo -> fl hi = hi ->
  construct mro bounded fl dflt c (Some (lo, hi)) kept s = (s1, inl o) ->
  forall s2, later mro bounded fl dflt (exact_bounds fl) s1 s2 -> bds_of s2 o = Some (lo, hi).
Proof. exact bounds_final. Qed.
Print Assumptions C27_bounds_stay.
(** Different bounds give different objects. *)
Theorem C27_different : forall mro bounded fl dflt, (forall c, exists r, mro c = c :: r) ->
  forall s c lo hi kept s1 o, later mro bounded fl dflt (exact_bounds fl) tstart s -> bounded c = true -> fl lo = lo -> fl hi = hi ->
  construct mro bounded fl dflt c (Some (lo, hi)) kept s = (s1, inl o) ->
  forall s2 c' lo' hi' kept' s3 o', later mro bounded fl dflt (exact_bounds fl) s1 s2 -> bounded c' = true -> fl lo' = lo' -> fl hi' = hi' ->
  construct mro bounded fl dflt c' (Some (lo', hi')) kept' s2 = (s3, inl o') -> (lo', hi') <> (lo, hi) -> o' <> o.
Proof. exact different_final. Qed.
Print Assumptions C27_different.
Example C27_different_example : tx_later (exact_bounds tx_fl) tstart tx_copied /\ snd (tx_construct 3 (Some (0, 10)) false tx_copied) = inl 0%nat /\
  snd (tx_construct 3 (Some (0, 20)) false tx_copied) = inl 2%nat.
Proof. split; [exact tx_copied_exact | split; vm_compute; reflexivity]. Qed.
(** A copy of a Logistic object is another object with the same bounds; constructing finds the original. *)
Theorem C27_copy_refuted : exists s o o', tx_later (exact_bounds tx_fl) tstart s /\ o <> o' /\ alive s o = true /\ alive s o' = true /\
  cls_of s o = cls_of s o' /\ bds_of s o = Some (0, 10) /\ bds_of s o' = Some (0, 10) /\ snd (tx_construct 3 (Some (0, 10)) false s) = inl o.
Proof. exact copy_refuted. Qed.
Print Assumptions C27_copy_refuted.
(** After a construction with bounds in the wrong order, and as long as its traceback is kept, no
    Logistic object can be constructed. *)
Theorem C27_failed_refuted : exists s, tx_later (exact_bounds tx_fl) tstart s /\ snd (tx_construct 3 (Some (5, 2)) true s) = inr AssertionError /\
  snd (tx_construct 3 (Some (0, 10)) false (fst (tx_construct 3 (Some (5, 2)) true s))) = inr AttributeError.
Proof. exact failed_refuted. Qed.
Print Assumptions C27_failed_refuted.
(** Bounds that are not floating point numbers are never found again. *)
Theorem C27_rounding_refuted : exists s o o', tx_later anything tstart s /\ tx_construct 3 (Some (0, 1003)) false tstart = (s, inl o) /\ alive s o = true /\
  snd (tx_construct 3 (Some (0, 1003)) false s) = inl o' /\ o <> o'.
Proof. exact rounding_refuted. Qed.
Print Assumptions C27_rounding_refuted.
(** Constructing a subclass of Logistic can give an object that is not one of it. *)
Theorem C27_subclass_refuted : exists s o s', tx_later (exact_bounds tx_fl) tstart s /\ tx_construct 3 (Some (0, 10)) false tstart = (s, inl o) /\
  tx_construct 4 (Some (0, 10)) false s = (s', inl o) /\ isinstance tx_mro s' o 4 = false.
Proof. exact subclass_refuted. Qed.
Print Assumptions C27_subclass_refuted.
