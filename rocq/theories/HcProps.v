(** Cachers as attributes in hierarchies, their switches, copies and pickles: C135-C137. *)
From Coq Require Import List Bool Arith ZArith Lia.
From Verif Require Import HcModel HcSpec HcProofs3 HcEx.
Import ListNotations.

(** *** C135: disable_caching of an object switches off all caching in its hierarchy. *)
(** It reaches the Cacher that was made last for each method of each object of the hierarchy, and no other. *)
Theorem C135_off : forall F s o, reached F s -> o < no s ->
  let s' := st (exec F (TreeOff o) s) in
  (forall q j c, q < no s -> is_attr s q j c -> under s o (c_obj (cch s c)) -> latest s c ->
     is_attr s' q j c /\ c_obj (cch s' c) = c_obj (cch s c) /\ c_meth (cch s' c) = c_meth (cch s c) /\ c_res (cch s' c) = [] /\ executes F s' q j c) /\
  (forall c, c < nc s -> ~ (under s o (c_obj (cch s c)) /\ latest s c) -> cch s' c = cch s c).
Proof. exact off_effect. Qed.
Print Assumptions C135_off.
(** These, and all Cachers made later for methods of the hierarchy (also by copying), execute at every call
    until something is switched on. *)
Theorem C135_stays : forall F s o l, reached F s -> o < no s ->
  let s1 := st (exec F (TreeOff o) s) in all_legal F s1 l -> (forall k, In k l -> ~ turns_on k) ->
  let s2 := run F s1 l in
  forall q j c, q < no s2 -> is_attr s2 q j c -> under s o (c_obj (cch s2 c)) -> nc s <= c \/ latest s c -> executes F s2 q j c.
Proof. exact stays_off. Qed.
Print Assumptions C135_stays.
(** enable_caching reaches the same ones and keeps their results. *)
Theorem C135_on : forall F s o, reached F s -> o < no s ->
  let s' := st (exec F (TreeOn o) s) in
  forall c, c < nc s ->
    (under s o (c_obj (cch s c)) /\ latest s c -> c_on (cch s' c) = true /\ c_res (cch s' c) = c_res (cch s c)) /\
    (~ (under s o (c_obj (cch s c)) /\ latest s c) -> cch s' c = cch s c).
Proof. exact on_effect. Qed.
Print Assumptions C135_on.
(** After the model was copied, disable_caching of the model does not reach the Cacher of its own basis. *)
Theorem C135_refuted : exists F s o q j c x v, reached F s /\ under s o q /\ is_attr s q j c /\ c_obj (cch s c) = q /\ latest s c /\
  let s' := st (exec F (TreeOff o) (st (exec F (Copy o) s))) in
  is_attr s' q j c /\ ran (exec F (Invoke q j x) s') = false /\ val (exec F (Invoke q j x) s') = Some v /\
  val (exec F (Invoke q j x) (st (exec F (SetData q 30) s'))) = Some v /\ v <> F (c_meth (cch s c)) 30%Z x.
Proof.
  exists F0, sA, 2, 0, 1, 0, 4, 304%Z. split; [exact sA_reached|]. split; [apply under_kid with 0; [vm_compute; auto | constructor]|].
  split; [vm_compute; reflexivity|]. split; [vm_compute; reflexivity|]. split; [exact lA_latest|]. cbv zeta.
  split; [vm_compute; reflexivity|]. split; [vm_compute; reflexivity|]. split; [vm_compute; reflexivity|]. split; [vm_compute; reflexivity | vm_compute; discriminate].
Qed.
Print Assumptions C135_refuted.

(** *** C136: a copy of an object computes with the copy, also through its Cachers. *)
(** The copy is like the original, but its Cachers, which are new and empty, are bound to the objects that the
    Cachers of the original were bound to; nothing of the original changes. *)
Theorem C136_copy_partial : forall F s o, reached F s -> o < no s ->
  let r := exec F (Copy o) s in let s' := st r in
  exn r = None /\ (exists o', ref r = Some o' /\ par (obj s' o') = None /\ copied s s' o o') /\
  (forall x, x < no s -> data (obj s' x) = data (obj s x) /\ kids (obj s' x) = kids (obj s x) /\ par (obj s' x) = par (obj s x) /\ attrs (obj s' x) = attrs (obj s x)) /\
  (forall c, c < nc s -> cch s' c = cch s c).
Proof. exact copy_effect. Qed.
Print Assumptions C136_copy_partial.
(** A Cacher, copied or not, gives what its method gives, if the data of the object it is bound to were never
    assigned after the object was made. *)
Theorem C136_values_partial : forall F l t, all_legal F start l -> (forall k d, In k l -> k <> SetData t d) ->
  let s := run F start l in
  forall o j c x, o < no s -> is_attr s o j c -> c_obj (cch s c) = t ->
    val (exec F (Invoke o j x) s) = Some (F (c_meth (cch s c)) (data (obj s t)) x).
Proof. exact values_ok. Qed.
Print Assumptions C136_values_partial.
(** The copy of a basis with a Cacher of its own method goes on computing with the original. *)
Theorem C136_data_refuted : exists F s o j c o' x, reached F s /\ is_attr s o j c /\ c_obj (cch s c) = o /\
  ref (exec F (Copy o) s) = Some o' /\
  let s' := st (exec F (SetData o' 20) (st (exec F (Copy o) s))) in
  val (exec F (Invoke o' j x) s') = Some (F (c_meth (cch s c)) (data (obj s' o)) x) /\
  val (exec F (Invoke o' j x) s') <> Some (F (c_meth (cch s c)) (data (obj s' o')) x).
Proof.
  exists F0, sA, 0, 1, 0, 3, 6. split; [exact sA_reached|]. split; [vm_compute; reflexivity|]. split; [vm_compute; reflexivity|]. split; [vm_compute; reflexivity|].
  cbv zeta. split; [vm_compute; reflexivity | vm_compute; discriminate].
Qed.
Print Assumptions C136_data_refuted.
(** disable_caching of a copy does not switch off the copy's Cacher; disable_caching of the original does. *)
Theorem C136_switch_refuted : exists F s o o' j c', reached F s /\ ref (exec F (Copy o) s) = Some o' /\
  let s' := st (exec F (Copy o) s) in is_attr s' o' j c' /\ c_on (cch s' c') = true /\
  c_on (cch (st (exec F (TreeOff o') s')) c') = true /\ c_on (cch (st (exec F (TreeOff o) s')) c') = false.
Proof.
  exists F0, sA, 0, 3, 1, 1. split; [exact sA_reached|]. split; [vm_compute; reflexivity|]. cbv zeta. split; [vm_compute; reflexivity|].
  split; [vm_compute; reflexivity|]. split; vm_compute; reflexivity.
Qed.
Print Assumptions C136_switch_refuted.

(** *** C137: every object of a hierarchy can be pickled. *)
(** Exactly those can not be whose hierarchy has a Cacher among its attributes anywhere, also above or beside. *)
Theorem C137_pickle_partial : forall F s o, reached F s -> o < no s ->
  let r := exec F (Pickle o) s in
  st r = s /\ (exn r = None \/ exn r = Some PickleError) /\ (exn r = Some PickleError <-> exists x j c, related s o x /\ is_attr s x j c).
Proof. exact pickle_effect. Qed.
Print Assumptions C137_pickle_partial.
Theorem C137_refuted : exists F s o, reached F s /\ o < no s /\ attrs (obj s o) = [] /\ kids (obj s o) = [] /\ exn (exec F (Pickle o) s) = Some PickleError.
Proof. exists F0, sA, 1. split; [exact sA_reached|]. split; [vm_compute; lia|]. split; [reflexivity|]. split; [reflexivity | vm_compute; reflexivity]. Qed.
Print Assumptions C137_refuted.

(** The hypotheses of C135_off, C135_on and C136_copy_partial. *)
Example C135_case : reached F0 sA /\ 2 < no sA /\ is_attr sA 0 1 0 /\ under sA 2 0 /\ c_obj (cch sA 0) = 0 /\ latest sA 0 /\
  ran (exec F0 (Invoke 0 1 4) sA) = false /\ ran (exec F0 (Invoke 0 1 4) (st (exec F0 (TreeOff 2) sA))) = true.
Proof.
  split; [exact sA_reached|]. split; [vm_compute; lia|]. split; [reflexivity|]. split; [apply under_kid with 0; [vm_compute; auto | constructor]|].
  split; [reflexivity|]. split; [exact lA_latest|]. split; reflexivity.
Qed.
(** Of C135_stays: after disable_caching the model is copied, and a Cacher is made for the other part. *)
Example C135_stays_case : let s1 := st (exec F0 (TreeOff 2) sA) in let l := [Copy 2; Attach 0 6 1 8 2 true; Invoke 0 6 3] in
  all_legal F0 s1 l /\ (forall k, In k l -> ~ turns_on k) /\ is_attr (run F0 s1 l) 3 1 1 /\ is_attr (run F0 s1 l) 0 6 2 /\
  under sA 2 (c_obj (cch (run F0 s1 l) 1)) /\ under sA 2 (c_obj (cch (run F0 s1 l) 2)) /\ nc sA = 1.
Proof.
  cbv zeta. split; [cbn; repeat split; lia|]. split; [intros k [E|[E|[E|[]]]]; subst k; intros []|]. split; [vm_compute; reflexivity|]. split; [vm_compute; reflexivity|].
  split; [apply under_kid with 0; [vm_compute; auto | constructor]|]. split; [apply under_kid with 1; [vm_compute; auto | constructor] | reflexivity].
Qed.
(** Of C136_values_partial: the data of object 1 are assigned, not those of object 0. *)
Example C136_case : let l := lA ++ [SetData 1 9; Copy 2] in all_legal F0 start l /\ (forall k d, In k l -> k <> SetData 0 d) /\
  is_attr (run F0 start l) 3 1 1 /\ c_obj (cch (run F0 start l) 1) = 0 /\ val (exec F0 (Invoke 3 1 4) (run F0 start l)) = Some 304%Z.
Proof.
  cbv zeta. split; [apply legal_app; [exact lA_legal | cbn; repeat split; lia]|].
  split; [intros k d H; cbn in H; repeat (destruct H as [H|H]; [subst k; discriminate|]); destruct H|]. split; [vm_compute; reflexivity|]. split; vm_compute; reflexivity.
Qed.
(** Of C137_pickle_partial: a hierarchy without Cachers can be pickled. *)
Example C137_case : let s := run F0 start [New 1 []; New 2 [0]; New 3 []; Attach 2 1 0 5 2 true] in
  reached F0 s /\ exn (exec F0 (Pickle 0) s) = None /\ exn (exec F0 (Pickle 2) s) = Some PickleError.
Proof.
  cbv zeta. split; [|split; reflexivity]. eexists. split; [|reflexivity]. cbn. repeat split; try lia; try (repeat constructor; cbn; intuition discriminate);
  (destruct H as [E|[]]; subst x; cbn; (lia || reflexivity)) || contradiction.
Qed.
