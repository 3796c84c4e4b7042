(** Removing observers that have an equality of their own, as arrays have: C130. *)
From Coq Require Import List ZArith Bool Arith Lia.
From Verif Require Import ObserversModel ObserversSpec OeModel OeSpec OeProofs OeEx.
Import ListNotations.

(** *** C130: removing an observer removes its registrations and no others. *)
(** If the observer can be compared with the others and equals only itself. *)
Theorem C130_removed : forall eq s o c, (forall e, In e (registered s) -> eq o (e_obs e) = Some (Nat.eqb o (e_obs e))) ->
  snd (remove_observer_eq eq s o c) = false /\
  registered (fst (remove_observer_eq eq s o c)) =
  filter (fun e => negb (Nat.eqb (e_obs e) o && match c with Some k => Nat.eqb (e_cb e) k | None => true end)) (registered s).
Proof. exact removal_sane. Qed.
Print Assumptions C130_removed.
(** In general: when it raises, and what it removes. *)
Theorem C130_raises : forall eq s o c, snd (remove_observer_eq eq s o c) = true <-> exists e, in_the_way eq s o c e.
Proof. exact removal_when. Qed.
Print Assumptions C130_raises.
Theorem C130_at_most : forall eq s o c, part (looks_meant eq s o c) (registered s) (registered (fst (remove_observer_eq eq s o c))).
Proof. exact removal_at_most. Qed.
Print Assumptions C130_at_most.
Theorem C130_done : forall eq s o c, snd (remove_observer_eq eq s o c) = false ->
  forall e, In e (registered (fst (remove_observer_eq eq s o c))) -> ~ looks_meant eq s o c e.
Proof. exact removal_done. Qed.
Print Assumptions C130_done.
Theorem C130_priority : forall eq s o c p, alive s o = true ->
  snd (change_priority_eq eq s o c p) = snd (remove_observer_eq eq s o (Some c)) /\
  (snd (change_priority_eq eq s o c p) = true -> registered (fst (change_priority_eq eq s o c p)) = registered (fst (remove_observer_eq eq s o (Some c)))) /\
  (snd (change_priority_eq eq s o c p) = false ->
   part (fun e => e = mkE p o c) (registered (fst (change_priority_eq eq s o c p))) (registered (fst (remove_observer_eq eq s o (Some c)))) /\
   length (registered (fst (change_priority_eq eq s o c p))) = S (length (registered (fst (remove_observer_eq eq s o (Some c)))))).
Proof. exact change_effect. Qed.
Print Assumptions C130_priority.
(** An array of several elements cannot be removed, and nothing at its priority can. *)
Theorem C130_array : forall vals other s o c v r, vals o = Some v -> (2 <= length v)%nat -> In r (registered s) -> meant o c r ->
  snd (remove_observer_eq (np_eq vals other) s o c) = true.
Proof. exact array_error. Qed.
Print Assumptions C130_array.
Theorem C130_beside : forall vals other s o c a v r e, vals o = None -> vals a = Some v -> (2 <= length v)%nat ->
  In r (registered s) -> meant o c r -> In e (registered s) -> e_obs e = a -> e_prio e = e_prio r ->
  snd (remove_observer_eq (np_eq vals other) s o c) = true.
Proof. exact beside_error. Qed.
Print Assumptions C130_beside.

Theorem C130_array_refuted : exists vals other l o, let s := orun onew l in legal_from [] l /\
  snd (remove_observer_eq (np_eq vals other) s o None) = true /\
  exists r, In r (registered (fst (remove_observer_eq (np_eq vals other) s o None))) /\ e_obs r = o.
Proof.
  exists ex_vals, None, [OAddO (Fin 0) 1 10; OAddO (Fin 0) 3 30], 1%nat. split; [cbn; tauto|]. split; [vm_compute; reflexivity|].
  exists (mkE (Fin 0) 1 10). split; [vm_compute; auto | reflexivity].
Qed.
Print Assumptions C130_array_refuted.
Theorem C130_empty_refuted : exists vals other l o, let s := orun onew l in legal_from [] l /\
  snd (remove_observer_eq (np_eq vals other) s o None) = false /\
  exists r, In r (registered (fst (remove_observer_eq (np_eq vals other) s o None))) /\ e_obs r = o.
Proof.
  exists ex_vals, None, [OAddO (Fin 0) 1 10; OAddO (Fin 0) 4 40], 4%nat. split; [cbn; tauto|]. split; [vm_compute; reflexivity|].
  exists (mkE (Fin 0) 4 40). split; [vm_compute; auto | reflexivity].
Qed.
Print Assumptions C130_empty_refuted.
Theorem C130_equal_refuted : exists vals other l o e, let s := orun onew l in legal_from [] l /\
  snd (remove_observer_eq (np_eq vals other) s o None) = false /\
  In e (registered s) /\ e_obs e <> o /\ ~ In e (registered (fst (remove_observer_eq (np_eq vals other) s o None))).
Proof.
  exists ex_vals, None, [OAddO (Fin 0) 5 10; OAddO (Fin 0) 6 10], 5%nat, (mkE (Fin 0) 6 10). split; [cbn; tauto|]. split; [vm_compute; reflexivity|].
  split; [vm_compute; auto|]. split; [discriminate|]. vm_compute. tauto.
Qed.
Print Assumptions C130_equal_refuted.

(** The hypotheses: an object among objects; arrays at other priorities do no harm. *)
Example C130_removed_case : let s := ex_s [(0%Z, 1%nat, 10%nat); (5%Z, 2%nat, 20%nat); (0%Z, 1%nat, 11%nat)] in
  (forall e, In e (registered s) -> np_eq ex_vals None 1 (e_obs e) = Some (Nat.eqb 1 (e_obs e))) /\
  registered s = [mkE (Fin 5) 2 20; mkE (Fin 0) 1 10; mkE (Fin 0) 1 11] /\
  registered (fst (remove_observer_eq (np_eq ex_vals None) s 1 None)) = [mkE (Fin 5) 2 20].
Proof.
  split; [|split; vm_compute; reflexivity]. intros e H. vm_compute in H. destruct H as [<-|[<-|[<-|[]]]]; reflexivity.
Qed.
Example C130_raises_case : let s := ex_s [(0%Z, 1%nat, 10%nat); (5%Z, 3%nat, 30%nat); (5%Z, 1%nat, 11%nat)] in
  In (mkE (Fin 5) 3 30) (registered s) /\ meant 3 None (mkE (Fin 5) 3 30) /\ in_the_way (np_eq ex_vals None) s 3 None (mkE (Fin 5) 3 30) /\
  meant 1 None (mkE (Fin 5) 1 11) /\ in_the_way (np_eq ex_vals None) s 1 None (mkE (Fin 5) 3 30) /\
  snd (remove_observer_eq (np_eq ex_vals None) s 1 (Some 10%nat)) = false /\
  registered (fst (remove_observer_eq (np_eq ex_vals None) s 1 (Some 10%nat))) = [mkE (Fin 5) 3 30; mkE (Fin 5) 1 11] /\
  (* priorities are taken in turn: the first registration at 5 raises, the one at 0 stays *)
  registered (fst (remove_observer_eq (np_eq ex_vals None) s 1 None)) = [mkE (Fin 5) 3 30; mkE (Fin 0) 1 10].
Proof.
  cbv zeta. split; [vm_compute; auto|]. split; [split; [reflexivity | exact I]|].
  split; [split; [vm_compute; auto | split; [reflexivity | exists (mkE (Fin 5) 3 30); split; [vm_compute; auto | split; [split; [reflexivity | exact I] | reflexivity]]]]|].
  split; [split; [reflexivity | exact I]|].
  split; [split; [vm_compute; auto | split; [reflexivity | exists (mkE (Fin 5) 1 11); split; [vm_compute; auto | split; [split; [reflexivity | exact I] | reflexivity]]]]|].
  split; [vm_compute; reflexivity|]. split; vm_compute; reflexivity.
Qed.
Example C130_priority_case : let s := ex_s [(0%Z, 1%nat, 10%nat); (5%Z, 2%nat, 20%nat)] in alive s 1 = true /\
  registered (fst (change_priority_eq (np_eq ex_vals None) s 1 10 (Fin 9))) = [mkE (Fin 9) 1 10; mkE (Fin 5) 2 20].
Proof. split; vm_compute; reflexivity. Qed.
