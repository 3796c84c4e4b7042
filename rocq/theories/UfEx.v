(** States used as examples and witnesses. *)
From Coq Require Import List ZArith Bool Lia Arith.
From Verif Require Import NpModel NpProofs IndexOpsModel IndexOpsSpec PzModel PzSpec PzFinal PzEx UfModel UfSpec.
Import ListNotations.
Open Scope Z_scope.

(** 4 = [2 = [0, 1], 3]; 1 is fixed, [optimizer_array] of 2 is read, then an element of 0 is fixed. *)
Notation uf_base := [NewParam [1;2]; NewParam [3]; NewNode [0;1]%nat true; NewParam [4;5]; NewNode [2;3]%nat true].
Notation uf_free := (from_start uf_base).
Notation uf_read := (from_start (uf_base ++ [Fix 1%nat None; ReadOptimizer 2%nat; Fix 0%nat (Some [0])])).
Notation uf_fixed := (from_start (uf_base ++ [Fix 1%nat None; Fix 3%nat (Some [0])])).
Notation uf_emptied := (from_start [NewParam [1]; NewNode [0]%nat true; Unlink 1%nat 0%nat]).

Ltac rch := apply start_reach; vm_compute; reflexivity.
Ltac rdy := first [left; vm_compute; reflexivity | right; vm_compute; reflexivity].
Ltac fre := apply free_is; vm_compute; reflexivity.

Lemma free_none : forall s x, cons_get (ios s) x Fixed = [] -> forall j, ~ @has Z s x Fixed j.
Proof. intros s x E j H. change (In j (cons_get (ios s) x Fixed)) in H. rewrite E in H. destruct H. Qed.
Lemma some_none : forall (A : Type) (a : A), Some a = None -> False.
Proof. discriminate. Qed.
Lemma two_one : length [1;2] = length [1] -> False.
Proof. discriminate. Qed.
Lemma uf_case : ex_reach uf_fixed /\ kind (st uf_fixed) 4 = KNode /\ ready (st uf_fixed) 4 /\ size (st uf_fixed) 4 = 5 /\ free uf_fixed 4 [0;1;4] /\
  has uf_fixed 4 Fixed 2 /\ unfixed_param_array 4 uf_fixed = Ok (Own [1;2;5]) /\ fix_ uf_fixed 2%nat = None /\ fresh (nt uf_fixed) 2 = false /\
  free uf_fixed 2 [0;1] /\ has uf_fixed 2 Fixed 2 /\ par (st uf_fixed) 2 = Some 4%nat /\ kind (st uf_fixed) 2 = KNode /\ ready (st uf_fixed) 2.
Proof.
  split; [rch|]. split; [vm_compute; reflexivity|]. split; [rdy|]. split; [vm_compute; reflexivity|]. split; [fre|]. split; [apply has_is; vm_compute; reflexivity|].
  split; [vm_compute; reflexivity|]. split; [vm_compute; reflexivity|]. split; [vm_compute; reflexivity|]. split; [fre|]. split; [apply has_is; vm_compute; reflexivity|].
  split; [vm_compute; reflexivity|]. split; [vm_compute; reflexivity|]. rdy.
Qed.
Lemma uf_live : ex_reach uf_free /\ kind (st uf_free) 2 = KNode /\ ready (st uf_free) 2 /\ size (st uf_free) 2 = 3 /\ (forall j, ~ has uf_free 2 Fixed j) /\
  exists a, unfixed_param_array 2 uf_free = Ok (Itself a) /\ value (fst (poke (Itself a) 2 9 uf_free)) 1 0 = Some 9.
Proof.
  split; [rch|]. split; [vm_compute; reflexivity|]. split; [rdy|]. split; [vm_compute; reflexivity|].
  split; [apply free_none; vm_compute; reflexivity|]. exists (4%nat, 0, 3). split; vm_compute; reflexivity.
Qed.
Lemma emptied_refuted : exists s u, ex_reach s /\ kind (st s) 1 = KNode /\ ready (st s) 1 /\ free s 1 [] /\ unfixed_param_array 1 s = Ok u /\ entry s u 0 = Some 1 /\ ~ holds s u 1 [].
Proof.
  exists uf_emptied, (Itself (1%nat, 0, 1)). split; [rch|]. split; [vm_compute; reflexivity|]. split; [rdy|]. split; [fre|]. split; [vm_compute; reflexivity|]. split; [vm_compute; reflexivity|].
  intros Q. specialize (Q 0%nat). assert (E : entry uf_emptied (Itself (1%nat, 0, 1)) 0 = Some 1) by (vm_compute; reflexivity). rewrite E in Q. exact (some_none _ _ Q).
Qed.
Lemma leaf_case : ex_reach uf_fixed /\ is_leaf (st uf_fixed) 0 = true /\ is_leaf (st uf_fixed) 1 = true /\ has uf_fixed 1 Fixed 0 /\ ~ has uf_fixed 0 Fixed 0.
Proof. split; [rch|]. split; [vm_compute; reflexivity|]. split; [vm_compute; reflexivity|]. split; [apply has_is; vm_compute; reflexivity | apply has_not; vm_compute; reflexivity]. Qed.
Lemma stale_refuted : exists s l s', ex_reach s /\ kind (st s) 2 = KNode /\ ready (st s) 2 /\ free s 2 [1] /\ unfixed_param_array 2 s = Ok (Own [2]) /\
  get_optimizer_array ex_finv 2 s = Ok (l, s') /\ length l = 2%nat /\ ~ get_spec ex_finv s 2 [1] l.
Proof.
  exists uf_read, [1;2], (got (get_optimizer_array ex_finv 2 uf_read) uf_read). split; [rch|]. split; [vm_compute; reflexivity|]. split; [rdy|]. split; [fre|].
  split; [vm_compute; reflexivity|]. split; [apply got_ok; vm_compute; reflexivity|]. split; [reflexivity|]. intros [Q _]. exact (two_one Q).
Qed.
Lemma round_refuted : exists s l s1 s2, ex_reach s /\ is_leaf (st s) 3 = true /\ free s 3 [1] /\ get_optimizer_array ex_finv 3 s = Ok (l, s1) /\
  set_optimizer_array ex_f 3 l s1 = (s2, None) /\ value s 3 1 = Some 5 /\ value s2 3 1 = Some 4.
Proof.
  exists uf_fixed, [4;5], (got (get_optimizer_array ex_finv 3 uf_fixed) uf_fixed), (fst (set_optimizer_array ex_f 3 [4;5] (got (get_optimizer_array ex_finv 3 uf_fixed) uf_fixed))). split; [rch|]. split; [vm_compute; reflexivity|]. split; [fre|]. split; [apply got_ok; vm_compute; reflexivity|].
  split; [apply pair_is; vm_compute; reflexivity|]. split; vm_compute; reflexivity.
Qed.
Lemma unread_case : ex_reach uf_fixed /\ kind (st uf_fixed) 2 = KNode /\ ready (st uf_fixed) 2 /\ fix_ uf_fixed 2%nat = None /\ free uf_fixed 2 [0;1] /\
  fresh (nt uf_fixed) 2 = false /\ has uf_fixed 2 Fixed 2 /\ par (st uf_fixed) 2 = Some 4%nat.
Proof. destruct uf_case as (H1 & _ & _ & _ & _ & _ & _ & H2 & H3 & H4 & H5 & H6 & H7 & H8).
  exact (conj H1 (conj H7 (conj H8 (conj H2 (conj H4 (conj H3 (conj H5 H6))))))). Qed.
Lemma nothing_holds : forall (s : @state Z), unfixed_param_array 0 s = Ok Nothing -> value s 0 0 = Some 1 ->
  forall u, unfixed_param_array 0 s = Ok u -> ~ holds s u 0 [0;1].
Proof. intros s E V u Eu Q. rewrite E in Eu. injection Eu as <-. specialize (Q 0%nat). cbn [entry nth_error] in Q. rewrite V in Q. discriminate. Qed.
Lemma param_refuted : exists s, ex_reach s /\ free s 0 [0;1] /\ value s 0 0 = Some 1 /\ forall u, unfixed_param_array 0 s = Ok u -> ~ holds s u 0 [0;1].
Proof.
  exists uf_fixed. split; [rch|]. split; [fre|]. split; [vm_compute; reflexivity|]. apply nothing_holds; vm_compute; reflexivity.
Qed.
