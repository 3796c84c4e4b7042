(** Index operations beside the constraints: C132-C134. *)
From Coq Require Import List Bool Arith Lia.
From Verif Require Import IoModel IoSpec IoProofs4 IoEx.
Import ListNotations.

(** *** C132: what was said of an element stays with it, in all index operations. *)
Theorem C132_link : forall s m x, reach fitting s -> legal s (Link m x) -> fitting s (Link m x) -> ~ linked s m x ->
  let o := exec (Link m x) s in let s' := st o in
  exn o = None /\ ch (node s' m) = ch (node s m) ++ [x] /\
  (forall n, n <> m -> ch (node s' n) = filter (fun y => negb (Nat.eqb y x)) (ch (node s n))) /\
  (forall y k, leaf_has s' y k <-> leaf_has s y k) /\ (forall n k, node_has s' n k <-> node_has s n k) /\
  (forall y k i p, i < lsize (leaf s y) -> marked s' y k i p = marked s y k i p).
Proof. exact link_effect. Qed.
Print Assumptions C132_link.
Theorem C132_unlink : forall s m x, reach fitting s -> linked s m x ->
  let o := exec (Unlink m x) s in let s' := st o in
  exn o = None /\ ch (node s' m) = filter (fun y => negb (Nat.eqb y x)) (ch (node s m)) /\
  (forall n, n <> m -> ch (node s' n) = ch (node s n)) /\
  (forall y k, leaf_has s' y k <-> leaf_has s y k) /\ (forall n k, node_has s' n k <-> node_has s n k) /\
  (forall y k i p, i < lsize (leaf s y) -> marked s' y k i p = marked s y k i p).
Proof. exact unlink_effect. Qed.
Print Assumptions C132_unlink.
(** Leaf and node agree at all times, and a node says nothing of elements it does not have. *)
Theorem C132_agree : forall s, reach fitting s ->
  (forall m x, linked s m x -> (forall k, leaf_has s x k <-> node_has s m k) /\
     forall k i p, i < lsize (leaf s x) -> node_marked s m k (place s m x i) p = marked s x k i p) /\
  (forall m k j p, node_marked s m k j p = true -> j < elements s (ch (node s m))) /\
  (forall m n x, linked s m x -> linked s n x -> m = n).
Proof. exact agree_effect. Qed.
Print Assumptions C132_agree.
(** What is added to an element of a leaf is added there and nowhere else. *)
Theorem C132_add : forall s x k i p, reach fitting s -> legal s (Mark x k i p) ->
  let o := exec (Mark x k i p) s in
  (leaf_has s x k -> exn o = None /\
     forall y j a q, a < lsize (leaf s y) ->
       marked (st o) y j a q = marked s y j a q || (Nat.eqb y x && Nat.eqb j k && Nat.eqb a i && Nat.eqb q p)) /\
  (~ leaf_has s x k -> exn o = Some KeyError /\ st o = s).
Proof. exact mark_effect. Qed.
Print Assumptions C132_add.

(** *** C133: linking works or leaves everything as it was. *)
(** It works exactly if both have index operations of the same names. *)
Theorem C133_when : forall s m x, reach fitting s -> legal s (Link m x) -> (forall n, ~ linked s n x) ->
  let o := exec (Link m x) s in
  (exn o = None <-> forall k, leaf_has s x k <-> node_has s m k) /\
  (exn o = None \/ exn o = Some KeyError) /\
  (forall k, node_has s m k -> ~ leaf_has s x k -> forall n y, linked (st o) n y <-> linked s n y).
Proof. exact link_iff. Qed.
Print Assumptions C133_when.
(** The leaf lacks a name: it is not linked, but its constraints stay in the node, for elements that the
    node does not have. *)
Theorem C133_lacks_refuted : exists s m x, reach fitting s /\ legal s (Link m x) /\ (forall n, ~ linked s n x) /\
  let o := exec (Link m x) s in
  exn o = Some KeyError /\ ~ linked (st o) m x /\ elements (st o) (ch (node (st o) m)) = 5 /\
  node_marked s m 0 5 7 = false /\ node_marked (st o) m 0 5 7 = true.
Proof.
  exists s2, 0, 2. split; [exact s2_reach|]. split; [split; vm_compute; lia|].
  split; [intros n; destruct n as [|n]; vm_compute; intuition discriminate|]. cbv zeta.
  split; [vm_compute; reflexivity|]. split; [vm_compute; intuition discriminate|]. split; [vm_compute; reflexivity|]. split; vm_compute; reflexivity.
Qed.
Print Assumptions C133_lacks_refuted.
(** The leaf has one name more: it is linked in spite of the error, and the index operation of that name
    is gone. *)
Theorem C133_more_refuted : exists s m x k, reach fitting s /\ legal s (Link m x) /\ (forall n, ~ linked s n x) /\
  let o := exec (Link m x) s in
  exn o = Some KeyError /\ linked (st o) m x /\ leaf_has s x k /\ marked s x k 2 8 = true /\ ~ leaf_has (st o) x k /\ marked (st o) x k 2 8 = false.
Proof.
  exists s3, 0, 2, 2. split; [exact s3_reach|]. split; [split; vm_compute; lia|].
  split; [intros n; destruct n as [|n]; vm_compute; intuition discriminate|]. cbv zeta.
  split; [vm_compute; reflexivity|]. split; [vm_compute; auto|]. split; [vm_compute; discriminate|]. split; [vm_compute; reflexivity|].
  split; [vm_compute; intros H; apply H; reflexivity | vm_compute; reflexivity].
Qed.
Print Assumptions C133_more_refuted.

(** *** C134: an index operation that is added to one object changes no other object. *)
(** Other attributes of other objects, and index operations that they have, stay; but an attribute with
    the name of the new index operation cannot be read any more, in any other object, even after the index
    operation was removed. *)
Theorem C134_attributes_partial : forall s o k f, reach fitting s -> legal s (AddOp o k f) -> exn (exec (AddOp o k f) s) = None ->
  let s' := st (exec (AddOp o k f) s) in
  forall y, o <> L y ->
    (forall j, j <> k \/ leaf_has s y k ->
       val (exec (GetAttr y j) s') = val (exec (GetAttr y j) s) /\ exn (exec (GetAttr y j) s') = exn (exec (GetAttr y j) s)) /\
    (~ leaf_has s y k -> exn (exec (GetAttr y k) s') = Some KeyError /\ exn (exec (GetAttr y k) (st (exec (RemoveOp o k) s'))) = Some KeyError).
Proof. exact attr_effect. Qed.
Print Assumptions C134_attributes_partial.
Theorem C134_refuted : exists s x y k f v, reach fitting s /\ legal s (AddOp (L x) k f) /\ x <> y /\
  val (exec (GetAttr y k) s) = Some v /\ exn (exec (AddOp (L x) k f) s) = None /\
  exn (exec (GetAttr y k) (st (exec (AddOp (L x) k f) s))) = Some KeyError.
Proof.
  exists s4, 2, 0, 9, none, 5. split; [exact s4_reach|]. split; [split; [vm_compute; lia | split; [reflexivity | discriminate]]|]. split; [discriminate|].
  split; [vm_compute; reflexivity|]. split; vm_compute; reflexivity.
Qed.
Print Assumptions C134_refuted.

(** The hypotheses: a node with two leaves; the first is unlinked and linked again. *)
Example C132_case : reach fitting s1 /\ linked s1 0 0 /\ linked s1 0 1 /\
  marked s1 0 0 1 7 = true /\ marked s1 1 1 2 8 = true /\ node_marked s1 0 0 1 7 = true /\ node_marked s1 0 1 4 8 = true /\
  let t := st (exec (Unlink 0 0) s1) in
  reach fitting t /\ legal t (Link 0 0) /\ fitting t (Link 0 0) /\ ~ linked t 0 0 /\ node_marked t 0 1 2 8 = true /\
  ch (node (st (exec (Link 0 0) t)) 0) = [1; 0] /\ node_marked (st (exec (Link 0 0) t)) 0 0 4 7 = true.
Proof.
  split; [exact s1_reach|]. split; [vm_compute; auto|]. split; [vm_compute; auto|]. split; [reflexivity|]. split; [reflexivity|]. split; [reflexivity|]. split; [reflexivity|].
  cbv zeta. split; [apply step1; [exact s1_reach | split; vm_compute; lia | exact Logic.I]|]. split; [split; vm_compute; lia|]. split; [keys|].
  split; [vm_compute; intuition discriminate|]. split; [reflexivity|]. split; reflexivity.
Qed.
(** Of C132_add and C134_attributes_partial. *)
Example C132_add_case : legal s1 (Mark 1 1 0 3) /\ leaf_has s1 1 1 /\ ~ leaf_has s1 1 2 /\
  marked (st (exec (Mark 1 1 0 3) s1)) 1 1 0 3 = true /\ node_marked (st (exec (Mark 1 1 0 3) s1)) 0 1 2 3 = true /\
  legal s4 (AddOp (L 2) 9 none) /\ exn (exec (AddOp (L 2) 9 none) s4) = None.
Proof.
  split; [split; vm_compute; lia|]. split; [vm_compute; discriminate|]. split; [vm_compute; intros H; apply H; reflexivity|]. split; [reflexivity|]. split; [reflexivity|].
  split; [split; [vm_compute; lia | split; [reflexivity | discriminate]] | reflexivity].
Qed.
