(** Property theorems about flat indices (C58). *)
From Coq Require Import List Arith.
From Verif Require Import PzModel RavelModel RavelSpec RavelProofs.
Import ListNotations.

(** ** C58 *)
(** The sum that [_raveled_index] computes from coordinates is the position of the element in memory order, *)
Theorem C58_position : forall d c, d <> [] -> valid d c -> nth_error (coords d) (dot (strides d) c) = Some c /\ dot (strides d) c < elements d.
Proof. exact (fun d c H V => conj (dot_nth d c H V) (dot_lt d c H V)). Qed.
Print Assumptions C58_position.
(** a bijection, *)
Theorem C58_bijection : forall d, d <> [] ->
  (forall c c', valid d c -> valid d c' -> dot (strides d) c = dot (strides d) c' -> c = c') /\
  (forall k, k < elements d -> exists c, valid d c /\ dot (strides d) c = k).
Proof. exact (fun d H => conj (fun c c' => dot_inj d c c' H) (fun k => dot_onto d k H)). Qed.
Print Assumptions C58_bijection.
(** increasing in lexicographic order. *)
Theorem C58_increasing : forall d c c', valid d c -> valid d c' -> earlier c c' -> dot (strides d) c < dot (strides d) c'.
Proof. exact dot_earlier. Qed.
Print Assumptions C58_increasing.
Example C58_position_example : valid [2;3;4] [1;2;1] /\ dot (strides [2;3;4]) [1;2;1] = 21 /\ dot (strides [2;3;4]) [1;0;3] = 15 /\ earlier [1;0;3] [1;2;1].
Proof. exact rx_positions. Qed.
(** The flat indices of a parameter of any shape are all positions, in order. *)
Theorem C58_whole : forall d, d <> [] -> elements d <> 0 -> raveled_index d (whole d) = Ok (seq 0 (elements d)).
Proof. exact whole_final. Qed.
Print Assumptions C58_whole.
(** The flat indices of an indexed parameter are the positions of the elements that indexing selects,
    in their order. Missing from the full statement: integers and integer arrays separated by a slice; empty selections. *)
Theorem C58_indexed_partial : forall (A : Type) (a b : nd A) ix, shape a <> [] -> side_by_side ix -> take ix a = Ok b -> flat b <> [] ->
  exists ks, raveled_index (shape a) ix = Ok ks /\ picks (flat a) ks (flat b).
Proof. exact index_final. Qed.
Print Assumptions C58_indexed_partial.
Example C58_indexed_example : shape rx <> [] /\ side_by_side [Sl [1;0]; Arr [0;2]; At 3] /\
  take [Sl [1;0]; Arr [0;2]; At 3] rx = Ok (mkNd [2;2] (fun c => source [Sl [1;0]; Arr [0;2]; At 3] (nth 1 c 0) (firstn 1 c ++ skipn 2 c))) /\
  raveled_index [2;3;4] [Sl [1;0]; Arr [0;2]; At 3] = Ok [15;23;3;11].
Proof. exact rx_index. Qed.
(** An index that NumPy rejects is rejected in the same way, and an empty selection is an error. *)
Theorem C58_rejected : forall (A : Type) (a : nd A) ix e, take ix a = Er e -> raveled_index (shape a) ix = Er e.
Proof. exact index_error. Qed.
Print Assumptions C58_rejected.
Example C58_rejected_example : take [Sl [0]; At 3] rx = Er IndexError /\ take [Arr [0;1]; Arr [0;1;2]] rx = Er IndexError.
Proof. exact (conj eq_refl eq_refl). Qed.
Theorem C58_empty : forall (A : Type) (a b : nd A) ix, shape a <> [] -> side_by_side ix -> take ix a = Ok b -> flat b = [] -> raveled_index (shape a) ix = Er ValueError.
Proof. exact index_empty. Qed.
Print Assumptions C58_empty.
Example C58_empty_example : exists b, side_by_side [Sl []] /\ take [Sl []] rx = Ok b /\ flat b = [].
Proof. exact rx_empty. Qed.
(** With a slice between an integer and an integer array the flat indices belong to other elements,
    or to none. *)
Theorem C58_separated_refuted : exists (a b : nd (list nat)) ix ks, shape a = [2;3;4] /\ take ix a = Ok b /\ flat b = [[1;0;3];[1;2;3];[1;0;1];[1;2;1]] /\
  raveled_index (shape a) ix = Ok ks /\ ~ picks (flat a) ks (flat b) /\ exists k, In k ks /\ elements (shape a) <= k.
Proof. exact separated_refuted. Qed.
Print Assumptions C58_separated_refuted.
