(** Properties C01-C07: index operations. *)
From Coq Require Import List ZArith Bool Sorting.Sorted Sorting.Permutation.
From Verif Require Import NpModel IndexOpsModel IndexOpsSpec IndexOpsProofs.
Import ListNotations.
Open Scope Z_scope.

(** A concrete, non-trivial history used by the examples: adds with unsorted and repeated
    indices, a view of a view, a block insertion and a block deletion. *)
Definition ex_inner : io := View (View Root 2 6) 1 4.
Definition ex_ops : list op :=
  [ OAdd Root (Tr 0) [7; 3; 3; 5]; OAdd ex_inner Fixed [1; 0];
    OShiftRight Root 4 2; ORemove Root (Tr 0) [3]; OAdd Root (Tr 1) [2; 4; 9];
    OShiftLeft Root 0 1; OGet Root (Tr 5) ].
Definition ex_state : dict := run [] ex_ops.
Lemma ex_reachable : reachable ex_state.
Proof.
  exists ex_ops. split; [|reflexivity]. repeat constructor; discriminate.
Qed.
Example ex_state_value :
  ex_state = [(Tr 0, [6; 8]); (Fixed, [2; 5]); (Tr 1, [1; 3; 8]); (Tr 5, [])].
Proof. reflexivity. Qed.

(** C01. *)
Theorem C01_sorted_unique : forall v d, reachable d ->
  (forall p, StronglySorted Z.lt (fst (getitem v d p))) /\
  NoDup (properties v d) /\
  (forall p l, In (p, l) (items v d) <-> l = fst (getitem v d p) /\ l <> []).
Proof. exact sorted_inv. Qed.
Print Assumptions C01_sorted_unique.
Example C01_example : reachable ex_state /\ fst (getitem ex_inner ex_state Fixed) = [2]
  /\ items ex_inner ex_state = [(Tr 0, [3]); (Fixed, [2]); (Tr 1, [0])].
Proof. split; [exact ex_reachable | split; reflexivity]. Qed.

(** [size] counts the (property, index) pairs. *)
Theorem C01_size_exact : forall v d, reachable d ->
  exists l, NoDup l /\ (forall p i, In (p, i) l <-> carries v d p i) /\ iosize v d = Z.of_nat (length l).
Proof. exact size_sem. Qed.
Print Assumptions C01_size_exact.
Example C01_size_example : reachable ex_state /\ iosize Root ex_state = 7 /\ iosize ex_inner ex_state = 3.
Proof. split; [exact ex_reachable | split; reflexivity]. Qed.

(** C02: add and remove through any object or view; [base Root = 0]. *)
Theorem C02_add_exact : forall d v p ix q j,
  carries Root (add v d p ix) q j <->
  carries Root d q j \/ (q = p /\ In (j - base v) ix).
Proof. exact add_sem. Qed.
Print Assumptions C02_add_exact.

Theorem C02_remove_exact : forall d v p ix q j, reachable d ->
  (carries Root (snd (remove v d p ix)) q j <->
   carries Root d q j /\ ~ (q = p /\ In (j - base v) ix)).
Proof. exact remove_sem. Qed.
Print Assumptions C02_remove_exact.
Example C02_remove_example : reachable ex_state /\
  carries Root ex_state (Tr 1) 3 /\
  fst (getitem Root (snd (remove Root ex_state (Tr 1) [3; 4])) (Tr 1)) = [1; 8].
Proof. split; [exact ex_reachable | split; [right; left; reflexivity | reflexivity]]. Qed.

Theorem C02_update_exact : forall d v src off q j, reachable d ->
  (carries Root (update v d src off) q j <->
   carries Root d q j \/ exists l, In (q, l) src /\ In (j - base v - off) l).
Proof. exact update_sem. Qed.
Print Assumptions C02_update_exact.
Example C02_update_example : reachable ex_state /\
  update (View Root 1 9) ex_state [(Tr 1, [0; 2]); (Tr 7, [4])] 10
  = [(Tr 0, [6; 8]); (Fixed, [2; 5]); (Tr 1, [1; 3; 8; 11; 13]); (Tr 5, []); (Tr 7, [15])].
Proof. split; [exact ex_reachable | reflexivity]. Qed.

(** The returned indices are exact when the given list has no repeats ... *)
Theorem C02_remove_returns_partial : forall d v p ix, reachable d -> NoDup ix ->
  StronglySorted Z.lt (fst (remove v d p ix)) /\
  forall i, In i (fst (remove v d p ix)) <-> carries Root d p (i + base v) /\ In i ix.
Proof. exact remove_ret. Qed.
Print Assumptions C02_remove_returns_partial.
Example C02_remove_returns_example : reachable ex_state /\ NoDup [4; 3] /\
  fst (remove Root ex_state (Tr 1) [4; 3]) = [3].
Proof.
  split; [exact ex_reachable | split; [|reflexivity]].
  repeat constructor; simpl; intuition discriminate.
Qed.

(** ... and wrong with repeats: index 4 does not carry the property but is reported removed. *)
Theorem C02_remove_returns_refuted : exists d p ix i, reachable d /\
  In i (fst (remove Root d p ix)) /\ ~ carries Root d p i.
Proof.
  exists ex_state, (Tr 1), [4; 4], 4. split; [exact ex_reachable|]. split.
  - left; reflexivity.
  - intros [H|[H|[H|[]]]]; discriminate.
Qed.
Print Assumptions C02_remove_returns_refuted.

(** C03. *)
Theorem C03_shift_right_exact : forall d v s n q j, 0 <= n ->
  (carries Root (shift_right v d s n) q j <->
   (j < s + base v /\ carries Root d q j) \/
   (s + base v + n <= j /\ carries Root d q (j - n))).
Proof. exact shift_right_sem. Qed.
Print Assumptions C03_shift_right_exact.

Theorem C03_shift_left_exact : forall d v s n q j, reachable d -> 0 <= n ->
  (carries Root (shift_left v d s n) q j <->
   (j < s + base v /\ carries Root d q j) \/
   (s + base v <= j /\ carries Root d q (j + n))).
Proof. exact shift_left_sem. Qed.
Print Assumptions C03_shift_left_exact.

Theorem C03_shift_roundtrip : forall d v s n w q, reachable d -> 0 <= n ->
  fst (getitem w (shift_left v (shift_right v d s n) s n) q) = fst (getitem w d q).
Proof. exact shift_roundtrip. Qed.
Print Assumptions C03_shift_roundtrip.
Example C03_example : reachable ex_state /\
  shift_right ex_inner ex_state 1 2 = [(Tr 0, [8; 10]); (Fixed, [2; 7]); (Tr 1, [1; 3; 10]); (Tr 5, [])]
  /\ shift_left Root ex_state 2 2 = [(Tr 0, [4; 6]); (Fixed, [3]); (Tr 1, [1; 6]); (Tr 5, [])].
Proof. split; [exact ex_reachable | split; reflexivity]. Qed.

(** C04: a view, and any nesting of views, is an exact window. *)
Theorem C04_view_window : forall v d p i,
  carries v d p i <-> carries Root d p (i + base v) /\ inside v i.
Proof. exact view_read. Qed.
Print Assumptions C04_view_window.

(** Writes through one view, read through any other. *)
Theorem C04_view_add_seen : forall d v p ix w q i,
  carries w (add v d p ix) q i <->
  carries w d q i \/ (q = p /\ inside w i /\ In (i + base w - base v) ix).
Proof. exact view_add_seen. Qed.
Print Assumptions C04_view_add_seen.

Theorem C04_view_remove_seen : forall d v p ix w q i, reachable d ->
  (carries w (snd (remove v d p ix)) q i <->
   carries w d q i /\ ~ (q = p /\ In (i + base w - base v) ix)).
Proof. exact view_remove_seen. Qed.
Print Assumptions C04_view_remove_seen.
Example C04_example : carries ex_inner ex_state (Tr 0) 3 /\ inside ex_inner 3 /\ base ex_inner = 3
  /\ ~ inside (View Root 3 2) 2.
Proof. split; [left; reflexivity|]. repeat split; simpl; intuition. Qed.

(** C05: clearing and deleting through a view; copies. *)
Theorem C05_clear_exact : forall v d q j, reachable d ->
  (carries Root (clear v d) q j <-> carries Root d q j /\ ~ inside v (j - base v)).
Proof. exact clear_sem. Qed.
Print Assumptions C05_clear_exact.

Theorem C05_delete_exact : forall v d p q j, reachable d -> v <> Root ->
  exists d', delitem v d p = Some d' /\
  (carries Root d' q j <-> carries Root d q j /\ ~ (q = p /\ inside v (j - base v))).
Proof. exact del_sem. Qed.
Print Assumptions C05_delete_exact.

(** On a root object deletion raises KeyError only if no index carries the property. *)
Theorem C05_delete_root_exact : forall d p, reachable d ->
  match delitem Root d p with
  | Some d' => forall q j, carries Root d' q j <-> carries Root d q j /\ q <> p
  | None => forall j, ~ carries Root d p j
  end.
Proof. exact del_root_sem. Qed.
Print Assumptions C05_delete_root_exact.
Example C05_delete_root_example : reachable ex_state /\ delitem Root ex_state (Tr 6) = None /\
  delitem Root ex_state Fixed = Some [(Tr 0, [6; 8]); (Tr 1, [1; 3; 8]); (Tr 5, [])].
Proof. split; [exact ex_reachable | split; reflexivity]. Qed.

Theorem C05_copy_same : forall v d, reachable d -> items Root (copy v d) = items v d.
Proof. exact copy_items. Qed.
Print Assumptions C05_copy_same.

Theorem C05_copy_lookup : forall v d p, reachable d ->
  fst (getitem Root (copy v d) p) = fst (getitem v d p).
Proof. exact copy_lookup. Qed.
Print Assumptions C05_copy_lookup.
Example C05_example : reachable ex_state /\
  clear (View Root 2 4) ex_state = [(Tr 0, [6; 8]); (Tr 1, [1; 8]); (Tr 5, [])] /\
  copy (View Root 2 4) ex_state = [(Fixed, [0; 3]); (Tr 1, [1])].
Proof. split; [exact ex_reachable | split; reflexivity]. Qed.

(** C06. *)
Theorem C06_properties_for : forall v d index, reachable d ->
  length (properties_for v d index) = length index /\
  forall k, (k < length index)%nat ->
    NoDup (nth k (properties_for v d index) []) /\
    forall p, In p (nth k (properties_for v d index) []) <-> carries v d p (nth k index 0).
Proof. exact properties_for_sem. Qed.
Print Assumptions C06_properties_for.

Theorem C06_properties_dict_for : forall v d index, reachable d ->
  NoDup (map fst (properties_dict_for v d index)) /\
  forall p l, In (p, l) (properties_dict_for v d index) <->
    l <> [] /\ l = filter (fun i => zmem i (fst (getitem v d p))) index.
Proof. exact properties_dict_for_sem. Qed.
Print Assumptions C06_properties_dict_for.
Example C06_example : reachable ex_state /\
  properties_for Root ex_state [8; 2; 8; 4] = [[Tr 0; Tr 1]; [Fixed]; [Tr 0; Tr 1]; []] /\
  properties_dict_for Root ex_state [8; 2; 8; 4] = [(Tr 0, [8; 8]); (Tr 1, [8; 8]); (Fixed, [2])].
Proof. split; [exact ex_reachable | split; reflexivity]. Qed.

(** C07: looking a property up changes no later observation (the order of items() may). *)
Theorem C07_lookup_pure : forall v p d ops w q, reachable d -> Forall legal ops ->
  fst (getitem w (run (snd (getitem v d p)) ops) q) = fst (getitem w (run d ops) q) /\
  Permutation (items w (run (snd (getitem v d p)) ops)) (items w (run d ops)).
Proof. exact read_pure. Qed.
Print Assumptions C07_lookup_pure.
(** The lookup does insert a key, and it can change the order of items(). *)
Example C07_example : snd (getitem Root [] (Tr 1)) = [(Tr 1, [])] /\
  items Root (run (snd (getitem Root [] (Tr 1))) [OAdd Root (Tr 0) [1]; OAdd Root (Tr 1) [2]])
    = [(Tr 1, [2]); (Tr 0, [1])] /\
  items Root (run [] [OAdd Root (Tr 0) [1]; OAdd Root (Tr 1) [2]])
    = [(Tr 0, [1]); (Tr 1, [2])] /\ reachable [].
Proof. repeat split; auto. exists []. split; [constructor | reflexivity]. Qed.
