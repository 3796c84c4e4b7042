(** Properties C28-C46 and C60: hierarchies of parameters. The states of the examples are in PzEx. *)
From Coq Require Import List ZArith Bool Lia Arith.
From Verif Require Import NpModel IndexOpsModel IndexOpsSpec PzModel PzSpec PzFinal PzEx.
Import ListNotations.
Open Scope Z_scope.

(** All theorems are about the states that any history of legal calls can lead to, for any type [V]
    of values, any transformations and any content of fresh memory. *)
Notation reachable V tinit tf tfinv junk := (reach (V := V) tinit tf tfinv legal junk).
(** Element [j] of [y] is one of those that a call on [x] with the selection [sel] is about. *)
Notation touched s x sel y j := (exists k, selected (st s) x sel k /\ same_elem (st s) y j x k).

(** C28: sizes add up, parents and positions are known, there are no cycles. *)
Theorem C28_sizes_add_up : forall V tinit tf tfinv junk s, reachable V tinit tf tfinv junk s ->
  (forall x, kind (st s) x = KNode -> size (st s) x = sum_sizes (st s) (kids (st s) x)) /\
  (forall x n, kind (st s) x = KLeaf n -> size (st s) x = Z.of_nat n /\ kids (st s) x = []) /\
  (forall x i y, nth_error (kids (st s) x) i = Some y -> par (st s) y = Some x /\ pidx (st s) y = Some (Z.of_nat i)) /\
  (forall x y, par (st s) y = Some x -> In y (kids (st s) x)) /\
  (forall x, NoDup (kids (st s) x)) /\
  (forall x y, part (st s) x y -> part (st s) y x -> x = y).
Proof. exact @sizes_final. Qed.
Print Assumptions C28_sizes_add_up.
Example C28_example : ex_reach ex /\ kids (st ex) 4 = [2;3]%nat /\ size (st ex) 4 = 5 /\ size (st ex) 2 = 3 /\ pidx (st ex) 3 = Some 1.
Proof. split; [exact ex_reachable | vm_compute; auto]. Qed.

(** C28, C29: a legal link puts [param] at the position asked for and leaves the constraints of
    every parameter alone; so does unlinking. *)
Theorem C29_link_keeps_constraints : forall V tinit tf tfinv junk s self param index,
  reachable V tinit tf tfinv junk s -> legal_link s self param index ->
  exists s', link self param index s = (s', None) /\ reachable V tinit tf tfinv junk s' /\
    (forall y p j, (y < next (st s))%nat -> is_leaf (st s) y = true -> (has s' y p j <-> has s y p j)) /\
    par (st s') param = Some self /\ (forall y, y <> param -> par (st s') y = par (st s) y) /\
    (let l := without param (kids (st s) self) in kids (st s') self = insert_at (position l index) param l) /\
    (forall y, y <> self -> kids (st s') y = without param (kids (st s) y)).
Proof. exact @link_final. Qed.
Print Assumptions C29_link_keeps_constraints.
Example C29_link_example : ex_reach ex /\ legal_link ex 4 5 (Some 1) /\ legal_link ex 4 2 (Some 1) /\ has ex 0 (Tr 7) 0 /\
  kids (st (fst (link 4 5 (Some 1) ex))) 4 = [2;5;3]%nat /\ kids (st (fst (link 4 2 (Some 1) ex))) 4 = [3;2]%nat.
Proof. exact ex_links. Qed.

Theorem C29_unlink_keeps_constraints : forall V tinit tf tfinv junk s self param,
  reachable V tinit tf tfinv junk s -> (self < next (st s))%nat -> In param (kids (st s) self) ->
  (forall r, top (st s) r self -> in_init (st s) r = false) ->
  exists s', unlink self param s = (s', None) /\ reachable V tinit tf tfinv junk s' /\
    (forall y p j, (y < next (st s))%nat -> is_leaf (st s) y = true -> (has s' y p j <-> has s y p j)) /\
    par (st s') param = None /\ (forall y, y <> param -> par (st s') y = par (st s) y) /\
    kids (st s') self = without param (kids (st s) self) /\ (forall y, y <> self -> kids (st s') y = kids (st s) y).
Proof. exact @unlink_final. Qed.
Print Assumptions C29_unlink_keeps_constraints.
Example C29_unlink_example : ex_reach ex /\ In 3%nat (kids (st ex) 4) /\ (forall r, top (st ex) r 4 -> in_init (st ex) r = false) /\ has ex 3 Fixed 1.
Proof. exact ex_unlinks. Qed.

(** C29, C30: a constraint is reported by all objects the element is part of, at the same element,
    and every constraint a node reports is on an element of one of its parameters. *)
Theorem C29_same_everywhere : forall V tinit tf tfinv junk s x k y j p, reachable V tinit tf tfinv junk s -> (x < next (st s))%nat ->
  same_elem (st s) y j x k -> (has s y p j <-> has s x p k).
Proof. exact @everywhere_final. Qed.
Print Assumptions C29_same_everywhere.
Example C29_same_example : ex_reach ex /\ same_elem (st ex) 3 1 4 4 /\ has ex 3 Fixed 1 /\ has ex 4 Fixed 4.
Proof. exact ex_same. Qed.
Theorem C29_nothing_else : forall V tinit tf tfinv junk s x p k, reachable V tinit tf tfinv junk s -> (x < next (st s))%nat -> has s x p k ->
  0 <= k < size (st s) x /\ exists z i, is_leaf (st s) z = true /\ part (st s) x z /\ same_elem (st s) z i x k.
Proof. exact @covered_final. Qed.
Print Assumptions C29_nothing_else.
Example C29_nothing_else_example : ex_reach ex /\ has ex 4 Fixed 2.
Proof. split; [exact ex_reachable | apply has_is; vm_compute; reflexivity]. Qed.

(** C30: what constrain, unconstrain, fix and unfix change, seen from every object [y]. *)
Theorem C30_constrain : forall V tinit tf tfinv junk s x sel n, reachable V tinit tf tfinv junk s -> (x < next (st s))%nat ->
  ready (st s) x -> legal_sel (st s) x sel ->
  exists s', constrain tinit x sel n s = (s', None) /\ st s' = st s /\ forall y q j, (y < next (st s))%nat ->
    (has s' y q j <-> (has s y q j /\ ~ touched s x sel y j) \/ (q = Tr n /\ touched s x sel y j)).
Proof. exact @constrain_final. Qed.
Print Assumptions C30_constrain.
Example C30_constrain_example : ex_reach ex /\ ready (st ex) 2 /\ legal_sel (st ex) 2 None /\ legal_sel (st ex) 3 (Some [1]) /\ has ex 2 (Tr 7) 0 /\ has ex 3 Fixed 1.
Proof. exact ex_selections. Qed.
Theorem C30_unconstrain : forall V tinit tf tfinv junk s x sel ts, reachable V tinit tf tfinv junk s -> (x < next (st s))%nat -> legal_sel (st s) x sel ->
  exists s', unconstrain x sel ts s = (s', None) /\ st s' = st s /\ mem s' = mem s /\ forall y q j, (y < next (st s))%nat ->
    (has s' y q j <-> has s y q j /\ ~ ((ts = [] \/ In q ts) /\ touched s x sel y j)).
Proof. exact @unconstrain_final. Qed.
Print Assumptions C30_unconstrain.
Example C30_unconstrain_example : ex_reach ex /\ legal_sel (st ex) 4 None /\ has ex 4 (Tr 7) 0 /\ touched ex 4 None 0 0.
Proof. exact ex_unconstrain. Qed.
Theorem C30_fix : forall V tinit tf tfinv junk s x sel, reachable V tinit tf tfinv junk s -> (x < next (st s))%nat -> legal_sel (st s) x sel ->
  exists s', fix_param x sel s = (s', None) /\ st s' = st s /\ mem s' = mem s /\ forall y q j, (y < next (st s))%nat ->
    (has s' y q j <-> has s y q j \/ (q = Fixed /\ touched s x sel y j)).
Proof. exact @fix_final. Qed.
Print Assumptions C30_fix.
Example C30_fix_example : ex_reach ex /\ legal_sel (st ex) 0 (Some [1;0]) /\ has ex 0 (Tr 7) 0 /\ ~ has ex 0 Fixed 0.
Proof. exact ex_fix. Qed.
Theorem C30_unfix : forall V tinit tf tfinv junk s x sel, reachable V tinit tf tfinv junk s -> (x < next (st s))%nat -> legal_sel (st s) x sel ->
  exists s', unfix_param x sel s = (s', None) /\ st s' = st s /\ mem s' = mem s /\ forall y q j, (y < next (st s))%nat ->
    (has s' y q j <-> has s y q j /\ ~ (q = Fixed /\ touched s x sel y j)).
Proof. exact @unfix_final. Qed.
Print Assumptions C30_unfix.
Example C30_unfix_example : ex_reach ex /\ legal_sel (st ex) 4 None /\ has ex 4 Fixed 2.
Proof. split; [exact ex_reachable|]. split; [exact Logic.I | apply has_is; vm_compute; reflexivity]. Qed.

(** C31, what holds: a child, or something of the same hierarchy that is not above [self], is
    refused; nothing but the marks of the search can have changed. Missing: [self] below [param]. *)
Theorem C31_refused_partial : forall V tinit tf tfinv junk s self param index, reachable V tinit tf tfinv junk s ->
  (In param (kids (st s) self) -> link self param None s = (s, Some HierarchyError)) /\
  (~ In param (kids (st s) self) -> unlink self param s = (s, Some HierarchyError)) /\
  (together (st s) self param -> ~ part (st s) param self -> ~ In param (kids (st s) self) ->
    exists s', link self param index s = (s', Some HierarchyError) /\ st s' = st s /\ ios s' = ios s /\ mem s' = mem s /\
      updates (nt s') = updates (nt s) /\ trace (nt s') = trace (nt s)).
Proof. exact @refused_final. Qed.
Print Assumptions C31_refused_partial.
Example C31_example : ex_reach ex /\ In 2%nat (kids (st ex) 4) /\ together (st ex) 4 0 /\ ~ part (st ex) 0 4 /\ ~ In 0%nat (kids (st ex) 4).
Proof. exact ex_refused. Qed.
(** Linking an object to something below it, or to itself, is not refused: the hierarchy becomes a
    cycle and the call recurses without end. *)
Theorem C31_loop_refuted : exists s self param s', ex_reach s /\ self <> param /\ part (st s) param self /\
  link self param None s = (s', Some Endless) /\ part (st s') param self /\ part (st s') self param.
Proof. exact loop_refuted. Qed.
Print Assumptions C31_loop_refuted.
Theorem C31_self_refuted : exists s x s', ex_reach s /\ link x x None s = (s', Some Endless) /\ In x (kids (st s') x).
Proof. exact self_refuted. Qed.
Print Assumptions C31_self_refuted.

(** C32 *)
Theorem C32_one_transformation : forall V tinit tf tfinv junk s x k n m, reachable V tinit tf tfinv junk s -> (x < next (st s))%nat ->
  has s x (Tr n) k -> has s x (Tr m) k -> n = m.
Proof. exact @one_transformation_final. Qed.
Print Assumptions C32_one_transformation.
Example C32_example : ex_reach ex /\ has ex 4 (Tr 7) 0.
Proof. split; [exact ex_reachable | apply has_is; vm_compute; reflexivity]. Qed.

(** C33, what holds: elements that were not fixed before. *)
Theorem C33_fix_unfix_partial : forall V tinit tf tfinv junk s x sel s1, reachable V tinit tf tfinv junk s -> (x < next (st s))%nat -> legal_sel (st s) x sel ->
  (forall k, selected (st s) x sel k -> ~ has s x Fixed k) -> fix_param x sel s = (s1, None) ->
  exists s2, unfix_param x sel s1 = (s2, None) /\ mem s2 = mem s /\ forall y q j, (y < next (st s))%nat -> (has s2 y q j <-> has s y q j).
Proof. exact @fix_unfix_final. Qed.
Print Assumptions C33_fix_unfix_partial.
Example C33_example : ex_reach ex /\ (forall k, selected (st ex) 0 None k -> ~ has ex 0 Fixed k) /\ has ex 0 (Tr 7) 0.
Proof. exact ex_fix_unfix. Qed.
(** Elements that were fixed before are free afterwards. *)
Theorem C33_fix_unfix_refuted : exists s s1 s2, ex_reach s /\ fix_param 4 None s = (s1, None) /\ unfix_param 4 None s1 = (s2, None) /\
  has s 3 Fixed 1 /\ ~ has s2 3 Fixed 1.
Proof. exact fix_unfix_refuted. Qed.
Print Assumptions C33_fix_unfix_refuted.

(** C34, what holds: the optimizer array of a top object has one entry per element that is not fixed
    (C37 and C38 say which is which), and setting it, on any object, touches exactly those. *)
Theorem C34_length_partial : forall V tinit tf tfinv junk s x ks, reachable V tinit tf tfinv junk s -> (x < next (st s))%nat -> ready (st s) x ->
  par (st s) x = None -> free s x ks ->
  exists l s', get_optimizer_array tfinv x s = Ok (l, s') /\ length l = length ks /\ st s' = st s /\ ios s' = ios s /\
    forall y j, (y < next (st s))%nat -> ready (st s) y -> 0 <= j < size (st s) y -> value s' y j = value s y j.
Proof. exact @length_only_final. Qed.
Print Assumptions C34_length_partial.
Example C34_example : ex_reach ex /\ ready (st ex) 4 /\ par (st ex) 4 = None /\ free ex 4 [0;1;3].
Proof. exact ex_top. Qed.
(** A parameter below the top hands its fixed elements to the optimizer too. *)
Theorem C34_leaf_refuted : exists s x ks l s', ex_reach s /\ ready (st s) x /\ free s x ks /\
  get_optimizer_array ex_finv x s = Ok (l, s') /\ length l <> length ks.
Proof. exact leaf_length_refuted. Qed.
Print Assumptions C34_leaf_refuted.

(** C35: one copy in memory. *)
Theorem C35_one_copy : forall V tinit tf tfinv junk s x y j k, reachable V tinit tf tfinv junk s -> (x < next (st s))%nat -> (y < next (st s))%nat ->
  ready (st s) x -> ready (st s) y -> same_elem (st s) y j x k ->
  value s y j = value s x k /\ exists v, value s x k = Some v.
Proof. exact @one_copy_final. Qed.
Print Assumptions C35_one_copy.
Example C35_example : ex_reach ex /\ ready (st ex) 4 /\ ready (st ex) 3 /\ same_elem (st ex) 3 1 4 4 /\ value ex 3 1 = Some 5.
Proof. exact ex_copy. Qed.
Theorem C35_write : forall V tinit tf tfinv junk s x g, reachable V tinit tf tfinv junk s -> (x < next (st s))%nat -> ready (st s) x ->
  exists s', assign x g s = (s', None) /\ st s' = st s /\ ios s' = ios s /\ changed s s' x g.
Proof. exact @assign_final. Qed.
Print Assumptions C35_write.
Example C35_write_example : ex_reach ex /\ (4 < next (st ex))%nat /\ ready (st ex) 4 /\
  map (value (fst (assign 4 (fun k w => 10 * k + w) ex)) 4) [0;1;2;3;4] = map Some [1;12;23;34;45] /\ value (fst (assign 4 (fun k w => 10 * k + w) ex)) 3 1 = Some 45.
Proof. exact ex_write. Qed.
Theorem C35_constrain_values : forall V tinit tf tfinv junk s x sel n, reachable V tinit tf tfinv junk s -> (x < next (st s))%nat ->
  ready (st s) x -> legal_sel (st s) x sel ->
  exists s', constrain tinit x sel n s = (s', None) /\ changed s s' x (on_sel sel (tinit n)).
Proof. exact @constrain_values_final. Qed.
Print Assumptions C35_constrain_values.
Example C35_constrain_example : ex_reach ex_neg /\ (1 < next (st ex_neg))%nat /\ ready (st ex_neg) 1 /\ legal_sel (st ex_neg) 1 (Some [1]) /\
  map (value ex_neg 2) [0;1;2;3] = map Some [-1;2;-4;-5] /\ map (value (fst (constrain ex_init 1 (Some [1]) 7 ex_neg)) 2) [0;1;2;3] = map Some [-1;2;-4;5].
Proof. exact ex_constrain. Qed.
(** Different Params never share memory in histories that do not refill an emptied node with the
    same number of elements. *)
Theorem C35_apart_partial : forall V tinit tf tfinv junk s, reach (V := V) tinit tf tfinv careful junk s -> apart s.
Proof. exact @apart_final. Qed.
Print Assumptions C35_apart_partial.
Example C35_apart_example : reach ex_init ex_f ex_finv careful ex_junk ex /\ value ex 0 1 = Some 2 /\ value ex 3 1 = Some 5.
Proof. split; [exact ex_careful | vm_compute; auto]. Qed.
(** In others they do: a Param removed from a node shares memory with the one linked in its place. *)
Theorem C35_apart_refuted : exists s s', ex_reach s /\ ~ apart s /\ par (st s) 0 = None /\ par (st s) 2 = Some 1%nat /\
  assign 2 (fun _ _ => 9) s = (s', None) /\ value s 0 0 <> Some 9 /\ value s' 0 0 = Some 9.
Proof. exact apart_refuted. Qed.
Print Assumptions C35_apart_refuted.

(** C36, what holds: linking into a node at most one level below the top, a parameter from at most
    three levels below. *)
Theorem C36_link_values_partial : forall V tinit tf tfinv junk s self param index s', reachable V tinit tf tfinv junk s ->
  legal_link s self param index -> roomy s self param ->
  (exists n, depth (st s) self n /\ (n <= 1)%nat) -> ready (st s) param ->
  (forall pp, par (st s) param = Some pp -> (exists n, depth (st s) pp n /\ (n <= 2)%nat) /\ forall r, top (st s) r pp -> inited (st s) r = Some true) ->
  link self param index s = (s', None) ->
  forall y j, (y < next (st s))%nat -> is_leaf (st s) y = true -> 0 <= j < size (st s) y -> value s' y j = value s y j.
Proof. exact @link_values_final. Qed.
Print Assumptions C36_link_values_partial.
Example C36_link_example : ex_reach ex /\ legal_link ex 2 5 None /\ roomy ex 2 5 /\ (exists n, depth (st ex) 2 n /\ (n <= 1)%nat) /\ ready (st ex) 5 /\
  (forall pp, par (st ex) 5 = Some pp -> (exists n, depth (st ex) pp n /\ (n <= 2)%nat) /\ forall r, top (st ex) r pp -> inited (st ex) r = Some true).
Proof. exact ex_link_values. Qed.
Theorem C36_unlink_values_partial : forall V tinit tf tfinv junk s self param s', reachable V tinit tf tfinv junk s -> (self < next (st s))%nat -> In param (kids (st s) self) ->
  (forall r, top (st s) r self -> in_init (st s) r = false /\ inited (st s) r = Some true) ->
  (exists n, depth (st s) self n /\ (n <= 2)%nat) -> unlink self param s = (s', None) ->
  forall y j, (y < next (st s))%nat -> is_leaf (st s) y = true -> 0 <= j < size (st s) y -> value s' y j = value s y j.
Proof. exact @unlink_values_final. Qed.
Print Assumptions C36_unlink_values_partial.
Example C36_unlink_example : ex_reach ex /\ In 1%nat (kids (st ex) 2) /\ (exists n, depth (st ex) 2 n /\ (n <= 2)%nat) /\
  (forall r, top (st ex) r 2 -> in_init (st ex) r = false /\ inited (st ex) r = Some true).
Proof. exact ex_unlink_values. Qed.
(** Deeper down the values are lost. *)
Theorem C36_deep_refuted : exists s s', reach ex_init ex_f ex_finv careful ex_junk s /\ legal_link s 1 4 None /\ roomy s 1 4 /\ depth (st s) 1 2 /\ ready (st s) 4 /\
  link 1 4 None s = (s', None) /\ value s 0 0 = Some 1 /\ value s' 0 0 = Some (ex_junk 0 0) /\ value s 4 0 = Some 5 /\ value s' 4 0 = Some (ex_junk 0 0).
Proof. exact deep_link_refuted. Qed.
Print Assumptions C36_deep_refuted.
Theorem C36_deep_unlink_refuted : exists s s', reach ex_init ex_f ex_finv careful ex_junk s /\ In 0%nat (kids (st s) 2) /\ depth (st s) 2 3 /\
  unlink 2 0 s = (s', None) /\ value s 1 0 = Some 3 /\ value s' 1 0 = Some (ex_junk 0 0).
Proof. exact deep_unlink_refuted. Qed.
Print Assumptions C36_deep_unlink_refuted.
(** So are those of a Param removed earlier from a node that is filled again. *)
Theorem C36_refill_refuted : exists s s', ex_reach s /\ legal_link s 1 2 None /\ par (st s) 0 = None /\ link 1 2 None s = (s', None) /\
  value s 0 0 = Some 1 /\ value s' 0 0 = Some 5.
Proof. exact refill_refuted. Qed.
Print Assumptions C36_refill_refuted.

(** C37: setting the optimizer array and reading it; reading it and setting it back. For objects at
    the top, or without fixed elements. *)
Theorem C37_set_get : forall V tinit tf tfinv junk s x p ks, reachable V tinit tf tfinv junk s -> (x < next (st s))%nat -> ready (st s) x ->
  par (st s) x = None \/ (forall j, ~ has s x Fixed j) -> free s x ks -> length p = length ks ->
  (forall i k n v, nth_error ks i = Some k -> has s x (Tr n) k -> nth_error p i = Some v -> tfinv n (tf n v) = v) ->
  exists s1 s2, set_optimizer_array tf x p s = (s1, None) /\ get_optimizer_array tfinv x s1 = Ok (p, s2).
Proof. exact @set_get_final. Qed.
Print Assumptions C37_set_get.
Theorem C37_get_set_partial : forall V tinit tf tfinv junk s x ks, reachable V tinit tf tfinv junk s -> (x < next (st s))%nat -> ready (st s) x ->
  par (st s) x = None \/ (forall j, ~ has s x Fixed j) -> free s x ks -> fresh (nt s) x = false ->
  (forall k n v, has s x (Tr n) k -> ~ has s x Fixed k -> value s x k = Some v -> tf n (tfinv n v) = v) ->
  exists p s1 s2, get_optimizer_array tfinv x s = Ok (p, s1) /\ length p = length ks /\ set_optimizer_array tf x p s1 = (s2, None) /\
    (forall y j k, (y < next (st s))%nat -> ready (st s) y -> same_elem (st s) y j x k -> value s2 y j = value s y j) /\
    (apart s -> forall y j, (y < next (st s))%nat -> ready (st s) y -> 0 <= j < size (st s) y -> value s2 y j = value s y j).
Proof. exact @get_set_final. Qed.
Print Assumptions C37_get_set_partial.
Example C37_example : ex_reach ex /\ ready (st ex) 4 /\ par (st ex) 4 = None /\ free ex 4 [0;1;3] /\ fresh (nt ex) 4 = false /\ apart ex /\
  (forall n v, ex_finv n (ex_f n v) = v) /\ (forall n v, ex_f n (ex_finv n v) = v) /\ has ex 4 (Tr 7) 0.
Proof. exact ex_round. Qed.
(** With a copy that was read before and is out of date, setting back what is read changes values. *)
Theorem C37_get_set_refuted : exists s p s1 s2, ex_reach s /\ get_optimizer_array ex_finv 4 s = Ok (p, s1) /\
  set_optimizer_array ex_f 4 p s1 = (s2, None) /\ ~ has s 4 Fixed 0 /\ value s 4 0 = Some 50 /\ value s2 4 0 = Some 1.
Proof. exact get_set_refuted. Qed.
Print Assumptions C37_get_set_refuted.

(** C38 *)
Theorem C38_set : forall V tinit tf tfinv junk s x p ks, reachable V tinit tf tfinv junk s -> (x < next (st s))%nat -> ready (st s) x -> free s x ks -> length p = length ks ->
  exists s', set_optimizer_array tf x p s = (s', None) /\
    (forall k, has s x Fixed k -> value s' x k = value s x k) /\
    (forall i k v, nth_error ks i = Some k -> nth_error p i = Some v ->
       (forall n, has s x (Tr n) k -> value s' x k = Some (tf n v)) /\ ((forall n, ~ has s x (Tr n) k) -> value s' x k = Some v)) /\
    (apart s -> forall y j, (y < next (st s))%nat -> ready (st s) y -> 0 <= j < size (st s) y -> (forall k, ~ same_elem (st s) y j x k) -> value s' y j = value s y j).
Proof. exact @set_exact_final. Qed.
Print Assumptions C38_set.
Example C38_example : ex_reach ex /\ ready (st ex) 3 /\ free ex 3 [0] /\ ready (st ex) 4 /\ free ex 4 [0;1;3] /\ has ex 4 (Tr 7) 0 /\ has ex 4 Fixed 2 /\ apart ex.
Proof. exact ex_set. Qed.
(** C65 (a vector of another length is rejected): it is recycled or cut, the effect is this. *)
Theorem C65_any_length : forall V tinit tf tfinv junk s x p ks, reachable V tinit tf tfinv junk s -> (x < next (st s))%nat -> ready (st s) x -> free s x ks ->
  exists s' F, set_optimizer_array tf x p s = (s', None) /\ reachable V tinit tf tfinv junk s' /\ st s' = st s /\ ios s' = ios s /\
    changed s s' x F /\ set_effect tf s x ks p F.
Proof. exact @set_final. Qed.
Print Assumptions C65_any_length.
Theorem C65_length_refuted : exists s s1 s2, ex_reach s /\ free s 4 [0;1;3] /\
  set_optimizer_array ex_f 4 [10] s = (s1, None) /\ value s1 4 0 = Some 17 /\ value s1 4 1 = Some 10 /\ value s1 4 3 = Some 10 /\
  set_optimizer_array ex_f 4 [10;20;30;40] s = (s2, None) /\ value s2 4 0 = Some 17 /\ value s2 4 1 = Some 20 /\ value s2 4 3 = Some 30.
Proof. exact any_length_refuted. Qed.
Print Assumptions C65_length_refuted.

(** C39, what holds: after an assignment or a new constraint with updates on, and as long as nothing
    was read before ([fresh] is the mark a read leaves, C37). *)
Theorem C39_get_partial : forall V tinit tf tfinv junk s x ks, reachable V tinit tf tfinv junk s -> (x < next (st s))%nat -> ready (st s) x ->
  par (st s) x = None \/ (forall j, ~ has s x Fixed j) -> free s x ks -> fresh (nt s) x = false ->
  exists l s', get_optimizer_array tfinv x s = Ok (l, s') /\ get_spec tfinv s x ks l.
Proof. exact @get_final. Qed.
Print Assumptions C39_get_partial.
Theorem C39_after_assign_partial : forall V tinit tf tfinv junk s y g s1 x ks, reachable V tinit tf tfinv junk s -> (y < next (st s))%nat -> ready (st s) y ->
  in_init (st s) y = false -> awake s y -> assign y g s = (s1, None) ->
  kind (st s) x = KNode -> part (st s) x y -> (x < next (st s))%nat -> ready (st s) x -> par (st s) x = None \/ (forall j, ~ has s x Fixed j) -> free s1 x ks ->
  exists l s2, get_optimizer_array tfinv x s1 = Ok (l, s2) /\ get_spec tfinv s1 x ks l.
Proof. exact @fresh_assign_final. Qed.
Print Assumptions C39_after_assign_partial.
Theorem C39_after_constrain_partial : forall V tinit tf tfinv junk s y sel n s1 x ks, reachable V tinit tf tfinv junk s -> (y < next (st s))%nat -> ready (st s) y ->
  legal_sel (st s) y sel -> in_init (st s) y = false -> awake s y -> constrain tinit y sel n s = (s1, None) ->
  kind (st s) x = KNode -> part (st s) x y -> (x < next (st s))%nat -> ready (st s) x -> par (st s) x = None \/ (forall j, ~ has s1 x Fixed j) -> free s1 x ks ->
  exists l s2, get_optimizer_array tfinv x s1 = Ok (l, s2) /\ get_spec tfinv s1 x ks l.
Proof. exact @fresh_constrain_final. Qed.
Print Assumptions C39_after_constrain_partial.
Example C39_example : ex_reach ex_read /\ fresh (nt ex_read) 4 = true /\ awake ex_read 0 /\ in_init (st ex_read) 0 = false /\ ready (st ex_read) 0 /\
  kind (st ex_read) 4 = KNode /\ part (st ex_read) 4 0 /\ ready (st ex_read) 4 /\ par (st ex_read) 4 = None /\ free ex_read 4 [0;1;3].
Proof. exact ex_awake. Qed.
(** Stale: after an assignment with updates off, and after removing a constraint with updates on. *)
Theorem C39_updates_off_refuted : exists s l s', ex_reach s /\ get_optimizer_array ex_finv 4 s = Ok (l, s') /\
  free s 4 [0;1;3] /\ ~ get_spec ex_finv s 4 [0;1;3] l.
Proof. exact stale_off_refuted. Qed.
Print Assumptions C39_updates_off_refuted.
Theorem C39_unconstrain_refuted : exists s l s', ex_reach s /\ awake s 0 /\
  get_optimizer_array ex_finv 4 s = Ok (l, s') /\ free s 4 [0;1;3] /\ ~ get_spec ex_finv s 4 [0;1;3] l.
Proof. exact stale_unconstrain_refuted. Qed.
Print Assumptions C39_unconstrain_refuted.

(** C40 *)
Theorem C40_gradient : forall V tinit tf tfinv junk tgrad s x ks g, reachable V tinit tf tfinv junk s -> (x < next (st s))%nat -> ready (st s) x ->
  par (st s) x = None -> free s x ks -> Z.of_nat (length g) = size (st s) x ->
  exists l, transform_gradients tgrad x s g = Ok l /\ grad_spec tgrad s x ks g l.
Proof. exact @grad_final. Qed.
Print Assumptions C40_gradient.
Example C40_example : ex_reach ex /\ ready (st ex) 4 /\ par (st ex) 4 = None /\ free ex 4 [0;1;3] /\ size (st ex) 4 = 5 /\ has ex 4 (Tr 7) 0 /\
  transform_gradients (fun n v d => d * Z.of_nat n) 4 ex [10;20;30;40;50] = Ok [70;20;40].
Proof. exact ex_gradient. Qed.

(** C41 *)
Theorem C41_indices : forall V tinit tf tfinv junk s r x o n sel ks, reachable V tinit tf tfinv junk s -> (r < next (st s))%nat -> ready (st s) r ->
  par (st s) r = None -> below (st s) r x o n -> legal_sel (st s) x sel -> free s r ks ->
  exists l fs, index_for_transformed s r x sel = Ok l /\
    kept_of (fun k => ~ has s r Fixed k) (map (fun k => k + o) (match sel with Some l => l | None => arange (size (st s) x) end)) fs /\
    Forall2 (fun i k => 0 <= i /\ nth_error ks (Z.to_nat i) = Some k) l fs.
Proof. exact @index_final. Qed.
Print Assumptions C41_indices.
Example C41_example : ex_reach ex /\ ready (st ex) 4 /\ par (st ex) 4 = None /\ below (st ex) 4 3 3 1 /\ free ex 4 [0;1;3] /\
  index_for_transformed ex 4 3 None = Ok [2].
Proof. exact ex_indices. Qed.

(** C42 *)
Theorem C42_assign_order : forall V tinit tf tfinv junk s x g, reachable V tinit tf tfinv junk s -> (x < next (st s))%nat -> is_leaf (st s) x = true -> awake s x ->
  exists s' l, assign x g s = (s', None) /\ bottom_up s s' l /\ forall y, In y l <-> kind (st s) y = KNode /\ part (st s) y x.
Proof. exact @assign_order_final. Qed.
Print Assumptions C42_assign_order.
Example C42_example : ex_reach ex /\ is_leaf (st ex) 0 = true /\ awake ex 0 /\
  trace (nt (fst (assign 0 (fun _ _ => 9) ex))) = [4;2]%nat ++ trace (nt ex).
Proof. exact ex_order. Qed.

(** C43 *)
Theorem C43_trigger_order : forall V tinit tf tfinv junk s x, reachable V tinit tf tfinv junk s -> (x < next (st s))%nat -> in_init (st s) x = false ->
  (forall y, together (st s) x y -> updates (nt s) y = true) ->
  exists s' l, c_trigger x true s = (s', None) /\ st s' = st s /\ ios s' = ios s /\ mem s' = mem s /\ bottom_up s s' l /\
    forall y, In y l <-> kind (st s) y = KNode /\ (woken s x y \/ part (st s) y x).
Proof. exact @trigger_order_final. Qed.
Print Assumptions C43_trigger_order.
Example C43_example : ex_reach ex /\ in_init (st ex) 4 = false /\ (forall y, together (st ex) 4 y -> updates (nt ex) y = true) /\
  woken ex 4 2 /\ trace (nt (fst (c_trigger 4 true ex))) = [4;2]%nat ++ trace (nt ex).
Proof. exact ex_trigger. Qed.

(** C44, what holds: histories without structural changes. *)
Theorem C44_off_partial : forall V tinit tf tfinv junk s x, reachable V tinit tf tfinv junk s -> (x < next (st s))%nat ->
  exists s1, update_model x false s = (s1, None) /\ reachable V tinit tf tfinv junk s1 /\ st s1 = st s /\ mem s1 = mem s /\ ios s1 = ios s /\
    trace (nt s1) = trace (nt s) /\ silent s1 x /\
    (forall y, ~ together (st s) x y -> updates (nt s1) y = updates (nt s) y) /\
    forall s2, hist tinit tf tfinv (fun s c => legal s c /\ quiet_call (st s) x c) s1 s2 -> trace (nt s2) = trace (nt s) /\ silent s2 x.
Proof. exact @off_final. Qed.
Print Assumptions C44_off_partial.
Example C44_example : ex_reach ex /\ exists s1 s2, update_model 3 false ex = (s1, None) /\
  hist ex_init ex_f ex_finv (fun s c => legal s c /\ quiet_call (st s) 3 c) s1 s2 /\ value s2 4 0 = Some 9 /\ has s2 4 (Tr 3) 1.
Proof. exact ex_quiet. Qed.
Theorem C44_on : forall V tinit tf tfinv junk s x, reachable V tinit tf tfinv junk s -> (x < next (st s))%nat -> in_init (st s) x = false ->
  exists s1 l, update_model x true s = (s1, None) /\ st s1 = st s /\ mem s1 = mem s /\ ios s1 = ios s /\
    (forall y, together (st s) x y -> updates (nt s1) y = true) /\ (forall y, ~ together (st s) x y -> updates (nt s1) y = updates (nt s) y) /\
    bottom_up s s1 l /\ forall y, In y l <-> kind (st s) y = KNode /\ (woken s x y \/ part (st s) y x).
Proof. exact @on_final. Qed.
Print Assumptions C44_on.
Example C44_on_example : ex_reach ex_quieted /\ in_init (st ex_quieted) 4 = false /\ silent ex_quieted 4.
Proof. exact ex_off. Qed.
(** An object linked in while updates are off is not silenced. *)
Theorem C44_link_refuted : exists s s', ex_reach s /\ together (st s) 4 5 /\ updates (nt s) 4 = false /\
  assign 5 (fun _ _ => 9) s = (s', None) /\ trace (nt s') = 6%nat :: trace (nt s).
Proof. exact silent_link_refuted. Qed.
Print Assumptions C44_link_refuted.

(** C45 *)
Theorem C45_traverse : forall V tinit tf tfinv junk s x, reachable V tinit tf tfinv junk s ->
  exists n' l, traverse (fuel (st s)) (st s) (fun _ => false) x (nt s, []) = (n', rev l, None) /\
    preorder (st s) x l /\ NoDup l /\ (forall y, In y l <-> part (st s) x y) /\
    (passes n' = passes (nt s) /\ updates n' = updates (nt s) /\ copied n' = copied (nt s) /\ fresh n' = fresh (nt s) /\ trace n' = trace (nt s)) /\
    exists n'', traverse (fuel (st s)) (st s) (fun _ => false) x (n', []) = (n'', rev l, None).
Proof. exact @traverse_final. Qed.
Print Assumptions C45_traverse.
Example C45_example : ex_reach ex /\ exists n', traverse (fuel (st ex)) (st ex) (fun _ => false) 4 (nt ex, []) = (n', [3;1;0;2;4]%nat, None).
Proof. exact ex_traverse. Qed.

(** C46: after a refused link, switching updates off misses part of the hierarchy. *)
Theorem C46_failed_link_refuted : exists s s1 s2, ex_reach s /\ link 4 0 None s = (s1, Some HierarchyError) /\
  update_model 4 false s1 = (s2, None) /\ together (st s2) 4 0 /\ updates (nt s2) 4 = false /\ updates (nt s2) 0 = true.
Proof. exact failed_link_refuted. Qed.
Print Assumptions C46_failed_link_refuted.

(** C60, what holds: the switch of the object randomize is called on. *)
Theorem C60_randomize_partial : forall V tinit tf tfinv junk s x draw ks, reachable V tinit tf tfinv junk s -> (x < next (st s))%nat -> ready (st s) x -> free s x ks ->
  exists s', randomize tf x draw s = (s', None) /\ st s' = st s /\ ios s' = ios s /\
    (forall k, has s x Fixed k -> value s' x k = value s x k) /\
    (forall i k, nth_error ks i = Some k -> (forall n, has s x (Tr n) k -> value s' x k = Some (tf n (draw i))) /\ ((forall n, ~ has s x (Tr n) k) -> value s' x k = Some (draw i))) /\
    (apart s -> forall y j, (y < next (st s))%nat -> ready (st s) y -> 0 <= j < size (st s) y -> (forall k, ~ same_elem (st s) y j x k) -> value s' y j = value s y j) /\
    (forall y, together (st s) x y -> updates (nt s') y = updates (nt s) x) /\ (forall y, ~ together (st s) x y -> updates (nt s') y = updates (nt s) y) /\
    (updates (nt s) x = false -> trace (nt s') = trace (nt s)) /\
    (updates (nt s) x = true -> in_init (st s) x = false -> exists l, bottom_up s s' l /\ forall y, In y l <-> kind (st s) y = KNode /\ (woken s x y \/ part (st s) y x)).
Proof. exact @randomize_final. Qed.
Print Assumptions C60_randomize_partial.
Example C60_example : ex_reach ex /\ ready (st ex) 4 /\ free ex 4 [0;1;3] /\ has ex 4 (Tr 7) 0 /\ has ex 4 Fixed 2 /\ apart ex /\ updates (nt ex) 4 = true /\ in_init (st ex) 4 = false.
Proof. exact ex_random. Qed.
(** The others of the hierarchy get its switch, too. *)
Theorem C60_switch_refuted : exists s s', ex_reach s /\ together (st s) 6 4 /\ updates (nt s) 4 = false /\
  randomize ex_f 6 (fun _ => 1) s = (s', None) /\ updates (nt s') 4 = true.
Proof. exact switch_refuted. Qed.
Print Assumptions C60_switch_refuted.
