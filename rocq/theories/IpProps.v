(** In-place arithmetic on the parameters of a hierarchy: the properties. *)
From Coq Require Import String List ZArith NArith Bool Arith Lia.
From Verif Require Import NpModel PzModel PzSpec PzFinal PzEx ConcatModel ConcatSpec ConcatCons ConcatEx FlatModel FlatSpec FlatEx IpModel IpSpec IpProofs.
Import ListNotations.
Local Open Scope list_scope.
Local Open Scope Z_scope.

(** ** C121 *)
(** [c op= v] changes every element of the concatenation, and nothing else. *)
Theorem C121_concatenation : forall (V : Type) (op : V -> V -> V) tinit tf tfinv junk (s : @state V) c v, creach tinit tf tfinv junk s -> conc_of (st s) c -> cparams c <> [] ->
  (forall q, In q (cleft c) -> (q < next (st s))%nat) -> length v = 1%nat \/ Z.of_nat (length v) = conc_size s c ->
  exists s', conc_inplace op v c s = (used c, s', None) /\ operated op v (cparams c) s s'.
Proof. exact @conc_final. Qed.
Print Assumptions C121_concatenation.
Example C121_concatenation_example : ex_creach ex /\ conc_of (st ex) ex_c /\ cparams ex_c <> [] /\ (forall q, In q (cleft ex_c) -> (q < next (st ex))%nat) /\ conc_size ex ex_c = 4 /\
  map (fun k => value (after (conc_inplace Z.mul [10] ex_c ex)) 4 k) [0;1;2;3;4] = [Some 10; Some 20; Some 3; Some 40; Some 50] /\
  map (fun k => value (after (conc_inplace Z.sub [1;2;3;4] ex_c ex)) 4 k) [0;1;2;3;4] = [Some 0; Some 0; Some 3; Some 1; Some 1].
Proof. split; [exact ex_creachable|]. split; [exact ex_conc_of|]. split; [discriminate|]. split; [exact ex_left|]. repeat (apply conj; [vm_compute; reflexivity|]); vm_compute; reflexivity. Qed.
(** An operand of another length is rejected without effect. *)
Theorem C121_rejected : forall (V : Type) (op : V -> V -> V) tinit tf tfinv junk (s : @state V) c v, creach tinit tf tfinv junk s -> conc_of (st s) c ->
  length v <> 1%nat -> Z.of_nat (length v) <> conc_size s c -> conc_inplace op v c s = (c, s, Some ValueError).
Proof. exact @conc_rejected. Qed.
Print Assumptions C121_rejected.
Example C121_rejected_example : ex_creach ex /\ conc_of (st ex) ex_c /\ conc_size ex ex_c = 4 /\ snd (conc_inplace Z.add [1;2] ex_c ex) = Some ValueError.
Proof. split; [exact ex_creachable|]. split; [exact ex_conc_of|]. split; vm_compute; reflexivity. Qed.
(** But the name [c] is gone: it is [None] afterwards, and using it again is a TypeError. *)
Theorem C121_name : forall (V : Type) (op : V -> V -> V) tinit tf tfinv junk (s : @state V) c v, creach tinit tf tfinv junk s -> conc_of (st s) c -> cparams c <> [] ->
  (forall q, In q (cleft c) -> (q < next (st s))%nat) -> length v = 1%nat \/ Z.of_nat (length v) = conc_size s c ->
  exists s', stmt_inplace op v (BConc c) s = (BNone, s', None) /\ operated op v (cparams c) s s' /\ forall u s2, stmt_inplace op u BNone s2 = (BNone, s2, Some TypeError).
Proof. exact @stmt_ok. Qed.
Print Assumptions C121_name.
Theorem C121_name_refuted : exists s c v u b s1, ex_creach s /\ conc_of (st s) c /\ stmt_inplace Z.add v (BConc c) s = (b, s1, None) /\ stmt_inplace Z.add u b s1 = (b, s1, Some TypeError).
Proof.
  exists ex, ex_c, [1], [1], BNone, (after (conc_inplace Z.add [1] ex_c ex)). split; [exact ex_creachable|]. split; [exact ex_conc_of|].
  split; [apply stmt_after; vm_compute; reflexivity | apply stmt_none].
Qed.
Print Assumptions C121_name_refuted.
(** [m[regexp] op= v], when a Param is matched, changes all elements of what is matched, and nothing else. Missing from
    the full statement: matching one Parameterized only ([C121_node_refuted]), and a model that is not initialised
    ([C121_uninitialised_refuted]). *)
Theorem C121_item_partial : forall (V : Type) (op : V -> V -> V) tinit tf tfinv junk (s : @state V) nm mt w r x, creach tinit tf tfinv junk s -> (x < next (st s))%nat ->
  inited (st s) x = Some true -> named (st s) nm x -> top (st s) r x -> (exists p, matches (st s) nm mt r x p /\ is_leaf (st s) p = true) ->
  exists s', item_inplace op nm mt [w] x s = (s', None) /\ all_changed (fun a => op a w) s s' (matches (st s) nm mt r x).
Proof. exact @item_changes. Qed.
Print Assumptions C121_item_partial.
(** The updates of all objects above run. *)
Theorem C121_updates : forall (V : Type) (op : V -> V -> V) tinit tf tfinv junk (s : @state V) nm mt w r x, creach tinit tf tfinv junk s -> (x < next (st s))%nat ->
  inited (st s) x = Some true -> named (st s) nm x -> top (st s) r x -> (exists p, matches (st s) nm mt r x p /\ is_leaf (st s) p = true) -> quiet s x ->
  exists s', item_inplace op nm mt [w] x s = (s', None) /\ all_updated s s' (matches (st s) nm mt r x).
Proof. exact @item_updates. Qed.
Print Assumptions C121_updates.
Example C121_item_example : ex_creach ex /\ (4 < next (st ex))%nat /\ inited (st ex) 4 = Some true /\ named (st ex) fnm 4 /\ top (st ex) 4 4 /\ matches (st ex) fnm two 4 4 3 /\
  is_leaf (st ex) 3 = true /\ quiet ex 4 /\
  map (fun k => value (fst (item_inplace Z.add fnm two [100] 4 ex)) 4 k) [0;1;2;3;4] = [Some 101; Some 102; Some 3; Some 104; Some 105] /\
  map (fun k => value (fst (item_inplace Z.add fnm (is [lit "c"]) [100] 4 ex)) 4 k) [0;1;2;3;4] = [Some 1; Some 2; Some 3; Some 104; Some 105] /\
  trace (nt (fst (item_inplace Z.add fnm (is [lit "c"]) [100] 4 ex))) = [4;4]%nat ++ trace (nt ex).
Proof.
  split; [exact ex_creachable|]. split; [vm_compute; lia|]. split; [vm_compute; reflexivity|]. split; [apply ex_named|]. split; [apply ex_top4|]. split; [exact ex_matches3|].
  split; [vm_compute; reflexivity|]. split; [exact ex_quiet|]. repeat (apply conj; [vm_compute; reflexivity|]); vm_compute; reflexivity.
Qed.
Theorem C121_node_refuted : exists s nm mt x y, ex_creach s /\ inited (st s) x = Some true /\ named (st s) nm x /\ top (st s) x x /\ matches (st s) nm mt x x y /\ 0 < size (st s) y /\
  snd (item_inplace Z.add nm mt [1] x s) = Some (Py TypeError) /\ snd (setitem nm mt 1 x s) = None.
Proof.
  exists ex, fnm, (is [lit "k_of_x"]), 4%nat, 2%nat. split; [exact ex_creachable|]. split; [vm_compute; reflexivity|]. split; [apply ex_named|]. split; [apply ex_top4|].
  split; [split; [pt ex_reachable|]; split; [discriminate|]; exists (lit "k_of_x"); split; [|vm_compute; reflexivity]|].
  { apply path_kid; vm_compute; auto. }
  repeat (apply conj; [vm_compute; reflexivity|]); vm_compute; reflexivity.
Qed.
Print Assumptions C121_node_refuted.
(** In a model that is not initialised the values are changed, and then there is an AttributeError. *)
Definition ip_calls : list (@call Z) := [NewParam [1;2]; NewParam [3]; NewNode [0;1]%nat false].
Definition ip_nm (y : oid) : str := nth y [lit "a"; lit "b"; lit "m"] [].
Theorem C121_uninitialised_refuted : exists s nm mt x y, ex_creach s /\ inited (st s) x <> Some true /\ In y (kids (st s) x) /\ value s y 0 = Some 1 /\
  snd (item_inplace Z.add nm mt [10] x s) = Some (Py AttributeError) /\ value (fst (item_inplace Z.add nm mt [10] x s)) y 0 = Some 11.
Proof.
  exists (from_start ip_calls), ip_nm, (is [lit "a"; lit "b"]), 2%nat, 0%nat. split; [apply reach_creach, start_careful; vm_compute; reflexivity|].
  split; [vm_compute; discriminate|]. split; [vm_compute; auto|]. repeat (apply conj; [vm_compute; reflexivity|]); vm_compute; reflexivity.
Qed.
Print Assumptions C121_uninitialised_refuted.
(** In-place arithmetic on a Param itself, with an operand for each element or one for all. *)
Theorem C121_param : forall (V : Type) (op : V -> V -> V) tinit tf tfinv junk (s : @state V) y v, creach tinit tf tfinv junk s -> (y < next (st s))%nat -> is_leaf (st s) y = true ->
  length v = 1%nat \/ Z.of_nat (length v) = size (st s) y -> exists s', param_inplace op v y s = (s', None) /\ operated op v [y] s s'.
Proof. exact @param_operated. Qed.
Print Assumptions C121_param.
(** Operands of another number are refused without effect, by a Param, by a concatenation (whose name is kept then) and by
    [m[regexp]]; so is [m[regexp] op= v] when nothing is matched. *)
Theorem C121_refused : forall (V : Type) (op : V -> V -> V) tinit tf tfinv junk (s : @state V) v, creach tinit tf tfinv junk s -> length v <> 1%nat ->
  (forall y, (y < next (st s))%nat -> is_leaf (st s) y = true -> Z.of_nat (length v) <> size (st s) y -> param_inplace op v y s = (s, Some ValueError)) /\
  (forall c, conc_of (st s) c -> Z.of_nat (length v) <> conc_size s c -> stmt_inplace op v (BConc c) s = (BConc c, s, Some ValueError)) /\
  (forall nm mt r x, (x < next (st s))%nat -> named (st s) nm x -> top (st s) r x -> (exists p, matches (st s) nm mt r x p /\ is_leaf (st s) p = true) ->
    (forall ps, NoDup ps -> (forall p, In p ps <-> is_leaf (st s) p = true /\ exists z, matches (st s) nm mt r x z /\ part (st s) z p) -> Z.of_nat (length v) <> sum_sizes (st s) ps) ->
    exists s', item_inplace op nm mt v x s = (s', Some (Py ValueError)) /\ untouched s s').
Proof. exact @all_refused. Qed.
Print Assumptions C121_refused.
Theorem C121_none : forall (V : Type) (op : V -> V -> V) tinit tf tfinv junk (s : @state V) nm mt v r x, creach tinit tf tfinv junk s -> named (st s) nm x -> top (st s) r x ->
  (forall y, ~ matches (st s) nm mt r x y) -> exists s', item_inplace op nm mt v x s = (s', Some (Py AttributeError)) /\ untouched s s'.
Proof. exact @item_none. Qed.
Print Assumptions C121_none.
Example C121_param_example : ex_creach ex /\ (3 < next (st ex))%nat /\ is_leaf (st ex) 3 = true /\ size (st ex) 3 = 2 /\
  map (fun k => value (fst (param_inplace Z.sub [10;20] 3 ex)) 4 k) [0;1;2;3;4] = [Some 1; Some 2; Some 3; Some (-6); Some (-15)] /\
  snd (param_inplace Z.sub [10;20;30] 3 ex) = Some ValueError /\ snd (item_inplace Z.add fnm two [1;2;3] 4 ex) = Some (Py ValueError) /\ snd (item_inplace Z.add fnm (is [lit "d"]) [1] 4 ex) = Some (Py AttributeError).
Proof. split; [exact ex_creachable|]. split; [vm_compute; lia|]. repeat (apply conj; [vm_compute; reflexivity|]); vm_compute; reflexivity. Qed.
(** Comparisons tell for every position whether the element there compares with its operand. *)
Theorem C121_compare : forall V tinit tf tfinv junk cmp (s : @state V) c v, creach tinit tf tfinv junk s -> conc_of (st s) c -> cparams c <> [] ->
  length v = 1%nat \/ Z.of_nat (length v) = conc_size s c -> exists l, conc_compare cmp v c s = Ok l /\ compares cmp v s (cparams c) l.
Proof. exact compare_ok. Qed.
Print Assumptions C121_compare.
Example C121_compare_example : ex_creach ex /\ conc_of (st ex) ex_c /\ cparams ex_c <> [] /\ conc_size ex ex_c = 4 /\ conc_compare Z.ltb [3] ex_c ex = Ok [true; true; false; false] /\
  conc_compare Z.ltb [1;3;4;9] ex_c ex = Ok [false; true; false; true].
Proof. split; [exact ex_creachable|]. split; [exact ex_conc_of|]. split; [discriminate|]. repeat (apply conj; [vm_compute; reflexivity|]); vm_compute; reflexivity. Qed.
