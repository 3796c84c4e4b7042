(** Property theorems about concatenations of parameters (C55, C56, C57, C68, C69). *)
From Coq Require Import List ZArith Bool Arith.
From Verif Require Import NpModel IndexOpsModel IndexOpsSpec PzModel PzSpec PzOpt PzEx ConcatModel ConcatSpec ConcatFinal ConcatEx.
Import ListNotations.
Open Scope Z_scope.

(** ** C55 *)
(** An assignment changes no element that is not selected, and no constraint. *)
Theorem C55_others : forall (V : Type) tinit tf tfinv junk (s : @state V) c sel val, creach tinit tf tfinv junk s -> conc_of (st s) c -> cparams c <> [] ->
  (forall q, In q (cleft c) -> (q < next (st s))%nat) -> sel_ok s c sel -> fits sel val ->
  exists s', conc_set sel val c s = (used c, s', None) /\ st s' = st s /\ ios s' = ios s /\
    forall y j, (y < next (st s))%nat -> ready (st s) y -> 0 <= j < size (st s) y -> ~ hit (st s) (cparams c) sel y j -> value s' y j = value s y j.
Proof. exact @set_others. Qed.
Print Assumptions C55_others.
(** The selected elements get the values. Missing from the full statement: selections that leave out
    an element of a parameter and select a later one; see the refutation. *)
Theorem C55_values_partial : forall (V : Type) tinit tf tfinv junk (s : @state V) c sel val, creach tinit tf tfinv junk s -> conc_of (st s) c -> cparams c <> [] ->
  (forall q, In q (cleft c) -> (q < next (st s))%nat) -> sel_ok s c sel -> fits sel val -> from_front (st s) (cparams c) sel ->
  exists s', conc_set sel val c s = (used c, s', None) /\
    forall k p i y j, In k sel -> position_of (st s) (cparams c) k p i -> (y < next (st s))%nat -> ready (st s) y -> same_elem (st s) y j p i ->
      exists v, given sel val k v /\ value s' y j = Some v.
Proof. exact @set_values_final. Qed.
Print Assumptions C55_values_partial.
Example C55_values_example : ex_creach ex /\ conc_of (st ex) ex_c /\ (forall q, In q (cleft ex_c) -> (q < next (st ex))%nat) /\
  sel_ok ex ex_c [3;0;2] /\ fits [3;0;2] [13;10;12] /\ from_front (st ex) (cparams ex_c) [3;0;2] /\
  map (fun k => value (after (conc_set [3;0;2] [13;10;12] ex_c ex)) 4 k) [0;1;2;3;4] = [Some 10; Some 2; Some 3; Some 12; Some 13].
Proof. exact ex_set_partial. Qed.
Example C55_nonempty_example : cparams ex_c <> [].
Proof. discriminate. Qed.
(** What any selection does: if [r] selected elements of the parameter come before a selected
    element, it gets what is meant for element [r], or the value of element [r] if that is not selected. *)
Theorem C55_effect : forall (V : Type) tinit tf tfinv junk (s : @state V) c sel val, creach tinit tf tfinv junk s -> conc_of (st s) c -> cparams c <> [] ->
  (forall q, In q (cleft c) -> (q < next (st s))%nat) -> sel_ok s c sel -> fits sel val ->
  exists s', conc_set sel val c s = (used c, s', None) /\ st s' = st s /\ ios s' = ios s /\
    (forall y j, (y < next (st s))%nat -> ready (st s) y -> 0 <= j < size (st s) y -> ~ hit (st s) (cparams c) sel y j -> value s' y j = value s y j) /\
    (forall k p i y j r, In k sel -> position_of (st s) (cparams c) k p i -> (y < next (st s))%nat -> ready (st s) y ->
      same_elem (st s) y j p i -> counted sel (k - i) k r ->
      (forall v, given sel val (k - i + r) v -> value s' y j = Some v) /\ (~ In (k - i + r) sel -> value s' y j = value s p r)).
Proof. exact @set_final. Qed.
Print Assumptions C55_effect.
Example C55_effect_example : sel_ok ex ex_c [1;3] /\ fits [1;3] [8;9] /\ counted [1;3] 2 3 0 /\ given [1;3] [8;9] 3 9 /\
  map (fun k => value (after (conc_set [1;3] [8;9] ex_c ex)) 4 k) [0;1;2;3;4] = [Some 1; Some 1; Some 3; Some 4; Some 4].
Proof. exact ex_set_effect. Qed.
(** A concatenation of no parameters cannot be assigned to. *)
Theorem C55_empty : forall (V : Type) (s : @state V) c val, cparams c = [] -> conc_set [] val c s = (c, s, Some ValueError).
Proof. exact @set_empty. Qed.
Print Assumptions C55_empty.
Example C55_empty_example : concatenation (st ex) [] = mkC [] [].
Proof. vm_compute. reflexivity. Qed.
(** Positions that do not exist and values that do not fit are rejected without effect. *)
Theorem C55_rejected_positions : forall (V : Type) (s : @state V) c sel val, (exists k, In k sel /\ ~ 0 <= k < conc_size s c) -> conc_set sel val c s = (c, s, Some IndexError).
Proof. exact @set_rejected. Qed.
Print Assumptions C55_rejected_positions.
Theorem C55_rejected_values : forall (V : Type) (s : @state V) c sel val, sel_ok s c sel -> ~ fits sel val -> conc_set sel val c s = (c, s, Some ValueError).
Proof. exact @set_rejected_values. Qed.
Print Assumptions C55_rejected_values.
(** The full statement is false: an element selected alone, and not the first of its parameter, gets another value. *)
Theorem C55_refuted : exists s c sel val k p i v c' s', ex_creach s /\ conc_of (st s) c /\ sel_ok s c sel /\ fits sel val /\ In k sel /\
  position_of (st s) (cparams c) k p i /\ conc_set sel val c s = (c', s', None) /\ (forall v', given sel val k v' <-> v' = v) /\ value s' p i <> Some v.
Proof. exact set_refuted. Qed.
Print Assumptions C55_refuted.

(** ** C56 *)
(** The first assignment through a concatenation runs the updates of all objects above its parameters, and
    after each update those of the objects above. Missing: later assignments; see the refutation. *)
Theorem C56_set_partial : forall (V : Type) tinit tf tfinv junk (s : @state V) xs sel val, let c := concatenation (st s) xs in
  creach tinit tf tfinv junk s -> (forall x, In x xs -> (x < next (st s))%nat) -> cparams c <> [] -> sel_ok s c sel -> fits sel val -> on s (cparams c) -> finished (st s) (cparams c) ->
  exists s' l, conc_set sel val c s = (used c, s', None) /\ trace (nt s') = rev l ++ trace (nt s) /\ (forall q, over (st s) (cparams c) q -> In q l) /\ settled (st s) l.
Proof. exact @set_updates. Qed.
Print Assumptions C56_set_partial.
Example C56_set_example : ex_creach ex /\ concatenation (st ex) [0;3]%nat = ex_c /\ sel_ok ex ex_c [0] /\ fits [0] [7] /\ on ex (cparams ex_c) /\ finished (st ex) (cparams ex_c) /\
  over (st ex) (cparams ex_c) 2 /\ over (st ex) (cparams ex_c) 4 /\ trace (nt (after (conc_set [0] [7] ex_c ex))) = [4;2;2]%nat ++ trace (nt ex).
Proof. exact ex_set_updates. Qed.
(** The full statement is false: the second assignment changes a value and runs no update. *)
Theorem C56_refuted : exists s xs sel val c1 s1 c2 s2, ex_creach s /\ (forall x, In x xs -> (x < next (st s))%nat) /\ sel_ok s (concatenation (st s) xs) sel /\ fits sel val /\
  on s (cparams (concatenation (st s) xs)) /\ finished (st s) (cparams (concatenation (st s) xs)) /\
  conc_set sel val (concatenation (st s) xs) s = (c1, s1, None) /\ conc_set sel [8] c1 s1 = (c2, s2, None) /\
  value s1 0 0 = Some 7 /\ value s2 0 0 = Some 8 /\ over (st s) (cparams c1) 2 /\ trace (nt s2) = trace (nt s1).
Proof. exact set_twice_refuted. Qed.
Print Assumptions C56_refuted.
(** Constraints and fixes made through a concatenation, new or used, run the updates. *)
Theorem C56_constrain : forall (V : Type) tinit tf tfinv junk (s : @state V) xs n c, c = concatenation (st s) xs \/ c = used (concatenation (st s) xs) ->
  creach tinit tf tfinv junk s -> (forall x, In x xs -> (x < next (st s))%nat) -> on s (cparams c) -> finished (st s) (cparams c) ->
  exists s' l, conc_constrain tinit n c s = (used c, s', None) /\ trace (nt s') = rev l ++ trace (nt s) /\ (forall q, over (st s) (cparams c) q -> In q l) /\ settled (st s) l.
Proof. exact @constrain_updates. Qed.
Print Assumptions C56_constrain.
Theorem C56_fix : forall (V : Type) tinit tf tfinv junk (s : @state V) c, creach tinit tf tfinv junk s -> conc_of (st s) c -> on s (cparams c) ->
  exists s' l, conc_fix c s = (c, s', None) /\ trace (nt s') = rev l ++ trace (nt s) /\ (forall q, over (st s) (cparams c) q -> In q l) /\ settled (st s) l.
Proof. exact @fix_updates. Qed.
Print Assumptions C56_fix.
Example C56_constrain_example : trace (nt (after (conc_constrain ex_init 5 (used ex_c) ex))) = [4;4;2]%nat ++ trace (nt ex) /\
  trace (nt (after (conc_fix ex_c ex))) = [4;4;2]%nat ++ trace (nt ex).
Proof. exact ex_constrain_updates. Qed.

(** ** C57 *)
(** Reading gives the values of the selected elements, in their order in the concatenation. Missing:
    parameters of which only zeros are selected, and the order and repetitions of the index. *)
Theorem C57_partial : forall (V : Type) tinit tf tfinv junk nonzero (s : @state V) c sel, creach tinit tf tfinv junk s -> conc_of (st s) c -> sel_ok s c sel -> sel <> [] ->
  no_zeros nonzero s (cparams c) sel ->
  exists ls l ks, conc_get nonzero s c sel = Ok ls /\ shown ls = Ok l /\ increasing ks /\ (forall k, In k ks <-> In k sel) /\ values_at s (cparams c) ks l.
Proof. exact @get_final. Qed.
Print Assumptions C57_partial.
Example C57_example : ex_creach ex /\ conc_of (st ex) ex_c /\ sel_ok ex ex_c [3;0] /\ no_zeros nz ex (cparams ex_c) [3;0] /\
  conc_get nz ex ex_c [3;0] = Ok [[1];[5]] /\ conc_values ex ex_c = [1;2;4;5].
Proof. exact ex_get. Qed.
(** [values()] gives all values in order, whatever they are. *)
Theorem C57_values : forall (V : Type) tinit tf tfinv junk (s : @state V) c, creach tinit tf tfinv junk s -> conc_of (st s) c ->
  values_at s (cparams c) (arange (conc_size s c)) (conc_values s c).
Proof. exact @values_final. Qed.
Print Assumptions C57_values.
(** The full statement is false: an index that is not increasing is not followed, *)
Theorem C57_order_refuted : exists s c sel ls l, ex_creach s /\ conc_of (st s) c /\ sel_ok s c sel /\ NoDup sel /\ no_zeros nz s (cparams c) sel /\
  conc_get nz s c sel = Ok ls /\ shown ls = Ok l /\ ~ values_at s (cparams c) sel l.
Proof. exact get_order_refuted. Qed.
Print Assumptions C57_order_refuted.
(** and selected zeros disappear; a selection of one zero has no values at all. *)
Theorem C57_zeros_refuted : exists s c, ex_creach s /\ conc_of (st s) c /\ sel_ok s c [0;2] /\ value s 0 0 = Some 0 /\ value s 3 0 = Some 4 /\
  position_of (st s) (cparams c) 0 0 0 /\ position_of (st s) (cparams c) 2 3 0 /\
  (exists ls, conc_get nz s c [0;2] = Ok ls /\ shown ls = Ok [4]) /\ (exists ls, conc_get nz s c [0] = Ok ls /\ shown ls = Er ValueError).
Proof. exact get_zeros_refuted. Qed.
Print Assumptions C57_zeros_refuted.

(** ** C68 *)
Theorem C68_constrain : forall (V : Type) tinit tf tfinv junk (s : @state V) c n, creach tinit tf tfinv junk s -> conc_of (st s) c ->
  (forall q, In q (cleft c) -> (q < next (st s))%nat) ->
  exists s', conc_constrain tinit n c s = (used c, s', None) /\ st s' = st s /\
    (forall y q j, (y < next (st s))%nat -> (has s' y q j <-> (has s y q j /\ ~ covers (st s) (cparams c) y j) \/ (q = Tr n /\ covers (st s) (cparams c) y j))) /\
    (forall y j, (y < next (st s))%nat -> ready (st s) y -> 0 <= j < size (st s) y ->
      (covers (st s) (cparams c) y j -> value s' y j = option_map (tinit n) (value s y j)) /\ (~ covers (st s) (cparams c) y j -> value s' y j = value s y j)).
Proof. exact @constrain_final. Qed.
Print Assumptions C68_constrain.
Theorem C68_fix : forall (V : Type) tinit tf tfinv junk (s : @state V) c, creach tinit tf tfinv junk s -> conc_of (st s) c ->
  exists s', conc_fix c s = (c, s', None) /\ st s' = st s /\ mem s' = mem s /\
    forall y q j, (y < next (st s))%nat -> (has s' y q j <-> has s y q j \/ (q = Fixed /\ covers (st s) (cparams c) y j)).
Proof. exact @fix_final. Qed.
Print Assumptions C68_fix.
Theorem C68_unfix : forall (V : Type) tinit tf tfinv junk (s : @state V) c, creach tinit tf tfinv junk s -> conc_of (st s) c ->
  exists s', conc_unfix c s = (c, s', None) /\ st s' = st s /\ mem s' = mem s /\
    forall y q j, (y < next (st s))%nat -> (has s' y q j <-> has s y q j /\ ~ (q = Fixed /\ covers (st s) (cparams c) y j)).
Proof. exact @unfix_final. Qed.
Print Assumptions C68_unfix.
Theorem C68_unconstrain : forall (V : Type) tinit tf tfinv junk (s : @state V) c ts, creach tinit tf tfinv junk s -> conc_of (st s) c ->
  exists s', conc_unconstrain ts c s = (c, s', None) /\ st s' = st s /\ mem s' = mem s /\
    forall y q j, (y < next (st s))%nat -> (has s' y q j <-> has s y q j /\ ~ ((ts = [] \/ In q ts) /\ covers (st s) (cparams c) y j)).
Proof. exact @unconstrain_final. Qed.
Print Assumptions C68_unconstrain.
Example C68_example : ex_creach ex /\ conc_of (st ex) ex_c /\ (forall q, In q (cleft ex_c) -> (q < next (st ex))%nat) /\
  has ex 4 (Tr 7) 0 /\ ~ has ex 4 Fixed 0 /\ has ex 4 Fixed 2 /\ has ex 4 Fixed 4 /\ covers (st ex) (cparams ex_c) 4 0 /\ covers (st ex) (cparams ex_c) 4 4 /\
  has (after (conc_constrain ex_init 5 ex_c ex)) 4 (Tr 5) 0 /\ ~ has (after (conc_constrain ex_init 5 ex_c ex)) 4 Fixed 4 /\ has (after (conc_constrain ex_init 5 ex_c ex)) 4 Fixed 2 /\
  has (after (conc_fix ex_c ex)) 4 Fixed 0 /\ ~ has (after (conc_unfix ex_c ex)) 4 Fixed 4 /\ has (after (conc_unfix ex_c ex)) 4 Fixed 2 /\
  ~ has (after (conc_unconstrain [Tr 7] ex_c ex)) 4 (Tr 7) 0 /\ has (after (conc_unconstrain [Tr 7] ex_c ex)) 4 Fixed 4.
Proof. exact ex_cons_calls. Qed.

(** ** C69 *)
Theorem C69_contents : forall (V : Type) tinit tf tfinv junk (s : @state V) xs, creach tinit tf tfinv junk s -> (forall x, In x xs -> (x < next (st s))%nat) ->
  conc_of (st s) (concatenation (st s) xs) /\
  (forall p, In p (cparams (concatenation (st s) xs)) <-> is_leaf (st s) p = true /\ exists x, In x xs /\ part (st s) x p).
Proof. exact @contents_final. Qed.
Print Assumptions C69_contents.
Example C69_example : ex_creach ex /\ concatenation (st ex) [3;4;0]%nat = mkC [3;0;1]%nat [2;4]%nat /\ (forall x, In x [3;4;0]%nat -> (x < next (st ex))%nat).
Proof. exact ex_contents. Qed.
