(** Property theorems about the names of elements and about finding and setting parameters by name (C73, C74, C75, C76). *)
From Coq Require Import String List ZArith NArith Bool Arith.
From Verif Require NamesModel NamesSpec.
From Verif Require Import NpModel IndexOpsModel IndexOpsSpec PzModel PzSpec PzOpt PzEx ConcatModel ConcatSpec ConcatEx FlatModel FlatSpec FlatFind FlatEx.
Import ListNotations.
Local Open Scope list_scope.
Local Open Scope Z_scope.

(** ** C73 *)
(** The flat names give each element its name, in the order of [param_array]. Missing from the full
    statement: empty Params; see the refutation. *)
Theorem C73_names_partial : forall (V : Type) tinit tf tfinv junk (s : @state V) nm shp x, reach tinit tf tfinv legal junk s ->
  named (st s) nm x -> shaped (st s) shp x -> filled (st s) x ->
  exists l, parameter_names_flat nm shp s x true = Got (Flat l) /\ all_labelled (st s) nm shp x l.
Proof. exact @names_final. Qed.
Print Assumptions C73_names_partial.
(** Without the fixed elements, they are the names of the free elements, in their order: for an
    object that is not part of another one, and for any object without fixed elements. *)
Theorem C73_free_partial : forall (V : Type) tinit tf tfinv junk (s : @state V) nm shp x ks, reach tinit tf tfinv legal junk s -> (x < next (st s))%nat ->
  named (st s) nm x -> shaped (st s) shp x -> filled (st s) x -> (par (st s) x = None /\ ready (st s) x) \/ (forall j, ~ has s x Fixed j) -> free s x ks ->
  exists l l', parameter_names_flat nm shp s x true = Got (Flat l) /\ all_labelled (st s) nm shp x l /\ parameter_names_flat nm shp s x false = Got (Flat l') /\
    length l' = length ks /\ forall i k, nth_error ks i = Some k -> nth_error l' i = nth_error l (Z.to_nat k).
Proof. exact @names_free_final. Qed.
Print Assumptions C73_free_partial.
(** They are all different, if children of the same object have different printing forms. *)
Theorem C73_distinct_partial : forall (V : Type) tinit tf tfinv junk (s : @state V) nm shp x, reach tinit tf tfinv legal junk s ->
  named (st s) nm x -> shaped (st s) shp x -> filled (st s) x -> told_apart (st s) nm x ->
  exists l, parameter_names_flat nm shp s x true = Got (Flat l) /\ NoDup l.
Proof. exact @names_distinct. Qed.
Print Assumptions C73_distinct_partial.
Example C73_example : ex_reach ex /\ (4 < next (st ex))%nat /\ named (st ex) fnm 4 /\ shaped (st ex) fshp 4 /\ filled (st ex) 4 /\ told_apart (st ex) fnm 4 /\
  par (st ex) 4 = None /\ ready (st ex) 4 /\ free ex 4 [0;1;3] /\ parameter_names_flat fnm fshp ex 4 true = Got (Flat all_names) /\
  parameter_names_flat fnm fshp ex 4 false = Got (Flat [lit "m.k_of_x.a[[0]]"; lit "m.k_of_x.a[[1]]"; lit "m.c[[0 0]]"]).
Proof. exact ex_names. Qed.
Example C73_label_example : label [12;3]%nat (lit "m.k") 32 (lit "m.k[[10  2]]").
Proof. exact ex_labels. Qed.
(** An empty Param adds a name; with a fixed element this is an exception. *)
Theorem C73_empty_refuted : exists s nm shp x l, ex_reach s /\ named (st s) nm x /\ shaped (st s) shp x /\ par (st s) x = None /\ ready (st s) x /\
  parameter_names_flat nm shp s x true = Got (Flat l) /\ Z.of_nat (length l) <> size (st s) x /\ parameter_names_flat nm shp s x false = Err (Py IndexError).
Proof. exact empty_refuted. Qed.
Print Assumptions C73_empty_refuted.
(** For a part of a larger object the fixed elements are not left out, and the array gets an axis more. *)
Theorem C73_part_refuted : exists s nm shp x l, ex_reach s /\ (x < next (st s))%nat /\ named (st s) nm x /\ shaped (st s) shp x /\ filled (st s) x /\ ready (st s) x /\
  has s x Fixed 2 /\ parameter_names_flat nm shp s x false = Got (Deep l) /\ parameter_names_flat nm shp s x true = Got (Flat l).
Proof. exact part_refuted. Qed.
Print Assumptions C73_part_refuted.
(** Different names of siblings are not enough for different flat names. *)
Theorem C73_equal_refuted : exists s nm shp x l, ex_reach s /\ named (st s) nm x /\ shaped (st s) shp x /\ filled (st s) x /\
  (forall p y z, part (st s) x p -> In y (kids (st s) p) -> In z (kids (st s) p) -> nm y = nm z -> y = z) /\
  parameter_names_flat nm shp s x true = Got (Flat l) /\ ~ NoDup l.
Proof. exact equal_refuted. Qed.
Print Assumptions C73_equal_refuted.

(** ** C74 *)
(** [m.name = v] sets all elements of the child with this printing form, and nothing else, and runs the updates. *)
Theorem C74_set : forall (V : Type) tinit tf tfinv junk (s : @state V) nm x n v y, creach tinit tf tfinv junk s ->
  (forall z, In z (kids (st s) x) -> exists b, form nm z b) -> In y (kids (st s) x) -> form nm y n ->
  (forall z, In z (kids (st s) x) -> form nm z n -> z = y) -> ready (st s) y ->
  exists s', setattr nm x n v s = (s', None) /\ all_set s s' (eq y) v /\ (quiet s y -> all_updated s s' (eq y)).
Proof. exact @setattr_final. Qed.
Print Assumptions C74_set.
(** With another name no value changes. *)
Theorem C74_other : forall (V : Type) (s : @state V) nm x n v, (forall y, In y (kids (st s) x) -> exists b, form nm y b) ->
  (forall y, In y (kids (st s) x) -> ~ form nm y n) -> setattr nm x n v s = (s, None).
Proof. exact @setattr_other. Qed.
Print Assumptions C74_other.
Example C74_example : ex_creach ex /\ In 2%nat (kids (st ex) 4) /\ form fnm 2 (lit "k_of_x") /\ (forall z, In z (kids (st ex) 4) -> exists b, form fnm z b) /\
  (forall z, In z (kids (st ex) 4) -> form fnm z (lit "k_of_x") -> z = 2%nat) /\ ready (st ex) 2 /\
  map (fun k => value (fst (setattr fnm 4 (lit "k_of_x") 9 ex)) 4 k) [0;1;2;3;4] = [Some 9; Some 9; Some 9; Some 4; Some 5] /\
  map (fun k => value (fst (setattr fnm 4 (lit "a") 9 ex)) 4 k) [0;1;2;3;4] = [Some 1; Some 2; Some 3; Some 4; Some 5].
Proof. exact ex_setattr. Qed.
(** What [m.name] reads is what [m.name = v] sets. Missing: children with the same printing form; see the refutation. *)
Theorem C74_read_partial : forall (V : Type) tinit tf tfinv junk (s : @state V) x q n y v, creach tinit tf tfinv junk s -> NamesSpec.history q -> NamesModel.kids q = kids (st s) x ->
  (forall z, In z (kids (st s) x) -> exists b, form (NamesModel.nm q) z b) ->
  (forall z z' b, In z (kids (st s) x) -> In z' (kids (st s) x) -> form (NamesModel.nm q) z b -> form (NamesModel.nm q) z' b -> z = z') ->
  NamesSpec.attribute q n y -> ready (st s) y ->
  exists s', setattr (NamesModel.nm q) x n v s = (s', None) /\ all_set s s' (eq y) v.
Proof. exact @attribute_final. Qed.
Print Assumptions C74_read_partial.
Example C74_read_example : ex_creach ex /\ NamesSpec.history kx_names /\ NamesModel.kids kx_names = kids (st ex) 4 /\
  (forall z, In z (kids (st ex) 4) -> exists b, form (NamesModel.nm kx_names) z b) /\
  (forall z z' b, In z (kids (st ex) 4) -> In z' (kids (st ex) 4) -> form (NamesModel.nm kx_names) z b -> form (NamesModel.nm kx_names) z' b -> z = z') /\
  NamesSpec.attribute kx_names (lit "k_of_x") 2 /\ ready (st ex) 2.
Proof. exact ex_attribute. Qed.
(** The full statement is false: [m.a_b] reads one child and [m.a_b = 9] sets another. *)
Theorem C74_read_refuted : exists s x q n y z v s', ex_creach s /\ NamesSpec.history q /\ NamesModel.kids q = kids (st s) x /\ NamesSpec.distinct q /\
  NamesSpec.attribute q n y /\ ready (st s) y /\ z <> y /\ setattr (NamesModel.nm q) x n v s = (s', None) /\ value s' y 0 = value s y 0 /\ value s y 0 <> Some v /\ value s' z 0 = Some v.
Proof. exact attribute_refuted. Qed.
Print Assumptions C74_read_refuted.

(** ** C75 *)
(** [grep_param_names] finds the parts whose name as seen from the top of the hierarchy is matched, in the order of the hierarchy. *)
Theorem C75_found : forall (V : Type) tinit tf tfinv junk (s : @state V) nm mt r x, reach tinit tf tfinv legal junk s -> named (st s) nm x -> top (st s) r x ->
  exists s' l0 l, untouched s s' /\ grep nm mt x s = (s', Got l) /\ preorder (st s) x l0 /\ kept_of (matches (st s) nm mt r x) l0 l.
Proof. exact @found_final. Qed.
Print Assumptions C75_found.
(** [m[regexp]] is the only such part, or the concatenation of the Params below all such parts, each once; without any, an AttributeError. *)
Theorem C75_item : forall (V : Type) tinit tf tfinv junk (s : @state V) nm mt r x, reach tinit tf tfinv legal junk s -> named (st s) nm x -> top (st s) r x ->
  exists s' i, untouched s s' /\ getitem nm mt x s = (s', i) /\
    match i with
    | Err e => e = Py AttributeError /\ forall y, ~ matches (st s) nm mt r x y
    | Got (One y) => forall z, matches (st s) nm mt r x z <-> z = y
    | Got (Many c) => (exists y z, y <> z /\ matches (st s) nm mt r x y /\ matches (st s) nm mt r x z) /\ NoDup (cparams c) /\
        forall p, In p (cparams c) <-> is_leaf (st s) p = true /\ exists z, matches (st s) nm mt r x z /\ part (st s) z p
    end.
Proof. exact @item_final. Qed.
Print Assumptions C75_item.
Example C75_example : ex_reach ex /\ named (st ex) fnm 4 /\ top (st ex) 4 4 /\ matches (st ex) fnm two 4 4 0 /\ matches (st ex) fnm two 4 4 3 /\
  snd (grep fnm two 4 ex) = Got [0;3]%nat /\ snd (getitem fnm two 4 ex) = Got (Many ex_c) /\ snd (getitem fnm (is [lit "k_of_x"]) 4 ex) = Got (One 2%nat) /\
  snd (getitem fnm (is [lit "d"]) 4 ex) = Err (Py AttributeError).
Proof. exact ex_find. Qed.
(** A part whose name has no printing form is an exception. *)
Theorem C75_unnamed : forall (V : Type) tinit tf tfinv junk (s : @state V) nm mt x y, reach tinit tf tfinv legal junk s -> part (st s) x y -> y <> x ->
  NamesModel.adjust (nm y) = None -> exists s', getitem nm mt x s = (s', Err NameError) /\ untouched s s'.
Proof. exact @unnamed_final. Qed.
Print Assumptions C75_unnamed.
(** An object that is part of a larger one does not find its child under the name of the child. *)
Theorem C75_part_refuted : exists s nm mt x y a, ex_reach s /\ named (st s) nm x /\ path_name (st s) nm x y a /\ mt a = true /\ snd (getitem nm mt x s) = Err (Py AttributeError).
Proof. exact below_refuted. Qed.
Print Assumptions C75_part_refuted.
(** After such an exception and a new name, nothing is found any more, and turning updates off has no effect. *)
Theorem C75_after_error_refuted : exists s nm nm' mt x s1 y, ex_reach s /\ (forall z, z <> x -> nm' z = nm z) /\ named (st s) nm' x /\ top (st s) x x /\ matches (st s) nm' mt x x y /\
  getitem nm mt x s = (s1, Err NameError) /\ st s1 = st s /\ snd (getitem nm' mt x s1) = Err (Py AttributeError) /\ updates (nt s1) y = true /\ updates (nt (fst (update_model x false s1))) y = true.
Proof. exact stuck_refuted. Qed.
Print Assumptions C75_after_error_refuted.

(** ** C76 *)
(** [m[regexp] = v] sets all elements of the matched parts, and nothing else. A Param is matched or part of what is
    matched; several matches without one are a ValueError. *)
Theorem C76_set : forall (V : Type) tinit tf tfinv junk (s : @state V) nm mt v r x, creach tinit tf tfinv junk s -> (x < next (st s))%nat -> inited (st s) x = Some true ->
  named (st s) nm x -> top (st s) r x -> (exists y p, matches (st s) nm mt r x y /\ part (st s) y p /\ is_leaf (st s) p = true) ->
  exists s', setitem nm mt v x s = (s', None) /\ all_set s s' (matches (st s) nm mt r x) v.
Proof. exact @setitem_final. Qed.
Print Assumptions C76_set.
(** The updates of all objects above run. *)
Theorem C76_updates : forall (V : Type) tinit tf tfinv junk (s : @state V) nm mt v r x, creach tinit tf tfinv junk s -> (x < next (st s))%nat -> inited (st s) x = Some true ->
  named (st s) nm x -> top (st s) r x -> (exists y p, matches (st s) nm mt r x y /\ part (st s) y p /\ is_leaf (st s) p = true) -> quiet s x ->
  exists s', setitem nm mt v x s = (s', None) /\ all_updated s s' (matches (st s) nm mt r x).
Proof. exact @setitem_updates. Qed.
Print Assumptions C76_updates.
(** If nothing is matched, there is an AttributeError and no effect. *)
Theorem C76_none : forall (V : Type) tinit tf tfinv junk (s : @state V) nm mt v r x, creach tinit tf tfinv junk s -> inited (st s) x = Some true ->
  named (st s) nm x -> top (st s) r x -> (forall y, ~ matches (st s) nm mt r x y) ->
  exists s', setitem nm mt v x s = (s', Some (Py AttributeError)) /\ untouched s s'.
Proof. exact @setitem_none_final. Qed.
Print Assumptions C76_none.
Example C76_example : ex_creach ex /\ (4 < next (st ex))%nat /\ inited (st ex) 4 = Some true /\ named (st ex) fnm 4 /\ top (st ex) 4 4 /\ matches (st ex) fnm two 4 4 3 /\ quiet ex 4 /\
  map (fun k => value (fst (setitem fnm two 9 4 ex)) 4 k) [0;1;2;3;4] = [Some 9; Some 9; Some 3; Some 9; Some 9] /\
  trace (nt (fst (setitem fnm two 9 4 ex))) = [4;2;2]%nat ++ trace (nt ex) /\ snd (setitem fnm (is [lit "d"]) 9 4 ex) = Some (Py AttributeError).
Proof. exact ex_setitem. Qed.
