(** Property theorems about saving an object and loading it again (C111, C112). *)
From Coq Require Import List ZArith Bool Arith.
From Verif Require Import NpModel IndexOpsModel IndexOpsSpec PzModel CopyModel PzSpec PzOpt PzCheck PzEx CopySpec CopyFinal CopyEx PkModel PkSpec PkFinal.
Import ListNotations.
Open Scope Z_scope.

(** ** C111 *)
(** Loading a saved object without parent whose parts refer, beside parents and children, only to parts
    that come earlier or to parts of their own succeeds; the loaded object is new and is, path by path,
    as the saved one; the objects there were are as they were, none of them is in the loaded hierarchy,
    only updates of new objects have run, and that of every Parameterized loaded has. Missing from the full
    statement: a Param with fixed elements and references in other directions; see the refutations here
    and under C112. *)
Theorem C111_load_partial : forall (V : Type) tinit tf tfinv junk before after (s : @state V) x, reach tinit tf tfinv legal junk s ->
  (x < next (st s))%nat -> par (st s) x = None -> in_init (st s) x = false ->
  (is_leaf (st s) x = true -> forall j, ~ has s x Fixed j) -> tidy (st s) before after x ->
  exists s', load before after x s = (s', Done) /\ copy_of s s' x (next (st s)) /\ untouched s s' /\
    (forall z, (z < next (st s))%nat -> ~ together (st s') z (next (st s))) /\
    exists l, trace (nt s') = l ++ trace (nt s) /\ (forall z, In z l -> (next (st s) <= z)%nat) /\
      forall z, part (st s') (next (st s)) z -> kind (st s') z = KNode -> In z l.
Proof. exact @load_final. Qed.
Print Assumptions C111_load_partial.
Example C111_example : ex_reach ex /\ (4 < next (st ex))%nat /\ par (st ex) 4 = None /\ in_init (st ex) 4 = false /\ is_leaf (st ex) 4 = false /\ tidy (st ex) ex_up ex_refs 4 /\
  next (st ex) = 8%nat /\ load ex_up ex_refs 4 ex = (ex_loaded, Done) /\ follow (st ex) 4 [0;1]%nat = Some 1%nat /\ follow (st ex_loaded) 8 [0;1]%nat = Some 11%nat /\
  map (value ex_loaded 8) [0;1;2;3;4] = [Some 1; Some 2; Some 3; Some 4; Some 5] /\ has ex_loaded 11 Fixed 0 /\ has ex_loaded 10 (Tr 7) 0.
Proof. exact ex_load. Qed.
(** Whatever is done afterwards to other objects than the loaded one, it still is what was saved; whatever
    is done to other objects than the saved one, the loaded one among them, the saved one stays as it is. *)
Theorem C111_apart : forall (V : Type) tinit tf tfinv junk before after (s : @state V) x s1 o, reach tinit tf tfinv careful junk s ->
  (x < next (st s))%nat -> par (st s) x = None -> in_init (st s) x = false ->
  (is_leaf (st s) x = true -> forall j, ~ has s x Fixed j) -> tidy (st s) before after x -> load before after x s = (s1, o) ->
  forall s2,
  (hist tinit tf tfinv (fun s' c => legal s' c /\ elsewhere s' (next (st s)) c) s1 s2 -> unheard s1 s2 (next (st s)) /\
     forall path, match follow (st s) x path, follow (st s2) (next (st s)) path with
     | Some a, Some b => as_was s s2 a b
     | None, None => True
     | _, _ => False
     end) /\
  (hist tinit tf tfinv (fun s' c => legal s' c /\ elsewhere s' x c) s1 s2 -> unheard s1 s2 x /\ stays s1 s2 x).
Proof. exact @load_apart_final. Qed.
Print Assumptions C111_apart.
Example C111_apart_example : reach ex_init ex_f ex_finv careful ex_junk ex /\ tidy (st ex) ex_up ex_refs 4 /\ load ex_up ex_refs 4 ex = (ex_loaded, Done) /\
  (let s2 := play ex_init ex_f ex_finv (ex_work 4 0) ex_loaded in
   hist ex_init ex_f ex_finv (fun s c => legal s c /\ elsewhere s 8 c) ex_loaded s2 /\ value s2 4 2 <> value ex_loaded 4 2 /\ value s2 8 2 = Some 3) /\
  (let s2 := play ex_init ex_f ex_finv (ex_work 8 10) ex_loaded in
   hist ex_init ex_f ex_finv (fun s c => legal s c /\ elsewhere s 4 c) ex_loaded s2 /\ value s2 8 2 <> value ex_loaded 8 2 /\ value s2 4 2 = Some 3).
Proof. exact ex_load_apart. Qed.
(** A fixed Param, loaded, says that it is fixed, and assigning to its optimizer array changes it. *)
Theorem C111_fixed_refuted : exists s x s1 s2 p, ex_reach s /\ (x < next (st s))%nat /\ par (st s) x = None /\ ready (st s) x /\ in_init (st s) x = false /\ tidy (st s) none none x /\
  has s x Fixed 0 /\ load none none x s = (s1, Done) /\ has s1 (next (st s)) Fixed 0 /\ value s1 (next (st s)) 0 = value s x 0 /\
  set_optimizer_array ex_f (next (st s)) p s1 = (s2, None) /\ value s2 (next (st s)) 0 <> value s1 (next (st s)) 0.
Proof. exact fixed_load_refuted. Qed.
Print Assumptions C111_fixed_refuted.

(** ** C112 *)
(** An object that has a parent cannot be loaded: whatever else the objects refer to, loading it raises. *)
Theorem C112_part : forall (V : Type) tinit tf tfinv junk before after (s : @state V) x p, reach tinit tf tfinv legal junk s -> (x < next (st s))%nat ->
  par (st s) x = Some p -> (forall y z, In z (before y ++ after y) -> (z < next (st s))%nat) -> exists s' e, load before after x s = (s', Raised e).
Proof. exact @part_final. Qed.
Print Assumptions C112_part.
(** It raises AttributeError when the objects refer to parents and children alone. *)
Theorem C112_plain : forall (V : Type) tinit tf tfinv junk (s : @state V) x p, reach tinit tf tfinv legal junk s -> (x < next (st s))%nat ->
  par (st s) x = Some p -> exists s', load none none x s = (s', Raised AttributeError).
Proof. exact @plain_final. Qed.
Print Assumptions C112_plain.
Example C112_example : ex_reach ex /\ (1 < next (st ex))%nat /\ par (st ex) 1 = Some 2%nat /\ (forall y z, In z (ex_up y ++ ex_refs y) -> (z < next (st ex))%nat) /\
  load ex_up ex_refs 1 ex = (fst (load ex_up ex_refs 1 ex), Raised AttributeError) /\ (2 < next (st ex))%nat /\ par (st ex) 2 = Some 4%nat.
Proof. exact ex_part. Qed.
(** An object without parent all of whose references go to parts of itself need not be loadable either. *)
Theorem C112_cross_refuted : exists s x after s', ex_reach s /\ (x < next (st s))%nat /\ par (st s) x = None /\ in_init (st s) x = false /\ is_leaf (st s) x = false /\
  (forall y z, In z (after y) -> part (st s) x z) /\ load none after x s = (s', Raised AttributeError).
Proof. exact cross_refuted. Qed.
Print Assumptions C112_cross_refuted.
