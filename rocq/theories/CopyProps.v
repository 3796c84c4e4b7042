(** Property theorems about copying and about hierarchies leaving each other alone (C70, C71, C72). *)
From Coq Require Import List ZArith Bool Arith.
From Verif Require Import NpModel IndexOpsModel IndexOpsSpec PzModel CopyModel PzSpec PzOpt PzCheck PzEx CopySpec CopyFinal CopyEx.
Import ListNotations.
Open Scope Z_scope.

(** ** C70 *)
(** [x.copy()] succeeds; the copy is new, has no parent and is, path by path, as [x] was; the objects there
    were are as they were, none of them is in the hierarchy of the copy, only updates of new objects have run,
    and that of every Parameterized of the copy has. Missing from the full statement: a Param with fixed elements; see the refutation. *)
Theorem C70_copy_partial : forall (V : Type) tinit tf tfinv junk (s : @state V) x, reach tinit tf tfinv legal junk s ->
  (x < next (st s))%nat -> ready (st s) x -> in_init (st s) x = false -> (is_leaf (st s) x = true -> forall j, ~ has s x Fixed j) ->
  exists s', copy_object tfinv x s = (s', None) /\ reach tinit tf tfinv legal junk s' /\ copy_of s s' x (next (st s)) /\ untouched s s' /\
    (forall z, (z < next (st s))%nat -> ~ together (st s') z (next (st s))) /\
    exists l, trace (nt s') = l ++ trace (nt s) /\ (forall z, In z l -> (next (st s) <= z)%nat) /\
      forall z, part (st s') (next (st s)) z -> kind (st s') z = KNode -> In z l.
Proof. exact @copy_final. Qed.
Print Assumptions C70_copy_partial.
Example C70_example : ex_reach ex /\ legal ex (Copy 4) /\ next (st ex) = 8%nat /\ follow (st ex) 4 [0;1]%nat = Some 1%nat /\ follow (st ex_copy) 8 [0;1]%nat = Some 11%nat /\
  map (value ex_copy 8) [0;1;2;3;4] = [Some 1; Some 2; Some 3; Some 4; Some 5] /\ has ex 1 Fixed 0 /\ has ex_copy 11 Fixed 0 /\ has ex_copy 10 (Tr 7) 0 /\
  legal ex (Copy 0) /\ legal ex (Copy 2).
Proof. exact ex_copied. Qed.
(** A copy of a fixed Param says that it is fixed, and assigning to its optimizer array changes it. *)
Theorem C70_fixed_refuted : exists s x s1 s2 p, ex_reach s /\ (x < next (st s))%nat /\ ready (st s) x /\ in_init (st s) x = false /\ has s x Fixed 0 /\
  copy_object ex_finv x s = (s1, None) /\ has s1 (next (st s)) Fixed 0 /\ value s1 (next (st s)) 0 = value s x 0 /\
  set_optimizer_array ex_f (next (st s)) p s1 = (s2, None) /\ value s2 (next (st s)) 0 <> value s1 (next (st s)) 0.
Proof. exact fixed_copy_refuted. Qed.
Print Assumptions C70_fixed_refuted.
(** The copy of an object with updates switched off has updates switched off, and has been updated nevertheless. *)
Theorem C70_silent_refuted : exists s x s1, ex_reach s /\ legal s (Copy x) /\ (forall y, together (st s) x y -> updates (nt s) y = false) /\
  copy_object ex_finv x s = (s1, None) /\ updates (nt s1) (next (st s)) = false /\ In (next (st s)) (trace (nt s1)).
Proof. exact silent_copy_refuted. Qed.
Print Assumptions C70_silent_refuted.

(** ** C71 *)
(** Whatever is done afterwards to other objects than the copy, the copy still is what [x] was when it was
    copied; whatever is done to other objects than [x], the copy among them, [x] is what it was. *)
Theorem C71_apart : forall (V : Type) tinit tf tfinv junk (s : @state V) x s1 e, reach tinit tf tfinv careful junk s -> legal s (Copy x) ->
  exec tinit tf tfinv (Copy x) s = (s1, e) -> forall s2,
  (hist tinit tf tfinv (fun s' c => legal s' c /\ elsewhere s' (next (st s)) c) s1 s2 -> unheard s1 s2 (next (st s)) /\
     forall path, match follow (st s) x path, follow (st s2) (next (st s)) path with
     | Some a, Some b => as_was s s2 a b
     | None, None => True
     | _, _ => False
     end) /\
  (hist tinit tf tfinv (fun s' c => legal s' c /\ elsewhere s' x c) s1 s2 -> stays s s2 x /\ unheard s s2 x).
Proof. exact @copy_apart_final. Qed.
Print Assumptions C71_apart.
Example C71_example : reach ex_init ex_f ex_finv careful ex_junk ex /\ legal ex (Copy 4) /\ exec ex_init ex_f ex_finv (Copy 4) ex = (ex_copy, None) /\
  (let s2 := play ex_init ex_f ex_finv (ex_work 4 0) ex_copy in
   hist ex_init ex_f ex_finv (fun s c => legal s c /\ elsewhere s 8 c) ex_copy s2 /\ value s2 4 2 <> value ex_copy 4 2 /\ value s2 8 2 = Some 3) /\
  (let s2 := play ex_init ex_f ex_finv (ex_work 8 10) ex_copy in
   hist ex_init ex_f ex_finv (fun s c => legal s c /\ elsewhere s 4 c) ex_copy s2 /\ value s2 8 2 <> value ex_copy 8 2 /\ value s2 4 2 = Some 3).
Proof. exact ex_apart. Qed.

(** ** C72 *)
(** What is done to other hierarchies shows in no value, constraint, link or switch of this one, and runs no
    update in it. *)
Theorem C72_elsewhere : forall (V : Type) tinit tf tfinv junk (s s2 : @state V) x, reach tinit tf tfinv careful junk s -> (x < next (st s))%nat ->
  hist tinit tf tfinv (fun s c => legal s c /\ elsewhere s x c) s s2 ->
  stays s s2 x /\ unheard s s2 x /\ forall y, together (st s2) x y <-> together (st s) x y.
Proof. exact @elsewhere_final. Qed.
Print Assumptions C72_elsewhere.
Example C72_example : reach ex_init ex_f ex_finv careful ex_junk ex /\ (4 < next (st ex))%nat /\
  (let s2 := play ex_init ex_f ex_finv (ex_work 6 5) ex in
   hist ex_init ex_f ex_finv (fun s c => legal s c /\ elsewhere s 4 c) ex s2 /\ value s2 6 0 <> value ex 6 0 /\ value s2 4 2 = Some 3 /\ together (st ex) 4 0).
Proof. exact ex_elsewhere. Qed.
