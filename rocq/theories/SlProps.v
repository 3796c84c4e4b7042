(** Parts of Params: the properties. *)
From Coq Require Import List ZArith Bool Arith.
From Verif Require Import NpModel IndexOpsModel IndexOpsSpec PzModel CopyModel PzSpec PzEx SlModel SlSpec SlFinal SlEx.
Import ListNotations.
Open Scope Z_scope.

Section Statements.
Context {V : Type}.
Variables tinit tf tfinv : nat -> V -> V.
Variables junk junk' : nat -> Z -> V.
Notation reachable := (sreach tinit tf tfinv slegal junk junk').
Notation run := (sexec tinit tf tfinv).

(** *** C116: calls through a part act on its elements *)
Theorem C116_take : forall (z : @sstate V) x ix z' e, reachable z -> (x < next (st (base z)))%nat -> is_leaf (st (base z)) x = true -> good ix ->
  run (Take x ix) z = (z', e) -> let n := size (st (base z)) x in base z' = base z /\
  match e with
  | Some e => z' = z /\ e = IndexError /\
      match ix with Slice _ _ _ => False | Items is => exists i, In i is /\ ~ - n <= i < n | Item i => ~ - n <= i < n end
  | None =>
      match ix with
      | Item _ => parts z' = parts z ++ [None]
      | _ => exists q l, parts z' = parts z ++ [Some q] /\ of q = x /\ (l <> [] -> current (base z') q l) /\
               (forall j, In j l <-> in_index n ix j) /\ match ix with Items is => l = map (from_end n) is | _ => increasing l end /\
               shared q = (match ix with Slice _ _ _ => true | _ => false end) /\ map Some (look z' q) = map (value (base z) x) l
      end
  end.
Proof. exact (take_final tinit tf tfinv junk junk'). Qed.
Theorem C116_fix : forall (z : @sstate V) k q l, reachable z -> part_at z k q l -> in_model z q l ->
  exists z', run (PartFix k None) z = (z', None) /\ same_values (base z) (base z') /\
    forall y p j, (y < next (st (base z)))%nat -> (has (base z') y p j <-> has (base z) y p j \/ (p = Fixed /\ hit (base z) (of q) l y j)).
Proof. exact (fix_final tinit tf tfinv junk junk'). Qed.
Theorem C116_unfix : forall (z : @sstate V) k q l, reachable z -> part_at z k q l -> in_model z q l ->
  exists z', run (PartUnfix k) z = (z', None) /\ same_values (base z) (base z') /\
    forall y p j, (y < next (st (base z)))%nat -> (has (base z') y p j <-> has (base z) y p j /\ ~ (p = Fixed /\ hit (base z) (of q) l y j)).
Proof. exact (unfix_final tinit tf tfinv junk junk'). Qed.
Theorem C116_unconstrain : forall (z : @sstate V) k q l ts, reachable z -> part_at z k q l -> in_model z q l ->
  exists z', run (PartUnconstrain k ts) z = (z', None) /\ same_values (base z) (base z') /\
    forall y p j, (y < next (st (base z)))%nat -> (has (base z') y p j <-> has (base z) y p j /\ ~ ((ts = [] \/ In p ts) /\ hit (base z) (of q) l y j)).
Proof. exact (unconstrain_final tinit tf tfinv junk junk'). Qed.
(** Parts made by slices; a part made by a list of positions changes no value. *)
Theorem C116_constrain_partial : forall (z : @sstate V) k q l n, reachable z -> part_at z k q l -> in_model z q l ->
  exists z', run (PartConstrain k n) z = (z', None) /\
    (shared q = true -> changed (base z) (base z') (of q) (fun j v => if zmem j l then tinit n v else v)) /\
    (shared q = false -> same_values (base z) (base z')) /\
    forall y p j, (y < next (st (base z)))%nat -> (has (base z') y p j <->
      (has (base z) y p j /\ ~ hit (base z) (of q) l y j) \/ (p = Tr n /\ hit (base z) (of q) l y j)).
Proof. exact (constrain_final tinit tf tfinv junk junk'). Qed.
Theorem C116_assign_partial : forall (z : @sstate V) k q l g, reachable z -> part_at z k q l ->
  exists z', run (PartAssign k g) z = (z', None) /\
    (shared q = true -> exists F, on_part_elems l g F /\ changed (base z) (base z') (of q) F) /\
    (shared q = false -> same_values (base z) (base z')) /\
    forall y p j, has (base z') y p j <-> has (base z) y p j.
Proof. exact (assign_final tinit tf tfinv junk junk'). Qed.
Theorem C116_fix_value_partial : forall (z : @sstate V) k q l v, reachable z -> part_at z k q l -> in_model z q l ->
  exists z', run (PartFix k (Some v)) z = (z', None) /\
    (shared q = true -> exists F, on_part_elems l (fun i _ => v i) F /\ changed (base z) (base z') (of q) F) /\
    (shared q = false -> same_values (base z) (base z')) /\
    forall y p j, (y < next (st (base z)))%nat -> (has (base z') y p j <-> has (base z) y p j \/ (p = Fixed /\ hit (base z) (of q) l y j)).
Proof. exact (fix_value_final tinit tf tfinv junk junk'). Qed.
(** The objects above are updated, once each, parts before wholes. *)
Theorem C116_updates : forall (z : @sstate V) k q l c, reachable z -> part_at z k q l -> awake (base z) (of q) ->
  (exists g, c = PartAssign k g) \/ (c = PartFix k None /\ in_model z q l) ->
  exists z' tr, run c z = (z', None) /\ bottom_up (base z) (base z') tr /\ forall y, In y tr <-> kind (st (base z)) y = KNode /\ part (st (base z)) y (of q).
Proof. exact (order_final tinit tf tfinv junk junk'). Qed.

(** *** C117: a part stays one *)
Theorem C117_reads : forall (z : @sstate V) k q l, reachable z -> part_at z k q l -> shared q = true -> map Some (look z q) = map (value (base z) (of q)) l.
Proof. exact (reads_final tinit tf tfinv junk junk'). Qed.
Theorem C117_stays_partial : forall (z z' : @sstate V) k q l, reachable z -> part_at z k q l ->
  shist tinit tf tfinv (fun z c => slegal z c /\ settled (pon q) z c) z z' -> part_at z' k q l.
Proof. exact (stays_final tinit tf tfinv junk junk'). Qed.

(** *** C118: is_fixed of a part *)
Theorem C118_partial : forall (z : @sstate V) k q l, reachable z -> part_at z k q l -> NoDup l -> (forall j, has (base z) (of q) Fixed j -> In j l) ->
  (part_is_fixed (base z) q = true <-> forall j, In j l -> has (base z) (of q) Fixed j).
Proof. exact (is_fixed_final tinit tf tfinv junk junk'). Qed.

(** *** C119: one position, no position *)
Theorem C119_number : forall (z : @sstate V) x i c, reachable z -> (x < next (st (base z)))%nat -> is_leaf (st (base z)) x = true ->
  - size (st (base z)) x <= i < size (st (base z)) x ->
  (let k := length (parts z) in In c [PartUnfix k] \/ (exists v, c = PartFix k v) \/ (exists n, c = PartConstrain k n) \/ (exists ts, c = PartUnconstrain k ts)) ->
  exists z', run (Take x (Item i)) z = (z', None) /\ run c z' = (z', Some AttributeError) /\ base z' = base z.
Proof. exact (number_final tinit tf tfinv junk junk'). Qed.
Theorem C119_empty : forall (z : @sstate V) x lo hi step, reachable z -> (x < next (st (base z)))%nat -> is_leaf (st (base z)) x = true -> 0 < step ->
  (forall j, ~ in_slice (size (st (base z)) x) lo hi step j) ->
  exists z', run (Take x (Slice lo hi step)) z = (z', None) /\ base z' = base z /\
    run (PartFix (length (parts z)) None) z' = (z', Some ValueError) /\ run (PartUnfix (length (parts z))) z' = (z', Some ValueError).
Proof. exact (empty_final tinit tf tfinv junk junk'). Qed.
End Statements.

(** Parts made by lists of positions: constraining imposes a constraint without the values obeying it, assigning is lost. *)
Theorem C116_copy_refuted : exists z k q l n g z1 z2 s1, zcareful z /\ part_at z k q l /\ in_model z q l /\ shared q = false /\
  zrun (PartConstrain k n) z = (z1, None) /\ exec ex_init ex_f ex_finv (Constrain (of q) (Some l) n) (base z) = (s1, None) /\
  (exists j, In j l /\ has (base z1) (of q) (Tr n) j /\ value (base z1) (of q) j = value (base z) (of q) j /\ value s1 (of q) j <> value (base z1) (of q) j) /\
  zrun (PartAssign k g) z = (z2, None) /\ (exists j, In j l /\ value (base z2) (of q) j <> option_map (g 0) (value (base z) (of q) j)).
Proof. exact copy_refuted. Qed.
(** A part of a part shows one element and fixes another. *)
Theorem C116_nested_refuted : exists z k q z1 a b, zcareful z /\ nth_error (parts z) k = Some (Some q) /\ shared q = true /\
  map Some (look z q) = [value (base z) (of q) a] /\ value (base z) (of q) a <> value (base z) (of q) b /\
  zrun (PartFix k None) z = (z1, None) /\ ~ has (base z1) (of q) Fixed a /\ has (base z1) (of q) Fixed b /\ ~ has (base z) (of q) Fixed b.
Proof. exact nested_refuted. Qed.
(** A part taken before the Param was given a parent: assigning through it is lost, fixing through it does not hold against the optimiser. *)
Theorem C117_link_refuted : exists z1 z2 k q l g z3 z4 z5 v, zcareful z1 /\ part_at z1 k q l /\ shared q = true /\
  (exists ps, zrun (Base (NewNode ps true)) z1 = (z2, None) /\ In (of q) ps) /\ zcareful z2 /\
  zrun (PartAssign k g) z2 = (z3, None) /\ (forall j, In j l -> value (base z3) (of q) j = value (base z2) (of q) j /\ value (base z2) (of q) j <> option_map (g 0) (value (base z2) (of q) j)) /\
  zrun (PartFix k None) z2 = (z4, None) /\ (exists j r, In j l /\ has (base z4) (of q) Fixed j /\ par (st (base z4)) (of q) = Some r /\
     zrun (Base (SetOptimizer r v)) z4 = (z5, None) /\ value (base z5) (of q) j <> value (base z4) (of q) j).
Proof. exact link_refuted. Qed.
(** A part taken while updates were off: assigning through it updates nothing, though updates are on again. *)
Theorem C117_updates_refuted : exists z k q l j g z', zcareful z /\ nth_error (parts z) k = Some (Some q) /\ shared q = true /\ awake (base z) (of q) /\
  positions (cur q) (size (st (base z)) (of q)) = Ok l /\ In j l /\ par (st (base z)) (of q) <> None /\
  zrun (PartAssign k g) z = (z', None) /\ value (base z') (of q) j = option_map (g 0) (value (base z) (of q) j) /\ value (base z') (of q) j <> value (base z) (of q) j /\
  trace (nt (base z')) = trace (nt (base z)).
Proof. exact updates_refuted. Qed.
Theorem C118_refuted :
  (exists z k q l, zcareful z /\ part_at z k q l /\ in_model z q l /\ shared q = true /\ part_is_fixed (base z) q = true /\ forall j, In j l -> ~ has (base z) (of q) Fixed j) /\
  (exists z k q l, zcareful z /\ part_at z k q l /\ in_model z q l /\ shared q = true /\ part_is_fixed (base z) q = false /\ forall j, In j l -> has (base z) (of q) Fixed j).
Proof. exact fixed_refuted. Qed.

(** Cases. 0 = [-1, 2, -3, 4, 5] and 1 = [6, -7]; 2 = [1, 0]; 3 = [2]. Parts: 0[1:4], 0[[0, -3]], 1[0:1]. *)
Example C116_take_case : let c := Take 1 (Slice (-1) 7 1) in zreach sx /\ (1 < next (st (base sx)))%nat /\ is_leaf (st (base sx)) 1 = true /\ good (Slice (-1) 7 1) /\
  snd (zrun c sx) = None /\ look (after c) (piece_at (after c) 3) = [-7] /\ snd (zrun (Take 1 (Items [0; 2])) sx) = Some IndexError.
Proof. exact take_case. Qed.
Example C116_C117_case : zreach sx /\ (part_at sx 0 (sx_part 0) [1;2;3] /\ in_model sx (sx_part 0) [1;2;3] /\ shared (sx_part 0) = true) /\
  (part_at sx 1 (sx_part 1) [0;2] /\ in_model sx (sx_part 1) [0;2] /\ shared (sx_part 1) = false) /\ awake (base sx) (of (sx_part 0)).
Proof. exact sx_cases. Qed.
Example C116_constrain_case : vals (after (PartConstrain 0 4)) 0 = map Some [-1;2;3;4;5] /\ vals (after (PartConstrain 0 4)) 3 = map Some [6;-7;-1;2;3;4;5] /\
  vals (after (PartAssign 0 (fun k v => v + 10 * k))) 0 = map Some [-1;2;7;24;5] /\
  vals (after (PartFix 0 (Some (fun k => k)))) 0 = map Some [-1;0;1;2;5] /\ cons_get (ios (base (after (PartFix 0 None)))) 3 Fixed = [3;4;5].
Proof. vm_compute. auto 10. Qed.
Example C117_stays_case : shist ex_init ex_f ex_finv (fun z c => slegal z c /\ settled (pon (sx_part 0)) z c) sx (splay sx_more sx) /\
  look (splay sx_more sx) (sx_part 0) = [0;10;20].
Proof. split; [exact sx_settled | vm_compute; reflexivity]. Qed.
Example C118_case : let z := after (PartFix 0 None) in zreach z /\ part_at z 0 (piece_at z 0) [1;2;3] /\ NoDup [1;2;3] /\ (forall j, has (base z) (of (piece_at z 0)) Fixed j -> In j [1;2;3]) /\
  part_is_fixed (base z) (piece_at z 0) = true /\ part_is_fixed (base sx) (sx_part 0) = false.
Proof. exact fixed_case. Qed.
Example C119_case : zreach sx /\ (0 < next (st (base sx)))%nat /\ is_leaf (st (base sx)) 0 = true /\ 0 < 1 /\ (forall j, ~ in_slice (size (st (base sx)) 0) 3 2 1 j).
Proof. exact empty_case. Qed.

Print Assumptions C116_take.
Print Assumptions C116_fix.
Print Assumptions C116_unfix.
Print Assumptions C116_unconstrain.
Print Assumptions C116_constrain_partial.
Print Assumptions C116_assign_partial.
Print Assumptions C116_fix_value_partial.
Print Assumptions C116_updates.
Print Assumptions C116_copy_refuted.
Print Assumptions C116_nested_refuted.
Print Assumptions C117_reads.
Print Assumptions C117_stays_partial.
Print Assumptions C117_link_refuted.
Print Assumptions C117_updates_refuted.
Print Assumptions C118_partial.
Print Assumptions C118_refuted.
Print Assumptions C119_number.
Print Assumptions C119_empty.
