(** Parts of Params: concrete histories. *)
From Coq Require Import List ZArith Bool Lia Arith.
From Verif Require Import NpModel NpProofs IndexOpsModel IndexOpsSpec PzModel PzSpec PzInv PzPres PzTraverse PzCmd PzCheck PzEx PzHist SlModel SlSpec SlProofs SlHist SlStep SlFinal.
Import ListNotations.
Open Scope Z_scope.

Notation zstate := (@sstate Z).
Notation zrun := (sexec ex_init ex_f ex_finv).
Definition zs_eqb (a b : list Z) : bool := if list_eq_dec Z.eq_dec a b then true else false.
Lemma zs_eqb_ok : forall a b, zs_eqb a b = true -> a = b.
Proof. intros a b. unfold zs_eqb. destruct (list_eq_dec Z.eq_dec a b); [auto|discriminate]. Qed.
Definition opt_eqb {A} (eqb : A -> A -> bool) (a b : option A) : bool := match a, b with Some x, Some y => eqb x y | None, None => true | _, _ => false end.
Lemma opt_eqb_ok : forall A (eqb : A -> A -> bool), (forall x y, eqb x y = true -> x = y) -> forall a b, opt_eqb eqb a b = true -> a = b.
Proof. intros A eqb H [x|] [y|] E; cbn [opt_eqb] in E; try discriminate; auto. f_equal. auto. Qed.
Definition elements {V} (s : @state V) (q : piece) : list Z := match positions (cur q) (size (st s) (of q)) with Ok l => l | Er _ => [] end.
Definition currentb {V} (s : @state V) (q : piece) : bool :=
  let l := elements s q in
  (of q <? next (st s))%nat && is_leaf (st s) (of q) && negb (zs_eqb l []) && Nat.eqb (length (cells q)) (length l) &&
  opt_eqb Nat.eqb (ppar q) (par (st s) (of q)) && opt_eqb Z.eqb (ppos q) (pidx (st s) (of q)) && Bool.eqb (pon q) (updates (nt s) (of q)) &&
  (negb (shared q) || match arr (mem s) (of q) with Some (b, o, n) => Nat.eqb b (buf q) && zs_eqb (cells q) (map (Z.add o) l) | None => false end).
Lemma currentb_ok : forall V (s : @state V) q, currentb s q = true -> current s q (elements s q).
Proof.
  intros V s q E. unfold currentb in E. cbn zeta in E. repeat (apply andb_true_iff in E as [E ?]).
  apply Nat.ltb_lt in E. constructor; auto.
  - unfold elements in *. destruct (positions (cur q) (size (st s) (of q))) as [l|er]; auto. cbn in *. discriminate.
  - intros N. rewrite N in *. cbn in *. discriminate.
  - apply Nat.eqb_eq. auto.
  - eapply opt_eqb_ok; [|eauto]. intros; apply Nat.eqb_eq; auto.
  - eapply opt_eqb_ok; [|eauto]. intros; apply Z.eqb_eq; auto.
  - apply Bool.eqb_prop. auto.
  - intros Sh. rewrite Sh in *. cbn [negb orb] in *. destruct (arr (mem s) (of q)) as [[[b o] n]|]; [|discriminate].
    match goal with Q : Nat.eqb b _ && _ = true |- _ => apply andb_true_iff in Q as [Q1 Q2] end.
    apply Nat.eqb_eq in Q1. subst b. apply zs_eqb_ok in Q2. eauto.
Qed.
Definition part_b (z : zstate) (k : nat) (full : bool) : bool :=
  match nth_error (parts z) k with
  | Some (Some q) => currentb (base z) q && (negb full || (match par (st (base z)) (of q) with Some _ => true | None => false end && znodupb (elements (base z) q)))
  | _ => false
  end.
Lemma part_b_ok : forall z k full, part_b z k full = true -> exists q l, part_at z k q l /\ (full = true -> in_model z q l) /\ l = elements (base z) q.
Proof.
  intros z k full E. unfold part_b in E. destruct (nth_error (parts z) k) as [[q|]|] eqn:En; try discriminate. apply andb_true_iff in E as [E1 E2].
  exists q, (elements (base z) q). split; [split; auto; apply currentb_ok; auto|]. split; auto. intros ->. cbn [negb orb] in E2. apply andb_true_iff in E2 as [A B]. split.
  - destruct (par (st (base z)) (of q)); [discriminate|discriminate].
  - apply znodupb_ok. auto.
Qed.
Definition goodb (ix : index) : bool := match ix with Slice _ _ step => 0 <? step | _ => true end.
Lemma goodb_ok : forall ix, goodb ix = true -> good ix.
Proof. intros [lo hi step|l|i] E; cbn [good goodb] in *; auto. apply Z.ltb_lt; auto. Qed.
Definition slegalb (z : zstate) (c : @scall Z) : bool :=
  match c with
  | Base c => legalb (base z) c && (match c with Link _ _ _ => false | _ => true end)
  | Take x ix => (x <? next (st (base z)))%nat && is_leaf (st (base z)) x && goodb ix
  | TakeOf k ix => goodb ix
  | PartAssign k _ => part_b z k false
  | PartFix k _ | PartUnfix k | PartConstrain k _ | PartUnconstrain k _ => part_b z k true
  end.
Lemma slegalb_ok : forall z c, Inv (base z) -> slegalb z c = true -> scareful z c.
Proof.
  intros z c H E. unfold scareful. destruct c as [c|x ix|k ix|k g|k v|k|k n|k ts]; cbn [slegalb slegal] in *.
  - apply andb_true_iff in E as [E1 E2]. pose proof (legalb_ok (base z) c H E1) as L. split; auto. split; auto. destruct c; auto. discriminate.
  - repeat (apply andb_true_iff in E as [E ?]). split; auto. split; [apply Nat.ltb_lt; auto|]. split; auto. apply goodb_ok; auto.
  - split; auto. apply goodb_ok; auto.
  - apply part_b_ok in E as (q & l & P & _). eauto.
  - apply part_b_ok in E as (q & l & P & M & _). split; eauto.
  - apply part_b_ok in E as (q & l & P & M & _). split; eauto.
  - apply part_b_ok in E as (q & l & P & M & _). split; eauto.
  - apply part_b_ok in E as (q & l & P & M & _). split; eauto.
Qed.
Fixpoint splay (cs : list (@scall Z)) (z : zstate) : zstate := match cs with [] => z | c :: r => splay r (fst (zrun c z)) end.
Fixpoint splayed (ok : zstate -> @scall Z -> bool) (cs : list (@scall Z)) (z : zstate) : bool :=
  match cs with [] => true | c :: r => ok z c && splayed ok r (fst (zrun c z)) end.
Definition sstart (cs : list (@scall Z)) : zstate := splay cs (sinit ex_junk ex_junk).
Notation zreach := (sreach ex_init ex_f ex_finv slegal ex_junk ex_junk).
Notation zcareful := (sreach ex_init ex_f ex_finv scareful ex_junk ex_junk).
Lemma careful_legal : forall z, zcareful z -> zreach z.
Proof. intros z R. induction R as [|z c z' e R IH [L _] E]; [constructor|]. eapply sreach_call; eauto. Qed.
Lemma splay_careful : forall cs z, zcareful z -> splayed slegalb cs z = true -> zcareful (splay cs z).
Proof.
  induction cs as [|c cs IH]; intros z R E; cbn [splay splayed] in *; auto. apply andb_true_iff in E as [E1 E2]. apply IH; auto.
  assert (S : SInv z) by (eapply reach_S; apply careful_legal; exact R).
  destruct (zrun c z) as [z1 e] eqn:Ez. cbn [fst]. eapply sreach_call; eauto. apply slegalb_ok; auto. apply S.
Qed.
Lemma sstart_careful : forall cs, splayed slegalb cs (sinit ex_junk ex_junk) = true -> zcareful (sstart cs).
Proof. intros cs E. apply splay_careful; auto. constructor. Qed.
Lemma sstart_reach : forall cs, splayed slegalb cs (sinit ex_junk ex_junk) = true -> zreach (sstart cs).
Proof. intros cs E. apply careful_legal, sstart_careful; auto. Qed.
Lemma run_ok : forall (z : zstate) c, snd (zrun c z) = None -> zrun c z = (fst (zrun c z), None).
Proof. intros z c E. destruct (zrun c z) as [z' e]. cbn [snd fst] in *. congruence. Qed.
Lemma splay_hist : forall b cs z, SInv z -> splayed (fun z c => slegalb z c && match c with Base (NewParam _) | Base (Assign _ _) | Base (Fix _ _) | Base (Constrain _ _ _) | Base (SetOptimizer _ _) | Base (ReadOptimizer _) => true | Base _ => false | _ => true end) cs z = true ->
  shist ex_init ex_f ex_finv (fun z c => slegal z c /\ settled b z c) z (splay cs z).
Proof.
  intros b. induction cs as [|c cs IH]; intros z S E; cbn [splay splayed] in *; [constructor|]. apply andb_true_iff in E as [E1 E2]. apply andb_true_iff in E1 as [E1 E3].
  destruct (slegalb_ok z c (proj1 S) E1) as [L _]. destruct (zrun c z) as [z1 e] eqn:Ez. cbn [fst] in *. eapply shist_call; [|eauto|].
  - split; auto. destruct c as [c| | | | | | |]; cbn [settled]; auto. destruct c; auto; discriminate.
  - apply IH; auto. eapply sexec_ok; eauto.
Qed.

(** 0 = [-1, 2, -3, 4, 5] and 1 = [6, -7] in 2, which is in 3; element 4 of 0 was -5 and is constrained. Parts: 0[1:4], 0[[0, -3]], 1[0:1]. *)
Definition sx_calls : list (@scall Z) :=
  [Base (NewParam [-1;2;-3;4;-5]); Base (NewParam [6;-7]); Base (NewNode [1;0]%nat true); Base (NewNode [2]%nat true); Base (Constrain 0 (Some [4]) 7);
   Take 0 (Slice 1 4 1); Take 0 (Items [0;-3]); Take 1 (Slice 0 1 1)].
Notation sx := (sstart sx_calls).
Lemma sx_careful : zcareful sx.
Proof. apply sstart_careful. vm_compute. reflexivity. Qed.
Lemma sx_reach : zreach sx.
Proof. apply careful_legal, sx_careful. Qed.
Lemma sx_inv : Inv (base sx).
Proof. apply (reach_S ex_init ex_f ex_finv ex_junk ex_junk sx sx_reach). Qed.
Definition piece_at (z : zstate) (k : nat) : piece := match nth_error (parts z) k with Some (Some q) => q | _ => mkP 0 false 0 [] (Item 0) None None true end.
Definition sx_part (k : nat) : piece := piece_at sx k.
Lemma part_is : forall z k l, part_b z k true = true -> elements (base z) (piece_at z k) = l -> part_at z k (piece_at z k) l /\ in_model z (piece_at z k) l.
Proof.
  intros z k l E El. destruct (part_b_ok z k true E) as (q & l' & P & M & E'). assert (piece_at z k = q) as Eq; [unfold piece_at; destruct P as [-> _]; auto|]. rewrite Eq in *. subst. split; auto.
Qed.
Lemma sx_part0 : part_at sx 0 (sx_part 0) [1;2;3] /\ in_model sx (sx_part 0) [1;2;3].
Proof. apply part_is; vm_compute; reflexivity. Qed.
Lemma sx_part1 : part_at sx 1 (sx_part 1) [0;2] /\ in_model sx (sx_part 1) [0;2].
Proof. apply part_is; vm_compute; reflexivity. Qed.
Lemma sx_awake : awake (base sx) (of (sx_part 0)).
Proof. apply awakeb_ok; [apply sx_inv|]. vm_compute. reflexivity. Qed.
(** What happens to part 0: fixed; assigned; constrained; optimised; the part is still one. *)
Definition sx_more : list (@scall Z) := [PartFix 0 None; Base (Assign 0 (fun _ v => v + 1)); PartConstrain 0 3; Base (SetOptimizer 3 [1;2;3;4]); PartAssign 0 (fun k _ => 10 * k)].
Lemma sx_settled : shist ex_init ex_f ex_finv (fun z c => slegal z c /\ settled (pon (sx_part 0)) z c) sx (splay sx_more sx).
Proof. apply splay_hist; [apply (reach_S ex_init ex_f ex_finv ex_junk ex_junk sx sx_reach)|]. vm_compute. reflexivity. Qed.


(** ** Witnesses *)
(** A part made by a list of positions is a copy: its constraint is imposed on elements outside its domain; an assignment through it is lost. *)
Lemma copy_refuted : exists z k q l n g z1 z2 s1, zcareful z /\ part_at z k q l /\ in_model z q l /\ shared q = false /\
  zrun (PartConstrain k n) z = (z1, None) /\ exec ex_init ex_f ex_finv (Constrain (of q) (Some l) n) (base z) = (s1, None) /\
  (exists j, In j l /\ has (base z1) (of q) (Tr n) j /\ value (base z1) (of q) j = value (base z) (of q) j /\ value s1 (of q) j <> value (base z1) (of q) j) /\
  zrun (PartAssign k g) z = (z2, None) /\ (exists j, In j l /\ value (base z2) (of q) j <> option_map (g 0) (value (base z) (of q) j)).
Proof.
  exists sx, 1%nat, (sx_part 1), [0;2], 4%nat, (fun _ _ => 55), (fst (zrun (PartConstrain 1 4) sx)), (fst (zrun (PartAssign 1 (fun _ _ => 55)) sx)), (fst (exec ex_init ex_f ex_finv (Constrain (of (sx_part 1)) (Some [0;2]) 4) (base sx))).
  split; [apply sx_careful|]. split; [apply sx_part1|]. split; [apply sx_part1|]. split; [vm_compute; reflexivity|].
  split; [apply run_ok; vm_compute; reflexivity|]. split.
  { match goal with |- ?a = _ => destruct a as [s e] eqn:E; assert (Q : snd a = e) by (rewrite E; auto) end. cbn [fst]. f_equal. rewrite <- Q. vm_compute. reflexivity. }
  split. { exists 0. split; [left; auto|]. split; [apply has_is; vm_compute; reflexivity|]. split; [vm_compute; reflexivity|]. vm_compute. discriminate. }
  split; [apply run_ok; vm_compute; reflexivity|]. exists 0. split; [left; auto|]. vm_compute. discriminate.
Qed.
(** [p[2:][0:1].fix()] fixes element 0 of [p]. *)
Lemma nested_refuted : exists z k q z1 a b, zcareful z /\ nth_error (parts z) k = Some (Some q) /\ shared q = true /\
  map Some (look z q) = [value (base z) (of q) a] /\ value (base z) (of q) a <> value (base z) (of q) b /\
  zrun (PartFix k None) z = (z1, None) /\ ~ has (base z1) (of q) Fixed a /\ has (base z1) (of q) Fixed b /\ ~ has (base z) (of q) Fixed b.
Proof.
  set (cs := sx_calls ++ [Take 0 (Slice 2 5 1); TakeOf 3 (Slice 0 1 1)]).
  assert (K : nth_error (parts (sstart cs)) 4 = Some (Some (piece_at (sstart cs) 4))) by (vm_compute; reflexivity).
  exists (sstart cs), 4%nat, (piece_at (sstart cs) 4), (fst (zrun (PartFix 4 None) (sstart cs))), 2, 0.
  split; [apply sstart_careful; vm_compute; reflexivity|]. split; [exact K|]. split; [vm_compute; reflexivity|]. split; [vm_compute; reflexivity|]. split; [vm_compute; discriminate|].
  split; [apply run_ok; vm_compute; reflexivity|]. split; [apply has_not; vm_compute; reflexivity|]. split; [apply has_is; vm_compute; reflexivity|]. apply has_not; vm_compute; reflexivity.
Qed.
(** A part taken before its Param gets a parent: it shares no memory with it any more and does not reach the mask of the root. *)
Lemma part_is' : forall z k l, part_b z k false = true -> elements (base z) (piece_at z k) = l -> part_at z k (piece_at z k) l.
Proof.
  intros z k l E El. destruct (part_b_ok z k false E) as (q & l' & P & _ & E'). assert (piece_at z k = q) as Eq; [unfold piece_at; destruct P as [-> _]; auto|]. rewrite Eq in *. subst. auto.
Qed.
Lemma link_refuted : exists z1 z2 k q l g z3 z4 z5 v, zcareful z1 /\ part_at z1 k q l /\ shared q = true /\
  (exists ps, zrun (Base (NewNode ps true)) z1 = (z2, None) /\ In (of q) ps) /\ zcareful z2 /\
  zrun (PartAssign k g) z2 = (z3, None) /\ (forall j, In j l -> value (base z3) (of q) j = value (base z2) (of q) j /\ value (base z2) (of q) j <> option_map (g 0) (value (base z2) (of q) j)) /\
  zrun (PartFix k None) z2 = (z4, None) /\ (exists j r, In j l /\ has (base z4) (of q) Fixed j /\ par (st (base z4)) (of q) = Some r /\
     zrun (Base (SetOptimizer r v)) z4 = (z5, None) /\ value (base z5) (of q) j <> value (base z4) (of q) j).
Proof.
  set (a := [Base (NewParam [1;2;3]); Base (NewParam [4]); Take 0 (Slice 0 2 1)] : list (@scall Z)).
  set (b := a ++ [Base (NewNode [0;1]%nat true)]).
  exists (sstart a), (sstart b), 0%nat, (piece_at (sstart a) 0), [0;1], (fun _ _ => 9), (fst (zrun (PartAssign 0 (fun _ _ => 9)) (sstart b))), (fst (zrun (PartFix 0 None) (sstart b))),
    (fst (zrun (Base (SetOptimizer 2 [21;22;23;24])) (fst (zrun (PartFix 0 None) (sstart b))))), [21;22;23;24].
  split; [apply sstart_careful; vm_compute; reflexivity|].
  split; [apply part_is'; vm_compute; reflexivity|].
  split; [vm_compute; reflexivity|]. split. { exists [0;1]%nat. split; [|left; vm_compute; reflexivity].
    assert (E : sstart b = fst (zrun (Base (NewNode [0;1]%nat true)) (sstart a))) by reflexivity. rewrite E. apply run_ok. vm_compute. reflexivity. }
  split; [apply sstart_careful; vm_compute; reflexivity|]. split; [apply run_ok; vm_compute; reflexivity|].
  split. { intros j [<-|[<-|[]]]; (split; [vm_compute; reflexivity | vm_compute; discriminate]). }
  split; [apply run_ok; vm_compute; reflexivity|]. exists 0, 2%nat. split; [left; auto|]. split; [apply has_is; vm_compute; reflexivity|]. split; [vm_compute; reflexivity|].
  split; [apply run_ok; vm_compute; reflexivity|]. vm_compute. discriminate.
Qed.
(** A part taken while updates were off keeps them off: an assignment through it changes the values but updates nothing. *)
Lemma updates_refuted : exists z k q l j g z', zcareful z /\ nth_error (parts z) k = Some (Some q) /\ shared q = true /\ awake (base z) (of q) /\
  positions (cur q) (size (st (base z)) (of q)) = Ok l /\ In j l /\ par (st (base z)) (of q) <> None /\
  zrun (PartAssign k g) z = (z', None) /\ value (base z') (of q) j = option_map (g 0) (value (base z) (of q) j) /\ value (base z') (of q) j <> value (base z) (of q) j /\
  trace (nt (base z')) = trace (nt (base z)).
Proof.
  set (cs := [Base (NewParam [1;2;3]); Base (NewNode [0]%nat true); Base (Updates 1 false); Take 0 (Slice 0 2 1); Base (Updates 1 true)] : list (@scall Z)).
  assert (K : nth_error (parts (sstart cs)) 0 = Some (Some (piece_at (sstart cs) 0))) by (vm_compute; reflexivity).
  assert (R : zcareful (sstart cs)) by (apply sstart_careful; vm_compute; reflexivity).
  exists (sstart cs), 0%nat, (piece_at (sstart cs) 0), [0;1], 0, (fun _ _ => 9), (fst (zrun (PartAssign 0 (fun _ _ => 9)) (sstart cs))).
  split; [exact R|]. split; [exact K|]. split; [vm_compute; reflexivity|]. split.
  { apply awakeb_ok; [apply (reach_S ex_init ex_f ex_finv ex_junk ex_junk _ (careful_legal _ R)) | vm_compute; reflexivity]. }
  split; [vm_compute; reflexivity|]. split; [left; auto|]. split; [vm_compute; discriminate|].
  split; [apply run_ok; vm_compute; reflexivity|]. split; [vm_compute; reflexivity|]. split; [vm_compute; discriminate|]. vm_compute. reflexivity.
Qed.
(** [is_fixed] of a part counts the fixed elements of the whole Param. *)
Lemma fixed_refuted :
  (exists z k q l, zcareful z /\ part_at z k q l /\ in_model z q l /\ shared q = true /\ part_is_fixed (base z) q = true /\ forall j, In j l -> ~ has (base z) (of q) Fixed j) /\
  (exists z k q l, zcareful z /\ part_at z k q l /\ in_model z q l /\ shared q = true /\ part_is_fixed (base z) q = false /\ forall j, In j l -> has (base z) (of q) Fixed j).
Proof.
  split.
  - set (cs := sx_calls ++ [Base (Fix 0 (Some [2;4])); Take 0 (Slice 0 2 1)]).
    exists (sstart cs), 3%nat, (piece_at (sstart cs) 3), [0;1]. split; [apply sstart_careful; vm_compute; reflexivity|].
    assert (P : part_at (sstart cs) 3 (piece_at (sstart cs) 3) [0;1] /\ in_model (sstart cs) (piece_at (sstart cs) 3) [0;1]) by (apply part_is; vm_compute; reflexivity).
    split; [apply P|]. split; [apply P|]. split; [vm_compute; reflexivity|]. split; [vm_compute; reflexivity|]. intros j [<-|[<-|[]]]; apply has_not; vm_compute; reflexivity.
  - set (cs := sx_calls ++ [PartFix 0 None; Base (Fix 0 (Some [4]))]).
    exists (sstart cs), 0%nat, (piece_at (sstart cs) 0), [1;2;3]. split; [apply sstart_careful; vm_compute; reflexivity|].
    assert (P : part_at (sstart cs) 0 (piece_at (sstart cs) 0) [1;2;3] /\ in_model (sstart cs) (piece_at (sstart cs) 0) [1;2;3]) by (apply part_is; vm_compute; reflexivity).
    split; [apply P|]. split; [apply P|]. split; [vm_compute; reflexivity|]. split; [vm_compute; reflexivity|]. intros j [<-|[<-|[<-|[]]]]; apply has_is; vm_compute; reflexivity.
Qed.

(** ** Cases *)
Lemma sx_cases : zreach sx /\ (part_at sx 0 (sx_part 0) [1;2;3] /\ in_model sx (sx_part 0) [1;2;3] /\ shared (sx_part 0) = true) /\
  (part_at sx 1 (sx_part 1) [0;2] /\ in_model sx (sx_part 1) [0;2] /\ shared (sx_part 1) = false) /\ awake (base sx) (of (sx_part 0)).
Proof.
  split; [apply sx_reach|]. split; [split; [apply sx_part0 | split; [apply sx_part0 | vm_compute; reflexivity]]|].
  split; [split; [apply sx_part1 | split; [apply sx_part1 | vm_compute; reflexivity]] | apply sx_awake].
Qed.
Definition vals (z : zstate) (x : oid) : list (option Z) := map (value (base z) x) (arange (size (st (base z)) x)).
Definition after (c : @scall Z) : zstate := fst (zrun c sx).
Lemma take_case : let c := Take 1 (Slice (-1) 7 1) in zreach sx /\ (1 < next (st (base sx)))%nat /\ is_leaf (st (base sx)) 1 = true /\ good (Slice (-1) 7 1) /\
  snd (zrun c sx) = None /\ look (after c) (piece_at (after c) 3) = [-7] /\ snd (zrun (Take 1 (Items [0; 2])) sx) = Some IndexError.
Proof. cbn zeta. split; [apply sx_reach|]. split; [vm_compute; lia|]. split; [vm_compute; reflexivity|]. split; [cbn; lia|]. split; [vm_compute; reflexivity|]. split; vm_compute; reflexivity. Qed.
Lemma empty_case : zreach sx /\ (0 < next (st (base sx)))%nat /\ is_leaf (st (base sx)) 0 = true /\ 0 < 1 /\ (forall j, ~ in_slice (size (st (base sx)) 0) 3 2 1 j).
Proof.
  split; [apply sx_reach|]. split; [vm_compute; lia|]. split; [vm_compute; reflexivity|]. split; [lia|].
  assert (E : size (st (base sx)) 0 = 5) by (vm_compute; reflexivity). rewrite E. clear E. intros j (H1 & k & Hk & Ej & Hj). unfold from_end in Ej, Hj. change (3 <? 0) with false in Ej. change (2 <? 0) with false in Hj. cbv iota in Ej, Hj. lia.
Qed.
Lemma splay_snoc : forall cs c z, splay (cs ++ [c]) z = fst (zrun c (splay cs z)).
Proof. induction cs as [|a cs IH]; intros c z; cbn [app splay]; auto. Qed.
Lemma has_in : forall (s : @state Z) x p k, has s x p k -> In k (cons_get (ios s) x p).
Proof. intros s x p k H. exact H. Qed.
Lemma fixed_case : let z := after (PartFix 0 None) in zreach z /\ part_at z 0 (piece_at z 0) [1;2;3] /\ NoDup [1;2;3] /\ (forall j, has (base z) (of (piece_at z 0)) Fixed j -> In j [1;2;3]) /\
  part_is_fixed (base z) (piece_at z 0) = true /\ part_is_fixed (base sx) (sx_part 0) = false.
Proof.
  cbn zeta. set (z := after (PartFix 0 None)).
  assert (E : z = sstart (sx_calls ++ [PartFix 0 None])) by (symmetry; apply splay_snoc).
  assert (R : zreach z) by (rewrite E; apply sstart_reach; vm_compute; reflexivity).
  assert (P : part_at z 0 (piece_at z 0) [1;2;3] /\ in_model z (piece_at z 0) [1;2;3]) by (apply part_is; vm_compute; reflexivity).
  split; [exact R|]. split; [apply P|]. split; [apply P|]. split.
  - intros j Hj. apply has_in in Hj. assert (Q : cons_get (ios (base z)) (of (piece_at z 0)) Fixed = [1;2;3]) by (vm_compute; reflexivity). rewrite Q in Hj. exact Hj.
  - split; vm_compute; reflexivity.
Qed.
