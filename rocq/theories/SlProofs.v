(** Parts of Params: calls on a part that is up to date are calls on elements of its Param. *)
From Coq Require Import List ZArith Bool Lia Arith.
From Verif Require Import NpModel NpProofs IndexOpsModel IndexOpsSpec IndexOpsProofs PzModel PzSpec PzTree PzStruct PzLink PzWalk PzMem PzIo PzInv PzConn PzFix PzLinkMem PzPres PzUnlink PzTraverse PzNotify PzNew PzCmd PzInit PzCons PzVal PzHist SlModel SlSpec.
Import ListNotations.
Open Scope Z_scope.

(** ** Positions *)
Lemma bound_range : forall n i, 0 <= n -> 0 <= bound n i <= n.
Proof. intros n i Hn. unfold bound. destruct (Z.ltb_spec i 0); lia. Qed.
Lemma slice_In : forall lo hi step n l j, 0 <= n -> 0 < step -> positions (Slice lo hi step) n = Ok l ->
  (In j l <-> exists k, 0 <= k /\ j = bound n lo + k * step /\ j < bound n hi).
Proof.
  intros lo hi step n l j Hn Hs E. cbn [positions] in E. injection E as <-. rewrite in_map_iff.
  set (D := bound n hi - bound n lo). split.
  - intros (k & <- & Hk). apply arange_In in Hk. exists k. split; [lia|]. split; auto.
    assert (k + 1 <= (D + (step - 1)) / step) by (unfold D in *; lia). assert (step * ((D + (step - 1)) / step) <= D + (step - 1)) by (apply Z.mul_div_le; lia). unfold D in *. nia.
  - intros (k & Hk & -> & Hlt). exists k. split; auto. apply arange_In. split; auto.
    assert (k + 1 <= (D + (step - 1)) / step); [|unfold D in *; lia]. apply Z.div_le_lower_bound; auto. unfold D. nia.
Qed.
Lemma slice_nodup : forall lo hi step n l, 0 < step -> positions (Slice lo hi step) n = Ok l -> NoDup l.
Proof.
  intros lo hi step n l Hs E. cbn [positions] in E. injection E as <-. apply FinFun.Injective_map_NoDup; [|apply ssorted_NoDup, arange_sorted].
  intros a b H. nia.
Qed.
Lemma positions_range : forall ix n l, 0 <= n -> good ix -> positions ix n = Ok l -> forall j, In j l -> 0 <= j < n.
Proof.
  intros ix n l Hn Hg E j Hj. destruct ix as [lo hi step|is|i].
  - cbn [good] in Hg. apply (slice_In lo hi step n l j Hn Hg E) in Hj as (k & Hk & -> & Hlt). pose proof (bound_range n lo Hn). pose proof (bound_range n hi Hn). nia.
  - cbn [positions] in E. destruct (forallb _ is) eqn:F; [|discriminate]. injection E as <-. rewrite forallb_forall in F. apply in_map_iff in Hj as (i & <- & Hi).
    apply F in Hi. apply andb_true_iff in Hi as [H1 H2]. apply Z.leb_le in H1. apply Z.ltb_lt in H2. unfold wrap. destruct (Z.ltb_spec i 0); lia.
  - cbn [positions] in E. destruct (_ && _) eqn:F; [|discriminate]. injection E as <-. destruct Hj as [<-|[]].
    apply andb_true_iff in F as [H1 H2]. apply Z.leb_le in H1. apply Z.ltb_lt in H2. unfold wrap. destruct (Z.ltb_spec i 0); lia.
Qed.
Lemma wrap_from_end : forall n i, wrap n i = from_end n i.
Proof. intros. unfold wrap, from_end. destruct (i <? 0); lia. Qed.
Lemma positions_spec : forall ix n l, 0 <= n -> good ix -> positions ix n = Ok l -> forall j, In j l <-> in_index n ix j.
Proof.
  intros ix n l Hn Hg E j. destruct ix as [lo hi step|is|i]; cbn [in_index].
  - cbn [good] in Hg. rewrite (slice_In lo hi step n l j Hn Hg E). unfold in_slice.
    assert (L : bound n lo = Z.min n (Z.max 0 (from_end n lo))) by (unfold bound, from_end; destruct (Z.ltb_spec lo 0); lia).
    assert (U : bound n hi = Z.min n (Z.max 0 (from_end n hi))) by (unfold bound, from_end; destruct (Z.ltb_spec hi 0); lia).
    split.
    + intros (k & Hk & Ej & Hlt). assert (0 <= bound n lo) by lia. assert (0 <= k * step) by nia. split; [lia|]. exists k. split; auto. split; [|lia].
      assert (bound n lo < n) by lia. lia.
    + intros (Hj & k & Hk & Ej & Hlt). assert (0 <= k * step) by nia. exists k. split; auto. split; lia.
  - cbn [positions] in E. destruct (forallb _ is) eqn:F; [|discriminate]. injection E as <-. rewrite in_map_iff. split.
    + intros (i & <- & Hi). exists i. split; auto. apply wrap_from_end.
    + intros (i & Hi & ->). exists i. split; auto. apply wrap_from_end.
  - cbn [positions] in E. destruct (_ && _) eqn:F; [|discriminate]. injection E as <-. cbn [In]. rewrite wrap_from_end. split; [intros [<-|[]]; auto|auto].
Qed.
Lemma positions_error : forall ix n e, positions ix n = Er e -> e = IndexError /\
  match ix with Slice _ _ _ => False | Items l => exists i, In i l /\ ~ - n <= i < n | Item i => ~ - n <= i < n end.
Proof.
  intros [lo hi step|is|i] n e E; cbn [positions] in E.
  - discriminate.
  - destruct (forallb _ is) eqn:F; [discriminate|]. injection E as <-. split; auto.
    assert (H : ~ Forall (fun i => - n <= i < n) is).
    { intros H. assert (forallb (fun i => (- n <=? i) && (i <? n)) is = true); [|congruence]. apply forallb_forall. intros i Hi. rewrite Forall_forall in H.
      specialize (H i Hi). apply andb_true_iff. split; [apply Z.leb_le | apply Z.ltb_lt]; lia. }
    clear F. induction is as [|a is IH]; [exfalso; auto|].
    destruct (Z_le_dec (- n) a) as [Q1|Q1]; [destruct (Z_lt_dec a n) as [Q2|Q2]|].
    + destruct IH as (i & Hi & Hn); [intros Q; apply H; constructor; auto|]. exists i. split; auto. right. auto.
    + exists a. split; [left; auto|lia].
    + exists a. split; [left; auto|lia].
  - destruct (_ && _) eqn:F; [discriminate|]. injection E as <-. split; auto. intros H. assert ((- n <=? i) && (i <? n) = true); [|congruence].
    apply andb_true_iff. split; [apply Z.leb_le | apply Z.ltb_lt]; lia.
Qed.

Lemma place_off : forall o l a k, place (o + a) (map (Z.add o) l) k = place a l k.
Proof.
  intros o l a. induction l as [|b l IH]; intros k; cbn [map place]; auto. rewrite IH.
  destruct (Z.eqb_spec (o + a) (o + b)); destruct (Z.eqb_spec a b); auto; lia.
Qed.
Lemma place_none : forall l a k, place a l k = None <-> ~ In a l.
Proof.
  induction l as [|b l IH]; intros a k; cbn [place In]; [tauto|]. destruct (Z.eqb_spec a b) as [->|Hne].
  - split; [discriminate | intros H; exfalso; auto].
  - rewrite IH. split; [intros H [E|E]; auto | auto].
Qed.
Lemma place_nth : forall l, NoDup l -> forall i j k, nth_error l i = Some j -> place j l k = Some (k + Z.of_nat i).
Proof.
  intros l H. induction H as [|a l Hn H IH]; intros i j k E; [destruct i; discriminate|]. destruct i as [|i]; cbn [nth_error] in E; cbn [place].
  - injection E as ->. rewrite Z.eqb_refl. f_equal. lia.
  - destruct (Z.eqb_spec j a) as [->|Hne]; [exfalso; apply Hn; eapply nth_error_In; eauto|]. rewrite (IH i j (k + 1) E). f_equal. lia.
Qed.

Section Parts.
Context {V : Type}.
Implicit Types s : @state V.
Implicit Types z : @sstate V.
Variables tinit tf tfinv : nat -> V -> V.

(** ** The same calls *)
Lemma current_ext : forall s s' q l, current s q l -> st s' = st s -> updates (nt s') = updates (nt s) -> arr (mem s') = arr (mem s) -> current s' q l.
Proof. intros s s' q l [A1 A2 A3 A4 A6 A7 A8 A9 A10] E1 E2 E3. constructor; rewrite ?E1, ?E2, ?E3; auto. Qed.
Lemma part_index_eq : forall s q l, current s q l -> part_index s q = Ok l.
Proof. intros s q l C. unfold part_index. rewrite (cu_pos _ _ _ C). pose proof (cu_some _ _ _ C). destruct l; [contradiction|auto]. Qed.
Lemma part_highest_eq : forall t q f, ppar q = par t (of q) -> par t (of q) <> None -> part_highest f t q = rbind (highest f t (of q)) (fun h => Ok (Some h)).
Proof. intros t q f E Hp. destruct f; cbn [part_highest highest]; auto. rewrite E. destruct (par t (of q)); [auto|contradiction]. Qed.
Lemma part_offset_eq : forall t q, ppar q = par t (of q) -> ppos q = pidx t (of q) -> forall f self, part_offset f t self q = offset_for f t self (of q).
Proof.
  intros t q E1 E2. induction f as [|f IH]; intros self; cbn [part_offset offset_for]; auto. rewrite E1, E2.
  destruct (par t (of q)) as [p|]; auto. destruct (pidx t (of q)) as [i|]; auto. destruct (py_nth (kids t p) i) as [a|]; auto. cbn [rbind].
  destruct (omem a (kids t self)); auto. destruct (offset_for f t self p); auto. cbn [rbind]. rewrite IH. auto.
Qed.
Lemma part_mask_eq : forall s q l sel idx v, current s q l -> part_mask q idx v s = c_mask (of q) (Some sel) idx v s.
Proof.
  intros s q l sel idx v C. unfold part_mask, c_mask. destruct (par (st s) (of q)) as [p|] eqn:Ep.
  - unfold get, c_highest, get. rewrite (part_highest_eq (st s) q (fuel (st s)) (cu_par _ _ _ C)) by congruence.
    destruct (highest (fuel (st s)) (st s) (of q)) as [h|]; cbn [rbind]; auto.
    unfold lift, set_mask. rewrite (part_offset_eq (st s) q (cu_par _ _ _ C) (cu_idx _ _ _ C)). auto.
  - unfold get. unfold part_highest, fuel. rewrite (cu_par _ _ _ C), Ep. auto.
Qed.
Lemma part_notify_eq : forall s q l, current s q l -> part_notify q s = c_notify (of q) true s.
Proof.
  intros s q l C. unfold part_notify, c_notify, lift, fuel. cbn [notify]. rewrite (cu_on _ _ _ C), (cu_leaf _ _ _ C).
  destruct (updates (nt s) (of q)); auto.
Qed.
Lemma with_nt_same : forall s, with_nt s (nt s) = s.
Proof. intros []. auto. Qed.
Lemma part_trigger_eq : forall s q l, Inv s -> current s q l -> part_trigger q s = c_trigger (of q) true s.
Proof.
  intros s q l H C. unfold part_trigger. rewrite (part_notify_eq s q l C) || idtac.
  pose proof (leaf_kids (st s) (of q) (inv_st _ H) (cu_leaf _ _ _ C)) as Hk. pose proof (ii_leaf _ (inv_init _ H) _ (cu_leaf _ _ _ C)) as Hi.
  unfold c_trigger, lift, trigger_update. rewrite (cu_on _ _ _ C). destruct (updates (nt s) (of q)) eqn:Eu.
  - rewrite (part_notify_eq s q l C). rewrite Hi. cbn [negb andb]. unfold fuel at 1. cbn [trigger_params]. rewrite Hk. cbn [rfold rbind]. auto.
  - cbn [andb]. rewrite with_nt_same. auto.
Qed.
Lemma part_add_eq : forall s q l t, current s q l -> part_add q t s = add_cons (of q) (Some l) t s.
Proof. intros s q l t C. unfold part_add, get. rewrite (part_index_eq s q l C). auto. Qed.

Lemma andthen_ext : forall (a a' b b' : @cmd V) s, a s = a' s -> (forall s1, a s = (s1, None) -> b s1 = b' s1) -> andthen a b s = andthen a' b' s.
Proof. intros a a' b b' s E H. unfold andthen. rewrite <- E. destruct (a s) as [s1 [e|]]; auto. Qed.
Definition framed s s' : Prop := st s' = st s /\ mem s' = mem s /\ nt s' = nt s.
Lemma framed_current : forall s s' q l, framed s s' -> current s q l -> current s' q l.
Proof. intros s s' q l (E1 & E2 & E3) C. eapply current_ext; eauto; congruence. Qed.
Lemma c_mask_framed : forall x sel idx v s s' e, c_mask x sel idx v s = (s', e) -> framed s s'.
Proof.
  intros x sel idx v s s' e E. unfold c_mask in E.
  assert (G : forall e0, c_highest x (fun h => lift (fun s => set_mask (st s) (ios s) (fix_ s) h x idx v) with_fix) s = (s', e0) -> framed s s').
  { intros e0 E0. unfold c_highest, get in E0. destruct (highest _ _ _); [|inversion E0; repeat split; auto].
    unfold lift in E0. destruct (set_mask _ _ _ _ _ _ _); inversion E0; repeat split; auto. }
  destruct sel as [l|]; [destruct (par (st s) x)|]; try (eapply G; eauto; fail). inversion E. repeat split; auto.
Qed.
Lemma remove_one_framed : forall x sel t s s' e, remove_one x sel t s = (s', e) -> framed s s'.
Proof.
  intros x sel t s s' e E. unfold remove_one in E. destruct (remove _ _ _ _) as [rm d]. unfold andthen, c_ios in E.
  destruct t; [inversion E; repeat split; auto |]; try (apply c_mask_framed in E as (A & B & C); repeat split; auto; fail).
  all: try (inversion E; repeat split; auto).
Qed.
Lemma part_remove_eq : forall s q l t, current s q l -> part_remove_one q t s = remove_one (of q) (Some l) t s.
Proof.
  intros s q l t C. unfold part_remove_one, get, remove_one. rewrite (part_index_eq s q l C). cbn [raveled_index].
  destruct (remove _ _ t l) as [rm d]. apply andthen_ext; auto. intros s1 E. unfold c_ios in E. injection E as <-.
  destruct t; auto. apply (part_mask_eq _ q l). apply (framed_current s); auto. repeat split; auto.
Qed.
Lemma part_unconstrain_eq : forall s q l ts, current s q l -> part_unconstrain q ts s = unconstrain (of q) (Some l) ts s.
Proof.
  intros s q l ts C. unfold part_unconstrain, unconstrain. generalize (match ts with [] => map fst (cons_items (ios s) (of q)) | _ => ts end).
  intros us. revert s C. induction us as [|t us IH]; intros s C; cbn [fold_right]; auto.
  apply andthen_ext; [apply part_remove_eq; auto|]. intros s1 E. apply IH. rewrite (part_remove_eq s q l t C) in E. apply remove_one_framed in E. eapply framed_current; eauto.
Qed.
Lemma unconstrain_framed : forall x sel ts s s' e, unconstrain x sel ts s = (s', e) -> framed s s'.
Proof.
  intros x sel ts s s' e E. unfold unconstrain in E. revert E. generalize (match ts with [] => map fst (cons_items (ios s) x) | _ => ts end).
  intros us. revert s. induction us as [|t us IH]; intros s E; cbn [fold_right] in E; [inversion E; repeat split; auto|].
  unfold andthen in E. destruct (remove_one x sel t s) as [s1 [e1|]] eqn:E1; apply remove_one_framed in E1 as (A & B & C).
  - inversion E; subst. repeat split; auto.
  - apply IH in E as (A' & B' & C'). repeat split; congruence.
Qed.
Lemma part_unfix_eq : forall s q l, current s q l -> part_unfix q s = unfix_param (of q) (Some l) s.
Proof.
  intros s q l C. unfold part_unfix, get, unfix_param. rewrite (part_index_eq s q l C). cbn [raveled_index].
  destruct (remove _ _ Fixed l) as [rm d]. apply andthen_ext; [apply part_unconstrain_eq; auto|]. intros s1 E.
  rewrite (part_unconstrain_eq s q l _ C) in E. apply unconstrain_framed in E. apply (part_mask_eq _ q l). eapply framed_current; eauto.
Qed.
Lemma part_fix_eq : forall s q l, current s q l ->
  andthen (part_add q Fixed) (andthen (get (fun s => part_index s q) (fun l => part_mask q l false)) (part_notify q)) s = fix_param (of q) (Some l) s.
Proof.
  intros s q l C. unfold fix_param. apply andthen_ext; [apply part_add_eq; auto|]. intros s1 E1. rewrite (part_add_eq s q l _ C) in E1.
  assert (C1 : current s1 q l) by (injection E1 as <-; eapply framed_current; eauto; repeat split; auto).
  apply andthen_ext.
  - unfold get. rewrite (part_index_eq s1 q l C1). cbn [raveled_index]. apply (part_mask_eq s1 q l); auto.
  - intros s2 E2. unfold get in E2. rewrite (part_index_eq s1 q l C1), (part_mask_eq s1 q l l) in E2 by auto. apply c_mask_framed in E2. apply (part_notify_eq s2 q l). eapply framed_current; eauto.
Qed.

(** ** Values *)
Definition moved (g : Z -> V -> V) (l : list Z) (j : Z) (v : V) : V := match place j l 0 with Some k => g k v | None => v end.
Lemma moved_elems : forall g l, NoDup l -> on_part_elems l g (moved g l).
Proof.
  intros g l H. split.
  - intros i j v E. unfold moved. rewrite (place_nth l H i j 0 E). auto.
  - intros j v Hn. unfold moved. apply (place_none l j 0) in Hn. rewrite Hn. auto.
Qed.
Lemma moved_const : forall h l j v, moved (fun _ => h) l j v = on_sel (Some l) h j v.
Proof.
  intros h l j v. unfold moved, on_sel. destruct (place j l 0) eqn:E.
  - destruct (zmem j l) eqn:Z; auto. exfalso. assert (Q : place j l 0 = None); [|congruence]. apply place_none. intros Hi. apply zmem_In in Hi. congruence.
  - apply place_none in E. destruct (zmem j l) eqn:Z; auto. apply zmem_In in Z. contradiction.
Qed.
Definition stored s (q : piece) (g : Z -> V -> V) : @state V :=
  with_mem s (mkM (upd (cell (mem s)) (buf q) (put g (cells q) (cell (mem s) (buf q)))) (nbuf (mem s)) (arr (mem s))).
Lemma stored_ok : forall s q l g, Inv s -> current s q l -> (forall j, In j l -> 0 <= j < size (st s) (of q)) -> shared q = true ->
  Inv (stored s q g) /\ changed s (stored s q g) (of q) (moved g l).
Proof.
  intros s q l g H C Rg Sh. pose proof H as [W I F M N J].
  assert (M1 : meminv (st s) (mem (stored s q g))) by (destruct M as [A1 A2 A3 A4 A5]; constructor; auto).
  split; [constructor; auto|].
  destruct (cu_mem _ _ _ C Sh) as (o & n & Ea & Ec). pose proof (cu_obj _ _ _ C) as Hx. pose proof (or_introl (cu_leaf _ _ _ C) : ready (st s) (of q)) as Rx.
  destruct (ready_al (st s) (mem s) (of q) W M Hx Rx) as (b & o' & A).
  assert (Hp : 0 < size (st s) (of q)). { pose proof (cu_some _ _ _ C). destruct l as [|j l0]; [contradiction|]. specialize (Rg j (or_introl eq_refl)). lia. }
  pose proof (al_self _ _ _ _ _ A Hp) as Ea'. rewrite Ea in Ea'. injection Ea' as Eb Eo En. subst b o' n.
  assert (Cell : forall a, cell (mem (stored s q g)) (buf q) (o + a) = moved g l a (cell (mem s) (buf q) (o + a))).
  { intros a. cbn [stored with_mem mem cell]. rewrite upd_eq. unfold put. rewrite Ec, place_off. auto. }
  split.
  - intros y j k Hy Ry Se. pose proof Se as (Hj & Hk & _).
    destruct (ready_al (st s) (mem s) y W M Hy Ry) as (b' & oy & Ay). destruct (same_addr (st s) (mem s) _ _ _ _ _ _ _ _ W A Ay Se) as [-> E].
    change (value (stored s q g) y j) with (mval (mem (stored s q g)) y j). change (value s y j) with (mval (mem s) y j).
    rewrite (mval_al (st s) (mem s) y (buf q) oy j) by auto. rewrite (mval_al (st s) (mem (stored s q g)) y (buf q) oy j Ay Hj). cbn [option_map]. rewrite E, Cell. auto.
  - intros Ap y j Hy Ry Hj Hno. destruct (ready_al (st s) (mem s) y W M Hy Ry) as (b' & oy & Ay).
    change (value (stored s q g) y j) with (mval (mem (stored s q g)) y j). change (value s y j) with (mval (mem s) y j).
    rewrite (mval_al (st s) (mem s) y b' oy j) by auto. rewrite (mval_al (st s) (mem (stored s q g)) y b' oy j Ay Hj). f_equal.
    destruct (Nat.eq_dec b' (buf q)) as [->|Hne].
    + replace (oy + j) with (o + (oy + j - o)) by lia. rewrite Cell. unfold moved. destruct (place (oy + j - o) l 0) as [k|] eqn:Ep; auto. exfalso.
      assert (Hin : In (oy + j - o) l). { destruct (in_dec Z.eq_dec (oy + j - o) l) as [Q|Q]; auto. apply (place_none l _ 0) in Q. congruence. }
      apply (Hno (oy + j - o)). apply (diff_addr (st s) (mem s) (of q) y j (oy + j - o) (buf q) o (buf q) oy); auto. lia.
    + cbn [stored with_mem mem cell]. rewrite upd_ne by auto. auto.
Qed.

(** What an assignment to a part leaves in the hierarchy. *)
Definition put_base s (q : piece) (g : Z -> V -> V) : @state V := if shared q then stored s q g else s.
Lemma part_put_base : forall q g z, exists z', part_put q g z = (z', None) /\ base z' = put_base (base z) q g /\ parts z' = parts z.
Proof. intros q g z. unfold part_put, put_base. destruct (shared q); eexists; split; auto. Qed.
Lemma put_base_ok : forall s q l g, Inv s -> current s q l -> (forall j, In j l -> 0 <= j < size (st s) (of q)) ->
  Inv (put_base s q g) /\ (shared q = true -> changed s (put_base s q g) (of q) (moved g l)) /\ (shared q = false -> put_base s q g = s) /\ current (put_base s q g) q l.
Proof.
  intros s q l g H C Rg. unfold put_base. destruct (shared q) eqn:Sh.
  - destruct (stored_ok s q l g H C Rg Sh) as [H1 C1]. split; auto. split; auto. split; [discriminate|]. eapply current_ext; eauto.
  - split; auto. split; [discriminate|]. split; auto.
Qed.
Lemma on_base_ok : forall (c : @cmd V) z s e, c (base z) = (s, e) -> on_base c z = (with_base z s, e).
Proof. intros c z s e E. unfold on_base. rewrite E. auto. Qed.
Lemma sthen_ok : forall (a b : @scmd V) z z1, a z = (z1, None) -> sthen a b z = b z1.
Proof. intros a b z z1 E. unfold sthen. rewrite E. auto. Qed.

(** Values of the hierarchy after a call through a part whose memory is, or is not, that of the hierarchy. *)
Definition effect s s' (q : piece) (l : list Z) (g : Z -> V -> V) : Prop :=
  (shared q = true -> changed s s' (of q) (moved g l)) /\ (shared q = false -> mem s' = mem s) /\ arr (mem s') = arr (mem s).

Lemma assign_part : forall z q l g, Inv (base z) -> current (base z) q l -> (forall j, In j l -> 0 <= j < size (st (base z)) (of q)) ->
  exists z' u, part_assign q g z = (z', None) /\ parts z' = parts z /\ Inv (base z') /\ effect (base z) (base z') q l g /\
    st (base z') = st (base z) /\ ios (base z') = ios (base z) /\ up (st (base z)) (of q) u /\ ran (nt (base z)) (chain (st (base z)) (nt (base z)) u) (nt (base z')).
Proof.
  intros z q l g H C Rg. destruct (part_put_base q g z) as (z1 & E1 & B1 & P1). unfold part_assign. rewrite (sthen_ok _ _ _ _ E1).
  destruct (put_base_ok (base z) q l g H C Rg) as (H1 & Ch & Cp & C1). rewrite <- B1 in *.
  destruct (notify_cmd (base z1) (of q) H1) as (s2 & u & R2 & U & O). rewrite <- (part_notify_eq _ q l C1) in R2. rewrite (on_base_ok _ _ _ _ R2).
  assert (Es : st (base z1) = st (base z)) by (rewrite B1; unfold put_base; destruct (shared q); auto).
  assert (Ei : ios (base z1) = ios (base z)) by (rewrite B1; unfold put_base; destruct (shared q); auto).
  assert (En : nt (base z1) = nt (base z)) by (rewrite B1; unfold put_base; destruct (shared q); auto).
  assert (Ea : arr (mem (base z1)) = arr (mem (base z))) by (rewrite B1; unfold put_base; destruct (shared q); auto).
  pose proof O as (O1 & O2 & O3 & O4 & O5). rewrite Es, En in *. exists (with_base z1 s2), u. cbn [with_base base parts]. split; auto. split; auto.
  split; [eapply only_ran_inv; eauto|]. split; [|split; [congruence|split; [congruence|split; auto]]].
  split; [intros Q; eapply changed_mem; [apply Ch; auto|auto]|]. split; [intros Q; rewrite O4, (Cp Q); auto|congruence].
Qed.
End Parts.
