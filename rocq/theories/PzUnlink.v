(** Proofs about the hierarchy, part 12: [unlink_parameter] keeps the invariant. *)
From Coq Require Import List ZArith Bool Lia Arith.
From Verif Require Import NpModel NpProofs IndexOpsModel IndexOpsSpec IndexOpsProofs PzModel PzSpec PzTree PzStruct PzLink PzWalk PzMem PzIo PzInv PzConn PzFix PzLinkMem PzPres.
Import ListNotations.
Open Scope Z_scope.

Lemma connect_fixes_dicts : forall t x i fx i' fx', connect_fixes t x (i, fx) = Ok (i', fx') ->
  forall b, b <> rid i x -> dicts i' b = dicts i b.
Proof.
  intros t x i fx i' fx' H b Hb. unfold connect_fixes in H. destruct (nonempty (cons_get i x Fixed)).
  - destruct (ensure_fixes t i fx x); [|discriminate]. simpl in H.
    destruct (mask_set (map (fun _ => true) _) (cons_get i x Fixed) false); [|discriminate].
    simpl in H. inversion H; subst. auto.
  - inversion H; subst. unfold cons_upd, set_dict; simpl. rewrite upd_ne; auto.
Qed.
Lemma above_kids_ext : forall t t' x y, (forall z, kids t' z = kids t z) -> above t x y -> above t' x y.
Proof.
  intros t t' x y E [o [n B]]. induction B as [x|x i c y o n Hi B IH]; [apply above_refl|].
  apply above_trans with c; auto. apply above_kid. rewrite E. eapply nth_error_In; eauto.
Qed.
Lemma below_ext : forall t t' x y o n, (forall z, kids t' z = kids t z) -> (forall z, above t x z -> size t' z = size t z) ->
  below t x y o n -> below t' x y o n.
Proof.
  intros t t' x y o n E S B. induction B as [x|x i c y o n Hi B IH]; [constructor|].
  assert (Es : sum_sizes t (firstn i (kids t x)) = sum_sizes t' (firstn i (kids t' x))).
  { rewrite E. apply sum_sizes_ext. intros d Hd. symmetry. apply S. apply above_kid. eapply firstn_In; eauto. }
  rewrite Es. econstructor; [rewrite E; eauto|]. apply IH. intros z Hz. apply S. apply above_trans with c; auto. apply above_kid. eapply nth_error_In; eauto.
Qed.

Lemma start_le : forall t self k, swf t -> start t self k <= size t self.
Proof.
  intros t self k W. unfold start. destruct (kids t self) eqn:E; [rewrite firstn_nil; unfold sum_sizes; simpl; apply size_nonneg; auto|].
  rewrite (kids_size t self W) by congruence. rewrite <- E. rewrite <- (firstn_skipn k (kids t self)) at 2.
  rewrite sum_sizes_app. pose proof (sum_sizes_nonneg t W (skipn k (kids t self))). lia.
Qed.

Section Unlink.
Context {V : Type}.
Implicit Types s : @state V.

Lemma unlink_run : forall s self param k m1 m2 i3 fx3 i4 fx4 i6 fx6 t5 r m3 i7 fx7 i8 fx8, swf (st s) ->
  nth_error (kids (st s) self) k = Some param ->
  let t2 := connect_struct (remove_struct (st s) self param k) self in
  let t3 := set_pidx (set_par t2 param None) param None in
  let t4 := connect_struct t3 self in
  let start := sum_sizes (st s) (firstn k (kids (st s) self)) in
  let n := size (st s) param in
  connect_mem t2 self (mem s) = Ok m1 ->
  connect_fixes t3 param (disconnect_io (ios s) param, fix_ s) = Ok (i3, fx3) ->
  notify_parent_change t3 param (i3, fx3) = Ok (i4, fx4) ->
  connect_mem t4 self m1 = Ok m2 ->
  notify_parent_change t4 self (cons_upd i4 self (fun v d => shift_left v d start n), fx4) = Ok (i6, fx6) ->
  add_size (fuel t4) t4 (par t4 self) (- n) = Ok t5 ->
  highest (fuel t5) t5 self = Ok r ->
  connect_mem (connect_struct t5 r) r m2 = Ok m3 ->
  connect_fixes (connect_struct t5 r) r (i6, fx6) = Ok (i7, fx7) ->
  notify_parent_change (connect_struct t5 r) r (i7, fx7) = Ok (i8, fx8) ->
  unlink self param s = (mkS (connect_struct t5 r) i8 fx8 m3
     (set_passes (nt s) param (filter (fun q => negb (Nat.eqb q self)) (passes (nt s) param))), None).
Proof.
  intros s self param k m1 m2 i3 fx3 i4 fx4 i6 fx6 t5 r m3 i7 fx7 i8 fx8 W Hk t2 t3 t4 start_ n E1 E2 E3 E4 E5 E6 E7 E8 E9 E10.
  unfold unlink. assert (Hin : omem param (kids (st s) self) = true) by (apply omem_In; eapply nth_error_In; eauto).
  rewrite Hin. cbn [negb]. rewrite (PzTree.wf_pidx _ W self k param Hk).
  assert (Ep : py_prefix (kids (st s) self) (Z.of_nat k) = firstn k (kids (st s) self)) by (unfold py_prefix; rewrite clip_nat; auto).
  cbv zeta. rewrite Ep. fold start_. fold n.
  unfold c_connect, disconnect_parent, c_connect_fixes, c_notify_parent, c_highest, c_ios, c_nt, upd_st, lift, get, andthen, with_st, with_ios, with_io, with_mem, with_nt.
  cbn [st ios fix_ mem nt].
  change (set_kids (set_size (st s) self (size (st s) self - n)) self (py_del (kids (st s) self) (Z.of_nat k))) with (remove_struct (st s) self param k).
  fold t2. rewrite E1. cbn [st ios fix_ mem nt fst snd]. fold t3. rewrite E2. cbn [st ios fix_ mem nt fst snd]. rewrite E3. cbn [st ios fix_ mem nt fst snd].
  fold t4. rewrite E4. cbn [st ios fix_ mem nt fst snd]. rewrite E5. cbn [st ios fix_ mem nt fst snd]. rewrite E6. cbn [st ios fix_ mem nt fst snd].
  rewrite E7. rewrite E8. cbn [st ios fix_ mem nt fst snd]. rewrite E9. cbn [st ios fix_ mem nt fst snd]. rewrite E10. reflexivity.
Qed.

Record legal_unlink s (self param : oid) (k : nat) : Prop := mkLegalU {
  lu_self : (self < next (st s))%nat;
  lu_kid : nth_error (kids (st s) self) k = Some param;
  lu_in : forall r, above (st s) r self -> par (st s) r = None -> in_init (st s) r = false }.

Record detached s s' (self param : oid) (k : nat) : Prop := mkDetached {
  de_linked : linked (st s') (st s) self param k;
  de_next : next (st s') = next (st s);
  de_kind : forall y, kind (st s') y = kind (st s) y /\ in_init (st s') y = in_init (st s) y;
  de_parent : forall y, par (st s') y = if Nat.eqb y param then None else par (st s) y;
  de_above : forall y, above (st s') y self <-> above (st s) y self;
  de_not : ~ above (st s') param self;
  de_inited : forall r, par (st s) r = None -> above (st s) r self ->
    (forall y, above (st s') r y -> inited (st s') y = Some true) /\ (forall y, ~ above (st s') r y -> inited (st s') y = inited (st s) y);
  de_nt : nt s' = set_passes (nt s) param [];
  de_same : forall y p j, (y < next (st s))%nat -> ~ above (st s) y self -> (has s' y p j <-> has s y p j);
  de_has : forall z b m p j, below (st s) z self b m ->
    (has s' z p j <-> (j < b + start (st s) self k /\ has s z p j) \/
       (b + start (st s) self k <= j /\ has s z p (j + size (st s) param)));
  de_arr : forall r y, above (st s) r self -> par (st s) r = None -> ~ above (st s') r y -> arr (mem s') y = arr (mem s) y;
  de_disj : disj (st s) (mem s) -> disj (st s') (mem s');
  de_kept : (exists r a n0, below (st s) r self a n0 /\ par (st s) r = None /\ (n0 <= 2)%nat /\ inited (st s) r = Some true) ->
    kept (st s) (mem s) (mem s') }.

Lemma unlink_ok : forall s self param k, Inv s -> legal_unlink s self param k ->
  exists s', unlink self param s = (s', None) /\ Inv s' /\ detached s s' self param k.
Proof.
  intros s self param k [W I F M N J] [Hself Hk Hin].
  set (tb := st s) in *. set (ib := ios s) in *.
  destruct (detach_struct tb self param k W Hself Hk) as (ts0 & tp & R0 & Nd0 & Htp & DS).
  set (ts := firstn k ts0 ++ skipn (S k) ts0) in *.
  cbv zeta in DS. set (t2 := connect_struct (remove_struct tb self param k) self) in *.
  set (t3 := set_pidx (set_par t2 param None) param None) in *.
  set (t4 := connect_struct t3 self) in *.
  destruct DS as (C2 & C3 & C4 & R3 & R3p & R4 & t5 & E6 & W5 & L5 & Hnot5 & Nx5 & K5 & P5 & A5 & I51 & I50).
  assert (Pp : par tb param = Some self) by (apply (PzTree.wf_par tb W); eapply nth_error_In; eauto).
  assert (Hparam : (param < next tb)%nat).
  { destruct (Nat.lt_ge_cases param (next tb)) as [|Q]; auto. destruct (PzTree.wf_new tb W param Q) as (_ & Q1 & _). congruence. }
  destruct (root_exists tb self W) as (r & a & n0 & _ & Hpr & Br).
  assert (Hr : (r < next tb)%nat) by (eapply root_lt; eauto).
  assert (Hrs : above tb r self) by (exists a, n0; auto).
  assert (Hrp : r <> param) by (intros ->; congruence).
  pose proof (proj2 (A5 r) Hrs) as Hrs5.
  assert (Hr5 : par t5 r = None) by (rewrite P5; destruct (Nat.eqb r param); auto).
  destruct (cut_ok tb self param k t2 ts0 tp W Hk C2 R0 Nd0 Htp) as (Kr2 & Nd & Hh2 & _ & _ & _ & _ & _). fold ts in Kr2, Nd, Hh2.
  destruct (cut_ok tb self param k t4 ts0 tp W Hk C4 R0 Nd0 Htp) as (Kr4 & _ & Hh4 & _ & _ & _ & _ & _). fold ts in Kr4, Hh4.
  destruct (cut_ok tb self param k t3 ts0 tp W Hk C3 R0 Nd0 Htp) as (_ & _ & _ & _ & _ & Ndp & Hhp & Erp).
  (* the final connection *)
  destruct (connect_top t5 r W5) as (S7 & W7 & I71 & I70); [congruence|].
  set (t7 := connect_struct t5 r) in *.
  assert (L7 : linked t7 tb self param k).
  { constructor.
    - rewrite (same_par t5 t7) by auto. apply (ln_root _ _ _ _ _ L5).
    - rewrite (same_kids t5 t7) by auto. apply (ln_pos _ _ _ _ _ L5).
    - rewrite (same_kids t5 t7) by auto. apply (ln_kids _ _ _ _ _ L5).
    - intros y Hy. rewrite (same_kids t5 t7) by auto. apply (ln_kids' _ _ _ _ _ L5); auto.
    - intros y Hy. rewrite !(same_size t5 t7) by auto. apply (ln_size _ _ _ _ _ L5). eapply same_above; [apply same_sym|]; eauto.
    - intros y Hy. rewrite !(same_size t5 t7) by auto. apply (ln_size' _ _ _ _ _ L5). intros Q. apply Hy. eapply same_above; eauto. }
  assert (Hab : forall x y, above t7 x y <-> above t5 x y).
  { intros x y. split; intros Q; [eapply same_above; [apply same_sym|]; eauto | eapply same_above; eauto]. }
  assert (Hnot7 : ~ above t7 param self) by (rewrite Hab; auto).
  assert (Nx7 : next t7 = next tb) by (destruct S7 as [Q _]; congruence).
  assert (K7 : forall y, kind t7 y = kind tb y /\ in_init t7 y = in_init tb y).
  { intros y. destruct S7 as [_ S7]. destruct (S7 y) as (Q1 & _ & _ & _ & _ & Q2). destruct (K5 y) as (Q3 & Q4). split; congruence. }
  assert (P7 : forall y, par t7 y = if Nat.eqb y param then None else par tb y) by (intros y; rewrite (same_par t5 t7) by auto; apply P5).
  assert (Hr7 : par t7 r = None) by (rewrite (same_par t5 t7) by auto; auto).
  assert (A7 : forall y, above t7 y self <-> above tb y self) by (intros y; rewrite Hab; auto).
  destruct (proj2 (A7 r) Hrs) as [a7 [n7 Br7]].
  assert (Br7' : below tb r self a7 n7) by (eapply detach_base; eauto).
  destruct (below_unique _ _ _ _ _ _ _ W Br Br7') as [<- <-]. clear Br7'.
  pose proof (cut_cutlike t7 tb self param k t2 L7 C2) as CL2. pose proof (cut_cutlike t7 tb self param k t4 L7 C4) as CL4.
  pose proof (cut_cutlike t7 tb self param k t3 L7 C3) as CL3.
  assert (Hkids3 : forall z, kids t3 z = kids t7 z) by (intros z; apply CL3).
  assert (Hkids4 : forall z, kids t4 z = kids t7 z) by (intros z; apply CL4).
  assert (Hoids : forall y, In y (oids (T self ts)) <-> above t7 self y).
  { intros y. rewrite (oids_below t4 _ y R4). cbn [root]. split; intros Q; [apply (above_kids_ext t4); auto | apply (above_kids_ext t7 t4); auto]. }
  assert (Hoidsp : forall y, In y (oids tp) <-> above t7 param y).
  { intros y. rewrite (oids_below t3 _ y R3p), Erp. split; intros Q; [apply (above_kids_ext t3); auto | apply (above_kids_ext t7 t3); auto]. }
  assert (I70' : forall y, ~ above t7 r y -> inited t7 y = inited tb y).
  { intros y Hy. rewrite I70 by auto. apply I50. rewrite Hoids. intros Q. apply Hy. eapply above_trans; eauto. apply A7; auto. }
  destruct (detach_mem t7 tb t2 t4 self param r k a n0 W7 W L7 Hnot7 Nx7 (fun y => proj1 (K7 y)) ltac:(congruence) ltac:(congruence) Hr7 Br7 I71 I70' CL2 CL4 ts Kr2 Kr4 Nd Hh2 Hh4 (mem s) M)
    as (m1 & m2 & m3 & Em1 & Em2 & Em3 & M7 & Bf7 & Af7 & D7 & Kp7).
  { intros Q. apply (ii_down _ J r self); auto. destruct (kind tb self) eqn:Ekk; auto. rewrite (proj1 (PzTree.wf_leaf tb W self _ Ekk)) in Hk. destruct k; discriminate. }
  (* sizes *)
  assert (Hnn : 0 <= size tb param) by (apply size_nonneg; auto).
  assert (Hps : param <> self) by (intros E; apply Hnot7; rewrite E; apply above_refl).
  assert (Hsz7 : size t7 param = size tb param) by (symmetry; apply (ln_size' _ _ _ _ _ L7); auto).
  assert (Hsz3 : size t3 param = size tb param).
  { destruct CL3 as [_ Q]. destruct (Q param) as (_ & _ & ->). destruct (Nat.eqb_spec param self); [congruence | auto]. }
  assert (Hstart : start t7 self k = start tb self k).
  { unfold start. rewrite (ln_kids _ _ _ _ _ L7). pose proof (ln_pos _ _ _ _ _ L7) as Hp.
    assert (Hl : length (firstn k (kids t7 self)) = k) by (apply firstn_length_le; auto).
    rewrite firstn_app, Hl, Nat.sub_diag, firstn_O, app_nil_r, firstn_firstn, Nat.min_id.
    apply sum_sizes_ext. intros c Hc. symmetry. apply (ln_size' _ _ _ _ _ L7). apply firstn_In in Hc. intros Q.
    exact (no_self_kid t7 c self W7 Q Hc). }
  assert (Hst0 : 0 <= start tb self k) by (unfold start; apply sum_sizes_nonneg; auto).
  (* the constraints *)
  assert (Bp : below tb r param (a + start tb self k) (n0 + 1)).
  { apply below_trans with self; auto. unfold start. replace (sum_sizes tb (firstn k (kids tb self))) with (sum_sizes tb (firstn k (kids tb self)) + 0) by lia.
    econstructor; [eauto | constructor]. }
  assert (Vp : iop ib param = (rid ib r, View Root (a + start tb self k) (size tb param))) by (apply (io_view _ _ I r param _ _ Hr Hpr Bp); auto).
  destruct (io_dict _ _ I r Hr Hpr) as [Dr Dr2].
  pose proof (io_rid _ _ I r Hr Hpr) as Hlt.
  set (id := disconnect_io ib param).
  assert (Did : iop id = upd (iop ib) param (nrid ib, Root) /\ nrid id = S (nrid ib) /\
     dicts id (nrid ib) = copy (View Root (a + start tb self k) (size tb param)) (dof ib r) /\
     dicts id (rid ib r) = clear (View Root (a + start tb self k) (size tb param)) (dof ib r) /\
     (forall b, b <> rid ib r -> b <> nrid ib -> dicts id b = dicts ib b)).
  { unfold id, disconnect_io, cons_upd, set_dict; cbn [iop dicts nrid]. rewrite Vp. cbn [fst snd].
    split; auto. split; auto. split; [apply upd_eq|]. split.
    - rewrite upd_ne by lia. rewrite upd_eq. auto.
    - intros b B1 B2. rewrite !upd_ne; auto. }
  destruct Did as (Did1 & Did2 & Did3 & Did4 & Did5).
  destruct (copy_spec (View Root (a + start tb self k) (size tb param)) (dof ib r) Dr) as [Cw Cl].
  destruct (clear_spec (View Root (a + start tb self k) (size tb param)) (dof ib r) Dr) as [Ew El].
  assert (Hcopy : forall p j, In j (lk (dicts id (nrid ib)) p) <-> 0 <= j < size tb param /\ In (j + a + start tb self k) (lk (dof ib r) p)).
  { intros p j. rewrite Did3, Cl, vlk_In. cbn [base inside]. replace (j + (a + start tb self k + 0)) with (j + a + start tb self k) by lia. tauto. }
  assert (Hid_p : iop id param = (nrid ib, Root)) by (rewrite Did1; apply upd_eq).
  destruct (connect_fixes_ok t3 id (fix_ s) param) as (i3 & fx3 & E2 & Q3 & U3 & Mk3).
  { lia. }
  { intros j. unfold hasi. rewrite carries_lk, Hid_p. cbn [fst snd base inside]. rewrite Hcopy. lia. }
  { unfold dof, rid. rewrite Hid_p. cbn [fst]. rewrite Did3. exact Cw. }
  pose proof (connect_fixes_dicts _ _ _ _ _ _ E2) as Dc3.
  destruct Q3 as (Q31 & Q32 & Q33 & Q34).
  destruct (notify_parent_rep t3 param tp i3 fx3 Erp R3p Ndp ltac:(lia)) as (i4 & fx4 & E3 & Dd4 & Nn4 & V4 & U4).
  set (i5 := cons_upd i4 self (fun v d => shift_left v d (sum_sizes tb (firstn k (kids tb self))) (size tb param))).
  assert (Hs4 : iop i4 self = iop ib self).
  { destruct (U4 self) as [-> _]; [right; rewrite Hoidsp; auto|]. rewrite Q31, Did1, upd_ne; auto. }
  assert (Hsv : fst (iop ib self) = rid ib r /\ base (snd (iop ib self)) = a).
  { destruct (Nat.eq_dec self r) as [->|Hne].
    - destruct (wf_no_cycle _ _ _ _ W Br) as [_ ->]. split; auto. rewrite (io_root _ _ I r Hr Hpr). reflexivity.
    - rewrite (io_view _ _ I r self a n0 Hr Hpr Br Hne). simpl. split; auto. lia. }
  destruct Hsv as [Hsv1 Hsv2].
  assert (Hw4 : dwf (dicts i4 (rid ib r))) by (rewrite Dd4; apply Q34; rewrite Did4; exact Ew).
  assert (D5 : dicts i5 (rid ib r) = shift_left (snd (iop ib self)) (dicts i4 (rid ib r)) (start tb self k) (size tb param) /\
     (forall b, b <> rid ib r -> dicts i5 b = dicts i4 b) /\ iop i5 = iop i4 /\ nrid i5 = nrid i4).
  { unfold i5, cons_upd, set_dict; cbn [iop dicts nrid]. rewrite Hs4, Hsv1. split; [rewrite upd_eq; auto|]. split; auto. intros b Hb. rewrite upd_ne; auto. }
  destruct D5 as (D51 & D52 & D53 & D54).
  destruct (shift_left_spec (snd (iop ib self)) (dicts i4 (rid ib r)) (start tb self k) (size tb param) Hnn Hw4) as [Sw Sl].
  assert (Hsh : forall p j, In j (lk (dicts i5 (rid ib r)) p) <->
     (j < a + start tb self k /\ In j (lk (dof ib r) p)) \/ (a + start tb self k <= j /\ In (j + size tb param) (lk (dof ib r) p))).
  { intros p j. rewrite D51, Sl, Dd4, !Q33, Did4, !El, Hsv2. cbn [base inside].
    split.
    - intros [[A B]|[A [B C]]]; [left; split; [lia | tauto] | right; split; [lia | auto]].
    - intros [[A B]|[A B]]; [left | right]; (split; [lia|]); (split; [auto|]); intros [Q _]; lia. }
  assert (Hh5 : (height (T self ts) <= S (fuel t4))%nat).
  { cbn [height]. apply le_n_S. clear - Hh4. induction ts as [|c l IH]; simpl; [lia|]. apply Nat.max_lub; [apply Hh4; left; auto | apply IH; intros; apply Hh4; right; auto]. }
  destruct (notify_parent_rep t4 self (T self ts) i5 fx4 eq_refl R4 Nd Hh5) as (i6 & fx6 & E5 & Dd6 & Nn6 & V6 & U6).
  (* the top object's mask *)
  assert (Hrp4 : forall y, ~ above t7 self y \/ y = self -> ~ above t7 param y -> iop i6 y = iop ib y).
  { intros y Hy Hyp. destruct (U6 y) as [-> _]. { destruct Hy as [Hy|Hy]; [right; rewrite Hoids; auto | auto]. }
    rewrite D53. destruct (U4 y) as [-> _]. { right. rewrite Hoidsp; auto. }
    rewrite Q31, Did1, upd_ne; auto. intros ->. apply Hyp, above_refl. }
  assert (Hrr : ~ above t7 param r).
  { intros Q. apply (above_root t7 param r W7) in Q; auto. }
  assert (Hrsf : ~ above t7 self r \/ r = self).
  { destruct (Nat.eq_dec r self); auto. left. intros Q. apply (above_root t7 self r W7) in Q; auto. }
  assert (Hr6 : iop i6 r = iop ib r) by (apply Hrp4; auto).
  assert (Hd6 : dwf (dof i6 r)). { unfold dof, rid. rewrite Hr6, Dd6. fold (rid ib r). rewrite D51. exact Sw. }
  assert (Hrng : forall j, hasi i6 r Fixed j -> 0 <= j < size t7 r).
  { intros j. unfold hasi. rewrite carries_lk, Hr6, Dd6. rewrite (io_root _ _ I r Hr Hpr). cbn [base inside]. fold (rid ib r). rewrite Hsh.
    pose proof (ln_size _ _ _ _ _ L7 r ltac:(apply A7; auto)) as Hs7. rewrite Hsz7 in Hs7.
    pose proof (below_range _ _ _ _ _ W7 Br7) as [Rg1 Rg2].
    pose proof (start_le t7 self k W7) as Hst. rewrite Hstart in Hst.
    replace (j + 0) with j by lia. intros [[[A B]|[A B]] _]; apply Dr2 in B; lia. }
  destruct (connect_fixes_ok t7 i6 fx6 r) as (i7 & fx7 & E9 & Q7 & U7 & Mk7); auto.
  { apply size_nonneg; auto. }
  pose proof (connect_fixes_dicts _ _ _ _ _ _ E9) as Dc7.
  destruct Q7 as (Q71 & Q72 & Q73 & Q74).
  destruct (notify_parent_spec t7 r i7 fx7 W7) as (i8 & fx8 & E10 & Dd8 & Nn8 & V8 & U8).
  assert (Ehi : highest (fuel t5) t5 self = Ok r).
  { destruct Hrs5 as [o5 [n5 B5]]. apply (highest_root t5 r self o5 n5 W5 B5 Hr5). }
  pose proof (unlink_run s self param k m1 m2 i3 fx3 i4 fx4 i6 fx6 t5 r m3 i7 fx7 i8 fx8 W Hk Em1 E2 E3 Em2 E5 E6 Ehi Em3 E9 E10) as Hrun.
  fold t7 in Hrun.
  assert (Ent : filter (fun q => negb (Nat.eqb q self)) (passes (nt s) param) = []).
  { destruct N as [N1 _]. rewrite N1, Pp. simpl. rewrite Nat.eqb_refl. reflexivity. }
  rewrite Ent in Hrun.
  exists (mkS t7 i8 fx8 m3 (set_passes (nt s) param [])). split; [exact Hrun|].
  (* views afterwards *)
  assert (X1 : nrid i8 = S (nrid ib)) by congruence.
  assert (X2 : forall b, b <> rid ib r -> b <> nrid ib -> dicts i8 b = dicts ib b).
  { intros b B1 B2. rewrite Dd8, Dc7 by (unfold rid; rewrite Hr6; exact B1). rewrite Dd6, D52 by auto. rewrite Dd4, Dc3; auto.
    unfold rid. rewrite Hid_p. auto. }
  assert (X3 : dwf (dicts i8 (rid ib r))).
  { rewrite Dd8. apply Q74. rewrite Dd6, D51. exact Sw. }
  assert (Hpid : dicts i7 (nrid ib) = dicts i3 (nrid ib)).
  { rewrite Dc7 by (unfold rid in *; rewrite Hr6; lia). rewrite Dd6, D52 by lia. rewrite Dd4. auto. }
  assert (X4 : dwf (dicts i8 (nrid ib))).
  { rewrite Dd8, Hpid. apply Q34. rewrite Did3. exact Cw. }
  assert (X5 : forall p j, In j (lk (dicts i8 (rid ib r)) p) <->
     (j < a + start t7 self k /\ In j (lk (dof ib r) p)) \/ (a + start t7 self k <= j /\ In (j + size t7 param) (lk (dof ib r) p))).
  { intros p j. rewrite Dd8, Q73, Dd6, Hsh, Hstart, Hsz7. tauto. }
  assert (X6 : forall p j, In j (lk (dicts i8 (nrid ib)) p) <-> 0 <= j < size t7 param /\ In (j + a + start t7 self k) (lk (dof ib r) p)).
  { intros p j. rewrite Dd8, Hpid, Q33, Hcopy, Hstart, Hsz7. tauto. }
  assert (X7 : forall y o m, below t7 r y o m -> y <> r -> iop i8 y = (rid ib r, View Root o (size t7 y))).
  { intros y o m B Hne. destruct (V8 y o m B Hne) as [-> _]. unfold view_of. rewrite !Q71, Hr6. fold (rid ib r).
    rewrite (io_root _ _ I r Hr Hpr). reflexivity. }
  assert (Hprs : forall y, above t7 param y -> ~ above t7 r y).
  { intros y A B. apply Hrp. symmetry. apply (roots_eq t7 r param y W7); auto. rewrite P7, Nat.eqb_refl. auto. }
  assert (Hprself : forall y, above t7 param y -> ~ above t7 self y).
  { intros y A B. apply (Hprs y A). eapply above_trans; eauto. apply A7; auto. }
  assert (Hpi4 : forall y, above t7 param y -> iop i8 y = iop i4 y /\ fx8 y = fx4 y).
  { intros y Hy. destruct (U8 y (or_intror (Hprs y Hy))) as [-> ->]. rewrite Q71, U7 by (intros ->; auto).
    destruct (U6 y) as [-> ->]; [right; rewrite Hoids; auto|]. rewrite D53. auto. }
  assert (X9 : iop i8 param = (nrid ib, Root)).
  { destruct (Hpi4 param (above_refl _ _)) as [-> _]. destruct (U4 param (or_introl eq_refl)) as [-> _]. rewrite Q31. auto. }
  assert (X8 : forall y o m, below t7 param y o m -> y <> param -> iop i8 y = (nrid ib, View Root o (size t7 y))).
  { intros y o m B Hne. destruct (Hpi4 y) as [-> _]; [exists o, m; auto|].
    assert (Hs37 : forall z, above t7 param z -> size t3 z = size t7 z).
    { intros z Hz. assert (Hzs : z <> self) by (intros ->; auto). assert (~ above t7 z self) by (intros Q; apply Hnot7; eapply above_trans; eauto).
      destruct CL3 as [_ Q]. destruct (Q z) as (_ & _ & ->). destruct (Nat.eqb_spec z self); [congruence|]. apply (ln_size' _ _ _ _ _ L7); auto. }
    assert (B3 : below t3 param y o m) by (apply (below_ext t7); auto).
    destruct (V4 y o m B3 Hne) as [-> _]. rewrite Hs37 by (exists o, m; auto). unfold view_of. rewrite Q31, Hid_p. reflexivity. }
  assert (X10 : forall y, (y < next t7)%nat -> (y = r \/ ~ above t7 r y) -> ~ above t7 param y -> iop i8 y = iop ib y).
  { intros y _ Hy Hyp. destruct (U8 y Hy) as [-> _]. rewrite Q71. apply Hrp4; auto.
    destruct Hy as [->|Hy]; auto. left. intros Q. apply Hy. eapply above_trans; eauto. apply A7; auto. }
  assert (I8 : ioinv t7 i8) by (apply (detach_ioinv t7 tb self param r k a n0 W7 W L7 Hnot7 ltac:(congruence) ltac:(congruence) ltac:(congruence) Hr7 Br7 ib i8 I); auto).
  assert (Hsame : forall y p j, (y < next t7)%nat -> ~ above t7 y self -> (hasi i8 y p j <-> hasi ib y p j)).
  { apply (detach_has_same t7 tb self param r k a n0 W7 W L7 Hnot7 ltac:(congruence) ltac:(congruence) ltac:(congruence) Hr7 Br7 ib i8 I); auto. }
  assert (Habv : forall z b m p j, below t7 z self b m -> (hasi i8 z p j <-> (j < b + start t7 self k /\ hasi ib z p j) \/
     (b + start t7 self k <= j /\ hasi ib z p (j + size t7 param)))).
  { apply (detach_has_above t7 tb self param r k a n0 W7 W L7 Hnot7 ltac:(congruence) ltac:(congruence) ltac:(congruence) Hr7 Br7 ib i8 I); auto. }
  assert (Habt : forall x y, above t7 x y -> above tb x y).
  { intros x y Q. apply (at_above t7 tb self param k W7 L7 Hnot7). auto. }
  assert (Fp : fx8 param = fx3 param).
  { destruct (Hpi4 param (above_refl _ _)) as [_ ->]. apply U4. auto. }
  split.
  - constructor; cbn [st ios fix_ mem nt]; auto.
    + intros q Hq Hq7 Hl. destruct (Nat.eq_dec q r) as [->|Hne].
      { apply (mask_ok_ext t7 i7 fx7); auto; [apply U8; auto|]. intros j. unfold hasi. destruct (U8 r (or_introl eq_refl)) as [-> _]. rewrite Dd8. tauto. }
      destruct (Nat.eq_dec q param) as [->|Hqp].
      { apply (mask_ok_ext t3 i3 fx3); auto; [congruence|]. intros j. unfold hasi. rewrite X9, Q31, Hid_p. cbn [fst snd]. rewrite Dd8, Hpid. tauto. }
      assert (Hqb : par tb q = None) by (rewrite P7 in Hq7; destruct (Nat.eqb_spec q param); [congruence | auto]).
      assert (Nq : ~ above t7 r q) by (intros Q; apply Hne; symmetry; apply (above_root t7 r q W7); auto).
      assert (Nqs : ~ above t7 q self) by (intros Q; apply Hne; apply (roots_eq t7 r q self W7); auto; apply A7; auto).
      apply (mask_ok_ext tb ib (fix_ s)).
      * symmetry. apply (ln_size' _ _ _ _ _ L7); auto.
      * destruct (U8 q (or_intror Nq)) as [_ ->]. rewrite U7 by auto.
        destruct (U6 q) as [_ ->]. { right. rewrite Hoids. intros Q. apply Nq. eapply above_trans; eauto. apply A7; auto. }
        destruct (U4 q) as [_ ->]. { right. rewrite Hoidsp. intros Q. apply Hqp. symmetry. apply (above_root t7 param q W7); auto. }
        apply U3; auto.
      * intros j. apply Hsame; auto.
      * apply F; auto; [congruence|]. destruct Hl as [Hl|Hl]; [left | right].
        -- unfold is_leaf in *. destruct (K7 q) as [Q _]. rewrite <- Q. auto.
        -- rewrite <- I70'; auto.
    + destruct N as [N1 N2]. split; auto. intros y. cbn [set_passes passes]. rewrite P7. unfold upd. destruct (Nat.eqb_spec y param); auto.
    + constructor.
      * intros x Hx. destruct (K7 x) as [Q ->]. apply (ii_leaf _ J). unfold is_leaf in *. rewrite <- Q. auto.
      * intros x Hx Hkx Hix. destruct (K7 x) as [Q1 Q2]. rewrite Q1 in Hkx. rewrite Q2 in Hix. rewrite Nx7 in Hx.
        destruct (above_dec t7 r x W7) as [Q|Q]; [rewrite I71 by auto; discriminate | rewrite I70' by auto; apply (ii_node _ J); auto].
      * intros x Hx. destruct (K7 x) as [_ Q2]. rewrite Q2 in Hx. destruct (ii_in _ J x Hx) as [Q3 Q4].
        split; [rewrite P7; destruct (Nat.eqb x param); auto|].
        rewrite I70'; auto. intros Q. assert (par t7 x = None) by (rewrite P7; destruct (Nat.eqb x param); auto).
        apply (above_root t7 r x W7) in Q; auto. subst x. specialize (Hin r Hrs Hpr). congruence.
      * intros x y Hx Hxy Hky. destruct (above_dec t7 r y W7) as [Q|Q]; [auto|]. rewrite I70' by auto.
        assert (Nx : ~ above t7 r x) by (intros Q1; apply Q; eapply above_trans; eauto).
        rewrite I70' in Hx by auto. apply (ii_down _ J x y); auto. rewrite <- (proj1 (K7 y)); auto.
  - constructor; cbn [st ios fix_ mem nt]; fold tb; auto.
    + intros q Hq Hqs. assert (q = r) as -> by (apply (roots_eq tb r q self W); auto). auto.
    + intros y p j Hy Hna. apply (Hsame y p j); [congruence|]. rewrite A7. auto.
    + intros z b m p j Bz. rewrite <- Hstart, <- Hsz7. apply (Habv z b m p j).
      destruct (proj2 (A7 z)) as [o' [m' B']]; [exists b, m; auto|].
      assert (B2 : below tb z self o' m').
      { destruct (below_cases t7 tb self param k W7 L7 Hnot7 z o' m' B' self o' m' B') as [[_ A]|[[A _]|[A _]]]; auto; exfalso; apply A, above_refl. }
      destruct (below_unique _ _ _ _ _ _ _ W Bz B2) as [-> ->]. auto.
    + intros q y Hq1 Hq2 Hy. apply Af7. assert (q = r) as -> by (apply (roots_eq tb r q self W); auto). auto.
    + intros (r' & a' & n0' & B' & Hr' & Hd' & Hi').
      assert (r' = r) as -> by (apply (roots_eq tb r r' self W); auto; exists a', n0'; auto).
      destruct (below_unique _ _ _ _ _ _ _ W Br B') as [-> ->]. auto.
Qed.
End Unlink.
