(** Proofs about the hierarchy, part 11: the invariant, and [link_parameter] of a free object. *)
From Coq Require Import List ZArith Bool Lia Arith.
From Verif Require Import NpModel NpProofs IndexOpsModel IndexOpsSpec IndexOpsProofs PzModel PzSpec PzTree PzStruct PzLink PzWalk PzMem PzIo PzInv PzConn PzFix PzLinkMem.
Import ListNotations.
Open Scope Z_scope.

Section Pres.
Context {V : Type}.
Implicit Types s : @state V.

Definition fixinv (t : struct) (i : iost) (fx : fixst) : Prop :=
  forall r, (r < next t)%nat -> par t r = None -> is_leaf t r = true \/ inited t r = Some true -> mask_ok t i fx r.
(** An object notifies exactly its parent. *)
Definition ntinv (t : struct) (n : @ntst V) : Prop :=
  (forall y, passes n y = match par t y with Some p => [p] | None => [] end) /\ forall y, visited n y = false.
Record initinv (t : struct) : Prop := mkInitinv {
  ii_leaf : forall x, is_leaf t x = true -> in_init t x = false;
  ii_node : forall x, (x < next t)%nat -> kind t x = KNode -> in_init t x = false -> inited t x <> None;
  ii_in : forall x, in_init t x = true -> par t x = None /\ inited t x = None;
  ii_down : forall x y, inited t x = Some true -> above t x y -> kind t y = KNode -> inited t y = Some true }.
Record Inv s : Prop := mkInv {
  inv_st : swf (st s);
  inv_io : ioinv (st s) (ios s);
  inv_fix : fixinv (st s) (ios s) (fix_ s);
  inv_mem : meminv (st s) (mem s);
  inv_nt : ntinv (st s) (nt s);
  inv_init : initinv (st s) }.

Lemma mask_ok_ext : forall t i fx t' i' fx' r, size t' r = size t r -> fx' r = fx r ->
  (forall j, hasi i' r Fixed j <-> hasi i r Fixed j) -> mask_ok t i fx r -> mask_ok t' i' fx' r.
Proof.
  intros t i fx t' i' fx' r E1 E2 E3 H. unfold mask_ok in *. rewrite E2, E1. destruct (fx r) as [mk|].
  - destruct H as (A & [j B] & C). split; auto. split; [exists j; apply E3; auto|]. intros j' Hj. rewrite E3. auto.
  - intros j Hj. apply E3 in Hj. exact (H j Hj).
Qed.
Lemma linked_same : forall t0 t t' self param k, linked t0 t self param k -> same t t' -> linked t0 t' self param k.
Proof.
  intros t0 t t' self param k L S. constructor.
  - apply (ln_root _ _ _ _ _ L).
  - apply (ln_pos _ _ _ _ _ L).
  - rewrite (same_kids t t'); auto. apply (ln_kids _ _ _ _ _ L).
  - intros. rewrite (same_kids t t'); auto. apply (ln_kids' _ _ _ _ _ L); auto.
  - intros. rewrite (same_size t t'); auto. apply (ln_size _ _ _ _ _ L); auto.
  - intros. rewrite (same_size t t'); auto. apply (ln_size' _ _ _ _ _ L); auto.
Qed.

(** [_connect_parameters] of a top object, links. *)
Lemma connect_top : forall t r, swf t -> (r < next t)%nat ->
  let t' := connect_struct t r in
  same t t' /\ swf t' /\ (forall y, above t' r y -> inited t' y = Some true) /\ (forall y, ~ above t' r y -> inited t' y = inited t y).
Proof.
  intros t r W Hr t'. destruct (tree_exists t W r) as [tr [E [R N]]].
  destruct (connect_struct_same t r tr W E R N) as (S & S1 & S2). fold t' in S, S1, S2.
  assert (Hin : forall y, In y (oids tr) <-> above t' r y).
  { intros y. rewrite (oids_below t tr y R), E. split; intros [o [n B]]; exists o, n; [eapply same_below; eauto | eapply same_below; [apply same_sym|]; eauto]. }
  split; auto. split.
  - apply (same_wf t t' S W). intros x Hx. rewrite S2; [apply (PzTree.wf_new t W x Hx)|].
    intros Q. apply Hin in Q as [o [n B]]. apply (same_below t' t) in B; [|apply same_sym; auto].
    pose proof (below_lt _ _ _ _ _ W B Hr). lia.
  - split; intros y Hy; [apply S1, Hin; auto | apply S2; intros Q; apply Hy, Hin; auto].
Qed.

(** ** The commands of [link_parameter] *)
Definition link_io (t : struct) (i : iost) (self param : oid) (k : nat) : iost :=
  let n := size t param in
  let start := sum_sizes t (firstn k (kids t self)) in
  let i1 := cons_upd i self (fun v d => shift_right v d start n) in
  cons_upd i1 self (fun v d => update v d (cons_items i1 param) start).
Definition link_tail (self : oid) : @cmd V := fun s =>
  if in_init (st s) self then (s, None) else
     c_highest self (fun h s => match inited (st s) h with
       | None => (s, Some AttributeError)
       | Some false => (s, None)
       | Some true => andthen (c_connect h) (andthen (c_notify_parent h) (c_connect_fixes h)) s
       end) s.

Lemma attach_run : forall s self param index t3, swf (st s) -> kind (st s) self = KNode ->
  (position (kids (st s) self) index <= length (kids (st s) self))%nat ->
  let k := position (kids (st s) self) index in
  let ti := insert_struct (st s) self param k in
  add_size (fuel ti) ti (Some self) (size (st s) param) = Ok t3 ->
  attach self param index s =
  andthen (c_notify_parent self) (link_tail self)
    (mkS t3 (link_io (st s) (ios s) self param k) (fix_ s) (mem s) (set_passes (nt s) param (passes (nt s) param ++ [self]))).
Proof.
  intros s self param index t3 W Hk Hp k ti E.
  assert (Hix : forall i, index = Some i -> (if 0 <=? i then i else Z.of_nat (length (py_prefix (kids (st s) self) i))) = Z.of_nat k).
  { intros i ->. unfold k, position, py_prefix in *. destruct (Z.leb_spec 0 i).
    - unfold clip. destruct (Z.leb_spec 0 i); [rewrite Z2Nat.id; lia | lia].
    - rewrite firstn_length_le by auto. reflexivity. }
  unfold attach. destruct index as [i|].
  - rewrite (Hix i eq_refl). unfold k, position in *.
    unfold andthen, c_ios, upd_st, c_nt, with_ios, with_st, with_nt; cbn [st ios fix_ mem nt].
    unfold lift; cbn [st ios fix_ mem nt].
    match goal with |- context [add_size ?f ?x (Some self) ?n] => change (add_size f x (Some self) n) with (add_size (fuel ti) ti (Some self) n) end.
    rewrite E. reflexivity.
  - unfold k, position in *.
    assert (Eti : ti = set_kids (set_pidx (set_par (st s) param (Some self)) param (Some (Z.of_nat (length (kids (st s) self))))) self (kids (st s) self ++ [param])).
    { unfold ti, insert_struct. cbv zeta. rewrite skipn_all, firstn_all. reflexivity. }
    assert (Eio : link_io (st s) (ios s) self param (length (kids (st s) self)) =
       let i1 := cons_upd (ios s) self (fun v d => shift_right v d (sum_sizes (st s) (kids (st s) self)) (size (st s) param)) in
       cons_upd i1 self (fun v d => update v d (cons_items i1 param) (size (st s) self))).
    { unfold link_io. rewrite firstn_all. rewrite (PzTree.wf_node _ W self Hk). reflexivity. }
    rewrite Eio.
    unfold andthen, c_ios, upd_st, c_nt, with_ios, with_st, with_nt; cbn [st ios fix_ mem nt].
    unfold lift; cbn [st ios fix_ mem nt]. rewrite <- Eti. rewrite E. reflexivity.
Qed.

(** The index operations before the views are renewed. *)
Lemma link_io_spec : forall t i self param k r a n0, swf t -> ioinv t i -> (self < next t)%nat -> (param < next t)%nat ->
  par t param = None -> ~ above t param self -> par t r = None -> below t r self a n0 ->
  let i1 := link_io t i self param k in
  (forall y, iop i1 y = iop i y) /\ nrid i1 = nrid i /\ (forall b, b <> rid i r -> dicts i1 b = dicts i b) /\
  dwf (dicts i1 (rid i r)) /\
  forall p j, In j (lk (dicts i1 (rid i r)) p) <->
    (j < a + start t self k /\ In j (lk (dof i r) p)) \/
    (a + start t self k + size t param <= j /\ In (j - size t param) (lk (dof i r) p)) \/
    (In (j - a - start t self k) (lk (dof i param) p)).
Proof.
  intros t i self param k r a n0 W H Hs Hp Hpp Hnot Hpr Br i1.
  assert (Hr : (r < next t)%nat) by (eapply root_lt; eauto).
  assert (Hn : 0 <= size t param) by (apply size_nonneg; auto).
  assert (Hv : fst (iop i self) = rid i r /\ base (snd (iop i self)) = a).
  { destruct (Nat.eq_dec self r) as [->|Hne].
    - destruct (wf_no_cycle _ _ _ _ W Br) as [_ ->]. split; auto. rewrite (io_root _ _ H r Hr Hpr). reflexivity.
    - rewrite (io_view _ _ H r self a n0 Hr Hpr Br Hne). simpl. split; auto. lia. }
  destruct Hv as [Hv1 Hv2].
  assert (Hpne : rid i param <> rid i r).
  { intros E. apply (io_inj _ _ H) in E; auto. apply Hnot. rewrite E. exists a, n0; auto. }
  destruct (io_dict _ _ H r Hr Hpr) as [Dr _]. destruct (io_dict _ _ H param Hp Hpp) as [Dp _].
  unfold i1, link_io. unfold cons_upd, set_dict, cons_items; cbn [iop dicts nrid]. rewrite !Hv1, !upd_eq.
  assert (Ep : upd (dicts i) (rid i r) (shift_right (snd (iop i self)) (dicts i (rid i r)) (sum_sizes t (firstn k (kids t self))) (size t param)) (fst (iop i param)) = dof i param).
  { rewrite upd_ne; auto. }
  rewrite Ep.
  destruct (shift_right_spec (snd (iop i self)) (dof i r) (start t self k) (size t param) Hn Dr) as [S1 S2].
  destruct (update_spec (snd (iop i self)) (items (snd (iop i param)) (dof i param)) (start t self k) _ S1) as [U1 U2].
  split; [auto|]. split; [auto|]. split; [intros b Hb; rewrite !upd_ne by auto; auto|].
  split; [exact U1|]. intros p j. unfold start in *. fold (dof i r). rewrite U2, S2, Hv2.
  rewrite items_pairs by auto. rewrite (io_root _ _ H param Hp Hpp). rewrite carries_root.
  replace (sum_sizes t (firstn k (kids t self)) + a) with (a + sum_sizes t (firstn k (kids t self))) by lia. tauto.
Qed.

Record legal_attach s (self param : oid) (k : nat) : Prop := mkLegal {
  la_node : kind (st s) self = KNode;
  la_self : (self < next (st s))%nat;
  la_param : (param < next (st s))%nat;
  la_root : par (st s) param = None;
  la_not : ~ above (st s) param self;
  la_pos : (k <= length (kids (st s) self))%nat;
  la_in : in_init (st s) param = false;
  la_conn : (in_init (st s) self = false /\ forall r, above (st s) r self -> par (st s) r = None -> inited (st s) r = Some true) \/
            (par (st s) self = None /\ inited (st s) self <> Some true) }.

(** What [link_parameter] of a free object does. *)
Record attached s s' (self param : oid) (k : nat) : Prop := mkAttached {
  at_linked : linked (st s) (st s') self param k;
  at_next : next (st s') = next (st s);
  at_kind : forall y, kind (st s') y = kind (st s) y /\ in_init (st s') y = in_init (st s) y;
  at_parent : forall y, par (st s') y = if Nat.eqb y param then Some self else par (st s) y;
  at_inited : forall y, inited (st s') y = inited (st s) y \/ inited (st s') y = Some true;
  at_inited_self : par (st s) self = None -> inited (st s) self <> Some true ->
    (forall y, inited (st s') y = inited (st s) y) /\ mem s' = mem s;
  at_nt : nt s' = set_passes (nt s) param (passes (nt s) param ++ [self]);
  at_same : forall y p j, (y < next (st s))%nat -> ~ above (st s) y self -> (has s' y p j <-> has s y p j);
  at_has : forall z b m p j, below (st s) z self b m ->
    (has s' z p j <-> (j < b + start (st s) self k /\ has s z p j) \/
       (b + start (st s) self k <= j < b + start (st s) self k + size (st s) param /\ has s param p (j - b - start (st s) self k)) \/
       (b + start (st s) self k + size (st s) param <= j /\ has s z p (j - size (st s) param)));
  at_arr : forall r y, above (st s) r self -> par (st s) r = None -> ~ above (st s') r y -> arr (mem s') y = arr (mem s) y;
  at_disj : ~ leftover (st s) self param (mem s) -> disj (st s) (mem s) -> disj (st s') (mem s');
  at_kept : ~ leftover (st s) self param (mem s) ->
    (exists r a n0, below (st s) r self a n0 /\ par (st s) r = None /\ (n0 <= 1)%nat) ->
    is_leaf (st s) param = true \/ inited (st s) param = Some true -> kept (st s) (mem s) (mem s') }.

Lemma andthen_ok : forall (a b : @cmd V) s s1, a s = (s1, None) -> andthen a b s = b s1.
Proof. intros a b s s1 H. unfold andthen. rewrite H. auto. Qed.
Lemma ntinv_link : forall t t' n self param, ntinv t n -> par t param = None -> (forall y, par t' y = if Nat.eqb y param then Some self else par t y) ->
  ntinv t' (set_passes n param (passes n param ++ [self])).
Proof.
  intros t t' n self param [N1 N2] Hp Hpar. split; [|auto]. intros y. simpl. rewrite Hpar. unfold upd.
  destruct (Nat.eqb_spec y param) as [->|]; auto. rewrite N1, Hp. reflexivity.
Qed.

Lemma attach_ok : forall s self param index k, Inv s -> k = position (kids (st s) self) index -> legal_attach s self param k ->
  exists s', attach self param index s = (s', None) /\ Inv s' /\ attached s s' self param k.
Proof.
  intros s self param index k [W I F M N J] Ek [Hnode Hself Hparam Hroot Hnot Hpos Hpin Hconn].
  set (t0 := st s) in *.
  destruct (attach_struct t0 self param k W Hnode Hroot Hnot Hpos Hself Hparam) as (t3 & E3 & W3 & L3 & R3 & P3).
  destruct (root_exists t0 self W) as (r & a & n0 & _ & Hpr & Br).
  assert (Hr : (r < next t0)%nat) by (eapply root_lt; eauto).
  assert (Hrs : above t0 r self) by (exists a, n0; auto).
  assert (Hrp : r <> param) by (intros E; apply Hnot; rewrite <- E; auto).
  rewrite Ek in E3. rewrite (attach_run s self param index t3); auto; [|fold t0; rewrite <- Ek; auto]. fold t0. rewrite <- Ek in *.
  destruct R3 as [Nx3 R3].
  set (nt1 := set_passes (nt s) param (passes (nt s) param ++ [self])).
  destruct (link_io_spec t0 (ios s) self param k r a n0 W I Hself Hparam Hroot Hnot Hpr Br) as (O1 & O2 & O3 & O4 & O5).
  set (i1 := link_io t0 (ios s) self param k) in *.
  destruct (notify_parent_spec t3 self i1 (fix_ s) W3) as (i2 & fx2 & E2 & D2 & M2 & V2 & U2).
  assert (Ec : c_notify_parent self (mkS t3 i1 (fix_ s) (mem s) nt1) = (mkS t3 i2 fx2 (mem s) nt1, None)).
  { unfold c_notify_parent, lift, with_io; cbn [st ios fix_ mem nt]. rewrite E2. reflexivity. }
  rewrite (andthen_ok _ _ _ _ Ec). clear Ec.
  assert (Habove3 : forall x y, above t3 x y <-> above t0 x y \/ (above t0 x self /\ above t0 param y)) by exact (at_above t0 t3 self param k W L3 Hnot).
  assert (N' : ntinv t3 nt1) by (apply (ntinv_link t0); auto).
  (* the index operations, given the last renewal of views at the top *)
  assert (IO : forall t' i', linked t0 t' self param k -> swf t' -> next t' = next t0 -> nrid i' = nrid i1 -> dicts i' = dicts i1 ->
     (forall y o m, below t' r y o m -> y <> r -> iop i' y = (rid (ios s) r, View Root o (size t' y))) ->
     (forall y, (y < next t0)%nat -> y = r \/ ~ above t' r y -> iop i' y = iop (ios s) y) ->
     ioinv t' i' /\ (forall y p j, (y < next t0)%nat -> ~ above t0 y self -> (hasi i' y p j <-> hasi (ios s) y p j)) /\
     (forall z b m p j, below t0 z self b m -> (hasi i' z p j <-> (j < b + start t0 self k /\ hasi (ios s) z p j) \/
       (b + start t0 self k <= j < b + start t0 self k + size t0 param /\ hasi (ios s) param p (j - b - start t0 self k)) \/
       (b + start t0 self k + size t0 param <= j /\ hasi (ios s) z p (j - size t0 param))))).
  { intros t' i' L' W' Nx' Hn' Hd' Hv1' Hv0'.
    assert (X1 : nrid i' = nrid (ios s)) by congruence.
    assert (X2 : forall b, b <> rid (ios s) r -> dicts i' b = dicts (ios s) b) by (intros; rewrite Hd'; apply O3; auto).
    assert (X3 : dwf (dicts i' (rid (ios s) r))) by (rewrite Hd'; auto).
    assert (X4 : forall p j, In j (lk (dicts i' (rid (ios s) r)) p) <->
      (j < a + start t0 self k /\ In j (lk (dof (ios s) r) p)) \/
      (a + start t0 self k + size t0 param <= j /\ In (j - size t0 param) (lk (dof (ios s) r) p)) \/
      (In (j - a - start t0 self k) (lk (dof (ios s) param) p))) by (intros; rewrite Hd'; apply O5).
    split; [|split].
    - exact (attach_ioinv t0 t' self param r k a n0 W W' L' Hnot Nx' Hself Hparam Hpr Br (ios s) i' I X1 X2 X3 X4 Hv1' Hv0').
    - exact (attach_has_same t0 t' self param r k a n0 W W' L' Hnot Nx' Hself Hparam Hpr Br (ios s) i' I X1 X2 X3 X4 Hv1' Hv0').
    - exact (attach_has_above t0 t' self param r k a n0 W W' L' Hnot Nx' Hself Hparam Hpr Br (ios s) i' I X1 X2 X3 X4 Hv1' Hv0'). }
  assert (Fix : forall q, (q < next t0)%nat -> par t3 q = None -> q <> r -> is_leaf t3 q = true \/ inited t0 q = Some true ->
     forall t' i' fx', (forall y, ~ above t0 y self -> size t' y = size t0 y) -> fx' q = fix_ s q ->
       (forall j, hasi i' q Fixed j <-> hasi (ios s) q Fixed j) -> mask_ok t' i' fx' q).
  { intros q Hq Hq3 Hqr Hl t' i' fx' Hs' Hf' Hh'.
    assert (Hqp : q <> param) by (intros ->; rewrite P3, Nat.eqb_refl in Hq3; discriminate).
    assert (Hq0 : par t0 q = None).
    { rewrite P3 in Hq3. destruct (Nat.eqb_spec q param); [congruence | auto]. }
    assert (Hqs : ~ above t0 q self) by (intros Q; apply Hqr; apply (roots_eq t0 r q self); auto).
    apply (mask_ok_ext t0 (ios s) (fix_ s)); auto.
    - apply F; auto. destruct Hl as [Hl|Hl]; auto. left. unfold is_leaf in *. destruct (R3 q) as (E & _). rewrite <- E; auto. }
  assert (Kids_r : forall y, par t3 y = None -> y <> r -> ~ above t3 self y).
  { intros y Hy Hyr Q. apply Hyr. apply (roots_eq t3 r y y W3); auto.
    - apply above_trans with self; auto. apply Habove3; auto.
    - apply above_refl.
    - rewrite P3. destruct (Nat.eqb_spec r param); [congruence | auto]. }
  assert (Hr3 : par t3 r = None) by (rewrite P3; destruct (Nat.eqb_spec r param); [congruence | auto]).
  destruct (above_dec t3 r self W3) as [[a3 [n3 Br3]]|Q]; [|exfalso; apply Q; apply Habove3; auto].
  assert (JI : forall t', next t' = next t0 -> (forall y, kind t' y = kind t0 y /\ in_init t' y = in_init t0 y) ->
    (forall y, par t' y = if Nat.eqb y param then Some self else par t0 y) ->
    (forall y, inited t' y = inited t0 y \/ inited t' y = Some true) -> (in_init t0 self = true -> forall y, inited t' y = inited t0 y) ->
    (forall y, in_init t0 y = true -> y <> self -> inited t' y = inited t0 y) ->
    (forall x y, inited t' x = Some true -> above t' x y -> kind t' y = KNode -> inited t' y = Some true) -> initinv t').
  { intros t' Nx' K' P' I' I2' I3' D'. constructor; auto.
    - intros x Hx. destruct (K' x) as [Ek' ->]. apply (ii_leaf _ J). unfold is_leaf in *. rewrite <- Ek'. auto.
    - intros x Hx Hk Hi. destruct (K' x) as [Ek' Ei']. rewrite Ek' in Hk. rewrite Ei' in Hi. rewrite Nx' in Hx.
      destruct (I' x) as [->| ->]; [apply (ii_node _ J); auto | discriminate].
    - intros x Hx. destruct (K' x) as [_ Ei']. rewrite Ei' in Hx. destruct (ii_in _ J x Hx) as [Q1 Q2].
      assert (x <> param) by (intros ->; congruence).
      rewrite P'. destruct (Nat.eqb_spec x param); [congruence|]. split; auto.
      destruct (Nat.eq_dec x self) as [->|Hne]; [rewrite I2'; auto | rewrite I3'; auto]. }
  (* without connection *)
  assert (Plain : par t0 self = None -> inited t0 self <> Some true ->
     Inv (mkS t3 i2 fx2 (mem s) nt1) /\ attached s (mkS t3 i2 fx2 (mem s) nt1) self param k).
  { intros Hps Hi.
    assert (self = r) as Esr by (apply (above_root t0 r self W) in Hps; auto). subst r.
    destruct (IO t3 i2) as (I3 & Hsame & Habv); auto; try congruence.
    { intros y o m B Hne. destruct (V2 y o m B Hne) as [-> _]. unfold view_of. rewrite O1. rewrite (io_root _ _ I self Hself Hps). reflexivity. }
    { intros y Hy Hc. destruct (U2 y Hc) as [-> _]. apply O1. }
    assert (Hri : forall y, inited t3 y = inited t0 y) by (intros y; destruct (R3 y) as (_ & _ & Q); exact Q).
    assert (M3 : meminv t3 (mem s)).
    { constructor.
      - apply (mm_bnd _ _ M).
      - intros x Hx Hk Hii. destruct (R3 x) as (Q & _). apply (mm_none _ _ M); congruence.
      - intros x b o nn Hx Q. rewrite Nx3 in Hx. destruct (Nat.eq_dec x self) as [->|Hne].
        + exfalso. rewrite (mm_none _ _ M self) in Q; auto. discriminate.
        + destruct (R3 x) as (-> & _). rewrite (ln_kids' _ _ _ _ _ L3) by auto.
          rewrite (ln_size' _ _ _ _ _ L3); [eapply (mm_size _ _ M); eauto|].
          intros Q1. apply Hne. apply (above_root t0 x self W); auto.
      - intros x Hx Hl. apply (mm_leaf _ _ M); [congruence|]. unfold is_leaf in *. destruct (R3 x) as (<- & _). auto.
      - intros x Hx. rewrite Hri in Hx. destruct (mm_al _ _ M x Hx) as [b [o Q]]. exists b, o.
        assert (Hxs : ~ above t0 x self).
        { intros Q1. apply (above_root t0 x self W) in Q1; auto. subst x. auto. }
        intros y kk d B Hp. assert (Hya : above t3 x y) by (exists kk, d; auto).
        apply Habove3 in Hya as [[k' [d' B']]|[Q1 _]]; [|tauto].
        pose proof (below_same t0 t3 self param k L3 x y k' d' Hxs B') as B3.
        destruct (below_unique _ _ _ _ _ _ _ W3 B B3) as [-> ->].
        assert (Hys : ~ above t0 y self). { intros Q1. apply Hxs. eapply above_trans; eauto. exists k', d'; auto. }
        rewrite (ln_size' _ _ _ _ _ L3) in * by auto. eapply Q; eauto. }
    split.
    - constructor; cbn [st ios fix_ mem nt]; auto.
      + intros q Hq Hq3 Hl. rewrite Nx3 in Hq. rewrite Hri in Hl.
        destruct (Nat.eq_dec q self) as [->|Hne].
        { exfalso. destruct Hl as [Hl|Hl]; [|auto]. unfold is_leaf in Hl. destruct (R3 self) as (Q & _). rewrite Q, Hnode in Hl. discriminate. }
        apply Fix; auto.
        * intros y Hy. apply (ln_size' _ _ _ _ _ L3); auto.
        * apply U2. right. apply Kids_r; auto.
        * intros j. apply Hsame; auto. intros Q. apply Hne. apply (above_root t0 q self W); auto.
      + apply JI; auto.
        * intros y. destruct (R3 y) as (Q1 & Q2 & _). auto.
        * intros x y Hx Hxy Hk. rewrite Hri in *. destruct (R3 y) as (Q1 & _). rewrite Q1 in Hk.
          apply Habove3 in Hxy as [Hxy|[Q _]]; [eapply (ii_down _ J); eauto|].
          exfalso. apply (above_root t0 x self W) in Q; auto. subst x. auto.
    - constructor; cbn [st ios fix_ mem nt]; fold t0; auto.
      + intros y. destruct (R3 y) as (Q1 & Q2 & _). auto.
      + intros _ D. intros x y b ox oy Lx Ly. unfold is_leaf in Lx, Ly. destruct (R3 x) as (Qx & _), (R3 y) as (Qy & _). rewrite Qx in Lx. rewrite Qy in Ly.
        assert (Hlf : forall z, match kind t0 z with KLeaf _ => true | KNode => false end = true -> size t3 z = size t0 z).
        { intros z Hz. apply (ln_size' _ _ _ _ _ L3). intros Q. apply (above_root t0 z self W) in Q; auto. subst z. rewrite Hnode in Hz. discriminate. }
        rewrite (Hlf x Lx), (Hlf y Ly). apply D; auto.
      + intros _ _ _ y b o j _ Q _. exists b, o; auto. }
  unfold link_tail at 1; cbn [st].
  destruct (in_init t3 self) eqn:Ein.
  - assert (Ein0 : in_init t0 self = true) by (destruct (R3 self) as (_ & Q & _); congruence).
    destruct (ii_in _ J self Ein0) as [Q1 Q2]. destruct Plain as [Q3 Q4]; auto; [congruence|].
    eexists. split; [reflexivity|]. auto.
  - assert (Ein0 : in_init t0 self = false) by (destruct (R3 self) as (_ & Q & _); congruence).
    unfold c_highest, get; cbn [st].
    rewrite (highest_root t3 r self a3 n3 W3 Br3 Hr3).
    assert (Eir : inited t3 r = inited t0 r) by (destruct (R3 r) as (_ & _ & Q); exact Q). rewrite Eir.
    destruct Hconn as [[_ Hconn]|[Hps Hi]].
    2:{ assert (self = r) as Esr by (apply (above_root t0 r self W) in Hps; auto). subst r.
        destruct (inited t0 self) as [[|]|] eqn:Ei; [congruence | |].
        - destruct Plain as [Q3 Q4]; auto. eexists. split; [reflexivity|]. auto.
        - exfalso. apply (ii_node _ J self Hself Hnode Ein0). auto. }
    pose proof (Hconn r Hrs Hpr) as Hir. rewrite Hir.
    destruct (connect_top t3 r W3) as (S6 & W6 & I61 & I60); [congruence|].
    set (t6 := connect_struct t3 r) in *.
    assert (L6 : linked t0 t6 self param k) by (eapply linked_same; eauto).
    assert (Nx6 : next t6 = next t0) by (destruct S6 as [Q _]; congruence).
    assert (K6 : forall y, kind t6 y = kind t0 y /\ in_init t6 y = in_init t0 y).
    { intros y. destruct S6 as [_ S6]. destruct (S6 y) as (Q1 & _ & _ & _ & _ & Q2). destruct (R3 y) as (Q3 & Q4 & _). split; congruence. }
    assert (P6 : forall y, par t6 y = if Nat.eqb y param then Some self else par t0 y) by (intros y; rewrite (same_par t3 t6) by auto; apply P3).
    assert (I60' : forall y, ~ above t6 r y -> inited t6 y = inited t0 y).
    { intros y Hy. rewrite I60 by auto. destruct (R3 y) as (_ & _ & Q). exact Q. }
    assert (Habove6 : forall x y, above t6 x y <-> above t0 x y \/ (above t0 x self /\ above t0 param y)) by exact (at_above t0 t6 self param k W L6 Hnot).
    destruct (attach_mem t0 t6 self param r k a n0 W W6 L6 Hnot Nx6 (fun y => proj1 (K6 y)) Hnode Hself Hparam Hpr Br I61 I60' Hir (mem s) M)
      as (m' & E6 & M6 & B6 & A6 & D6 & Kp6).
    assert (Ec : c_connect r (mkS t3 i2 fx2 (mem s) nt1) = (mkS t6 i2 fx2 m' nt1, None)).
    { unfold c_connect, andthen, upd_st, lift, with_st, with_mem; cbn [st ios fix_ mem nt]. fold t6. rewrite E6. reflexivity. }
    rewrite (andthen_ok _ _ _ _ Ec). clear Ec.
    destruct (notify_parent_spec t6 r i2 fx2 W6) as (i3 & fx3 & E7 & D7 & M7 & V7 & U7).
    assert (Ec : c_notify_parent r (mkS t6 i2 fx2 m' nt1) = (mkS t6 i3 fx3 m' nt1, None)).
    { unfold c_notify_parent, lift, with_io; cbn [st ios fix_ mem nt]. rewrite E7. reflexivity. }
    rewrite (andthen_ok _ _ _ _ Ec). clear Ec.
    assert (Er2 : iop i2 r = iop (ios s) r).
    { destruct (U2 r) as [-> _]; [|apply O1]. destruct (Nat.eq_dec r self) as [->|Hne]; [left; auto | right].
      intros Q. apply Hne. apply (above_antisym t3); auto. apply Habove3; auto. }
    destruct (IO t6 i3) as (I8 & Hsame & Habv); auto; try congruence.
    { intros y o m B Hne. destruct (V7 y o m B Hne) as [-> _]. unfold view_of, rid. rewrite Er2. rewrite (io_root _ _ I r Hr Hpr). reflexivity. }
    { intros y Hy Hc. destruct (U7 y Hc) as [-> _]. destruct Hc as [->|Hc]; auto. destruct (U2 y) as [-> _]; [|apply O1]. right.
      intros Q. apply Hc. apply above_trans with self; [apply Habove6; auto|]. eapply same_above; eauto. }
    assert (Hd8 : dwf (dof i3 r) /\ forall p j, In j (lk (dof i3 r) p) -> 0 <= j < size t6 r).
    { apply (io_dict _ _ I8); [congruence|]. rewrite P6. destruct (Nat.eqb_spec r param); [congruence | auto]. }
    assert (Hr6 : par t6 r = None) by (rewrite P6; destruct (Nat.eqb_spec r param); [congruence | auto]).
    destruct (connect_fixes_ok t6 i3 fx3 r) as (i4 & fx4 & E8 & Q8 & U8 & Mk8).
    { apply size_nonneg; auto. }
    { intros j Hj. apply (has_below t6 i3 r r 0 0 Fixed j W6 I8 ltac:(congruence) Hr6 (below_refl _ _)) in Hj. tauto. }
    { apply Hd8. }
    assert (Ec : c_connect_fixes r (mkS t6 i3 fx3 m' nt1) = (mkS t6 i4 fx4 m' nt1, None)).
    { unfold c_connect_fixes, lift, with_io; cbn [st ios fix_ mem nt]. rewrite E8. reflexivity. }
    eexists. split; [exact Ec|].
    pose proof (io_eq_inv t6 i3 i4 Q8 I8) as I4.
    assert (Hh4 : forall x p j, hasi i4 x p j <-> hasi i3 x p j) by (intros; apply io_eq_has; auto).
    assert (Hin_r : forall y, in_init t0 y = true -> y <> self -> ~ above t6 r y).
    { intros y Hy Hne Q. destruct (ii_in _ J y Hy) as [Q1 Q2].
      assert (par t6 y = None). { rewrite P6. destruct (Nat.eqb_spec y param) as [->|]; [congruence | auto]. }
      apply (above_root t6 r y W6) in Q; auto. subst y. congruence. }
    split.
    + constructor; cbn [st ios fix_ mem nt]; auto.
      * intros q Hq Hq6 Hl. rewrite Nx6 in Hq. destruct (Nat.eq_dec q r) as [->|Hne]; [exact Mk8|].
        assert (Hq3 : par t3 q = None) by (rewrite P3, <- P6; auto).
        assert (Nq : ~ above t6 r q).
        { intros Q. apply Hne. symmetry. apply (above_root t6 r q W6); auto. }
        apply Fix; auto.
        -- destruct Hl as [Hl|Hl]; [left | right].
           ++ unfold is_leaf in *. destruct (K6 q) as [Q _]. rewrite Q in Hl. destruct (R3 q) as (-> & _). auto.
           ++ rewrite <- I60'; auto.
        -- intros y Hy. apply (ln_size' _ _ _ _ _ L6); auto.
        -- rewrite U8 by auto. destruct (U7 q (or_intror Nq)) as [_ ->]. apply U2. right. apply Kids_r; auto.
        -- intros j. rewrite Hh4. apply Hsame; auto.
           intros Q. apply Hne. apply (roots_eq t0 r q self W); auto. rewrite P6 in Hq6. destruct (Nat.eqb_spec q param); [discriminate | auto].
      * apply (ntinv_link t0); auto.
      * apply JI; auto.
        -- intros y. destruct (above_dec t6 r y W6) as [Q|Q]; [right; auto | left; auto].
        -- congruence.
        -- intros x y Hx Hxy Hk. destruct (above_dec t6 r y W6) as [Q|Q]; [auto|]. rewrite I60' by auto.
           assert (Nx : ~ above t6 r x) by (intros Q1; apply Q; eapply above_trans; eauto).
           rewrite I60' in Hx by auto. apply Habove6 in Hxy as [Hxy|[Q1 _]].
           ++ apply (ii_down _ J x y); auto. rewrite <- (proj1 (K6 y)). auto.
           ++ exfalso. apply Nx. apply Habove6. left.
              destruct (root_exists t0 x W) as (q & oq & nq & _ & Hq & Bq).
              assert (q = r) as <- by (apply (roots_eq t0 r q self W); auto; eapply above_trans; eauto; exists oq, nq; auto). exists oq, nq; auto.
    + constructor; cbn [st ios fix_ mem nt]; fold t0; auto.
      * intros y. destruct (above_dec t6 r y W6) as [Q|Q]; [right; auto | left; auto].
      * intros Hps Hi. exfalso. apply Hi. assert (self = r) as -> by (apply (above_root t0 r self W) in Hps; auto). auto.
      * intros y p j Hy Hna. unfold has. rewrite <- (Hsame y p j Hy Hna). apply Hh4.
      * intros z b mm p j Bz. specialize (Habv z b mm p j Bz). unfold has in *. unfold hasi in *. rewrite <- Habv. apply Hh4.
      * intros q y Hq1 Hq2 Hy. apply A6. assert (q = r) as -> by (apply (roots_eq t0 r q self W); auto). auto.
      * intros Hl D. apply D6; auto.
        intros x y b ox oy Lx Ly. unfold is_leaf in Lx, Ly. destruct (K6 x) as (Qx & _), (K6 y) as (Qy & _). rewrite Qx in Lx. rewrite Qy in Ly.
        rewrite (am_leaf_size t0 t6 self param k W L6 Hnode x Lx), (am_leaf_size t0 t6 self param k W L6 Hnode y Ly). apply D; auto.
      * intros Hl (r' & a' & n0' & B' & Hr' & Hd') Hp.
        assert (r' = r) as -> by (apply (roots_eq t0 r r' self W); auto; exists a', n0'; auto).
        destruct (below_unique _ _ _ _ _ _ _ W Br B') as [-> ->].
        specialize (Kp6 Hl Hd' Hp). intros y b o j Ly Ey Hj. assert (Ly' : is_leaf t0 y = true) by auto.
        pose proof (Kp6 y b o j) as Q. unfold is_leaf in Q, Ly. destruct (K6 y) as (Qy & _). rewrite Qy in Q.
        rewrite (am_leaf_size t0 t6 self param k W L6 Hnode y Ly') in Q. auto.
Qed.
End Pres.
