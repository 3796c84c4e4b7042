(** Proofs about the hierarchy, part 17: [initialize_parameter] and constructing a Parameterized. *)
From Coq Require Import List ZArith Bool Lia Arith.
From Verif Require Import NpModel NpProofs IndexOpsModel IndexOpsSpec IndexOpsProofs PzModel PzSpec PzTree PzStruct PzLink PzWalk PzMem PzIo PzInv PzConn PzFix PzLinkMem PzPres PzUnlink PzTraverse PzNotify PzNew PzCmd.
Import ListNotations.
Open Scope Z_scope.

Section Init.
Context {V : Type}.
Implicit Types s : @state V.

(** Only [parameters_changed] was called. *)
Definition only_ran s (l : list oid) s' : Prop :=
  st s' = st s /\ ios s' = ios s /\ fix_ s' = fix_ s /\ mem s' = mem s /\ ran (nt s) l (nt s').
Lemma only_ran_inv : forall s l s', only_ran s l s' -> Inv s -> Inv s'.
Proof.
  intros s l s' (E1 & E2 & E3 & E4 & R & _) [W I F M N J]. constructor; rewrite ?E1, ?E2, ?E3, ?E4; auto. eapply nq_ntinv; eauto.
Qed.
Lemma trigger_cmd : forall s x b, Inv s -> (x < next (st s))%nat -> exists s' l, c_trigger x b s = (s', None) /\ only_ran s l s'.
Proof.
  intros s x b [W I F M N J] Hx. destruct (trigger_ok (st s) (ios s) x (nt s) W I Hx N b) as (n' & l & E & R).
  exists (with_nt s n'), l. unfold c_trigger, lift. rewrite E. split; [auto|]. repeat (split; auto); apply R.
Qed.

(** The objects [trigger_update] on [x] updates, in order. *)
Definition triggered (t : struct) (i : iost) (n : @ntst V) (x : oid) (l : list oid) : Prop :=
  exists tr u fx, root tr = x /\ rep t tr /\ NoDup (oids tr) /\ up t x u /\ (forall y, (y < next t)%nat -> (fx y = true <-> all_fixed t i y)) /\
    l = if updates n x && negb (in_init t x) then filter (active t n) (inner fx tr) ++ chain t n u else [].
Lemma chain_ext : forall t (n n' : @ntst V) l, updates n' = updates n -> chain t n' l = chain t n l.
Proof. intros t n n' l E. unfold chain. rewrite E. auto. Qed.
Lemma triggered_ext : forall t i (n n' : @ntst V) x l, updates n' = updates n -> triggered t i n x l -> triggered t i n' x l.
Proof.
  intros t i n n' x l E (tr & u & fx & A1 & A2 & A3 & A4 & A5 & ->). exists tr, u, fx. repeat (split; auto); try apply A5; auto.
  unfold chain, active. rewrite E. auto.
Qed.
Lemma triggered_off : forall t i (n : @ntst V) x l, triggered t i n x l -> updates n x = false -> l = [].
Proof. intros t i n x l (tr & u & fx & _ & _ & _ & _ & _ & ->) ->. auto. Qed.
Lemma trigger_full : forall s x, Inv s -> (x < next (st s))%nat -> exists s' l, c_trigger x true s = (s', None) /\ only_ran s l s' /\
  triggered (st s) (ios s) (nt s) x l.
Proof.
  intros s x [W I F M N J] Hx. destruct (fixed_fun (st s) (ios s) W I) as [fx [F1 F2]]. destruct (tree_exists (st s) W x) as [tr [E [R Nd]]].
  destruct (wf_up (st s) W x) as [u Hu].
  destruct (trigger_spec fx (fuel (st s)) (st s) (ios s) tr (nt s) W I) as [_ [n2 [l [Hl [E2 R2]]]]]; auto.
  { intros y Hy. exists (fx y). auto. }
  { apply rep_krep; auto. } { apply rep_new_height; auto. } { congruence. }
  rewrite E in *. rewrite (up_fun _ _ _ _ Hl Hu) in *.
  unfold c_trigger, lift, trigger_update. destruct (updates (nt s) x && negb (in_init (st s) x)) eqn:B.
  - rewrite E2. exists (with_nt s n2). eexists. split; [reflexivity|]. split; [repeat (split; auto); apply R2|].
    exists tr, u, fx. rewrite B. repeat (split; auto); apply F2; auto.
  - exists (with_nt s (nt s)), []. split; auto. split; [repeat (split; auto)|]. exists tr, u, fx. rewrite B. repeat (split; auto); apply F2; auto.
Qed.

(** [_connect_parameters] on the top of a hierarchy. *)
Definition values_safe (t : struct) (h : oid) : Prop :=
  inited t h = Some true \/ forall x k, below t h x k 2 -> 0 < size t x -> is_leaf t x = true \/ inited t x = Some true.

Lemma connect_inv : forall (t t' : struct) (h : oid) (m : @memst V), swf t -> swf t' -> same t t' -> (h < next t)%nat -> par t h = None -> meminv t m ->
  (forall y, above t h y -> inited t' y = Some true) -> (forall y, ~ above t h y -> inited t' y = inited t y) ->
  exists m', connect_mem t' h m = Ok m' /\ meminv t' m' /\ (values_safe t h -> kept t m m') /\ (disj t m -> disj t' m').
Proof.
  intros t t' h m W W' S Hh Hp M I1 I0.
  assert (Hk : forall y, kind t' y = kind t y) by (intros y; apply (proj2 S)).
  assert (Hl : forall y, is_leaf t' y = is_leaf t y) by (intros y; unfold is_leaf; rewrite Hk; auto).
  assert (Hs : forall y, size t' y = size t y) by (intros y; apply same_size; auto).
  assert (Hks : forall y, kids t' y = kids t y) by (intros y; apply same_kids; auto).
  assert (Hn : next t' = next t) by (apply (proj1 S)).
  assert (HB : forall x y o n, below t' x y o n -> below t x y o n) by (intros x y o n B; eapply same_below; [apply same_sym|]; eauto).
  assert (HB' : forall x y o n, below t x y o n -> below t' x y o n) by (intros x y o n B; eapply same_below; eauto).
  assert (HA : forall x y, above t' x y <-> above t x y) by (intros x y; split; intros [o [n B]]; exists o, n; auto).
  assert (Hlt : forall y, above t h y -> (y < next t)%nat) by (intros y [o [n B]]; eapply below_lt; eauto).
  assert (Hal : forall c b o, al t m c b o -> al t' m c b o).
  { intros c b o Q y k d B Hpos. rewrite Hs in *. apply HB in B. eapply Q; eauto. }
  assert (Hle : forall y, above t h y -> is_leaf t y = true \/ inited t y = Some true -> exists b o, al t' m y b o).
  { intros y Hy [Q|Q]; [destruct (leaf_al t m y W M (Hlt y Hy) Q) as [b [o Q']] | destruct (mm_al _ _ M y Q) as [b [o Q']]]; exists b, o; auto. }
  assert (Hun : forall y, above t h y -> is_leaf t y = false -> inited t y <> Some true -> ~ valid t' m y).
  { intros y Hy Q1 Q2 [b [o E]]. rewrite (mm_none _ _ M y) in E; [discriminate | auto | apply node_not_leaf; auto | auto]. }
  destruct (connect_wf t' h m W') as (m' & E & Nb & Bd & A0 & Kn & Kc & Kp).
  { intros y Hy Q. destruct (leaf_valid t m y M (Hlt y (proj1 (HA _ _) Hy))) as [b [o Eq]]; [rewrite <- Hl; auto|]. exists b, o. rewrite Hs; auto. }
  { apply (mm_bnd _ _ M). }
  exists m'. split; auto.
  assert (Hdis : forall x y, ~ above t h x -> above t x y -> ~ above t h y).
  { intros x y Hx Hxy Hhy. destruct (root_exists t x W) as (q & o & n & _ & Hq & B).
    assert (Q : q = h) by (apply (roots_eq t h q y); auto; apply (above_trans t q x y); auto; exists o, n; auto).
    apply Hx. rewrite <- Q. exists o, n; auto. }
  assert (Hset : (exists b o, arr m h = Some (b, o, size t' h) /\ al t' m h b o) \/ size t' h = 0 \/ ~ valid t' m h).
  { destruct (is_leaf t h) eqn:Ql; [|destruct (inited t h) as [[|]|] eqn:Qi].
    - left. destruct (Hle h (above_refl _ _) (or_introl Ql)) as [b [o Q]]. destruct (leaf_valid t m h M Hh Ql) as [b' [o' Q']].
      exists b', o'. rewrite Hs. split; auto. intros y k d B Hpos. assert (h = y) by (apply (kids_nil_above t'); [rewrite Hks; apply leaf_kids; auto | exists k, d; auto]).
      subst y. destruct (wf_no_cycle _ _ _ _ W' B) as [-> ->]. rewrite Z.add_0_r, Hs. auto.
    - pose proof (size_nonneg t' W' h). destruct (Z.eq_dec (size t' h) 0) as [Z0|Z0]; [auto|]. left.
      destruct (Hle h (above_refl _ _) (or_intror Qi)) as [b [o Q]]. exists b, o. split; auto. rewrite <- (Z.add_0_r o). eapply Q; [constructor | lia].
    - right; right. apply Hun; auto using above_refl. congruence.
    - right; right. apply Hun; auto using above_refl. congruence. }
  split; [|split].
  - constructor; auto.
    + intros x Hx Hkx Hi. rewrite Hn in Hx. assert (Q : ~ above t h x) by (intros Q; apply Hi; apply I1; auto).
      rewrite A0 by (rewrite HA; auto). rewrite Hk in Hkx. rewrite I0 in Hi by auto. apply (mm_none _ _ M); auto.
    + intros x b o n Hx Q. rewrite Hn in Hx. rewrite Hk, Hks, Hs.
      destruct (above_dec t h x W) as [Hax|Hax].
      * destruct (kids t' h) as [|c l] eqn:Ek.
        { rewrite Kn in Q by auto. eapply (mm_size _ _ M); eauto. }
        destruct (Kc ltac:(discriminate)) as (ba & oa & _ & Q2). destruct Hax as [k [d B]]. rewrite (Q2 x k d) in Q by auto. inversion Q; subst. left; auto.
      * rewrite A0 in Q by (rewrite HA; auto). eapply (mm_size _ _ M); eauto.
    + intros x Hx Q. rewrite Hn in Hx. rewrite Hl in Q. destruct (above_dec t h x W) as [Hax|Hax].
      * destruct (kids t' h) as [|c l] eqn:Ek; [rewrite Kn by auto; apply (mm_leaf _ _ M); auto|].
        destruct (Kc ltac:(discriminate)) as (ba & oa & _ & Q2). destruct Hax as [k [d B]]. rewrite (Q2 x k d) by auto. discriminate.
      * rewrite A0 by (rewrite HA; auto). apply (mm_leaf _ _ M); auto.
    + intros x Hx. destruct (above_dec t h x W) as [Hax|Hax].
      * destruct (kids t' h) as [|c l] eqn:Ek.
        { assert (Q : h = x) by (apply (kids_nil_above t); [rewrite <- Hks; auto | auto]). subst x. rewrite Kn by auto.
          destruct Hset as [[b [o [_ Q]]]|[Q|Q]]; [exists b, o; auto | |]; exists 0%nat, 0; intros y k d B Hpos;
            (assert (h = y) by (apply (kids_nil_above t'); [auto | exists k, d; auto])); subst y; [lia|].
          exfalso. destruct (kind t' h) eqn:Kh.
          - apply Q. destruct (leaf_valid t m h M Hh) as [b' [o' Q']]; [unfold is_leaf; rewrite <- Hk, Kh; auto|]. exists b', o'. rewrite Hs; auto.
          - pose proof (PzTree.wf_node t' W' h Kh) as Q'. rewrite Ek in Q'. cbn in Q'. lia. }
        destruct (Kc ltac:(discriminate)) as (ba & oa & _ & Q2). destruct Hax as [k [d B]]. exists ba, (oa + k).
        intros y k' d' B' Hpos. rewrite <- Z.add_assoc. apply (Q2 y (k + k') (d + d')%nat). eapply below_trans; eauto.
      * rewrite I0 in Hx by auto. destruct (mm_al _ _ M x Hx) as [b [o Q]]. exists b, o. intros y k d B Hpos.
        rewrite A0; [|rewrite HA; apply (Hdis x); auto; exists k, d; auto]. apply (Hal x b o Q y k d B Hpos).
  - intros Sf. assert (Kt : kept t' m m').
    { apply Kp.
      - intros c Hc. rewrite Hks in Hc. assert (Hac : above t h c) by (apply above_kid; auto).
        destruct (is_leaf t c) eqn:Ql; [|destruct (inited t c) as [[|]|] eqn:Qi].
        + destruct (Hle c Hac (or_introl Ql)) as [b [o Q]]. eapply al_settled'; eauto.
        + destruct (Hle c Hac (or_intror Qi)) as [b [o Q]]. eapply al_settled'; eauto.
        + left. apply Hun; auto. congruence.
        + left. apply Hun; auto. congruence.
      - destruct Hset as [Q|[Q|Q]]; [left; auto | right; left; auto|]. right; right. split; auto.
        intros x k B Hpos. destruct Sf as [Sf|Sf].
        + apply Hle; [exists k, 2%nat; apply HB; auto|].
          assert (Hax : above t h x) by (exists k, 2%nat; apply HB; auto).
          destruct (mm_al _ _ M h Sf) as [b [o Q']]. exfalso. apply Q. exists b, o. rewrite <- (Z.add_0_r o). apply Hal in Q'.
          apply (Q' h 0 0%nat); [constructor|]. destruct (below_range _ _ _ _ _ W' B). lia.
        + apply Hle; [exists k, 2%nat; apply HB; auto|]. apply (Sf x k); [apply HB; auto | rewrite <- Hs; auto]. }
    intros y b o j Ly Ey Hj. destruct (Kt y b o j) as (b' & o' & Q1 & Q2); rewrite ?Hl, ?Hs in *; auto. exists b', o'; auto.
  - intros D. apply (connect_disj t' h m m'); auto.
    + intros z Hz. split; [apply wf_node_ok; auto | apply size_nonneg; auto].
    + apply (mm_bnd _ _ M).
    + intros y. apply above_dec; auto.
    + intros x y b ox oy Lx Ly. rewrite !Hs, Hl in *. apply D; auto.
Qed.

(** What [initialize_parameter] does. *)
Record initialised s s' (h : oid) : Prop := mkInitialised {
  in_same : same (st s) (st s');
  in_below : forall y, above (st s) h y -> inited (st s') y = Some true;
  in_other : forall y, ~ above (st s) h y -> inited (st s') y = inited (st s) y;
  in_has : forall y p j, (y < next (st s))%nat -> (has s' y p j <-> has s y p j);
  in_kept : values_safe (st s) h -> kept (st s) (mem s) (mem s');
  in_disj : disj (st s) (mem s) -> disj (st s') (mem s');
  in_ran : exists l, ran (nt s) l (nt s') }.

Lemma initialize_ok : forall s x h o n, Inv s -> (x < next (st s))%nat -> below (st s) h x o n -> par (st s) h = None -> in_init (st s) h = false ->
  exists s', initialize_parameter x s = (s', None) /\ Inv s' /\ initialised s s' h.
Proof.
  intros s x h o n [W I F M N J] Hx B Hp Hin.
  assert (Hh : (h < next (st s))%nat) by (eapply root_lt; eauto).
  unfold initialize_parameter.
  assert (Ehi : highest (fuel (st s)) (st s) x = Ok h) by (eapply highest_root; eauto).
  destruct (notify_parent_spec (st s) h (ios s) (fix_ s) W) as (i2 & fx2 & E2 & D2 & M2 & V2 & U2).
  set (s2 := with_io s (i2, fx2)).
  assert (R2 : c_highest x (fun h => c_notify_parent h) s = (s2, None)).
  { unfold c_highest, get. rewrite Ehi. unfold c_notify_parent, lift. rewrite E2. reflexivity. }
  rewrite (andthen_ok _ _ _ _ R2). clear R2.
  assert (Eop : forall y, (y < next (st s))%nat -> iop i2 y = iop (ios s) y).
  { intros y Hy. destruct (Nat.eq_dec y h) as [->|Hne]; [apply U2; auto|].
    destruct (above_dec (st s) h y W) as [[k [d Q]]|Q]; [|apply U2; auto].
    destruct (V2 y k d Q Hne) as [-> _]. rewrite (io_view _ _ I h y k d Hh Hp Q Hne). unfold view_of, rid.
    rewrite (io_root _ _ I h Hh Hp). reflexivity. }
  assert (I2 : ioinv (st s) i2).
  { constructor.
    - intros r Hr Hpr. rewrite Eop by auto. apply (io_root _ _ I); auto.
    - intros r Hr Hpr. unfold rid. rewrite Eop by auto. rewrite M2. apply (io_rid _ _ I); auto.
    - intros r q Hr Hpr Hq Hpq. unfold rid. rewrite !Eop by auto. apply (io_inj _ _ I); auto.
    - intros r y k d Hr Hpr Q Hne. unfold rid. assert ((y < next (st s))%nat) by (eapply below_lt; eauto). rewrite !Eop by auto. apply (io_view _ _ I r y k d); auto.
    - intros r Hr Hpr. unfold dof, rid. rewrite Eop, D2 by auto. apply (io_dict _ _ I); auto. }
  assert (H2 : forall y p j, (y < next (st s))%nat -> (hasi i2 y p j <-> hasi (ios s) y p j)).
  { intros y p j Hy. unfold hasi. rewrite Eop, D2 by auto. tauto. }
  destruct (connect_top (st s) h W Hh) as (S3 & W3 & I31 & I30). set (t3 := connect_struct (st s) h) in *.
  assert (A3 : forall y z, above t3 y z <-> above (st s) y z).
  { intros y z; split; intros [k [d Q]]; exists k, d; [eapply same_below; [apply same_sym|]; eauto | eapply same_below; eauto]. }
  destruct (connect_inv (st s) t3 h (mem s) W W3 S3 Hh Hp M) as (m3 & E3 & M3 & Kp3 & D3).
  { intros y Hy. apply I31, A3; auto. }
  { intros y Hy. apply I30. rewrite A3. auto. }
  set (s3 := mkS t3 i2 fx2 m3 (nt s)).
  assert (R3 : c_highest x (fun h => c_connect h) s2 = (s3, None)).
  { unfold c_highest, get, s2, with_io; cbn [st]. rewrite Ehi. unfold c_connect, andthen, upd_st, lift, with_st, with_mem; cbn [st ios fix_ mem nt fst snd].
    fold t3. rewrite E3. reflexivity. }
  rewrite (andthen_ok _ _ _ _ R3). clear R3.
  assert (Hp3 : par t3 h = None) by (rewrite (same_par (st s) t3); auto).
  assert (Hh3 : (h < next t3)%nat) by (rewrite (proj1 S3); auto).
  assert (I3 : ioinv t3 i2).
  { assert (Hpr : forall y, par t3 y = par (st s) y) by (intros; apply same_par; auto).
    assert (Hsz : forall y, size t3 y = size (st s) y) by (intros; apply same_size; auto).
    assert (Hnx : next t3 = next (st s)) by (apply (proj1 S3)).
    constructor.
    - intros r. rewrite Hnx, Hpr. apply (io_root _ _ I2).
    - intros r. rewrite Hnx, Hpr. apply (io_rid _ _ I2).
    - intros r q. rewrite Hnx, !Hpr. apply (io_inj _ _ I2).
    - intros r y k d. rewrite Hnx, Hpr, Hsz. intros Hr Hq Q. apply (io_view _ _ I2 r y k d); auto. eapply same_below; [apply same_sym|]; eauto.
    - intros r. rewrite Hnx, Hpr, Hsz. apply (io_dict _ _ I2). }
  destruct (connect_fixes_ok t3 i2 fx2 h) as (i4 & fx4 & E4 & Q4 & U4 & Mk4).
  { apply size_nonneg; auto. }
  { intros j Hj. apply (has_below t3 i2 h h 0 0 Fixed j W3 I3 Hh3 Hp3 (below_refl _ _)) in Hj. tauto. }
  { apply (io_dict _ _ I3 h Hh3 Hp3). }
  set (s4 := mkS t3 i4 fx4 m3 (nt s)).
  assert (Ehi3 : highest (fuel t3) t3 x = Ok h) by (apply (highest_root t3 h x o n); auto; eapply same_below; eauto).
  assert (R4 : c_highest x (fun h => c_connect_fixes h) s3 = (s4, None)).
  { unfold c_highest, get, s3; cbn [st]. rewrite Ehi3. unfold c_connect_fixes, lift, with_io; cbn [st ios fix_ mem nt]. rewrite E4. reflexivity. }
  rewrite (andthen_ok _ _ _ _ R4). clear R4.
  assert (Hh4 : forall y p j, hasi i4 y p j <-> hasi i2 y p j) by (intros; apply io_eq_has; auto).
  assert (Inv4 : Inv s4).
  { constructor; cbn [s4 st ios fix_ mem nt]; auto.
    - apply (io_eq_inv t3 i2 i4 Q4 I3).
    - intros q Hq Hpq Hl. destruct (Nat.eq_dec q h) as [->|Hne]; auto. rewrite (proj1 S3) in Hq. rewrite (same_par (st s) t3) in Hpq by auto.
      assert (Nq : ~ above (st s) h q) by (intros Q; apply Hne; symmetry; apply (above_root (st s) h q W); auto).
      apply (mask_ok_ext (st s) (ios s) (fix_ s)).
      + apply same_size; auto.
      + rewrite U4 by auto. apply U2. auto.
      + intros j. rewrite Hh4. apply H2. auto.
      + apply F; auto. destruct Hl as [Hl|Hl]; [left|right].
        * unfold is_leaf in *. rewrite (proj1 (proj2 S3 q)) in Hl. auto.
        * rewrite <- I30; auto. rewrite A3; auto.
    - destruct N as [N1 N2]. split; auto. intros y. rewrite N1, (same_par (st s) t3); auto.
    - assert (K3 : forall y, kind t3 y = kind (st s) y /\ in_init t3 y = in_init (st s) y).
      { intros y. destruct S3 as [_ S3]. destruct (S3 y) as (Q1 & _ & _ & _ & _ & Q2). auto. }
      constructor.
      + intros y Hy. destruct (K3 y) as [Q1 ->]. apply (ii_leaf _ J). unfold is_leaf in *. rewrite <- Q1; auto.
      + intros y Hy Hk Hi. destruct (K3 y) as [Q1 Q2]. rewrite (proj1 S3) in Hy. destruct (above_dec (st s) h y W) as [Q|Q]; [rewrite I31 by (apply A3; auto); discriminate|].
        rewrite I30 by (rewrite A3; auto). apply (ii_node _ J); congruence.
      + intros y Hy. destruct (K3 y) as [_ Q2]. rewrite Q2 in Hy. destruct (ii_in _ J y Hy) as [Q3 Q5]. rewrite (same_par (st s) t3) by auto. split; auto.
        rewrite I30; auto. rewrite A3. intros Q. apply (above_root (st s) h y W) in Q; auto. subst y. congruence.
      + intros y z Hy Hyz Hk. apply A3 in Hyz. destruct (K3 z) as [Q1 _]. destruct (above_dec (st s) h z W) as [Q|Q]; [apply I31; apply A3; auto|].
        rewrite I30 by (rewrite A3; auto). assert (Ny : ~ above (st s) h y) by (intros Q'; apply Q; eapply above_trans; eauto).
        rewrite I30 in Hy by (rewrite A3; auto). apply (ii_down _ J y z); congruence. }
  destruct (trigger_cmd s4 x true Inv4) as (s5 & l & E5 & R5); [cbn [s4 st]; rewrite (proj1 S3); auto|].
  exists s5. split; auto. split; [eapply only_ran_inv; eauto|].
  destruct R5 as (Q1 & Q2 & Q3 & Qm & Qn). constructor.
  - rewrite Q1. exact S3.
  - intros y Hy. rewrite Q1. apply I31, A3; auto.
  - intros y Hy. rewrite Q1. apply I30. rewrite A3. auto.
  - intros y p j Hy. unfold has. rewrite Q2. change (hasi i4 y p j <-> hasi (ios s) y p j). rewrite Hh4. auto.
  - rewrite Qm. auto.
  - rewrite Q1, Qm. auto.
  - exists l. auto.
Qed.

(** ** Constructing a Parameterized *)
(** The linking loop of the constructor. *)
Record filled s s' (x : oid) (ps : list oid) : Prop := mkFilled {
  fi_next : next (st s') = next (st s);
  fi_kids : kids (st s') x = kids (st s) x ++ ps;
  fi_kids' : forall y, y <> x -> kids (st s') y = kids (st s) y /\ size (st s') y = size (st s) y;
  fi_kind : forall y, kind (st s') y = kind (st s) y /\ in_init (st s') y = in_init (st s) y /\ inited (st s') y = inited (st s) y;
  fi_par : forall y, par (st s') y = if omem y ps then Some x else par (st s) y;
  fi_mem : mem s' = mem s;
  fi_trace : trace (nt s') = trace (nt s);
  fi_has : forall y p j, (y < next (st s))%nat -> y <> x -> (has s' y p j <-> has s y p j) }.

Lemma link_all : forall x ps s, Inv s -> legal_new s ps -> (x < next (st s))%nat -> kind (st s) x = KNode -> par (st s) x = None ->
  in_init (st s) x = true -> inited (st s) x <> Some true -> ~ In x ps ->
  exists s', fold_right (fun p c => andthen (link x p None) c) done ps s = (s', None) /\ Inv s' /\ filled s s' x ps.
Proof.
  intros x ps. induction ps as [|p ps IH]; intros s H [Nd Hps] Hx Hk Hp Hin Hi Hxp.
  - exists s. cbn [fold_right]. split; auto. split; auto. constructor; auto.
    + rewrite app_nil_r; auto.
    + tauto.
  - cbn [fold_right]. pose proof (inv_st _ H) as W.
    destruct (Hps p (or_introl eq_refl)) as (P1 & P2 & P3).
    assert (Hpx : p <> x) by (intros E; apply Hxp; left; auto).
    assert (LL : legal_link s x p None).
    { constructor; auto.
      - intros Q. apply Hpx. apply (above_root (st s) p x W); auto.
      - discriminate.
      - congruence. }
    destruct (link_ok s x p None H LL) as (s1 & R1 & H1 & RL). rewrite (andthen_ok _ _ _ _ R1).
    destruct RL as [(_ & k & Ek & A)|(pp & ? & ? & ? & ? & Q & _)]; [|congruence].
    cbn [position] in Ek.
    destruct (at_inited_self _ _ _ _ _ A Hp Hi) as [EI EM].
    assert (Hab : forall y, above (st s) y x <-> y = x).
    { intros y. split; [intros Q; apply (above_root (st s) y x W); auto | intros ->; apply above_refl]. }
    assert (Kx : kids (st s1) x = kids (st s) x ++ [p]).
    { rewrite (ln_kids _ _ _ _ _ (at_linked _ _ _ _ _ A)), Ek, firstn_all, skipn_all. auto. }
    assert (K1 : forall y, kind (st s1) y = kind (st s) y /\ in_init (st s1) y = in_init (st s) y) by (apply (at_kind _ _ _ _ _ A)).
    assert (Px : par (st s1) x = None). { rewrite (at_parent _ _ _ _ _ A). destruct (Nat.eqb_spec x p); [congruence | auto]. }
    inversion Nd as [|? ? Np Nd']; subst.
    destruct (IH s1) as (s2 & R2 & H2 & F2); auto.
    + split; auto. intros q Hq. destruct (Hps q (or_intror Hq)) as (Q1 & Q2 & Q3). rewrite (at_next _ _ _ _ _ A), (at_parent _ _ _ _ _ A).
      destruct (K1 q) as [_ ->]. split; auto. split; auto. destruct (Nat.eqb_spec q p) as [E|]; [subst q; contradiction | auto].
    + rewrite (at_next _ _ _ _ _ A); auto.
    + destruct (K1 x) as [-> _]; auto.
    + destruct (K1 x) as [_ ->]; auto.
    + rewrite EI; auto.
    + intros Q; apply Hxp; right; auto.
    + exists s2. split; auto. split; auto. constructor.
      * rewrite (fi_next _ _ _ _ F2). apply (at_next _ _ _ _ _ A).
      * rewrite (fi_kids _ _ _ _ F2), Kx, <- app_assoc. auto.
      * intros y Hy. destruct (fi_kids' _ _ _ _ F2 y Hy) as [-> ->]. split.
        -- apply (ln_kids' _ _ _ _ _ (at_linked _ _ _ _ _ A)); auto.
        -- apply (ln_size' _ _ _ _ _ (at_linked _ _ _ _ _ A)). rewrite Hab; auto.
      * intros y. destruct (fi_kind _ _ _ _ F2 y) as (-> & -> & ->). destruct (K1 y) as [-> ->]. rewrite EI. auto.
      * intros y. rewrite (fi_par _ _ _ _ F2), (at_parent _ _ _ _ _ A). unfold omem. cbn [existsb]. destruct (Nat.eqb y p); cbn [orb]; auto.
        destruct (existsb (Nat.eqb y) ps); auto.
      * rewrite (fi_mem _ _ _ _ F2), EM; auto.
      * rewrite (fi_trace _ _ _ _ F2), (at_nt _ _ _ _ _ A). auto.
      * intros y q j Hy Hne. rewrite (fi_has _ _ _ _ F2) by (rewrite ?(at_next _ _ _ _ _ A); auto).
        apply (at_same _ _ _ _ _ A); auto. rewrite Hab; auto.
Qed.

(** Construction ends. *)
Lemma finish_inv : forall s x, Inv s -> (x < next (st s))%nat -> kind (st s) x = KNode -> inited (st s) x <> Some true ->
  Inv (with_st s (set_inited (set_in_init (st s) x false) x (Some false))).
Proof.
  intros s x [W I F M N J] Hx Hk Hi. set (t := st s) in *. set (t' := set_inited (set_in_init t x false) x (Some false)).
  assert (HK : forall y, kids t' y = kids t y) by reflexivity.
  assert (Hi' : forall y, inited t' y = Some true <-> inited t y = Some true).
  { intros y. unfold t', set_inited, set_in_init; cbn [inited]. unfold upd. destruct (Nat.eqb_spec y x) as [->|]; [|tauto]. split; [discriminate | intros; contradiction]. }
  assert (HB : forall y z o n, below t' y z o n <-> below t y z o n).
  { intros y z o n. split; apply below_ext; auto. }
  assert (HA : forall y z, above t' y z <-> above t y z) by (intros y z; split; intros [o [n B]]; exists o, n; apply HB; auto).
  assert (W' : swf t').
  { destruct W as [w1 w2 w3 w4 w5 w6 w7]. constructor; auto. intros y Hy. cbn [t' set_inited set_in_init inited par kids kind]. 
    destruct (w7 y Hy) as (a & b & c & d). repeat split; auto. unfold upd. destruct (Nat.eqb_spec y x) as [->|]; auto. cbn [next t' set_inited set_in_init] in Hy. lia. }
  constructor; cbn [st ios fix_ mem nt with_st]; fold t'; auto.
  - destruct I as [i1 i2 i3 i4 i5]. constructor; auto. intros r y o n Hr Hp B. apply HB in B. apply (i4 r y o n); auto.
  - intros r Hr Hp Hl. apply (mask_ok_ext t (ios s) (fix_ s)); auto; [tauto|]. apply F; auto. destruct Hl as [Hl|Hl]; [left; auto | right; apply Hi'; auto].
  - destruct M as [m1 m2 m3 m4 m5]. constructor; auto.
    + intros y Hy Hky Hii. apply m2; auto. rewrite <- Hi'. auto.
    + intros y Hy. apply Hi' in Hy. destruct (m5 y Hy) as [b [o Q]]. exists b, o. intros z k n B. apply HB in B. apply Q with n; auto.
  - destruct J as [j1 j2 j3 j4]. constructor.
    + intros y Hy. cbn [t' set_inited set_in_init in_init]. unfold upd. destruct (Nat.eqb y x); auto. 
    + intros y Hy Hky. cbn [t' set_inited set_in_init in_init inited]. unfold upd. destruct (Nat.eqb y x); [discriminate|]. apply j2; auto.
    + intros y. cbn [t' set_inited set_in_init in_init inited par]. unfold upd. destruct (Nat.eqb y x); [discriminate|]. apply j3.
    + intros y z Hy Hyz Hkz. apply HA in Hyz. apply Hi'. apply Hi' in Hy. apply (j4 y z); auto.
Qed.

Record built s s' (x : oid) (ps : list oid) (init : bool) : Prop := mkBuilt {
  bu_next : next (st s') = S x;
  bu_kind : kind (st s') x = KNode /\ in_init (st s') x = false /\ forall y, y <> x -> kind (st s') y = kind (st s) y /\ in_init (st s') y = in_init (st s) y;
  bu_kids : kids (st s') x = ps /\ forall y, y <> x -> kids (st s') y = kids (st s) y /\ size (st s') y = size (st s) y;
  bu_par : par (st s') x = None /\ forall y, y <> x -> par (st s') y = if omem y ps then Some x else par (st s) y;
  bu_inited : if init then (forall y, above (st s') x y -> inited (st s') y = Some true) /\ (forall y, ~ above (st s') x y -> inited (st s') y = inited (st s) y)
              else inited (st s') x = Some false /\ (forall y, y <> x -> inited (st s') y = inited (st s) y);
  bu_has : forall y p j, (y < x)%nat -> (has s' y p j <-> has s y p j);
  bu_disj : disj (st s) (mem s) -> disj (st s') (mem s');
  bu_kept : init = true -> (forall p c, In p ps -> In c (kids (st s) p) -> 0 < size (st s) c -> is_leaf (st s) c = true \/ inited (st s) c = Some true) ->
    kept (st s) (mem s) (mem s');
  bu_kept' : init = false -> kept (st s) (mem s) (mem s') }.

Lemma new_node_ok : forall s ps init, Inv s -> legal_new s ps ->
  exists s', new_node ps init s = (s', None) /\ Inv s' /\ built s s' (next (st s)) ps init.
Proof.
  intros s ps init H [Nd Hps]. set (x := next (st s)).
  destruct (bare_node_ok s H) as (s1 & R1 & H1 & G1 & K1 & In1 & Sz1 & T1). fold x in K1, In1, Sz1.
  destruct (gr_new _ _ G1) as (P1 & C1 & D1). fold x in P1, C1, D1.
  assert (Old1 : forall y, y <> x -> kind (st s1) y = kind (st s) y /\ par (st s1) y = par (st s) y /\ kids (st s1) y = kids (st s) y /\
    size (st s1) y = size (st s) y /\ in_init (st s1) y = in_init (st s) y /\ inited (st s1) y = inited (st s) y) by (apply (gr_old _ _ G1)).
  assert (Nx1 : next (st s1) = S x) by (apply (gr_next _ _ G1)).
  assert (Hxp : ~ In x ps) by (intros Q; destruct (Hps x Q); unfold x in *; lia).
  destruct (link_all x ps s1 H1) as (s2 & R2 & H2 & F2); auto.
  { split; auto. intros p Hp. destruct (Hps p Hp) as (Q1 & Q2 & Q3). assert (p <> x) by (intros ->; auto).
    destruct (Old1 p) as (_ & -> & _ & _ & -> & _); auto. split; auto. rewrite Nx1. unfold x; lia. }
  { lia. } { rewrite D1. discriminate. }
  destruct (fi_kind _ _ _ _ F2 x) as (Kx2 & Ix2 & Dx2).
  assert (Hx2 : (x < next (st s2))%nat) by (rewrite (fi_next _ _ _ _ F2); lia).
  assert (Px2 : par (st s2) x = None).
  { rewrite (fi_par _ _ _ _ F2). destruct (omem x ps) eqn:Q; auto. apply omem_In in Q. contradiction. }
  set (s3 := with_st s2 (set_inited (set_in_init (st s2) x false) x (Some false))).
  assert (H3 : Inv s3) by (apply finish_inv; auto; congruence).
  assert (HB3 : forall y z o n, below (st s3) y z o n <-> below (st s2) y z o n).
  { intros y z o n. split; apply below_ext; auto. }
  assert (Io3 : forall y, in_init (st s3) y = if Nat.eqb y x then false else in_init (st s2) y) by reflexivity.
  assert (Ii3 : forall y, inited (st s3) y = if Nat.eqb y x then Some false else inited (st s2) y) by reflexivity.
  assert (Run : new_node ps init s = (if init then initialize_parameter x else done) s3).
  { unfold new_node. fold x. rewrite (andthen_ok _ _ _ _ R1). rewrite (andthen_ok _ _ _ _ R2). unfold andthen, upd_st. reflexivity. }
  rewrite Run. clear Run.
  assert (Kk : kept (st s) (mem s) (mem s3)).
  { cbn [s3 with_st mem]. rewrite (fi_mem _ _ _ _ F2). apply (gr_kept _ _ G1). }
  assert (Sz3 : forall y, y <> x -> size (st s3) y = size (st s) y).
  { intros y Hy. change (size (st s2) y = size (st s) y). destruct (fi_kids' _ _ _ _ F2 y Hy) as [_ ->]. apply Old1; auto. }
  assert (Kd3 : forall y, y <> x -> kind (st s3) y = kind (st s) y).
  { intros y Hy. change (kind (st s2) y = kind (st s) y). destruct (fi_kind _ _ _ _ F2 y) as (-> & _). apply Old1; auto. }
  assert (Ks3 : forall y, y <> x -> kids (st s3) y = kids (st s) y).
  { intros y Hy. change (kids (st s2) y = kids (st s) y). destruct (fi_kids' _ _ _ _ F2 y Hy) as [-> _]. apply Old1; auto. }
  assert (Kx3 : kind (st s3) x = KNode) by (change (kind (st s2) x = KNode); congruence).
  assert (Kdx : kids (st s3) x = ps) by (change (kids (st s2) x = ps); rewrite (fi_kids _ _ _ _ F2), C1; auto).
  assert (Dj3 : disj (st s) (mem s) -> disj (st s3) (mem s3)).
  { intros D. apply (gr_disj _ _ G1) in D. cbn [s3 with_st mem]. rewrite (fi_mem _ _ _ _ F2).
    intros a b bb oa ob La Lb. assert (a <> x) by (intros ->; unfold is_leaf in La; rewrite Kx3 in La; discriminate).
    assert (b <> x) by (intros ->; unfold is_leaf in Lb; rewrite Kx3 in Lb; discriminate).
    unfold is_leaf in La, Lb. rewrite !Kd3 in * by auto. rewrite !Sz3 by auto.
    destruct (Old1 a) as (Qa & _ & _ & Qas & _); auto. destruct (Old1 b) as (Qb & _ & _ & Qbs & _); auto.
    rewrite <- Qas, <- Qbs. apply D; unfold is_leaf; [rewrite Qa | rewrite Qb]; auto. }
  assert (Hh3 : forall y p j, (y < x)%nat -> (has s3 y p j <-> has s y p j)).
  { intros y p j Hy. change (has s2 y p j <-> has s y p j). rewrite (fi_has _ _ _ _ F2) by lia. apply (gr_has _ _ G1). auto. }
  assert (Pr3 : forall y, y <> x -> par (st s3) y = if omem y ps then Some x else par (st s) y).
  { intros y Hy. change (par (st s2) y = if omem y ps then Some x else par (st s) y). rewrite (fi_par _ _ _ _ F2). destruct (Old1 y Hy) as (_ & -> & _). auto. }
  assert (In3 : forall y, y <> x -> in_init (st s3) y = in_init (st s) y).
  { intros y Hy. rewrite Io3. destruct (Nat.eqb_spec y x); [congruence|]. destruct (fi_kind _ _ _ _ F2 y) as (_ & -> & _). apply Old1; auto. }
  assert (It3 : forall y, y <> x -> inited (st s3) y = inited (st s) y).
  { intros y Hy. rewrite Ii3. destruct (Nat.eqb_spec y x); [congruence|]. destruct (fi_kind _ _ _ _ F2 y) as (_ & _ & ->). apply Old1; auto. }
  assert (Itx : inited (st s3) x = Some false) by (rewrite Ii3, Nat.eqb_refl; auto).
  assert (Inx : in_init (st s3) x = false) by (rewrite Io3, Nat.eqb_refl; auto).
  assert (Nx3 : next (st s3) = S x) by (change (next (st s2) = S x); rewrite (fi_next _ _ _ _ F2); auto).
  destruct init.
  - destruct (initialize_ok s3 x x 0 0%nat H3) as (s4 & R4 & H4 & I4); auto; [constructor|].
    exists s4. split; auto. split; auto. destruct I4 as [S4 B4 O4 Ha4 Kp4 Dj4 Rn4].
    destruct (proj2 S4 x) as (q1 & q2 & q3 & q4 & q5 & q6).
    assert (A4 : forall y z, above (st s4) y z <-> above (st s3) y z).
    { intros y z; split; intros [o [n B]]; exists o, n; [eapply same_below; [apply same_sym|]; eauto | eapply same_below; eauto]. }
    constructor.
    + rewrite (proj1 S4). auto.
    + split; [congruence|]. split; [congruence|]. intros y Hy. destruct (proj2 S4 y) as (-> & _ & _ & _ & _ & ->). auto.
    + split; [rewrite (same_kids (st s3)); auto|]. intros y Hy. rewrite (same_kids (st s3) (st s4)), (same_size (st s3) (st s4)) by auto. auto.
    + split; [rewrite (same_par (st s3)); auto|]. intros y Hy. rewrite (same_par (st s3) (st s4)) by auto. auto.
    + split; [intros y Hy; apply B4, A4; auto|]. intros y Hy. rewrite O4 by (rewrite <- A4; auto). apply It3. intros ->. apply Hy, above_refl.
    + intros y p j Hy. rewrite Ha4 by lia. auto.
    + auto.
    + intros _ Q. intros y b o j Ly Ey Hj. destruct (Kk y b o j Ly Ey Hj) as (b' & o' & E1 & E2).
      assert (Hyx : y <> x). { intros ->. destruct (PzTree.wf_new (st s) (inv_st _ H) x (le_n _)) as (_ & _ & Q1 & _). unfold is_leaf in Ly. rewrite Q1 in Ly. discriminate. }
      destruct (Kp4) with (y := y) (b := b') (o := o') (j := j) as (b2 & o2 & E3 & E4).
      * right. assert (Kin : forall c, In c (kids (st s3) x) -> In c ps) by (rewrite Kdx; auto). clear Kdx. intros z k B Hpos. inversion B as [|? i1 c1 ? o1 n1 Hi1 Bc]; subst. inversion Bc as [|? i2 c2 ? o3 n3 Hi2 Bz]; subst. inversion Bz; subst.
        apply nth_error_In, Kin in Hi1. assert (Hc1 : c1 <> x) by (intros ->; auto). apply nth_error_In in Hi2. rewrite Ks3 in Hi2 by auto.
        assert (Hz : z <> x). { intros ->. destruct (kid_lt (st s) c1 x (inv_st _ H) Hi2). unfold x in *; lia. }
        unfold is_leaf. rewrite Kd3, It3, Sz3 in * by auto. apply (Q c1 z); auto.
      * unfold is_leaf. rewrite Kd3 by auto. auto.
      * rewrite Sz3 by auto. auto.
      * rewrite Sz3 by auto. auto.
      * exists b2, o2. rewrite Sz3 in E3 by auto. split; auto. congruence.
    + discriminate.
  - exists s3. split; auto. split; auto. constructor; auto.
Qed.
End Init.
