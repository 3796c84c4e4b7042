(** Proofs about copying, part 4: connecting the top of a hierarchy again. *)
From Coq Require Import List ZArith Bool Lia Arith.
From Verif Require Import NpModel NpProofs IndexOpsModel IndexOpsSpec IndexOpsProofs PzModel CopyModel PzSpec PzTree PzStruct PzLink PzWalk PzMem PzIo PzInv PzConn PzFix PzLinkMem PzPres PzUnlink PzTraverse PzNotify PzNew PzCmd PzInit.
Import ListNotations.
Open Scope Z_scope.

Section Reconnect.
Context {V : Type}.
Implicit Types s : @state V.
Notation "a ;; b" := (andthen a b) (at level 61, right associativity).

Record reconnected s s' (h : oid) : Prop := mkReconnected {
  rc_same : same (st s) (st s');
  rc_below : forall y, above (st s) h y -> inited (st s') y = Some true;
  rc_other : forall y, ~ above (st s) h y -> inited (st s') y = inited (st s) y;
  rc_has : forall y p j, (y < next (st s))%nat -> (has s' y p j <-> has s y p j);
  rc_kept : values_safe (st s) h -> kept (st s) (mem s) (mem s');
  rc_disj : disj (st s) (mem s) -> disj (st s') (mem s');
  rc_nt : nt s' = nt s }.

Lemma reconnect_ok : forall s h, Inv s -> (h < next (st s))%nat -> par (st s) h = None -> in_init (st s) h = false ->
  exists s', (c_connect h ;; c_connect_fixes h ;; c_notify_parent h) s = (s', None) /\ Inv s' /\ reconnected s s' h.
Proof.
  intros s h [W I F M N J] Hh Hp Hin.
  destruct (connect_top (st s) h W Hh) as (S3 & W3 & I31 & I30). set (t3 := connect_struct (st s) h) in *.
  assert (A3 : forall y z, above t3 y z <-> above (st s) y z).
  { intros y z; split; intros [k [d Q]]; exists k, d; [eapply same_below; [apply same_sym|]; eauto | eapply same_below; eauto]. }
  destruct (connect_inv (st s) t3 h (mem s) W W3 S3 Hh Hp M) as (m3 & E3 & M3 & Kp3 & D3).
  { intros y Hy. apply I31, A3; auto. }
  { intros y Hy. apply I30. rewrite A3. auto. }
  assert (Hp3 : par t3 h = None) by (rewrite (same_par (st s) t3); auto).
  assert (Hh3 : (h < next t3)%nat) by (rewrite (proj1 S3); auto).
  assert (Hpr : forall y, par t3 y = par (st s) y) by (intros; apply same_par; auto).
  assert (Hsz : forall y, size t3 y = size (st s) y) by (intros; apply same_size; auto).
  assert (Hnx : next t3 = next (st s)) by (apply (proj1 S3)).
  assert (I3 : ioinv t3 (ios s)).
  { constructor.
    - intros r. rewrite Hnx, Hpr. apply (io_root _ _ I).
    - intros r. rewrite Hnx, Hpr. apply (io_rid _ _ I).
    - intros r q. rewrite Hnx, !Hpr. apply (io_inj _ _ I).
    - intros r y k d. rewrite Hnx, Hpr, Hsz. intros Hr Hq Q. apply (io_view _ _ I r y k d); auto. eapply same_below; [apply same_sym|]; eauto.
    - intros r. rewrite Hnx, Hpr, Hsz. apply (io_dict _ _ I). }
  destruct (connect_fixes_ok t3 (ios s) (fix_ s) h) as (i4 & fx4 & E4 & Q4 & U4 & Mk4).
  { apply size_nonneg; auto. }
  { intros j Hj. apply (has_below t3 (ios s) h h 0 0 Fixed j W3 I3 Hh3 Hp3 (below_refl _ _)) in Hj. tauto. }
  { apply (io_dict _ _ I3 h Hh3 Hp3). }
  assert (I4 : ioinv t3 i4) by (apply (io_eq_inv t3 (ios s) i4 Q4 I3)).
  destruct (notify_parent_spec t3 h i4 fx4 W3) as (i5 & fx5 & E5 & D5 & M5 & V5 & U5).
  assert (Eop : forall y, (y < next t3)%nat -> iop i5 y = iop i4 y).
  { intros y Hy. destruct (Nat.eq_dec y h) as [->|Hne]; [apply U5; auto|].
    destruct (above_dec t3 h y W3) as [[k [d Q]]|Q]; [|apply U5; auto].
    destruct (V5 y k d Q Hne) as [-> _]. rewrite (io_view _ _ I4 h y k d Hh3 Hp3 Q Hne). unfold view_of, rid.
    rewrite (io_root _ _ I4 h Hh3 Hp3). reflexivity. }
  assert (H5 : forall y p j, (y < next t3)%nat -> (hasi i5 y p j <-> hasi i4 y p j)).
  { intros y p j Hy. unfold hasi. rewrite Eop, D5 by auto. tauto. }
  assert (Hh4 : forall y p j, hasi i4 y p j <-> hasi (ios s) y p j) by (intros; apply io_eq_has; auto).
  exists (mkS t3 i5 fx5 m3 (nt s)). split.
  { unfold c_connect, andthen, upd_st, lift, c_connect_fixes, c_notify_parent, with_st, with_mem, with_io. cbn [st ios fix_ mem nt].
    fold t3. rewrite E3. unfold lift. cbn [st ios fix_ mem nt]. rewrite E4. cbn [st ios fix_ mem nt fst snd]. rewrite E5. reflexivity. }
  split.
  - constructor; cbn [st ios fix_ mem nt]; auto.
    + constructor.
      * intros r Hr Hpq. rewrite Eop by auto. apply (io_root _ _ I4); auto.
      * intros r Hr Hpq. unfold rid. rewrite Eop by auto. rewrite M5. apply (io_rid _ _ I4); auto.
      * intros r q Hr Hq1 Hq Hq2. unfold rid. rewrite !Eop by auto. apply (io_inj _ _ I4); auto.
      * intros r y k d Hr Hpq Q Hne. unfold rid. assert ((y < next t3)%nat) by (eapply below_lt; eauto). rewrite !Eop by auto. apply (io_view _ _ I4 r y k d); auto.
      * intros r Hr Hpq. unfold dof, rid. rewrite Eop, D5 by auto. apply (io_dict _ _ I4); auto.
    + intros q Hq Hpq Hl. destruct (Nat.eq_dec q h) as [->|Hne].
      { apply (mask_ok_ext t3 i4 fx4); auto. apply U5; auto. }
      assert (Hq0 : (q < next (st s))%nat) by (rewrite <- Hnx; auto). assert (Hpq0 : par (st s) q = None) by (rewrite <- Hpr; auto).
      assert (Nq : ~ above (st s) h q) by (intros Q; apply Hne; symmetry; apply (above_root (st s) h q W); auto).
      apply (mask_ok_ext (st s) (ios s) (fix_ s)); auto.
      * destruct (U5 q) as [_ ->]; [right; rewrite A3; auto|]. apply U4; auto.
      * intros j. rewrite H5 by auto. apply Hh4.
      * apply F; auto. destruct Hl as [Hl|Hl]; [left|right].
        { unfold is_leaf in *. rewrite (proj1 (proj2 S3 q)) in Hl. auto. }
        rewrite <- I30; auto. rewrite A3; auto.
    + destruct N as [N1 N2]. split; auto. intros y. rewrite N1, Hpr; auto.
    + assert (K3 : forall y, kind t3 y = kind (st s) y /\ in_init t3 y = in_init (st s) y).
      { intros y. destruct S3 as [_ S3]. destruct (S3 y) as (Q1 & _ & _ & _ & _ & Q2). auto. }
      constructor.
      * intros y Hy. destruct (K3 y) as [Q1 ->]. apply (ii_leaf _ J). unfold is_leaf in *. rewrite <- Q1; auto.
      * intros y Hy Hk Hi. destruct (K3 y) as [Q1 Q2]. rewrite Hnx in Hy. destruct (above_dec (st s) h y W) as [Q|Q]; [rewrite I31 by (apply A3; auto); discriminate|].
        rewrite I30 by (rewrite A3; auto). apply (ii_node _ J); congruence.
      * intros y Hy. destruct (K3 y) as [_ Q2]. rewrite Q2 in Hy. destruct (ii_in _ J y Hy) as [Q3 Q5]. rewrite Hpr. split; auto.
        rewrite I30; auto. rewrite A3. intros Q. apply (above_root (st s) h y W) in Q; auto. subst y. congruence.
      * intros y z Hy Hyz Hk. apply A3 in Hyz. destruct (K3 z) as [Q1 _]. destruct (above_dec (st s) h z W) as [Q|Q]; [apply I31; apply A3; auto|].
        rewrite I30 by (rewrite A3; auto). assert (Ny : ~ above (st s) h y) by (intros Q'; apply Q; eapply above_trans; eauto).
        rewrite I30 in Hy by (rewrite A3; auto). apply (ii_down _ J y z); congruence.
  - constructor; cbn [st ios fix_ mem nt]; auto.
    + intros y Hy. apply I31, A3; auto.
    + intros y Hy. apply I30. rewrite A3. auto.
    + intros y p j Hy. change (hasi i5 y p j <-> hasi (ios s) y p j). rewrite H5 by (rewrite Hnx; auto). apply Hh4.
Qed.
End Reconnect.
