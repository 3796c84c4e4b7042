(** Proofs about the hierarchy, part 16: [link_parameter] as a whole. *)
From Coq Require Import List ZArith Bool Lia Arith.
From Verif Require Import NpModel NpProofs IndexOpsModel IndexOpsSpec IndexOpsProofs PzModel PzSpec PzTree PzStruct PzLink PzWalk PzMem PzIo PzInv PzConn PzFix PzLinkMem PzPres PzUnlink PzTraverse PzNotify PzNew.
Import ListNotations.
Open Scope Z_scope.

Lemma linked_above : forall t0 t1 self param k x y, swf t0 -> linked t0 t1 self param k -> ~ above t0 param self ->
  above t0 x y -> above t1 x y.
Proof.
  intros t0 t1 self param k x y W L Hn [o [n B]]. destruct (above_dec t0 x self W) as [[a [m A]]|A].
  - destruct (below_cases t0 t1 self param k W L Hn x a m A y o n B) as [[_ H]|[(_ & _ & H)|(_ & _ & H)]]; [exists o, n | exists o, n |]; auto.
    exists (o + size t0 param), n; auto.
  - exists o, n. eapply below_same; eauto.
Qed.
Lemma linked_above_new : forall t0 t1 self param k y, swf t0 -> linked t0 t1 self param k -> ~ above t0 param self ->
  above t0 param y -> forall x, above t0 x self -> above t1 x y.
Proof.
  intros t0 t1 self param k y W L Hn [o [n B]] x [a [m A]]. exists (a + start t0 self k + o), (m + S n)%nat. eapply below_new; eauto.
Qed.

Lemma clip_le : forall (A : Type) (l : list A) i, i <= Z.of_nat (length l) -> (clip l i <= length l)%nat.
Proof. intros A l i H. unfold clip. destruct (Z.leb_spec 0 i); lia. Qed.

Section Cmd.
Context {V : Type}.
Implicit Types s : @state V.

Lemma omem_In : forall x l, omem x l = true <-> In x l.
Proof.
  intros x l. unfold omem. rewrite existsb_exists. split.
  - intros [y [H E]]. apply Nat.eqb_eq in E. subst; auto.
  - intros H. exists x. split; auto. apply Nat.eqb_refl.
Qed.
Lemma leaf_not_above : forall t y x, swf t -> is_leaf t y = true -> is_leaf t x = false -> ~ above t y x.
Proof.
  intros t y x W Hy Hx H. assert (y = x); [|congruence]. apply (kids_nil_above t); auto. apply leaf_kids; auto.
Qed.
Lemma node_not_leaf : forall t x, kind t x = KNode <-> is_leaf t x = false.
Proof. intros t x. unfold is_leaf. destruct (kind t x); split; congruence. Qed.
Lemma kid_not_leaf : forall t x y, swf t -> In y (kids t x) -> is_leaf t x = false.
Proof.
  intros t x y W H. unfold is_leaf. destruct (kind t x) eqn:E; auto. apply (PzTree.wf_leaf t W) in E. destruct E as [E _]. rewrite E in H. destruct H.
Qed.
Lemma kid_lt : forall t x y, swf t -> In y (kids t x) -> (x < next t)%nat /\ (y < next t)%nat.
Proof.
  intros t x y W H. assert (Hx : (x < next t)%nat).
  { destruct (le_lt_dec (next t) x) as [Hle|]; auto. destruct (PzTree.wf_new t W x Hle) as (E & _). rewrite E in H. destruct H. }
  split; auto. destruct (above_kid t x y H) as [o [n B]]. eapply below_lt; eauto.
Qed.
Lemma nsame_ntinv : forall t (n n' : @ntst V), nsame n n' -> ntinv t n -> ntinv t n'.
Proof. intros t n n' [(E1 & _) E2] [N1 N2]. split; intros y; [rewrite E1; auto | rewrite E2; auto]. Qed.

(** What the call did: only linked, or first unlinked from the old parent. *)
Definition relinked s s' (self param : oid) (index : option Z) : Prop :=
  (par (st s) param = None /\ exists k, k = position (kids (st s) self) index /\ attached s s' self param k) \/
  (exists pp s1 s2 k0 k, par (st s) param = Some pp /\ st s1 = st s /\ ios s1 = ios s /\ fix_ s1 = fix_ s /\ mem s1 = mem s /\ nsame (nt s) (nt s1) /\
     Inv s2 /\ detached s1 s2 pp param k0 /\ k = position (kids (st s2) self) index /\ attached s2 s' self param k).

Lemma link_ok : forall s self param index, Inv s -> legal_link s self param index ->
  exists s', link self param index s = (s', None) /\ Inv s' /\ relinked s s' self param index.
Proof.
  intros s self param index H [Hn Hs Hp Hnot Hin Hpos Hconn Hold].
  pose proof H as [W I F M N J].
  destruct (par (st s) param) as [pp|] eqn:Epp.
  - (* first unlinked *)
    specialize (Hold pp eq_refl). destruct Hold as [Hrin Hcase].
    assert (Hkid : In param (kids (st s) pp)) by (apply (PzTree.wf_par (st s) W); auto).
    destruct (In_nth_error _ _ Hkid) as [k0 Hk0].
    destruct (kid_lt (st s) pp param W Hkid) as [Hpp _].
    assert (Hrpp : forall r, above (st s) r pp -> above (st s) r param).
    { intros r Hr. eapply above_trans; [exact Hr | apply above_kid; auto]. }
    (* the call of unlink and attach, from a state that differs in nothing relevant *)
    assert (Hgo : forall s1, st s1 = st s -> ios s1 = ios s -> fix_ s1 = fix_ s -> mem s1 = mem s -> nsame (nt s) (nt s1) ->
      exists s2 s', unlink pp param s1 = (s2, None) /\ attach self param index s2 = (s', None) /\ Inv s' /\ par (st s2) param = None /\
        Inv s2 /\ detached s1 s2 pp param k0 /\ attached s2 s' self param (position (kids (st s2) self) index)).
    { intros s1 E1 E2 E3 E4 E5.
      assert (H1 : Inv s1).
      { constructor; rewrite ?E1, ?E2, ?E3, ?E4; auto. eapply nsame_ntinv; eauto. }
      assert (LU : legal_unlink s1 pp param k0).
      { constructor; rewrite ?E1; auto. }
      destruct (unlink_ok s1 pp param k0 H1 LU) as (s2 & R2 & H2 & D). exists s2.
      pose proof (inv_st _ H2) as W2.
      assert (Hp2 : par (st s2) param = None) by (rewrite (de_parent _ _ _ _ _ D), Nat.eqb_refl; auto).
      assert (Hkid2 : kids (st s) pp = firstn k0 (kids (st s2) pp) ++ param :: skipn k0 (kids (st s2) pp)).
      { rewrite <- E1. apply (ln_kids _ _ _ _ _ (de_linked _ _ _ _ _ D)). }
      assert (Hup : forall x y, above (st s2) x y -> above (st s) x y).
      { intros x y Hxy. rewrite <- E1. eapply linked_above; eauto using de_linked, de_not. }
      assert (LA : legal_attach s2 self param (position (kids (st s2) self) index)).
      { constructor.
        - destruct (de_kind _ _ _ _ _ D self) as [-> _]. rewrite E1; auto.
        - rewrite (de_next _ _ _ _ _ D), E1. auto.
        - rewrite (de_next _ _ _ _ _ D), E1. auto.
        - auto.
        - intros Ha. apply Hnot. apply Hup. auto.
        - destruct index as [i|]; [|cbn [position]; lia]. cbn [position]. apply clip_le. specialize (Hpos i eq_refl).
          destruct (Nat.eq_dec pp self) as [->|Hne].
          + rewrite (proj2 (omem_In _ _) Hkid) in Hpos. rewrite Hkid2, app_length in Hpos. cbn [length] in Hpos.
            rewrite <- (firstn_skipn k0 (kids (st s2) self)), app_length. lia.
          + rewrite <- (ln_kids' _ _ _ _ _ (de_linked _ _ _ _ _ D)) by auto. rewrite E1. destruct (omem param (kids (st s) self)); lia.
        - destruct (de_kind _ _ _ _ _ D param) as [_ ->]. rewrite E1. auto.
        - assert (Hroot : forall r, par (st s2) r = None -> above (st s2) r self -> par (st s) r = None /\ above (st s) r self).
          { intros r Hr Ha. apply Hup in Ha. split; auto. rewrite (de_parent _ _ _ _ _ D) in Hr. destruct (Nat.eqb r param) eqn:Q; [apply Nat.eqb_eq in Q; rewrite Q in *; contradiction|]. rewrite <- E1; auto. }
          destruct (root_exists (st s) pp W) as (r0 & o0 & n0 & _ & Hr0 & B0).
          assert (A0 : above (st s) r0 pp) by (exists o0, n0; auto).
          assert (DI := de_inited _ _ _ _ _ D r0). rewrite E1 in DI. destruct (DI Hr0 A0) as [DI1 DI2].
          assert (Hini : forall r, r <> r0 -> par (st s2) r = None -> inited (st s2) r = inited (st s) r).
          { intros r Hr Hpr. apply DI2. intros Ha. apply Hr. symmetry. apply (above_root (st s2) r0 r); auto. }
          destruct Hcase as [[-> _]|Hother].
          + left. split. { destruct (de_kind _ _ _ _ _ D self) as [_ ->]. rewrite E1.
              destruct (in_init (st s) self) eqn:Q; auto. destruct (ii_in _ J self Q) as [Q1 _]. rewrite <- Q. apply Hrin; auto. apply above_kid; auto. }
            intros r Hr Hpr. destruct (Hroot r Hpr Hr) as [Hpr' Hr']. rewrite (roots_eq (st s) r0 r self W A0 Hr' Hr0 Hpr') in *. apply DI1. apply above_refl.
          + assert (Hr0self : ~ above (st s) r0 self) by (apply Hother; auto).
            assert (Hne : forall r, above (st s) r self -> r <> r0) by (intros r Hr ->; auto).
            destruct Hconn as [[C1 C2]|[C1 C2]]; [left|right].
            * split. { destruct (de_kind _ _ _ _ _ D self) as [_ ->]. rewrite E1. auto. }
              intros r Hr Hpr. destruct (Hroot r Hpr Hr) as [Hpr' Hr']. rewrite (Hini r (Hne r Hr') Hpr). apply C2; auto.
            * assert (Q : par (st s2) self = None). { rewrite (de_parent _ _ _ _ _ D). destruct (Nat.eqb self param); auto. rewrite E1; auto. }
              split; auto. rewrite (Hini self (Hne self (above_refl _ _)) Q). auto. }
      destruct (attach_ok s2 self param index _ H2 eq_refl LA) as (s' & R' & H' & A).
      exists s'. repeat (split; auto). }
    unfold link. destruct (omem param (kids (st s) self)) eqn:Em.
    + apply omem_In in Em. assert (Eps : pp = self). { apply (PzTree.wf_par (st s) W) in Em. congruence. } subst pp.
      destruct Hcase as [[_ Hix]|Hother].
      2:{ exfalso. destruct (root_exists (st s) self W) as (r0 & o0 & n0 & _ & Hr0 & B0). apply (Hother r0); auto; [apply Hrpp|]; exists o0, n0; auto. }
      destruct index as [i|]; [|congruence].
      destruct (Hgo s eq_refl eq_refl eq_refl eq_refl (nsame_refl _)) as (s2 & s' & R2 & R' & H' & P2 & H2 & D & A).
      exists s'. split; [|split; auto].
      * rewrite (andthen_ok _ _ _ _ R2). unfold link_new. rewrite P2. auto.
      * right. exists self, s, s2, k0, (position (kids (st s2) self) (Some i)). repeat (split; [auto using nsame_refl|]). auto.
    + unfold link_new. rewrite Epp.
      assert (Hother : forall r, above (st s) r param -> par (st s) r = None -> ~ above (st s) r self).
      { destruct Hcase as [[-> _]|Hother]; auto. apply omem_In in Hkid. congruence. }
      destruct (wf_up (st s) W param) as [l Hl].
      destruct N as [N1 N2].
      destruct (traverse_parents_spec (fuel (st s)) (st s) (Nat.eqb self) param l (nt s) [] W Hl (up_length _ _ _ W Hl)
                  (fun y _ => N2 y) (N2 param)) as (n' & seen & e & ET & _ & HT & _).
      destruct HT as (-> & NS & _).
      { intros r y Hr Hrx Hry Hxy. apply Nat.eqb_neq. intros ->. apply (Hother r); auto. }
      rewrite ET.
      destruct (Hgo (with_nt s n') eq_refl eq_refl eq_refl eq_refl NS) as (s2 & s' & R2 & R' & H' & P2 & H2 & D & A).
      exists s'. split; [|split; auto].
      * rewrite (andthen_ok _ _ _ _ R2). auto.
      * right. exists pp, (with_nt s n'), s2, k0, (position (kids (st s2) self) index). repeat (split; [auto|]). auto.
  - (* only linked *)
    assert (Em : omem param (kids (st s) self) = false).
    { destruct (omem param (kids (st s) self)) eqn:Q; auto. apply omem_In in Q. apply (PzTree.wf_par (st s) W) in Q. congruence. }
    assert (LA : legal_attach s self param (position (kids (st s) self) index)).
    { constructor; auto. destruct index as [i|]; [|cbn [position]; lia]. cbn [position]. apply clip_le. specialize (Hpos i eq_refl). rewrite Em in Hpos. lia. }
    destruct (attach_ok s self param index _ H eq_refl LA) as (s' & R' & H' & A).
    exists s'. split; [|split; auto].
    + unfold link, link_new. rewrite Em, Epp. auto.
    + left. split; auto. eexists; split; [reflexivity | auto].
Qed.

(** Unlinking and relinking change nothing at the elements of the Params. *)
Lemma detached_leaf : forall s s' self param k, Inv s -> detached s s' self param k -> forall y p j, (y < next (st s))%nat -> is_leaf (st s) y = true ->
  (has s' y p j <-> has s y p j).
Proof.
  intros s s' self param k H D y p j Hy Hl. apply (de_same _ _ _ _ _ D); auto. apply leaf_not_above; auto; [apply (inv_st _ H)|].
  apply (kid_not_leaf (st s) self param (inv_st _ H)). rewrite (ln_kids _ _ _ _ _ (de_linked _ _ _ _ _ D)). apply in_elt.
Qed.
Lemma attached_leaf : forall s s' self param k, Inv s' -> Inv s -> attached s s' self param k -> forall y p j, (y < next (st s))%nat -> is_leaf (st s) y = true ->
  (has s' y p j <-> has s y p j).
Proof.
  intros s s' self param k H' H A y p j Hy Hl. apply (at_same _ _ _ _ _ A); auto. apply leaf_not_above; auto; [apply (inv_st _ H)|].
  apply node_not_leaf. destruct (at_kind _ _ _ _ _ A self) as [<- _].
  apply node_not_leaf. apply (kid_not_leaf (st s') self param (inv_st _ H')). rewrite (ln_kids _ _ _ _ _ (at_linked _ _ _ _ _ A)). apply in_elt.
Qed.
Lemma leaf_ext : forall t t' y, (kind t' y = kind t y /\ in_init t' y = in_init t y) -> is_leaf t' y = is_leaf t y.
Proof. intros t t' y [E _]. unfold is_leaf. rewrite E. auto. Qed.
Lemma has_ext : forall s s' y p j, ios s' = ios s -> (has s' y p j <-> has s y p j).
Proof. intros. unfold has. rewrite H. tauto. Qed.
Lemma relinked_leaf : forall s s' self param index, Inv s -> Inv s' -> relinked s s' self param index -> forall y p j, (y < next (st s))%nat -> is_leaf (st s) y = true ->
  (has s' y p j <-> has s y p j).
Proof.
  intros s s' self param index H H' R y p j Hy Hl.
  destruct R as [(_ & k & _ & A)|(pp & s1 & s2 & k0 & k & _ & E1 & E2 & E3 & E4 & E5 & H2 & D & _ & A)].
  - eapply attached_leaf; eauto.
  - assert (H1 : Inv s1). { destruct H as [W I F M N J]. constructor; rewrite ?E1, ?E2, ?E3, ?E4; auto. eapply nsame_ntinv; eauto. }
    rewrite (attached_leaf s2 s' self param k H' H2 A) by (rewrite ?(de_next _ _ _ _ _ D), ?(leaf_ext _ _ _ (de_kind _ _ _ _ _ D y)), E1; auto).
    rewrite (detached_leaf s1 s2 pp param k0 H1 D) by (rewrite E1; auto). apply has_ext; auto.
Qed.
Lemma relinked_next : forall s s' self param index, relinked s s' self param index -> next (st s') = next (st s) /\
  forall y, kind (st s') y = kind (st s) y /\ in_init (st s') y = in_init (st s) y.
Proof.
  intros s s' self param index R. destruct R as [(_ & k & _ & A)|(pp & s1 & s2 & k0 & k & _ & E1 & E2 & E3 & E4 & E5 & H2 & D & _ & A)].
  - split; [apply (at_next _ _ _ _ _ A) | apply (at_kind _ _ _ _ _ A)].
  - split; [rewrite (at_next _ _ _ _ _ A), (de_next _ _ _ _ _ D), E1; auto|].
    intros y. destruct (at_kind _ _ _ _ _ A y) as [-> ->]. destruct (de_kind _ _ _ _ _ D y) as [-> ->]. rewrite E1; auto.
Qed.

(** Calls that are refused. *)
Lemma link_refused_kid : forall s self param, In param (kids (st s) self) -> link self param None s = (s, Some HierarchyError).
Proof. intros s self param H. unfold link. apply omem_In in H. rewrite H. auto. Qed.
Lemma unlink_refused : forall s self param, ~ In param (kids (st s) self) -> unlink self param s = (s, Some HierarchyError).
Proof.
  intros s self param H. unfold unlink. destruct (omem param (kids (st s) self)) eqn:E; [apply omem_In in E; contradiction|]. auto.
Qed.
Lemma link_refused_loop : forall s self param index r, Inv s -> par (st s) r = None -> above (st s) r param -> above (st s) r self ->
  ~ above (st s) param self -> ~ In param (kids (st s) self) ->
  exists n, link self param index s = (with_nt s n, Some HierarchyError) /\ nrest (nt s) n.
Proof.
  intros s self param index r H Hr Hrp Hrs Hnot Hk. pose proof (inv_st _ H) as W. destruct (inv_nt _ H) as [N1 N2].
  unfold link. destruct (omem param (kids (st s) self)) eqn:E; [apply omem_In in E; contradiction|]. unfold link_new.
  destruct (par (st s) param) as [pp|] eqn:Epp.
  2:{ assert (Er : r = param) by (apply (above_root (st s) r param W); auto). subst r. contradiction. }
  destruct (wf_up (st s) W param) as [l Hl].
  destruct (traverse_parents_spec (fuel (st s)) (st s) (Nat.eqb self) param l (nt s) [] W Hl (up_length _ _ _ W Hl)
              (fun y _ => N2 y) (N2 param)) as (n' & seen & e & ET & NR & _ & HT).
  rewrite ET, HT by (exists r, self; repeat (split; auto); apply Nat.eqb_refl). exists n'. auto.
Qed.
End Cmd.
