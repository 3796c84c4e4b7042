(** Histories of calls on parameter hierarchies, and what holds after each of them. *)
From Coq Require Import List ZArith Bool Lia Arith.
From Verif Require Import NpModel NpProofs IndexOpsModel IndexOpsSpec IndexOpsProofs PzModel PzSpec PzTree PzStruct PzLink PzWalk PzMem PzIo PzInv PzConn PzFix PzLinkMem PzPres PzUnlink PzTraverse PzNotify PzNew PzCmd PzInit PzCons PzVal PzOpt PzRandom PzGet CopyModel CopySpec CopyTree CopyDeep CopyJoin CopyConn CopyCall.
Import ListNotations.
Open Scope Z_scope.

Section Hist.
Context {V : Type}.
Implicit Types s : @state V.
Variables tinit tf tfinv : nat -> V -> V.

Definition one s : Prop := forall x, (x < next (st s))%nat -> one_tr s x.

Lemma init_inv : forall junk, Inv (@init_state V junk).
Proof.
  intros junk.
  assert (W : swf (st (@init_state V junk))).
  { constructor; cbn; auto; try discriminate.
    - exists (fun _ => 0%nat). intros x y [].
    - intros x y. split; [intros [] | discriminate].
    - intros x i y H. destruct i; discriminate. }
  constructor; auto.
  - constructor; cbn; intros; try lia.
  - intros q Hq. cbn in Hq. lia.
  - constructor; cbn; try (intros; first [lia | discriminate]).
  - split; reflexivity.
  - constructor; cbn; intros; first [lia | discriminate].
Qed.

(** It is enough to look at the Params. *)
Lemma one_leaf : forall s, Inv s -> (forall y, (y < next (st s))%nat -> is_leaf (st s) y = true -> one_tr s y) -> one s.
Proof.
  intros s H Hl x Hx k n m Hn Hm. pose proof (has_range s x _ k H Hx Hn) as Hk.
  destruct (cover_elem (st s) x k (inv_st _ H) Hk) as (z & i & Hz & Ha & Se).
  assert (Hzn : (z < next (st s))%nat) by (eapply above_lt'; eauto).
  apply (Hl z Hzn Hz i); [apply (same_has s x k z i (Tr n) H Hx Se) | apply (same_has s x k z i (Tr m) H Hx Se)]; auto.
Qed.
Lemma one_ext : forall s s', Inv s' -> one s -> (forall y, (y < next (st s'))%nat -> is_leaf (st s') y = true -> forall n j, has s' y (Tr n) j -> (y < next (st s))%nat /\ has s y (Tr n) j) -> one s'.
Proof.
  intros s s' H' O Hx. apply one_leaf; auto. intros y Hy Hl k n m H1 H2. destruct (Hx y Hy Hl n k H1) as [Hy' Q]. apply (O y Hy' k); auto. apply (Hx y Hy Hl m k H2).
Qed.

Lemma root_out : forall s x, Inv s -> exists r o n, below (st s) r x o n /\ par (st s) r = None.
Proof. intros s x H. destruct (root_exists (st s) x (inv_st _ H)) as (r & o & n & _ & Hp & B). eauto. Qed.

(** Every legal call succeeds or is refused without effect, and keeps the invariant. *)
Lemma exec_ok : forall s c, Inv s -> one s -> legal s c -> exists s' e, exec tinit tf tfinv c s = (s', e) /\ Inv s' /\ one s' /\
  (e = None \/ s' = s /\ forall t, st t = st s -> exec tinit tf tfinv c t = (t, e)).
Proof.
  intros s c H O L. pose proof (inv_st _ H) as W. destruct c; cbn [exec legal] in *.
  - destruct (new_leaf_ok s vals H) as (s' & R & H' & G & _). exists s', None. split; auto. split; auto. split; auto.
    apply (one_ext s); auto. intros y Hy Hl n j Hh. destruct (Nat.eq_dec y (next (st s))) as [->|Hne].
    + exfalso. apply (gr_has_new _ _ G (Tr n) j). auto.
    + rewrite (gr_next _ _ G) in Hy. assert (y < next (st s))%nat by lia. split; auto. apply (gr_has _ _ G); auto.
  - destruct (new_node_ok s ps initialize H L) as (s' & R & H' & B). exists s', None. split; auto. split; auto. split; auto.
    apply (one_ext s); auto. intros y Hy Hl n j Hh. rewrite (bu_next _ _ _ _ _ B) in Hy.
    assert (y <> next (st s)). { intros ->. unfold is_leaf in Hl. rewrite (proj1 (bu_kind _ _ _ _ _ B)) in Hl. discriminate. }
    assert (y < next (st s))%nat by lia. split; auto. apply (bu_has _ _ _ _ _ B); auto.
  - destruct (bare_node_ok s H) as (s' & R & H' & G & _). exists s', None. split; auto. split; auto. split; auto.
    apply (one_ext s); auto. intros y Hy Hl n j Hh. destruct (Nat.eq_dec y (next (st s))) as [->|Hne].
    + exfalso. apply (gr_has_new _ _ G (Tr n) j). auto.
    + rewrite (gr_next _ _ G) in Hy. assert (y < next (st s))%nat by lia. split; auto. apply (gr_has _ _ G); auto.
  - destruct L as (Hx & Hk & Hi). destruct (ii_in _ (inv_init _ H) x Hi) as [Hp Hin].
    assert (H1 : Inv (with_st s (set_inited (set_in_init (st s) x false) x (Some false)))) by (apply finish_inv; auto; rewrite Hin; discriminate).
    set (s1 := with_st s (set_inited (set_in_init (st s) x false) x (Some false))) in *.
    assert (R1 : upd_st (fun t => set_inited (set_in_init t x false) x (Some false)) s = (s1, None)) by reflexivity.
    assert (O1 : one s1) by (apply (one_ext s); auto).
    unfold end_init. rewrite (andthen_ok _ _ _ _ R1). destruct initialize.
    + destruct (initialize_ok s1 x x 0 0%nat H1) as (s2 & R2 & H2 & I2); auto; [constructor | cbn; apply upd_eq |].
      exists s2, None. split; auto. split; auto. split; auto. apply (one_ext s1); auto. intros y Hy Hl n j Hh.
      rewrite (proj1 (in_same _ _ _ I2)) in Hy. split; auto. apply (in_has _ _ _ I2); auto.
    + exists s1, None. auto.
  - destruct L as [L|[Hk ->]].
    + destruct (link_ok s self param index H L) as (s' & R & H' & Rl). exists s', None. split; auto. split; auto. split; auto.
      destruct (relinked_next _ _ _ _ _ Rl) as [Nx Kd].
      apply (one_ext s); auto. intros y Hy Hl n j Hh. rewrite Nx in Hy. split; auto. rewrite (leaf_ext _ _ _ (Kd y)) in Hl.
      apply (relinked_leaf s s' self param index H H' Rl); auto.
    + rewrite (link_refused_kid s self param Hk). exists s, (Some HierarchyError). split; auto. split; auto. split; auto. right. split; auto. intros t Et. apply link_refused_kid. rewrite Et. auto.
  - destruct L as [Hs L]. destruct (in_dec Nat.eq_dec param (kids (st s) self)) as [Hk|Hk].
    + destruct (In_nth_error _ _ Hk) as [k Ek].
      destruct (unlink_ok s self param k H) as (s' & R & H' & D); [constructor; auto; intros r A1 A2; apply L; [auto | split; auto]|].
      exists s', None. split; auto. split; auto. split; auto.
      apply (one_ext s); auto. intros y Hy Hl n j Hh. rewrite (de_next _ _ _ _ _ D) in Hy. split; auto.
      rewrite (leaf_ext _ _ _ (de_kind _ _ _ _ _ D y)) in Hl. apply (detached_leaf s s' self param k H D); auto.
    + rewrite (unlink_refused s self param Hk). exists s, (Some HierarchyError). split; auto. split; auto. split; auto. right. split; auto. intros t Et. apply unlink_refused. rewrite Et. auto.
  - destruct L as [Hx L]. destruct (root_out s x H) as (r & o & n & B & Hp).
    destruct (initialize_ok s x r o n H Hx B Hp) as (s2 & R2 & H2 & I2); [apply L; split; auto; exists o, n; auto|].
    exists s2, None. split; auto. split; auto. split; auto. apply (one_ext s); auto. intros y Hy Hl m j Hh.
    rewrite (proj1 (in_same _ _ _ I2)) in Hy. split; auto. apply (in_has _ _ _ I2); auto.
  - destruct L as (Hx & Ls & Rx). destruct (constrain_ok tinit s x sel n H Hx Rx Ls) as (s' & l & R & H' & _ & _ & Es & _ & Hh).
    exists s', None. split; auto. split; auto. split; auto. apply one_leaf; auto. rewrite Es. intros y Hy Hl k a b Ha Hb.
    apply Hh in Ha; auto. apply Hh in Hb; auto. destruct Ha as [[Ha Na]|[Ea Ka]]; destruct Hb as [[Hb Nb]|[Eb Kb]]; try contradiction.
    + apply (O y Hy k); auto.
    + congruence.
  - destruct L as (Hx & Ls). destruct (unconstrain_ok s x sel ts H Hx Ls) as (s' & R & H' & (Es & _) & Hh).
    exists s', None. split; auto. split; auto. split; auto. apply (one_ext s); auto. rewrite Es. intros y Hy Hl n j Hj. split; auto. apply Hh in Hj; tauto.
  - destruct L as (Hx & Ls). destruct (fix_ok s x sel H Hx Ls) as (s' & l & R & H' & Es & _ & _ & _ & Hh).
    exists s', None. split; auto. split; auto. split; auto. apply (one_ext s); auto. rewrite Es. intros y Hy Hl n j Hj. split; auto. apply Hh in Hj; auto.
    destruct Hj as [Hj|[Q _]]; [auto | discriminate].
  - destruct L as (Hx & Ls). destruct (unfix_ok s x sel H Hx Ls) as (s' & R & H' & (Es & _) & Hh).
    exists s', None. split; auto. split; auto. split; auto. apply (one_ext s); auto. rewrite Es. intros y Hy Hl n j Hj. split; auto. apply Hh in Hj; tauto.
  - destruct L as (Hx & Rx). destruct (assign_ok s x g H Hx Rx) as (s' & l & R & H' & _ & _ & Es & Ei & _).
    exists s', None. split; auto. split; auto. split; auto. apply (one_ext s); auto. rewrite Es. intros y Hy Hl n j Hj. split; auto. apply (has_ext s s'); auto.
  - destruct L as (Hx & Rx). destruct (free_exists s x H Hx) as [ks Hks].
    destruct (set_opt_ok tf s x p ks H Hx Rx (O x Hx) Hks) as (s' & l & F & R & H' & _ & _ & _ & Es & Ei & _).
    exists s', None. split; auto. split; auto. split; auto. apply (one_ext s); auto. rewrite Es. intros y Hy Hl n j Hj. split; auto. apply (has_ext s s'); auto.
  - destruct L as (Hx & Rx). destruct (get_any_ok tfinv s x H Hx Rx) as (l & s' & R & H' & (Es & Ei & _)). exists s', None. rewrite R. split; auto. split; auto. split; auto.
    apply (one_ext s); auto. rewrite Es. intros y Hy Hl n j Hj. split; auto. apply (has_ext s s'); auto.
  - destruct (update_model_ok s x on H L) as (s' & l & r & R & H' & _ & _ & Es & Ei & _). exists s', None. split; auto. split; auto. split; auto.
    apply (one_ext s); auto. rewrite Es. intros y Hy Hl n j Hj. split; auto. apply (has_ext s s'); auto.
  - destruct (trigger_full s x H L) as (s' & l & R & Or & _). exists s', None. split; auto. pose proof (only_ran_inv _ _ _ Or H) as H'. split; auto. split; auto.
    apply (one_ext s); auto. destruct Or as (Es & Ei & _). rewrite Es. intros y Hy Hl n j Hj. split; auto. apply (has_ext s s'); auto.
  - destruct L as (Hx & Rx). destruct (free_exists s x H Hx) as [ks Hks].
    destruct (randomize_ok tf s x draw ks H Hx Rx (O x Hx) Hks) as (s' & l & F & R & H' & _ & _ & _ & Es & Ei & _).
    exists s', None. split; auto. split; auto. split; auto. apply (one_ext s); auto. rewrite Es. intros y Hy Hl n j Hj. split; auto. apply (has_ext s s'); auto.
  - destruct L as (Hx & Rx & Ix & Fx). destruct (copy_object_ok tfinv s x H Hx Rx Ix Fx) as (s' & R & H' & (Co & Un & _) & _).
    exists s', None. split; auto. split; auto. split; auto. apply one_leaf; auto. intros y Hy Hl k a b Ha Hb.
    destruct (Nat.lt_ge_cases y (next (st s))) as [Hlt|Hge].
    + destruct (Un y Hlt) as (A & _). apply (O y Hlt k); apply (aw_has _ _ _ _ A); auto.
    + destruct (copy_source s s' x (next (st s)) y Co) as (path & z & Ez & _ & A); [lia|].
      assert (Hz : (z < next (st s))%nat) by (apply follow_below in Ez; destruct Ez as (o & n & B); eapply above_lt'; eauto; exists o, n; auto).
      apply (O z Hz k); apply (aw_has _ _ _ _ A); auto.
Qed.

Lemma init_one : forall junk, one (@init_state V junk).
Proof. intros junk x Hx. cbn in Hx. lia. Qed.

Theorem reach_inv : forall (ok : state -> call -> Prop) junk s, (forall s c, ok s c -> legal s c) -> reach tinit tf tfinv ok junk s -> Inv s /\ one s.
Proof.
  intros ok junk s Hok R. induction R as [|s c s' e R [H O] L E]; [split; [apply init_inv | apply init_one]|].
  destruct (exec_ok s c H O (Hok _ _ L)) as (s2 & e2 & E2 & H2 & O2 & _). rewrite E in E2. inversion E2; subst. auto.
Qed.
End Hist.
