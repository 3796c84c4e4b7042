(** Linking and unlinking keep values and separate memory; histories that keep Params apart. *)
From Coq Require Import List ZArith Bool Lia Arith.
From Verif Require Import NpModel NpProofs IndexOpsModel IndexOpsSpec IndexOpsProofs PzModel PzSpec PzTree PzStruct PzLink PzWalk PzMem PzIo PzInv PzConn PzFix PzLinkMem PzPres PzUnlink PzTraverse PzNotify PzNew PzCmd PzInit PzCons PzVal PzOpt PzRandom PzGet CopyModel CopySpec CopyTree CopyDeep CopyJoin CopyConn CopyCall PzHist.
Import ListNotations.
Open Scope Z_scope.

Section Keep.
Context {V : Type}.
Implicit Types s : @state V.

Lemma kids_of_linked : forall t0 t1 self param k, linked t0 t1 self param k -> kids t0 self = [] -> kids t1 self = [param].
Proof. intros t0 t1 self param k L E. rewrite (ln_kids _ _ _ _ _ L), E. destruct k; reflexivity. Qed.

Lemma roomy_attach : forall s self param, roomy s self param -> ~ leftover (st s) self param (mem s).
Proof.
  intros s self param [[c [Hc _]]|[_ H]] [E (b & o & A)]; [rewrite E in Hc; destruct Hc|]. eapply H; eauto.
Qed.
Lemma roomy_reattach : forall s self param index pp s1 s2 k0, Inv s -> legal_link s self param index -> roomy s self param ->
  par (st s) param = Some pp -> st s1 = st s -> mem s1 = mem s -> Inv s2 -> detached s1 s2 pp param k0 ->
  ~ leftover (st s2) self param (mem s2).
Proof.
  intros s self param index pp s1 s2 k0 H L R Hpp E1 E2 H2 D [Ek (b & o & A)].
  pose proof (inv_st _ H) as W. pose proof (inv_st _ H2) as W2. pose proof (de_linked _ _ _ _ _ D) as Ld. rewrite E1 in Ld.
  destruct R as [[c [Hc Hne]]|[Hps Hn]].
  - destruct (Nat.eq_dec self pp) as [->|Hsp].
    + rewrite (kids_of_linked _ _ _ _ _ Ld Ek) in Hc. destruct Hc as [->|[]]. congruence.
    + rewrite (ln_kids' _ _ _ _ _ Ld) in Hc by auto. rewrite Ek in Hc. destruct Hc.
  - destruct (ll_old _ _ _ _ L pp Hpp) as [_ [[-> _]|Ho]]; [congruence|].
    assert (Hkid : In param (kids (st s) pp)) by (apply (PzTree.wf_par _ W); auto).
    destruct (root_exists (st s) pp W) as (r & or & nr & _ & Hr & Br).
    assert (Ar : above (st s) r pp) by (exists or, nr; auto).
    assert (Arp : above (st s) r param) by (eapply above_trans; [exact Ar | apply above_kid; auto]).
    assert (Hup : forall x y, above (st s2) x y -> above (st s) x y) by (intros; eapply linked_above; eauto using de_not).
    assert (E : arr (mem s2) self = arr (mem s1) self).
    { apply (de_arr _ _ _ _ _ D r); rewrite ?E1; auto. intros Q. apply (Ho r Arp Hr). auto. }
    rewrite E, E2 in A. apply (Hn _ _ _ A).
    symmetry. apply (ln_size' _ _ _ _ _ Ld). apply (de_not _ _ _ _ _ D).
Qed.

Lemma link_apart : forall s s' self param index, Inv s -> legal_link s self param index -> roomy s self param -> relinked s s' self param index ->
  apart s -> apart s'.
Proof.
  intros s s' self param index H L R Rl Ap. destruct Rl as [[Hp (k & _ & A)]|(pp & s1 & s2 & k0 & k & Hp & E1 & _ & _ & E4 & _ & H2 & D & _ & A)].
  - apply (at_disj _ _ _ _ _ A); auto. apply roomy_attach; auto.
  - apply (at_disj _ _ _ _ _ A).
    + apply (roomy_reattach s self param index pp s1 s2 k0); auto.
    + apply (de_disj _ _ _ _ _ D). rewrite E1, E4. exact Ap.
Qed.

Lemma exec_apart : forall tinit tf tfinv s c s' e, Inv s -> one s -> careful s c -> exec tinit tf tfinv c s = (s', e) -> apart s -> apart s'.
Proof.
  intros tinit tf tfinv s c s' e H O [L Cf] E Ap. pose proof (inv_st _ H) as W. destruct c; cbn [exec legal] in *.
  - destruct (new_leaf_ok s vals H) as (s2 & R & H' & G & _). rewrite R in E. inversion E; subst. apply (gr_disj _ _ G). exact Ap.
  - destruct (new_node_ok s ps initialize H L) as (s2 & R & H' & B). rewrite R in E. inversion E; subst. apply (bu_disj _ _ _ _ _ B). exact Ap.
  - destruct (bare_node_ok s H) as (s2 & R & H' & G & _). rewrite R in E. inversion E; subst. apply (gr_disj _ _ G). exact Ap.
  - destruct L as (Hx & Hk & Hi). destruct (ii_in _ (inv_init _ H) x Hi) as [Hp Hin].
    assert (H1 : Inv (with_st s (set_inited (set_in_init (st s) x false) x (Some false)))) by (apply finish_inv; auto; rewrite Hin; discriminate).
    set (s1 := with_st s (set_inited (set_in_init (st s) x false) x (Some false))) in *.
    assert (R1 : upd_st (fun t => set_inited (set_in_init t x false) x (Some false)) s = (s1, None)) by reflexivity.
    assert (A1 : apart s1) by exact Ap.
    unfold end_init in E. rewrite (andthen_ok _ _ _ _ R1) in E. destruct initialize.
    + destruct (initialize_ok s1 x x 0 0%nat H1) as (s2 & R2 & H2 & I2); auto; [constructor | cbn; apply upd_eq |].
      rewrite R2 in E. inversion E; subst. apply (in_disj _ _ _ I2). exact A1.
    + inversion E; subst. auto.
  - destruct L as [L|[Hk ->]].
    + destruct (link_ok s self param index H L) as (s2 & R & H' & Rl). rewrite R in E. injection E as <- <-. apply (link_apart s s2 self param index); auto.
    + rewrite (link_refused_kid s self param Hk) in E. inversion E; subst. auto.
  - destruct L as [Hs L]. destruct (in_dec Nat.eq_dec param (kids (st s) self)) as [Hk|Hk].
    + destruct (In_nth_error _ _ Hk) as [k Ek].
      destruct (unlink_ok s self param k H) as (s2 & R & H' & D); [constructor; auto; intros r A1 A2; apply L; [auto | split; auto]|].
      rewrite R in E. inversion E; subst. apply (de_disj _ _ _ _ _ D). exact Ap.
    + rewrite (unlink_refused s self param Hk) in E. inversion E; subst. auto.
  - destruct L as [Hx L]. destruct (root_out s x H) as (r & o & n & B & Hp).
    destruct (initialize_ok s x r o n H Hx B Hp) as (s2 & R2 & H2 & I2); [apply L; split; auto; exists o, n; auto|].
    rewrite R2 in E. inversion E; subst. apply (in_disj _ _ _ I2). exact Ap.
  - destruct L as (Hx & Ls & Rx). destruct (constrain_ok tinit s x sel n H Hx Rx Ls) as (s2 & l & R & H' & _ & D & _).
    rewrite R in E. inversion E; subst. auto.
  - destruct L as (Hx & Ls). destruct (unconstrain_ok s x sel ts H Hx Ls) as (s2 & R & H' & (Es & Em & _) & _).
    rewrite R in E. inversion E; subst. eapply apart_ext; eauto.
  - destruct L as (Hx & Ls). destruct (fix_ok s x sel H Hx Ls) as (s2 & l & R & H' & Es & Em & _).
    rewrite R in E. inversion E; subst. eapply apart_ext; eauto.
  - destruct L as (Hx & Ls). destruct (unfix_ok s x sel H Hx Ls) as (s2 & R & H' & (Es & Em & _) & _).
    rewrite R in E. inversion E; subst. eapply apart_ext; eauto.
  - destruct L as (Hx & Rx). destruct (assign_ok s x g H Hx Rx) as (s2 & l & R & H' & _ & D & _).
    rewrite R in E. inversion E; subst. auto.
  - destruct L as (Hx & Rx). destruct (free_exists s x H Hx) as [ks Hks].
    destruct (set_opt_ok tf s x p ks H Hx Rx (O x Hx) Hks) as (s2 & l & F & R & H' & _ & _ & D & _).
    rewrite R in E. inversion E; subst. auto.
  - destruct L as (Hx & Rx). destruct (get_any_ok tfinv s x H Hx Rx) as (l & s2 & R & H' & Ro). rewrite R in E. inversion E; subst.
    apply Ro; auto.
  - destruct (update_model_ok s x on H L) as (s2 & l & r & R & H' & _ & _ & Es & _ & _ & Em & _). rewrite R in E. inversion E; subst. eapply apart_ext; eauto.
  - destruct (trigger_full s x H L) as (s2 & l & R & (Es & _ & _ & Em & _) & _). rewrite R in E. inversion E; subst. eapply apart_ext; eauto.
  - destruct L as (Hx & Rx). destruct (free_exists s x H Hx) as [ks Hks].
    destruct (randomize_ok tf s x draw ks H Hx Rx (O x Hx) Hks) as (s2 & l & F & R & H' & _ & _ & D & _). rewrite R in E. inversion E; subst. auto.
  - destruct L as (Hx & Rx & Ix & Fx). destruct (copy_object_ok tfinv s x H Hx Rx Ix Fx) as (s2 & R & H' & (_ & _ & Q) & _).
    rewrite R in E. inversion E; subst. auto.
Qed.

Theorem reach_apart : forall tinit tf tfinv (ok : state -> @call V -> Prop) junk s, (forall s c, ok s c -> careful s c) -> reach tinit tf tfinv ok junk s -> apart s.
Proof.
  intros tinit tf tfinv ok junk s Hok R.
  assert (Hl : forall s c, ok s c -> legal s c) by (intros s0 c Q; apply (Hok s0 c Q)).
  induction R as [|s c s' e R IH L E].
  - intros x y b ox oy _ _ _ A. cbn in A. discriminate.
  - destruct (reach_inv tinit tf tfinv ok junk s Hl R) as [H O]. eapply exec_apart; eauto.
Qed.

(** ** Values *)
(** [x] is [n] levels below the root of its hierarchy. *)
Lemma unlink_values : forall s self param s', Inv s -> (self < next (st s))%nat -> In param (kids (st s) self) ->
  (forall r, top (st s) r self -> in_init (st s) r = false /\ inited (st s) r = Some true) ->
  (exists n, depth (st s) self n /\ (n <= 2)%nat) -> unlink self param s = (s', None) ->
  forall y j, (y < next (st s))%nat -> is_leaf (st s) y = true -> 0 <= j < size (st s) y -> value s' y j = value s y j.
Proof.
  intros s self param s' H Hs Hk Hr (n & (r & o & B & Hp) & Hn) E. destruct (In_nth_error _ _ Hk) as [k Ek].
  destruct (unlink_ok s self param k H) as (s2 & R & H' & D); [constructor; auto; intros q A1 A2; apply Hr; split; auto|].
  rewrite R in E. inversion E; subst. intros y j. apply kept_value; auto. apply (de_kept _ _ _ _ _ D).
  exists r, o, n. split; auto. split; auto. split; auto. apply Hr. split; auto. exists o, n. auto.
Qed.

(** An object stays at its depth when something is unlinked that it is not part of. *)
Lemma depth_keep : forall t t' param, swf t -> swf t' -> (forall y, y <> param -> par t' y = par t y) ->
  forall n r x o, below t r x o n -> ~ above t param x -> exists o', below t' r x o' n.
Proof.
  intros t t' param W W' Hp n. induction n as [|n IH]; intros r x o B Hx.
  - destruct (below_last _ _ _ _ _ B) as [(-> & _ & _)|(p & i & o' & n' & _ & _ & _ & Q)]; [|discriminate]. exists 0. constructor.
  - destruct (below_last _ _ _ _ _ B) as [(_ & _ & Q)|(p & i & o' & n' & B' & Hi & _ & Q)]; [discriminate|]. injection Q as <-.
    assert (Hk : In x (kids t p)) by (eapply nth_error_In; eauto).
    destruct (IH r p o' B') as [o1 B1]. { intros Q. apply Hx. eapply above_trans; [exact Q | apply above_kid; auto]. }
    assert (Hk' : In x (kids t' p)).
    { apply (PzTree.wf_par _ W'). rewrite Hp; [apply (PzTree.wf_par _ W); auto|]. intros ->. apply Hx. exists 0, 0%nat. constructor. }
    destruct (In_nth_error _ _ Hk') as [i' Hi']. replace (S n) with (n + 1)%nat by lia. eexists. eapply below_trans; [exact B1 | apply below_one; exact Hi'].
Qed.

Lemma link_values : forall s self param index s', Inv s -> legal_link s self param index -> roomy s self param ->
  (exists n, depth (st s) self n /\ (n <= 1)%nat) -> ready (st s) param ->
  (forall pp, par (st s) param = Some pp -> (exists n, depth (st s) pp n /\ (n <= 2)%nat) /\ forall r, top (st s) r pp -> inited (st s) r = Some true) ->
  link self param index s = (s', None) ->
  forall y j, (y < next (st s))%nat -> is_leaf (st s) y = true -> 0 <= j < size (st s) y -> value s' y j = value s y j.
Proof.
  intros s self param index s' H L Ro (n & (r & o & B & Hr) & Hn) Rp Hpp E y j Hy Hl Hj.
  destruct (link_ok s self param index H L) as (s3 & R & H' & Rl). rewrite R in E. inversion E; subst s3. clear E.
  pose proof (inv_st _ H) as W.
  destruct Rl as [[Hp (k & _ & A)]|(pp & s1 & s2 & k0 & k & Hp & E1 & _ & _ & E4 & _ & H2 & D & _ & A)].
  - apply kept_value; auto. apply (at_kept _ _ _ _ _ A); auto; [apply roomy_attach; auto | exists r, o, n; auto].
  - pose proof (inv_st _ H2) as W2.
    destruct (Hpp pp Hp) as [(n' & (r' & o' & B' & Hr') & Hn') Hi].
    assert (K1 : kept (st s1) (mem s1) (mem s2)).
    { apply (de_kept _ _ _ _ _ D). exists r', o', n'. rewrite E1. split; auto. split; auto. split; auto. apply Hi. split; auto. exists o', n'; auto. }
    rewrite E1, E4 in K1.
    assert (El : is_leaf (st s2) y = is_leaf (st s) y) by (rewrite <- E1; apply leaf_ext; apply (de_kind _ _ _ _ _ D)).
    assert (Es : size (st s2) y = size (st s) y).
    { symmetry. rewrite <- E1. apply (ln_size' _ _ _ _ _ (de_linked _ _ _ _ _ D)). apply (leaf_not_above (st s2)); auto; [congruence|].
      rewrite (leaf_ext _ _ _ (de_kind _ _ _ _ _ D pp)), E1. apply (kid_not_leaf (st s) pp param W). apply (PzTree.wf_par _ W). auto. }
    rewrite (kept_value s2 s' y j H2); [apply kept_value; auto | | rewrite (de_next _ _ _ _ _ D), E1; auto | congruence | congruence].
    apply (at_kept _ _ _ _ _ A).
    + apply (roomy_reattach s self param index pp s1 s2 k0); auto.
    + destruct (depth_keep (st s) (st s2) param W W2) with (n := n) (r := r) (x := self) (o := o) as [o2 B2]; auto.
      * intros z Hz. rewrite (de_parent _ _ _ _ _ D), E1. apply Nat.eqb_neq in Hz. rewrite Hz. auto.
      * apply (ll_not _ _ _ _ L).
      * exists r, o2, n. split; auto. split; auto. rewrite (de_parent _ _ _ _ _ D), E1.
        destruct (Nat.eqb r param) eqn:Q; auto.
    + destruct Rp as [Rp|Rp].
      * left. rewrite (leaf_ext _ _ _ (de_kind _ _ _ _ _ D param)), E1. auto.
      * right. assert (A' : above (st s1) r' pp) by (rewrite E1; exists o', n'; auto). assert (Hr1 : par (st s1) r' = None) by (rewrite E1; auto).
        destruct (de_inited _ _ _ _ _ D r' Hr1 A') as [_ Q]. rewrite Q, E1; auto.
        intros Ha. assert (r' = param).
        { apply (above_root (st s2) r' param); auto. rewrite (de_parent _ _ _ _ _ D), Nat.eqb_refl. auto. }
        subst r'. congruence.
Qed.
End Keep.
