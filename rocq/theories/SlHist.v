(** Parts of Params: effects of the calls, and what holds after each of them. *)
From Coq Require Import List ZArith Bool Lia Arith.
From Verif Require Import NpModel NpProofs IndexOpsModel IndexOpsSpec IndexOpsProofs PzModel PzSpec PzTree PzStruct PzLink PzWalk PzMem PzIo PzInv PzConn PzFix PzLinkMem PzPres PzUnlink PzTraverse PzNotify PzNew PzCmd PzInit PzCons PzVal PzKeep PzHist SlModel SlSpec SlProofs.
Import ListNotations.
Open Scope Z_scope.

Section Hist.
Context {V : Type}.
Implicit Types s : @state V.
Implicit Types z : @sstate V.
Variables tinit tf tfinv : nat -> V -> V.

Definition pgood z : Prop := forall k q, nth_error (parts z) k = Some (Some q) ->
  good (cur q) /\ (shared q = true -> exists lo hi step, cur q = Slice lo hi step).
Definition SInv z : Prop := Inv (base z) /\ one (base z) /\ pgood z.
Definition apartz z : Prop := apart (base z).

Lemma part_range : forall z k q l, SInv z -> part_at z k q l -> forall j, In j l -> 0 <= j < size (st (base z)) (of q).
Proof.
  intros z k q l (H & _ & G) [E C] j Hj. eapply positions_range; eauto; [|apply (G k q E)|apply (cu_pos _ _ _ C)]. apply size_nonneg. apply H.
Qed.
Lemma part_nodup : forall z k q l, SInv z -> part_at z k q l -> shared q = true -> NoDup l.
Proof.
  intros z k q l (H & _ & G) [E C] Sh. destruct (G k q E) as [Gd Gs]. destruct (Gs Sh) as (lo & hi & step & Ec).
  pose proof (cu_pos _ _ _ C) as Ep. rewrite Ec in *. eapply slice_nodup; eauto.
Qed.
Lemma on_part_eq : forall z k q l (c : piece -> @scmd V), part_at z k q l -> on_part k c z = c q z.
Proof. intros z k q l c [E _]. unfold on_part. rewrite E. auto. Qed.
Lemma part_sel : forall z k q l, SInv z -> part_at z k q l -> in_model z q l -> legal_sel (st (base z)) (of q) (Some l).
Proof. intros z k q l H P [Hp Hn]. split; [apply P|]. split; auto. split; auto. eapply part_range; eauto. Qed.

Lemma ran_updates : forall (n n' : @ntst V) l, ran n l n' -> updates n' = updates n.
Proof. intros. eapply ran_upd; eauto. Qed.

(** [q[...] = v] *)
Lemma assign_sl : forall z k q l g, SInv z -> part_at z k q l ->
  exists z' u, sexec tinit tf tfinv (PartAssign k g) z = (z', None) /\ parts z' = parts z /\ Inv (base z') /\ effect (base z) (base z') q l g /\
    st (base z') = st (base z) /\ ios (base z') = ios (base z) /\ up (st (base z)) (of q) u /\ ran (nt (base z)) (chain (st (base z)) (nt (base z)) u) (nt (base z')).
Proof.
  intros z k q l g H P. cbn [sexec]. rewrite (on_part_eq z k q l _ P). apply assign_part; [apply H | apply P | eapply part_range; eauto].
Qed.
Definition touches s (q : piece) (l : list Z) (y : oid) (j : Z) : Prop := exists k, selected (st s) (of q) (Some l) k /\ same_elem (st s) y j (of q) k.
Definition eff s s' (q : piece) (l : list Z) (v : option (Z -> V)) : Prop :=
  match v with Some v => effect s s' q l (fun k _ => v k) | None => mem s' = mem s end.
(** [q.fix(value)] *)
Lemma fix_sl : forall z k q l v, SInv z -> part_at z k q l -> in_model z q l ->
  exists z' tr, sexec tinit tf tfinv (PartFix k v) z = (z', None) /\ parts z' = parts z /\ Inv (base z') /\ eff (base z) (base z') q l v /\
    st (base z') = st (base z) /\ ran (nt (base z)) tr (nt (base z')) /\
    (exists u, up (st (base z)) (of q) u /\ tr = (match v with Some _ => chain (st (base z)) (nt (base z)) u | None => [] end) ++ chain (st (base z)) (nt (base z)) u) /\
    forall y p j, (y < next (st (base z)))%nat -> (has (base z') y p j <-> has (base z) y p j \/ (p = Fixed /\ touches (base z) q l y j)).
Proof.
  intros z k q l v H P M. cbn [sexec]. rewrite (on_part_eq z k q l _ P). unfold part_fix.
  pose proof (part_range z k q l H P) as Rg. pose proof (part_sel z k q l H P M) as Ls. pose proof P as [_ C]. destruct H as (H & O & G).
  assert (exists z1 u1, (match v with Some v => part_assign q (fun k _ => v k) | None => fun z => (z, None) end) z = (z1, None) /\ parts z1 = parts z /\ Inv (base z1) /\
    eff (base z) (base z1) q l v /\ arr (mem (base z1)) = arr (mem (base z)) /\ st (base z1) = st (base z) /\ ios (base z1) = ios (base z) /\ up (st (base z)) (of q) u1 /\
    ran (nt (base z)) (match v with Some _ => chain (st (base z)) (nt (base z)) u1 | None => [] end) (nt (base z1))) as (z1 & u1 & E1 & P1 & H1 & Ef & Ea & Es & Ei & U1 & Rn1).
  { destruct v as [v|].
    - destruct (assign_part z q l (fun k _ => v k) H C Rg) as (z1 & u & E1 & P1 & H1 & Ef & Es & Ei & U & Rn). exists z1, u. destruct Ef as (F1 & F2 & F3). repeat (split; auto); apply Rn.
    - destruct (wf_up (st (base z)) (inv_st _ H) (of q)) as [u Hu]. exists z, u. repeat (split; auto). }
  rewrite (sthen_ok _ _ _ _ E1). pose proof (ran_updates _ _ _ Rn1) as Eu.
  assert (C1 : current (base z1) q l) by (eapply current_ext; eauto).
  destruct (fix_ok (base z1) (of q) (Some l) H1) as (s2 & u2 & R2 & H2 & Es2 & Em2 & U2 & Rn2 & Hh); [rewrite Es; apply C | rewrite Es; auto |].
  rewrite <- (part_fix_eq (base z1) q l C1) in R2. rewrite (on_base_ok _ _ _ _ R2).
  rewrite Es in U2. pose proof (up_fun _ _ _ _ U1 U2) as <-.
  exists (with_base z1 s2). eexists. cbn [with_base base parts]. split; [reflexivity|]. split; auto. split; auto. split.
  { destruct v as [v|]; cbn [eff] in *; [|congruence]. destruct Ef as (F1 & F2 & F3). split; [|split].
    - intros Q. eapply changed_mem; [apply F1; auto|auto].
    - intros Q. rewrite Em2. auto.
    - congruence. }
  split; [congruence|]. split; [eapply ran_app; [exact Rn1|exact Rn2]|]. split.
  { exists u1. split; auto. f_equal. unfold chain. rewrite Es, Eu. auto. }
  intros y p j Hy. rewrite Hh by (rewrite Es; auto). rewrite Es. unfold touches, selected, has. rewrite Ei. tauto.
Qed.
(** [q.unfix()], [q.unconstrain( *ts)] *)
Lemma unfix_sl : forall z k q l, SInv z -> part_at z k q l -> in_model z q l ->
  exists z', sexec tinit tf tfinv (PartUnfix k) z = (z', None) /\ parts z' = parts z /\ Inv (base z') /\ framed (base z) (base z') /\
    forall y p j, (y < next (st (base z)))%nat -> (has (base z') y p j <-> has (base z) y p j /\ ~ (p = Fixed /\ touches (base z) q l y j)).
Proof.
  intros z k q l H P M. cbn [sexec]. rewrite (on_part_eq z k q l _ P). pose proof (part_sel z k q l H P M) as Ls. pose proof P as [_ C]. destruct H as (H & O & G).
  destruct (unfix_ok (base z) (of q) (Some l) H (cu_obj _ _ _ C) Ls) as (s' & R & H' & Io & Hh). rewrite <- (part_unfix_eq (base z) q l C) in R.
  rewrite (on_base_ok _ _ _ _ R). eexists. split; [reflexivity|]. cbn [with_base base parts]. split; auto.
Qed.
Lemma unconstrain_sl : forall z k q l ts, SInv z -> part_at z k q l -> in_model z q l ->
  exists z', sexec tinit tf tfinv (PartUnconstrain k ts) z = (z', None) /\ parts z' = parts z /\ Inv (base z') /\ framed (base z) (base z') /\
    forall y p j, (y < next (st (base z)))%nat -> (has (base z') y p j <-> has (base z) y p j /\ ~ ((ts = [] \/ In p ts) /\ touches (base z) q l y j)).
Proof.
  intros z k q l ts H P M. cbn [sexec]. rewrite (on_part_eq z k q l _ P). pose proof (part_sel z k q l H P M) as Ls. pose proof P as [_ C]. destruct H as (H & O & G).
  destruct (unconstrain_ok (base z) (of q) (Some l) ts H (cu_obj _ _ _ C) Ls) as (s' & R & H' & Io & Hh). rewrite <- (part_unconstrain_eq (base z) q l ts C) in R.
  rewrite (on_base_ok _ _ _ _ R). eexists. split; [reflexivity|]. cbn [with_base base parts]. split; auto.
Qed.
(** [q.constrain(n)] *)
Lemma constrain_sl : forall z k q l n, SInv z -> part_at z k q l -> in_model z q l ->
  exists z' tr, sexec tinit tf tfinv (PartConstrain k n) z = (z', None) /\ parts z' = parts z /\ Inv (base z') /\ effect (base z) (base z') q l (fun _ => tinit n) /\
    st (base z') = st (base z) /\ ran (nt (base z)) tr (nt (base z')) /\ (exists u, up (st (base z)) (of q) u /\ tr = chain (st (base z)) (nt (base z)) u ++ chain (st (base z)) (nt (base z)) u) /\
    forall y p j, (y < next (st (base z)))%nat -> (has (base z') y p j <-> (has (base z) y p j /\ ~ touches (base z) q l y j) \/ (p = Tr n /\ touches (base z) q l y j)).
Proof.
  intros z k q l n H P M. cbn [sexec]. rewrite (on_part_eq z k q l _ P). unfold part_constrain.
  pose proof (part_range z k q l H P) as Rg. pose proof (part_sel z k q l H P M) as Ls. pose proof P as [_ C]. destruct H as (H & O & G).
  destruct (assign_part z q l (fun _ => tinit n) H C Rg) as (z1 & u & E1 & P1 & H1 & Ef & Es & Ei & U & Rn). rewrite (sthen_ok _ _ _ _ E1).
  pose proof (ran_updates _ _ _ Rn) as Eu. pose proof Ef as (F1 & F2 & F3).
  assert (C1 : current (base z1) q l) by (eapply current_ext; eauto).
  destruct (unconstrain_ok (base z1) (of q) (Some l) [] H1) as (s3 & R3 & H3 & O3 & Q3); [rewrite Es; apply C | rewrite Es; auto |].
  rewrite <- (part_unconstrain_eq (base z1) q l [] C1) in R3. pose proof O3 as (G1 & G2 & G3).
  assert (C3 : current s3 q l) by (eapply framed_current; eauto).
  destruct (add_cons_ok s3 (of q) (Some l) n H3) as (s4 & R4 & H4 & O4 & Q4); [rewrite G1, Es; apply C | rewrite G1, Es; auto |].
  rewrite <- (part_add_eq s3 q l (Tr n) C3) in R4. pose proof O4 as (K1 & K2 & K3).
  assert (C4 : current s4 q l) by (eapply framed_current; eauto).
  destruct (notify_cmd s4 (of q) H4) as (s5 & u5 & R5 & U5 & O5). pose proof O5 as (L1 & L2 & L3 & L4 & L5).
  assert (E : st s4 = st (base z)) by congruence. rewrite E in U5, L5. pose proof (up_fun _ _ _ _ U U5) as <-.
  assert (Eu4 : updates (nt s4) = updates (nt (base z))) by congruence.
  assert (exists s5, part_trigger q s4 = (s5, None) /\ only_ran s4 (chain (st (base z)) (nt (base z)) u) s5) as (s6 & R6 & O6).
  { unfold part_trigger. destruct (pon q) eqn:Ep.
    - rewrite (part_notify_eq s4 q l C4). exists s5. split; auto. unfold chain in *. rewrite <- Eu4. repeat (split; auto); apply L5.
    - exists s4. split; auto. assert (Ec : chain (st (base z)) (nt (base z)) u = []).
      { unfold chain. pose proof (cu_on _ _ _ C) as Eo. rewrite Ep in Eo. inversion U; subst; cbn [takewhile]; rewrite <- Eo; auto. }
      rewrite Ec. repeat (split; auto). }
  assert (R : andthen (part_unconstrain q []) (andthen (part_add q (Tr n)) (part_trigger q)) (base z1) = (s6, None)).
  { rewrite (andthen_ok _ _ _ _ R3), (andthen_ok _ _ _ _ R4). auto. }
  rewrite (on_base_ok _ _ _ _ R). pose proof O6 as (N1 & N2 & N3 & N4 & N5).
  assert (Em : mem s6 = mem (base z1)) by congruence.
  eexists. eexists. split; [reflexivity|]. cbn [with_base base parts]. split; auto. split; [eapply only_ran_inv; eauto|]. split.
  { split; [intros Q; eapply changed_mem; [apply F1; auto|auto]|]. split; [intros Q; rewrite Em; auto|congruence]. }
  split; [congruence|]. split; [eapply ran_app; [exact Rn|]; rewrite <- G3, <- K3; exact N5|]. split; [exists u; auto|].
  intros y p j Hy. rewrite (only_ran_has _ _ _ O6). rewrite Q4 by (rewrite G1, Es; auto). rewrite Q3 by (rewrite Es; auto).
  assert (Hh : has (base z1) y p j <-> has (base z) y p j) by (apply has_ext; auto). rewrite Hh, G1, Es. unfold touches. tauto.
Qed.
End Hist.
