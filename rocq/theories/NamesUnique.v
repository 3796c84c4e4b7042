(** Proofs about the names and attributes of the children of one object. *)
From Coq Require Import List NArith Bool String Ascii Arith Lia DecimalN.
From Verif Require Import NamesModel NamesSpec NamesProofs.
Import ListNotations.
Open Scope list_scope.

Lemma streq_iff : forall a b, streq a b = true <-> a = b.
Proof. intros. unfold streq. destruct (list_eq_dec N.eq_dec a b); split; auto; discriminate. Qed.
Lemma streq_refl : forall a, streq a a = true.
Proof. intros. apply streq_iff. auto. Qed.

(** A name that no other child has. *)
Definition alone (s : nst) (p : nat) : Prop := forall q, In q (kids s) -> q <> p -> nm s q <> nm s p.
Lemma distinct_alone : forall s, distinct s <-> (forall p, In p (kids s) -> alone s p).
Proof.
  intros s. unfold distinct, distinct_among, alone. split; intros H.
  - intros p Hp q Hq N1. apply H; auto.
  - intros p q Hp Hq N1. apply H; auto.
Qed.
Lemma find_none_alone : forall s p, find (fun o => negb (Nat.eqb o p) && streq (nm s o) (nm s p)) (kids s) = None -> alone s p.
Proof.
  intros s p H q Hq N1 E. apply (find_none _ _ H) in Hq.
  rewrite E, streq_refl, andb_true_r in Hq. apply negb_false_iff, Nat.eqb_eq in Hq. auto.
Qed.
Lemma alone_find_none : forall s p, alone s p -> find (fun o => negb (Nat.eqb o p) && streq (nm s o) (nm s p)) (kids s) = None.
Proof.
  intros s p H. destruct (find _ _) eqn:E; auto. exfalso. apply find_some in E as [I1 E].
  apply andb_true_iff in E as [E1 E2]. apply negb_true_iff, Nat.eqb_neq in E1. apply streq_iff in E2.
  apply (H n I1 E1 E2).
Qed.
Lemma find_some_two : forall s p o, find (fun o => negb (Nat.eqb o p) && streq (nm s o) (nm s p)) (kids s) = Some o ->
  In o (kids s) /\ o <> p /\ nm s o = nm s p.
Proof.
  intros s p o E. apply find_some in E as [I1 E]. apply andb_true_iff in E as [E1 E2].
  apply negb_true_iff, Nat.eqb_neq in E1. apply streq_iff in E2. auto.
Qed.

(** The name is an attribute of the object. *)
Definition there (s : nst) (p : nat) : Prop :=
  exists n, adjust (nm s p) = Some n /\ has_attr s n || reserved s n = true.
Definition complete (s : nst) : Prop := forall p, In p (kids s) -> there s p.
Definition more (s s' : nst) : Prop :=
  kids s' = kids s /\ nm s' = nm s /\ reserved s' = reserved s /\ (forall n, has_attr s n = true -> has_attr s' n = true).
Lemma more_refl : forall s, more s s.
Proof. intros; repeat split; auto. Qed.
Lemma more_trans : forall a b c, more a b -> more b c -> more a c.
Proof.
  intros a b c (A1 & A2 & A3 & A4) (B1 & B2 & B3 & B4).
  split; [congruence|]. split; [congruence|]. split; [congruence|]. auto.
Qed.
Lemma more_there : forall s s' p, more s s' -> there s p -> there s' p.
Proof.
  intros s s' p (E1 & E2 & E3 & E4) (n & A & B). exists n. rewrite E2, E3. split; auto.
  apply orb_true_iff in B as [B|B]; apply orb_true_iff; auto.
Qed.
Lemma more_alone : forall s s' p, more s s' -> alone s p -> alone s' p.
Proof. intros s s' p (E1 & E2 & _) H. unfold alone. rewrite E1, E2. exact H. Qed.
Lemma more_distinct : forall s s', more s s' -> distinct s -> distinct s'.
Proof. intros s s' (E1 & E2 & _) H. unfold distinct, distinct_among. rewrite E1, E2. exact H. Qed.
Lemma more_complete : forall s s', more s s' -> complete s -> complete s'.
Proof. intros s s' M H p Hp. apply (more_there s); auto. apply H. destruct M as (E & _). rewrite <- E. auto. Qed.

(** A child whose name nobody else has. *)
Lemma add_alone : forall f p s, alone s p -> 
  (exists e, add_name f p s = (s, Some e)) \/ (exists s', add_name f p s = (s', None) /\ more s s' /\ there s' p).
Proof.
  intros f p s H. destruct f; cbn [add_name]; [left; eauto|].
  destruct (adjust (nm s p)) as [n|] eqn:A; [|left; eauto].
  rewrite (alone_find_none s p H). right. destruct (has_attr s n || reserved s n) eqn:B.
  - exists s. split; auto. split; [apply more_refl|]. exists n. auto.
  - exists (set_attrs s ((n, p) :: attrs s)). split; auto. split.
    + repeat split. intros m Hm. unfold has_attr in *. cbn [set_attrs attrs existsb]. rewrite Hm. apply orb_true_r.
    + exists n. split; auto. apply orb_true_iff. left. unfold has_attr. cbn [set_attrs attrs existsb fst].
      rewrite streq_refl. reflexivity.
Qed.

Lemma each_nil : forall g s, each g [] s = (s, None).
Proof. reflexivity. Qed.
Lemma each_cons : forall g p l s, each g (p :: l) s = match g p s with (s', None) => each g l s' | r => r end.
Proof.
  intros. unfold each. cbn [fold_left]. destruct (g p s) as [s' [e|]]; auto.
  induction l; auto.
Qed.
Lemma each_app : forall g l l' s, each g (l ++ l') s = match each g l s with (s', None) => each g l' s' | r => r end.
Proof.
  intros g l l'. induction l as [|p l IH]; intros s; cbn [app].
  - reflexivity.
  - rewrite !each_cons. destruct (g p s) as [s' [e|]]; auto.
Qed.

(** ** After a successful call the names differ *)
Definition good (s s' : nst) : Prop := kids s' = kids s /\ reserved s' = reserved s.
Definition settled (s : nst) : Prop := distinct s /\ complete s.
Lemma settled_add : forall f p s s' e, settled s -> In p (kids s) -> add_name f p s = (s', e) ->
  more s s' /\ (e = None -> settled s').
Proof.
  intros f p s s' e [D C] Hp E. apply distinct_alone with (p := p) in D as A; auto.
  destruct (add_alone f p s A) as [(x & E1)|(s1 & E1 & M & T)]; rewrite E in E1; injection E1 as -> ->.
  - split; [apply more_refl|discriminate].
  - split; auto. intros _. split; [eapply more_distinct; eauto|eapply more_complete; eauto].
Qed.
Lemma each_add : forall f l s s' (IH : forall p s s', In p (kids s) -> add_name f p s = (s', None) ->
    good s s' /\ ((more s s' /\ alone s p /\ there s' p) \/ settled s')),
  incl l (kids s) -> each (add_name f) l s = (s', None) ->
  good s s' /\ ((more s s' /\ forall p, In p l -> alone s p /\ there s' p) \/ settled s').
Proof.
  intros f l. induction l as [|p l IHl]; intros s s' IH Hl E.
  - rewrite each_nil in E. injection E as <-. split; [split; auto|]. left. split; [apply more_refl|]. intros p [].
  - rewrite each_cons in E. destruct (add_name f p s) as [s1 [e|]] eqn:E1; [discriminate|].
    destruct (IH p s s1 (Hl p (or_introl eq_refl)) E1) as [(K1 & R1) H1].
    assert (Hl1 : incl l (kids s1)). { intros q Hq. rewrite K1. apply Hl. right; auto. }
    destruct (IHl s1 s' IH Hl1 E) as [(K2 & R2) H2].
    split; [split; congruence|].
    destruct H1 as [(M1 & A1 & T1)|S1].
    + destruct H2 as [(M2 & H2)|S2]; [left|right; auto]. split; [eapply more_trans; eauto|].
      intros q [<-|Hq].
      * split; auto. eapply more_there; eauto.
      * destruct (H2 q Hq) as [A2 T2]. split; auto. destruct M1 as (E1' & E2' & _). unfold alone in *. rewrite E1', E2' in A2. auto.
    + destruct H2 as [(M2 & H2)|S2]; right; auto. destruct S1. split; [eapply more_distinct; eauto|eapply more_complete; eauto].
Qed.
Lemma connect_settled_gen : forall f s s' (IH : forall p s s', In p (kids s) -> add_name f p s = (s', None) ->
    good s s' /\ ((more s s' /\ alone s p /\ there s' p) \/ settled s')),
  connect f s = (s', None) -> good s s' /\ settled s'.
Proof.
  intros f s s' IH E. destruct (each_add f (kids s) s s' IH (incl_refl _) E) as [G [(M & H)|S1]]; split; auto.
  destruct G as (K & R). split.
  - apply (more_distinct s); auto. apply distinct_alone. intros p Hp. apply H; auto.
  - intros p Hp. rewrite K in Hp. apply H; auto.
Qed.
Lemma add_spec : forall f p s s', In p (kids s) -> add_name f p s = (s', None) ->
  good s s' /\ ((more s s' /\ alone s p /\ there s' p) \/ settled s').
Proof.
  induction f; intros p s s' Hp E; [discriminate|]. cbn [add_name] in E.
  destruct (adjust (nm s p)) as [n|] eqn:A; [|discriminate].
  destruct (find (fun o => negb (Nat.eqb o p) && streq (nm s o) (nm s p)) (kids s)) as [o|] eqn:F.
  - apply find_some_two in F as (Ho & N1 & En).
    destruct (each (add_name f) (kids (drop_attr (set_nm s o (next_name (nm s o))) n)) (drop_attr (set_nm s o (next_name (nm s o))) n))
      as [s2 [e|]] eqn:E2; [discriminate|].
    destruct (connect_settled_gen f _ s2 IHf E2) as [(K2 & R2) S2]. cbn in K2, R2.
    destruct (add_name f o s2) as [s3 [e|]] eqn:E3; [discriminate|].
    assert (Ho2 : In o (kids s2)) by (rewrite K2; auto).
    destruct (settled_add f o s2 s3 None S2 Ho2 E3) as [M3 S3]. specialize (S3 eq_refl).
    assert (Ho3 : In o (kids s3)) by (destruct M3 as (K3 & _); rewrite K3; auto).
    destruct (settled_add f o s3 s' None S3 Ho3 E) as [M4 S4]. specialize (S4 eq_refl).
    destruct M3 as (K3 & _ & R3 & _). destruct M4 as (K4 & _ & R4 & _).
    split; [split; congruence|]. right. auto.
  - apply find_none_alone in F. destruct (has_attr s n || reserved s n) eqn:B; injection E as <-.
    + split; [split; auto|]. left. split; [apply more_refl|]. split; auto. exists n. auto.
    + split; [split; auto|]. left. split; [|split; auto].
      * repeat split. intros m Hm. unfold has_attr in *. cbn [set_attrs attrs existsb]. rewrite Hm. apply orb_true_r.
      * exists n. split; auto. apply orb_true_iff. left. unfold has_attr. cbn [set_attrs attrs existsb fst].
        rewrite streq_refl. reflexivity.
Qed.
Lemma connect_settled : forall f s s', connect f s = (s', None) -> good s s' /\ settled s'.
Proof. intros f s s'. apply connect_settled_gen. apply add_spec. Qed.

(** Any outcome: the children stay. *)
Lemma add_good : forall f p s, good s (fst (add_name f p s)).
Proof.
  induction f; intros p s; cbn [add_name]; [split; auto|].
  destruct (adjust (nm s p)) as [n|]; [|split; auto].
  destruct (find _ (kids s)) as [o|].
  - assert (Each : forall l s, good s (fst (each (add_name f) l s))).
    { induction l as [|q l IHl]; intros t; [split; auto|]. rewrite each_cons.
      pose proof (IHf q t) as G. destruct (add_name f q t) as [t1 [e|]]; auto. cbn in G.
      destruct G as (G1 & G2). destruct (IHl t1) as (G3 & G4). split; congruence. }
    set (s1 := drop_attr (set_nm s o (next_name (nm s o))) n). pose proof (Each (kids s1) s1) as G.
    change (good s1) with (good s) in G. clearbody s1.
    destruct (each (add_name f) (kids s1) s1) as [s2 [e|]]; [exact G|]. cbn in G.
    pose proof (IHf o s2) as G2. destruct (add_name f o s2) as [s3 [e|]]; cbn in G2.
    + cbn. destruct G, G2. split; congruence.
    + pose proof (IHf o s3) as G3. destruct G, G2, G3. split; congruence.
  - destruct (_ || _); split; auto.
Qed.
Lemma each_good : forall f l s, good s (fst (each (add_name f) l s)).
Proof.
  intros f. induction l as [|q l IHl]; intros t; [split; auto|]. rewrite each_cons.
  pose proof (add_good f q t) as G. destruct (add_name f q t) as [t1 [e|]]; auto. cbn in G.
  destruct G as (G1 & G2). destruct (IHl t1) as (G3 & G4). split; congruence.
Qed.
Lemma connect_good : forall f s, good s (fst (connect f s)).
Proof. intros. apply each_good. Qed.

(** ** Different names are not touched, and earlier children keep theirs *)
Definition keeps (l : list nat) (s s' : nst) : Prop := forall p, In p l -> nm s' p = nm s p.
Lemma keeps_trans : forall l a b c, keeps l a b -> keeps l b c -> keeps l a c.
Proof. intros l a b c H1 H2 p Hp. rewrite H2, H1; auto. Qed.
Lemma more_keeps : forall l s s', more s s' -> keeps l s s'.
Proof. intros l s s' (_ & E & _) p _. rewrite E. auto. Qed.
(** The children in [l] have names that nobody else has. *)
Definition taken (s : nst) (l : list nat) : Prop := forall p, In p l -> alone s p.
Lemma add_keeps : forall f p s pre post
  (IH : forall s pre post, kids s = pre ++ post -> distinct_among s pre -> keeps pre s (fst (connect f s))),
  kids s = pre ++ post -> distinct_among s pre -> In p (kids s) -> (In p pre \/ taken s pre) ->
  keeps pre s (fst (add_name (S f) p s)).
Proof.
  intros f p s pre post IH K D Ip T. cbn [add_name].
  destruct (adjust (nm s p)) as [n|] eqn:A; [|intros q _; auto].
  destruct (find (fun o => negb (Nat.eqb o p) && streq (nm s o) (nm s p)) (kids s)) as [o|] eqn:F.
  - apply find_some_two in F as (Ho & N1 & En).
    assert (No : ~ In o pre).
    { intro I1. destruct T as [T|T].
      - apply (D o p I1 T N1). auto.
      - apply (T o I1 p Ip); auto. }
    set (s1 := drop_attr (set_nm s o (next_name (nm s o))) n).
    assert (K1 : keeps pre s s1).
    { intros q Hq. cbn. destruct (Nat.eqb_spec q o); auto. subst. contradiction. }
    assert (D1 : distinct_among s1 pre).
    { intros a b Ha Hb Nab. rewrite (K1 a Ha), (K1 b Hb). auto. }
    pose proof (IH s1 pre post K D1) as K2. unfold connect in K2.
    destruct (each (add_name f) (kids s1) s1) as [s2 [e|]] eqn:E2; cbn [fst] in K2.
    + cbn [fst]. eapply keeps_trans; eauto.
    + pose proof (connect_settled f s1 s2 E2) as [(G1 & _) S2]. change (kids s1) with (kids s) in G1.
      assert (Ho2 : In o (kids s2)) by (rewrite G1; auto).
      destruct (add_name f o s2) as [s3 e3] eqn:E3. destruct (settled_add f o s2 s3 e3 S2 Ho2 E3) as [M3 S3].
      assert (K3 : keeps pre s s3).
      { eapply keeps_trans; [exact K1|]. eapply keeps_trans; [exact K2|]. apply more_keeps; auto. }
      destruct e3 as [e|]; [exact K3|]. specialize (S3 eq_refl).
      assert (Ho3 : In o (kids s3)) by (destruct M3 as (K3' & _); rewrite K3'; auto).
      destruct (add_name f o s3) as [s4 e4] eqn:E4. destruct (settled_add f o s3 s4 e4 S3 Ho3 E4) as [M4 _].
      cbn [fst]. eapply keeps_trans; [exact K3|]. apply more_keeps; auto.
  - destruct (_ || _); intros q _; auto.
Qed.
Lemma each_keeps_settled : forall f l s, settled s -> incl l (kids s) -> nm (fst (each (add_name f) l s)) = nm s.
Proof.
  intros f. induction l as [|p l IHl]; intros s S1 Hl; [reflexivity|]. rewrite each_cons.
  destruct (add_name f p s) as [s1 e] eqn:E. destruct (settled_add f p s s1 e S1 (Hl p (or_introl eq_refl)) E) as [M S2].
  destruct M as (K & Nm & _). destruct e as [e|]; [auto|]. rewrite IHl; auto.
  intros q Hq. rewrite K. apply Hl. right; auto.
Qed.
(** The part of [kids] that comes after [pre]. *)
Lemma each_keeps_rest : forall f l s pre post
  (IH : forall p s pre post, kids s = pre ++ post -> distinct_among s pre -> In p (kids s) -> (In p pre \/ taken s pre) ->
        keeps pre s (fst (add_name f p s))),
  kids s = pre ++ post -> distinct_among s pre -> incl l (kids s) -> (incl l pre \/ taken s pre \/ settled s) ->
  keeps pre s (fst (each (add_name f) l s)).
Proof.
  intros f. induction l as [|p l IHl]; intros s pre post IH K D Hl T; [intros q _; auto|]. rewrite each_cons.
  assert (Ip : In p (kids s)) by (apply Hl; left; auto).
  assert (K1 : keeps pre s (fst (add_name f p s))).
  { destruct T as [T|[T|T]].
    - apply (IH p s pre post); auto. left. apply T. left; auto.
    - apply (IH p s pre post); auto.
    - destruct (add_name f p s) as [s1 e] eqn:E. apply more_keeps. eapply settled_add; eauto. }
  destruct (add_name f p s) as [s1 [e|]] eqn:E; [exact K1|]. cbn [fst] in K1.
  destruct (add_spec f p s s1 Ip E) as [(G1 & _) H].
  eapply keeps_trans; [exact K1|]. apply (IHl s1 pre post); auto.
  - congruence.
  - intros a b Ha Hb Nab. rewrite (K1 a Ha), (K1 b Hb). auto.
  - intros q Hq. rewrite G1. apply Hl. right; auto.
  - destruct H as [(M & A & _)|S1]; [|auto]. destruct T as [T|[T|T]].
    + left. intros q Hq. apply T. right; auto.
    + right. left. intros q Hq. apply (more_alone s); auto.
    + right. right. destruct (settled_add f p s s1 None T Ip E) as [_ S2]. auto.
Qed.
Lemma connect_keeps : forall f s pre post, kids s = pre ++ post -> distinct_among s pre -> keeps pre s (fst (connect f s)).
Proof.
  induction f; intros s pre post K D.
  - unfold connect. destruct (kids s); [intros q _; auto|]. rewrite each_cons. cbn [add_name]. intros q _; auto.
  - unfold connect. rewrite K, each_app.
    assert (IH : forall p s pre post, kids s = pre ++ post -> distinct_among s pre -> In p (kids s) -> (In p pre \/ taken s pre) ->
        keeps pre s (fst (add_name (S f) p s))).
    { intros p t pr po K1 D1 I1 T. apply (add_keeps f p t pr po); auto. }
    assert (Ip : incl pre (kids s)). { intros q Hq. rewrite K. apply in_or_app; auto. }
    pose proof (each_keeps_rest (S f) pre s pre post IH K D Ip (or_introl (incl_refl _))) as K1.
    destruct (each (add_name (S f)) pre s) as [s1 [e|]] eqn:E1; [exact K1|]. cbn [fst] in K1.
    destruct (each_add (S f) pre s s1 (add_spec (S f)) Ip E1) as [(G1 & _) H].
    eapply keeps_trans; [exact K1|]. apply (each_keeps_rest (S f) post s1 pre post IH).
    + congruence.
    + intros a b Ha Hb Nab. rewrite (K1 a Ha), (K1 b Hb). auto.
    + intros q Hq. rewrite G1, K. apply in_or_app; auto.
    + destruct H as [(M & H)|S1]; [|auto]. right. left. intros q Hq. apply (more_alone s); auto. apply H; auto.
Qed.

(** ** The attributes belong to the children *)
Definition attrs_ok (s : nst) : Prop :=
  forall n q, In (n, q) (attrs s) -> In q (kids s) /\ adjust (nm s q) = Some n /\ reserved s n = false.
Lemma drop_ok : forall s p new old, attrs_ok s -> adjust (nm s p) = Some old -> attrs_ok (drop_attr (set_nm s p new) old).
Proof.
  intros s p new old H A n q I1. cbn in I1. apply filter_In in I1 as [I1 E]. cbn [fst] in E.
  destruct (H n q I1) as (K & An & R). cbn. split; auto. split; auto.
  destruct (Nat.eqb_spec q p); auto. subst. rewrite A in An. injection An as ->. rewrite streq_refl in E. discriminate.
Qed.
Lemma each_attrs_ok : forall f l s (IH : forall p s, In p (kids s) -> attrs_ok s -> attrs_ok (fst (add_name f p s))),
  incl l (kids s) -> attrs_ok s -> attrs_ok (fst (each (add_name f) l s)).
Proof.
  intros f. induction l as [|p l IHl]; intros s IH Hl H; auto. rewrite each_cons.
  pose proof (IH p s (Hl p (or_introl eq_refl)) H) as H1. pose proof (add_good f p s) as G.
  destruct (add_name f p s) as [s1 [e|]]; auto. cbn [fst] in *. apply IHl; auto.
  destruct G as (K & _). intros q Hq. rewrite K. apply Hl. right; auto.
Qed.
Lemma add_attrs_ok : forall f p s, In p (kids s) -> attrs_ok s -> attrs_ok (fst (add_name f p s)).
Proof.
  induction f; intros p s Ip H; cbn [add_name]; auto.
  destruct (adjust (nm s p)) as [n|] eqn:A; auto.
  destruct (find (fun o => negb (Nat.eqb o p) && streq (nm s o) (nm s p)) (kids s)) as [o|] eqn:F.
  - apply find_some_two in F as (Ho & N1 & En). rewrite <- En in A.
    pose proof (drop_ok s o (next_name (nm s o)) n H A) as H1. set (s1 := drop_attr (set_nm s o (next_name (nm s o))) n) in *.
    pose proof (each_attrs_ok f (kids s1) s1 IHf (incl_refl _) H1) as H2. pose proof (each_good f (kids s1) s1) as G2.
    destruct (each (add_name f) (kids s1) s1) as [s2 [e|]]; auto. cbn [fst] in *. destruct G2 as (K2 & _).
    assert (Ho2 : In o (kids s2)) by (rewrite K2; auto).
    pose proof (IHf o s2 Ho2 H2) as H3. pose proof (add_good f o s2) as (K3 & _).
    destruct (add_name f o s2) as [s3 [e|]]; auto. cbn [fst] in *. apply IHf; auto. rewrite K3. auto.
  - destruct (has_attr s n || reserved s n) eqn:B; auto. cbn [fst]. intros m q I1. cbn in I1. destruct I1 as [E|I1].
    + injection E as <- <-. apply orb_false_iff in B as [_ B]. auto.
    + apply H in I1. auto.
Qed.
Lemma connect_attrs_ok : forall f s, attrs_ok s -> attrs_ok (fst (connect f s)).
Proof. intros f s H. apply each_attrs_ok; auto using incl_refl. apply add_attrs_ok. Qed.
Lemma existsb_in : forall p l, existsb (Nat.eqb p) l = true <-> In p l.
Proof.
  intros p l. rewrite existsb_exists. split.
  - intros (x & I1 & E). apply Nat.eqb_eq in E. subst. auto.
  - intros I1. exists p. split; auto. apply Nat.eqb_refl.
Qed.
Lemma rename_attrs_ok : forall f p n s, In p (kids s) -> attrs_ok s -> attrs_ok (fst (rename f p n s)).
Proof.
  intros f p n s Ip H. unfold rename. destruct (adjust (nm s p)) as [old|] eqn:A.
  - pose proof (connect_attrs_ok f _ (drop_ok s p n old H A)) as H1.
    pose proof (connect_good f (drop_attr (set_nm s p n) old)) as (K & _).
    destruct (connect f (drop_attr (set_nm s p n) old)) as [s2 [e|]]; auto. cbn [fst] in *.
    apply add_attrs_ok; auto. rewrite K. auto.
  - cbn [fst]. intros m q I1. cbn in I1. destruct (H m q I1) as (K & An & R). cbn. split; auto. split; auto.
    destruct (Nat.eqb_spec q p); auto. subst. congruence.
Qed.
Lemma unlink_attrs_ok : forall f p s, attrs_ok s -> attrs_ok (fst (unlink f p s)).
Proof.
  intros f p s H. unfold unlink. destruct (negb (existsb (Nat.eqb p) (kids s))) eqn:E; auto.
  set (s1 := set_kids s (filter (fun q => negb (Nat.eqb q p)) (kids s))).
  assert (H1 : forall n q, In (n, q) (attrs s) -> q <> p -> In q (kids s1) /\ adjust (nm s1 q) = Some n /\ reserved s1 n = false).
  { intros n q I1 Nq. destruct (H n q I1) as (K & An & R). split; [|auto]. cbn. apply filter_In. split; auto.
    apply negb_true_iff, Nat.eqb_neq. auto. }
  destruct (adjust (nm s p)) as [old|] eqn:A.
  - apply connect_attrs_ok. intros n q I1. cbn in I1. apply filter_In in I1 as [I1 E1]. cbn [fst] in E1.
    apply H1; auto. intro; subst. destruct (H n p I1) as (_ & An & _). rewrite A in An. injection An as ->.
    rewrite streq_refl in E1. discriminate.
  - intros n q I1. cbn in I1. apply H1; auto. intro; subst. destruct (H n p I1) as (_ & An & _). congruence.
Qed.
Lemma insert_attrs_ok : forall f top p k s, attrs_ok s -> attrs_ok (fst (insert f top p k s)).
Proof.
  intros f top p k s H. unfold insert.
  assert (H1 : attrs_ok (set_kids s (firstn k (kids s) ++ p :: skipn k (kids s)))).
  { intros n q I1. destruct (H n q I1) as (K & R). split; auto. cbn. rewrite <- (firstn_skipn k (kids s)) in K.
    apply in_app_or in K as [K|K]; apply in_or_app; auto. right. right. auto. }
  destruct top; auto. apply connect_attrs_ok; auto.
Qed.
Lemma link_attrs_ok : forall f top p k s, attrs_ok s -> attrs_ok (fst (link f top p k s)).
Proof.
  intros f top p k s H. unfold link. destruct (existsb (Nat.eqb p) (kids s)); [|apply insert_attrs_ok; auto].
  destruct k as [k|]; auto. pose proof (unlink_attrs_ok f p s H) as H1.
  destruct (unlink f p s) as [s1 [e|]]; auto. apply insert_attrs_ok; auto.
Qed.
Lemma nrun_attrs_ok : forall f o s, attrs_ok s -> attrs_ok (fst (nrun f o s)).
Proof.
  intros f [top p k|p|p n] s H; cbn [nrun].
  - apply link_attrs_ok; auto.
  - apply unlink_attrs_ok; auto.
  - destruct (existsb (Nat.eqb p) (kids s)) eqn:E.
    + apply rename_attrs_ok; auto. apply existsb_in; auto.
    + cbn [fst]. intros m q I1. destruct (H m q I1) as (K & An & R). cbn. split; auto. split; auto.
      destruct (Nat.eqb_spec q p); auto. subst. apply existsb_in in K. congruence.
Qed.
Lemma history_attrs_ok : forall s, history s -> attrs_ok s.
Proof.
  induction 1 as [s [K A]|s f o H IH].
  - intros n q I1. rewrite A in I1. destruct I1.
  - apply nrun_attrs_ok; auto.
Qed.
(** No child twice. *)
Lemma filter_nodup : forall (g : nat -> bool) l, NoDup l -> NoDup (filter g l).
Proof. intros. apply NoDup_filter; auto. Qed.
Lemma insert_nodup : forall (l : list nat) k p, NoDup l -> ~ In p l -> NoDup (firstn k l ++ p :: skipn k l).
Proof.
  intros l k p H N1. apply NoDup_Add with (a := p) (l := l); auto.
  rewrite <- (firstn_skipn k l) at 1. apply Add_app.
Qed.
Lemma nrun_nodup : forall f o s, NoDup (kids s) -> NoDup (kids (fst (nrun f o s))).
Proof.
  assert (U : forall f p s, NoDup (kids s) -> NoDup (kids (fst (unlink f p s))) /\ (snd (unlink f p s) = None -> ~ In p (kids (fst (unlink f p s))))).
  { intros f p s H. unfold unlink. destruct (negb (existsb (Nat.eqb p) (kids s))) eqn:E; [split; [auto|discriminate]|].
    set (s1 := set_kids s (filter (fun q => negb (Nat.eqb q p)) (kids s))).
    assert (H1 : NoDup (kids s1)) by (apply filter_nodup; auto).
    assert (H2 : ~ In p (kids s1)).
    { cbn. rewrite filter_In. intros [_ E1]. rewrite Nat.eqb_refl in E1. discriminate. }
    destruct (adjust (nm s p)) as [old|]; [|cbn; auto].
    pose proof (connect_good f (drop_attr s1 old)) as (K & _). rewrite K. auto. }
  assert (L : forall f top p k s, NoDup (kids s) -> ~ In p (kids s) -> NoDup (kids (fst (insert f top p k s)))).
  { intros f top p k s H N1. unfold insert. destruct top.
    - pose proof (connect_good f (set_kids s (firstn k (kids s) ++ p :: skipn k (kids s)))) as (K & _). rewrite K.
      apply insert_nodup; auto.
    - apply insert_nodup; auto. }
  intros f [top p k|p|p n] s H; cbn [nrun].
  - unfold link. destruct (existsb (Nat.eqb p) (kids s)) eqn:E.
    + destruct k as [k|]; auto. destruct (U f p s H) as [U1 U2]. destruct (unlink f p s) as [s1 [e|]];
      cbn [fst snd] in *; [auto|apply L; auto].
    + apply L; auto. intro I1. apply existsb_in in I1. congruence.
  - apply U; auto.
  - destruct (existsb (Nat.eqb p) (kids s)); auto. unfold rename. destruct (adjust (nm s p)) as [old|]; auto.
    pose proof (connect_good f (drop_attr (set_nm s p n) old)) as (K & _).
    destruct (connect f (drop_attr (set_nm s p n) old)) as [s2 [e|]]; cbn [fst] in *; [rewrite K; auto|].
    pose proof (add_good f p s2) as (K2 & _). rewrite K2, K. auto.
Qed.
Lemma history_nodup : forall s, history s -> NoDup (kids s).
Proof.
  induction 1 as [s [K A]|s f o H IH].
  - rewrite K. constructor.
  - apply nrun_nodup; auto.
Qed.

(** ** What every successful call that connects leaves behind *)
Lemma rename_settled : forall f p n s s', In p (kids s) -> rename f p n s = (s', None) -> settled s'.
Proof.
  intros f p n s s' Ip E. unfold rename in E. destruct (adjust (nm s p)) as [old|]; [|discriminate].
  destruct (connect f (drop_attr (set_nm s p n) old)) as [s2 [e|]] eqn:E2; [discriminate|].
  apply connect_settled in E2 as [(K & _) S2]. cbn in K.
  assert (Ip2 : In p (kids s2)) by (rewrite K; auto).
  destruct (settled_add f p s2 s' None S2 Ip2 E) as [_ S3]. auto.
Qed.
Lemma nrun_settled : forall f o s s', connects o s -> nrun f o s = (s', None) -> settled s'.
Proof.
  intros f [top p k|p|p n] s s' C E; cbn [nrun connects] in *.
  - subst. unfold link in E.
    assert (L : forall k t, insert f true p k t = (s', None) -> settled s').
    { intros k0 t E0. unfold insert in E0. apply connect_settled in E0. tauto. }
    destruct (existsb (Nat.eqb p) (kids s)); [|eauto]. destruct k as [k|]; [|discriminate].
    destruct (unlink f p s) as [s1 [e|]]; [discriminate|eauto].
  - unfold unlink in E. destruct (negb _); [discriminate|]. destruct (adjust (nm s p)); [|discriminate].
    apply connect_settled in E. tauto.
  - apply existsb_in in C as C'. rewrite C' in E. eapply rename_settled; eauto.
Qed.
Lemma names_differ : forall f o s s', connects o s -> nrun f o s = (s', None) -> distinct s'.
Proof. intros f o s s' C E. apply (nrun_settled f o s s' C E). Qed.

Lemma find_attr : forall s n, has_attr s n = true -> exists p, attribute s n p /\ In (n, p) (attrs s).
Proof.
  intros s n H. unfold has_attr in H. apply existsb_exists in H as ([m q] & I1 & E). cbn [fst] in E.
  destruct (find (fun e => streq (fst e) n) (attrs s)) as [[m' q']|] eqn:F.
  - exists q'. split; [exists (m', q'); auto|]. apply find_some in F as [I2 E2]. cbn [fst] in E2. apply streq_iff in E2. subst. auto.
  - apply (find_none _ _ F) in I1. cbn [fst] in I1. congruence.
Qed.
Lemma attribute_in : forall s n p, attribute s n p -> In (n, p) (attrs s).
Proof.
  intros s n p ([m q] & F & E). cbn in E. subst. apply find_some in F as [I2 E2]. cbn [fst] in E2. apply streq_iff in E2. subst. auto.
Qed.
(** Every attribute made for a child is that of a child with this printing form. *)
Lemma attributes_sound : forall s n p, history s -> attribute s n p -> In p (kids s) /\ adjust (nm s p) = Some n.
Proof.
  intros s n p H A. apply attribute_in in A. apply (history_attrs_ok s H) in A. tauto.
Qed.
(** Every child whose printing form is its own and no other attribute is reachable. *)
Lemma attributes_complete : forall s f o s', history s -> connects o s -> nrun f o s = (s', None) ->
  forall p n, In p (kids s') -> adjust (nm s' p) = Some n -> reserved s' n = false ->
  exists q, attribute s' n q /\ In q (kids s') /\ adjust (nm s' q) = Some n.
Proof.
  intros s f o s' H C E p n Ip A R. destruct (nrun_settled f o s s' C E) as [_ T].
  destruct (T p Ip) as (m & A' & B). rewrite A in A'. injection A' as <-. rewrite R, orb_false_r in B.
  apply find_attr in B as (q & At & I1). exists q. split; auto.
  assert (H' : history s'). { replace s' with (fst (nrun f o s)) by (rewrite E; auto). apply Hcall; auto. }
  apply attributes_sound; auto.
Qed.
Lemma printable_all : forall s f o s', connects o s -> nrun f o s = (s', None) ->
  forall p, In p (kids s') -> adjust (nm s' p) <> None.
Proof. intros s f o s' C E p Ip. destruct (nrun_settled f o s s' C E) as [_ T]. destruct (T p Ip) as (m & A' & B). congruence. Qed.
