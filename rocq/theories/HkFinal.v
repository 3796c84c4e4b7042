(** Proofs about observers of a hierarchy, part 3: what the calls announce. *)
From Coq Require Import List ZArith Bool Lia Arith Sorted.
From Verif Require Import NpModel NpProofs IndexOpsModel IndexOpsSpec PzModel PzSpec PzTree PzStruct PzLink PzWalk PzMem PzIo PzInv PzConn PzFix PzLinkMem PzPres PzUnlink PzTraverse PzNotify PzNew PzCmd PzInit PzCons PzVal PzOpt PzRandom PzGet PzHist PzKeep PzOrder PzGrad PzFinal CopyModel CopySpec CopyCall CopyTree HkModel HkSpec HkProofs HkInv.
Import ListNotations.
Open Scope Z_scope.

(** ** Order *)
Lemma precedes_srcs : forall (R : src -> src -> Prop) l a b, StronglySorted R l ->
  (forall u v, In u l -> In v l -> R u v -> event_of u = b -> event_of v = a -> False) -> precedes (map event_of l) a b.
Proof.
  intros R l a b L H l1 l2 E Ha. apply map_eq_app in E as (m1 & m2 & -> & <- & E2). destruct m2 as [|u m2]; [discriminate|].
  cbn [map] in E2. inversion E2; subst. apply in_map_iff in Ha as (v & Ev & Hv).
  apply sorted_sub in L as (_ & L & _). inversion L as [|? ? _ F]; subst. rewrite Forall_forall in F.
  apply (H u v); auto; apply in_or_app; right; [left | right]; auto.
Qed.
Lemma event_heard : forall a y o, event_of a = Heard y o -> fst a = y /\ snd (snd a) = User o.
Proof. intros [z [p g]] y o. unfold event_of. cbn. destruct g; intros E; inversion E; auto. Qed.
Lemma event_ran : forall a y, is_up (snd a) = false -> event_of a = Ran y -> fst a = y /\ snd (snd a) = Own.
Proof. intros [z [p g]] y. unfold event_of, is_up. cbn. destruct g; intros U E; inversion E; auto; discriminate. Qed.

Section Final.
Context {V : Type}.
Variables tinit tf tfinv : nat -> V -> V.
Implicit Types q : @hstate V.

Lemma ordered_srcs : forall q l, StronglySorted (in_order (st (base q))) l ->
  (forall a, In a l -> In (snd a) (regs q (fst a)) /\ is_up (snd a) = false /\ (snd (snd a) = Own -> fst (snd a) = Fin (-100))) -> ordered q (map event_of l).
Proof.
  intros q l L M.
  assert (U : forall a y o, In a l -> event_of a = Heard y o -> fst a = y /\ In (fst (snd a), User o) (regs q y)).
  { intros [z [p g]] y o Ha E. apply event_heard in E as [E1 E2]. cbn in *. subst. split; auto. apply (M _ Ha). }
  assert (R : forall a y, In a l -> event_of a = Ran y -> fst a = y /\ snd (snd a) = Own /\ fst (snd a) = Fin (-100)).
  { intros a y Ha E. destruct (M a Ha) as (_ & M2 & M3). apply event_ran in E as [E1 E2]; auto. }
  constructor; intros.
  - apply (precedes_srcs (in_order (st (base q)))); auto. intros u v Hu Hv Q Eu Ev. destruct (U u _ _ Hu Eu) as [E1 I1]. destruct (U v _ _ Hv Ev) as [E2 I2].
    destruct Q as [Q _]. destruct Q as [Q _]; [congruence|]. apply Q. auto.
  - apply (precedes_srcs (in_order (st (base q)))); auto. intros u v Hu Hv Q Eu Ev. destruct (R u _ Hu Eu) as (E1 & I1 & _). destruct (U v _ _ Hv Ev) as [E2 I2].
    destruct Q as [Q _]. destruct Q as (_ & _ & Q); [congruence|]. apply (Q I1). specialize (H _ I2). exact H.
  - apply (precedes_srcs (in_order (st (base q)))); auto. intros u v Hu Hv Q Eu Ev. destruct (U u _ _ Hu Eu) as [E1 I1]. destruct (R v _ Hv Ev) as (E2 & I2 & _).
    destruct Q as [Q _]. destruct Q as (_ & Q & _); [congruence|]. specialize (Q I2). specialize (H _ I1). destruct (fst (snd u)); cbn in *; [auto | lia].
  - assert (G : forall u v, In v l -> event_of v = Heard y o -> fst u = z -> in_order (st (base q)) u v -> False).
    { intros u v Hv Ev Eu [_ Q]. destruct (U v _ _ Hv Ev) as [E2 I2]. apply (H1 _ I2). apply Q; [rewrite E2, Eu; auto | congruence]. }
    split; [|intros o']; apply (precedes_srcs (in_order (st (base q)))); auto; intros u v Hu Hv Q Eu Ev; apply (G u v); auto; [apply (R u _ Hu Eu) | apply (U u _ _ Hu Eu)].
  - assert (G : forall u v, In v l -> event_of v = Ran y -> fst u = z -> in_order (st (base q)) u v -> False).
    { intros u v Hv Ev Eu [_ Q]. destruct (R v _ Hv Ev) as (E2 & I2 & I3). rewrite Q in I3; [discriminate | rewrite E2, Eu; auto | congruence]. }
    split; [|intros o']; apply (precedes_srcs (in_order (st (base q)))); auto; intros u v Hu Hv Q Eu Ev; apply (G u v); auto; [apply (R u _ Hu Eu) | apply (U u _ _ Hu Eu)].
Qed.

(** ** The two kinds of rounds, in any state *)
Section Round.
Variable q : @hstate V.
Hypothesis H : hinv q.
Let t := st (base q).
Let n := nt (base q).
Let rg := regs q.

Lemma round_own : forall a, (fst a < next t)%nat -> In (snd a) (rg (fst a)) -> snd (snd a) = Own -> fst (snd a) = Fin (-100).
Proof.
  intros [y [p g]] Hy Ha E. cbn in *. subst g. pose proof (hi_own _ H y Hy) as O. destruct (is_leaf (st (base q)) y); [exfalso; exact (O _ Ha eq_refl)|].
  destruct O as (a & b & E & A & B). unfold rg in Ha. rewrite E in Ha. apply in_app_or in Ha as [Ha|[Ha|Ha]].
  - exfalso. exact (proj1 (A _ Ha) eq_refl).
  - inversion Ha. auto.
  - exfalso. exact (proj1 (B _ Ha) eq_refl).
Qed.

Lemma notify_round : forall x, (x < next t)%nat -> exists u, up t x u /\
  hnotify (updates n) rg (fuel t) x true = Ok (map event_of (climb (updates n) rg u)).
Proof.
  intros x Hx. destruct (wf_up t (inv_st _ (hi_base _ H)) x) as [u Hu]. exists u. split; auto.
  apply (hnotify_up t (updates n) rg (inv_st _ (hi_base _ H)) (hi_up _ H) x u Hu Hx). apply (up_length _ x u (inv_st _ (hi_base _ H)) Hu).
Qed.
Lemma trigger_round : forall x, (x < next t)%nat -> exists tr u fx, root tr = x /\ rep t tr /\ NoDup (oids tr) /\ up t x u /\
  (forall y, (y < next t)%nat -> (fx y = true <-> all_fixed t (ios (base q)) y)) /\
  htrigger (updates n) rg t (ios (base q)) x =
    Ok (if updates n x && negb (in_init t x) then map event_of (concat (map (self (updates n) rg) (inner fx tr)) ++ climb (updates n) rg u) else []).
Proof.
  intros x Hx. pose proof (hi_base _ H) as [W I F M N J]. destruct (fixed_fun t (ios (base q)) W I) as [fx [F1 F2]]. destruct (tree_exists t W x) as [tr [E [R Nd]]].
  destruct (wf_up t W x) as [u Hu]. exists tr, u, fx. split; auto. split; auto. split; auto. split; auto. split; auto.
  unfold htrigger. destruct (updates n x && negb (in_init t x)); auto.
  destruct (htrigger_trees t (updates n) rg W (hi_desc _ H) (hi_up _ H) (ios (base q)) fx F1 (fuel t) tr) as [_ Q];
    [apply rep_krep; auto | apply rep_new_height; auto | rewrite E; auto|]. rewrite E in Q. apply Q; auto.
Qed.
Lemma climb_sources : forall x u, (x < next t)%nat -> up t x u -> forall a, In a (climb (updates n) rg u) ->
  (fst a < next t)%nat /\ part t (fst a) x /\ In (snd a) (rg (fst a)) /\ is_up (snd a) = false.
Proof.
  intros x u Hx Hu a Ha. apply climb_In in Ha as (A1 & A2 & A3). pose proof (inv_st _ (hi_base _ H)) as W.
  split; [eapply up_lt; eauto|]. split; auto. apply (up_below _ _ _ W Hu); auto.
Qed.
Lemma self_sources : forall y, (y < next t)%nat -> forall a, In a (self (updates n) rg y) -> fst a = y /\ In (snd a) (rg (fst a)) /\ is_up (snd a) = false.
Proof.
  intros y Hy a Ha. pose proof Ha as Ha'. apply self_In in Ha as (A1 & A2 & _). split; auto. rewrite A1. split; auto.
  unfold self in Ha'. destruct (updates n y); [|destruct Ha']. unfold from in Ha'. apply in_map_iff in Ha' as (e & <- & He). apply filter_In in He as [_ He]. cbn.
  apply negb_true_iff. auto.
Qed.

Lemma inner_lt : forall x tr fx, (x < next t)%nat -> root tr = x -> rep t tr -> forall y, In y (inner fx tr) -> (y < next t)%nat /\ above t x y.
Proof.
  intros x tr fx Hx E R y Hy. assert (Q : In y (oids tr)).
  { apply (post_oids fx tr y). destruct tr as [z ts]. change (post fx (T z ts)) with (inner fx (T z ts) ++ [z]). apply in_or_app; auto. }
  apply (koids_below t tr y (rep_krep _ _ R)) in Q. rewrite E in Q. pose proof (inv_st _ (hi_base _ H)) as W. split; auto. exact (above_lt' (base q) x y (hi_base _ H) Hx Q).
Qed.

Lemma trigger_sorted : forall x tr u fx, (x < next t)%nat -> root tr = x -> rep t tr -> NoDup (oids tr) -> up t x u ->
  StronglySorted (in_order t) (concat (map (self (updates n) rg) (inner fx tr)) ++ climb (updates n) rg u).
Proof.
  intros x tr u fx Hx E R Nd Hu. pose proof (inv_st _ (hi_base _ H)) as W.
  assert (Hin : forall y, In y (inner fx tr) -> (y < next t)%nat /\ above t x y) by (intros; eapply inner_lt; eauto).
  assert (Hxn : ~ In x (inner fx tr)).
  { intros Q. destruct tr as [z ts]. cbn [root] in E. subst z. pose proof (post_nodup fx _ Nd) as P.
    change (post fx (T x ts)) with (inner fx (T x ts) ++ [x]) in P. apply nodup_app in P as (_ & _ & P). apply (P x); auto. left; auto. }
  assert (Hs : forall y a, In y (inner fx tr) -> In a (self (updates n) rg y) -> fst a = y) by (intros y a Hy Ha; apply (self_sources y (proj1 (Hin y Hy)) a Ha)).
  apply sorted_app.
  - assert (Or : forall a b, In a (inner fx tr) -> In b (inner fx tr) -> above t b a -> a <> b -> before (inner fx tr) a b).
    { intros a b Ha Hb Hab Hne. destruct tr as [x' ts]. cbn [root] in E. subst x'.
      pose proof (post_order t fx (T x ts) (rep_krep _ _ R) Nd a b) as Q. change (post fx (T x ts)) with (inner fx (T x ts) ++ [x]) in Q.
      destruct Q as (l1 & l2 & E & I1); auto; try (apply in_or_app; auto).
      destruct (exists_last_or_nil _ l2) as [->|(l3 & z & ->)].
      - apply app_inj_tail in E as [_ E]. subst b. contradiction.
      - rewrite app_comm_cons, app_assoc in E. apply app_inj_tail in E as [E _]. exists l1, l3. auto. }
    pose proof (inner_nodup (fun _ => True) fx tr Nd) as Ndi.
    revert Or Ndi Hin Hs. generalize (inner fx tr). intros L. clear - H. induction L as [|y L IH]; intros Or Ndi Hin Hs; cbn [map concat]; [constructor|].
    inversion Ndi as [|? ? N1 N2]; subst. apply sorted_app.
    + apply (self_order t (updates n) rg (hi_desc _ H) (hi_own _ H)). apply (Hin y); left; auto.
    + apply IH; auto; [|intros; apply Hin; right; auto | intros; apply Hs; auto; right; auto].
      intros a b Ha Hb Hab Hne. destruct (Or a b) as (l1 & l2 & E & I1); auto; try (right; auto). destruct l1 as [|c l1]; [destruct I1|].
      cbn [app] in E. inversion E; subst. exists l1, l2. split; auto. destruct I1 as [<-|I1]; auto. contradiction.
    + intros a b Ha Hb. apply in_concat in Hb as (k & Hk & Hb). apply in_map_iff in Hk as (z & <- & Hz).
      assert (Ea : fst a = y) by (apply Hs; auto; left; auto). assert (Eb : fst b = z) by (apply Hs; auto; right; auto).
      assert (Nz : y <> z) by (intros ->; contradiction).
      split; [intros Q; exfalso; apply Nz; congruence|]. rewrite Ea, Eb. intros Q _. exfalso.
      destruct (Or z y) as (l1 & l2 & E & I1); auto; [right; auto | left; auto|]. destruct l1 as [|c l1]; [destruct I1|]. cbn [app] in E. inversion E; subst. apply N1. apply in_or_app; right; left; auto.
  - apply (climb_order t (updates n) rg W (hi_desc _ H) (hi_up _ H) (hi_own _ H) x u Hu Hx).
  - intros a b Ha Hb. apply in_concat in Ha as (k & Hk & Ha). apply in_map_iff in Hk as (y & <- & Hy). destruct (Hin y Hy) as [Q1 Q2].
    assert (Ea : fst a = y) by (apply Hs; auto). destruct (climb_sources x u Hx Hu b Hb) as (B1 & B2 & _).
    assert (Nb : fst b <> y). { intros E2. apply Hxn. assert (x = y) as ->; auto. rewrite E2 in B2. eapply above_antisym; eauto. }
    split; [intros Q; congruence|]. rewrite Ea. intros Q _. exfalso. apply Nb. eapply above_antisym; [exact W | | exact Q]. eapply above_trans; [exact B2 | exact Q2].
Qed.

Lemma runs_climb : forall x u, (x < next t)%nat -> up t x u -> runs (map event_of (climb (updates n) rg u)) = chain t n u.
Proof.
  intros x u Hx Hu. rewrite runs_owns by (intros a Ha; apply (climb_sources x u Hx Hu a Ha)).
  apply (owns_climb t (updates n) rg (inv_st _ (hi_base _ H)) (hi_up _ H) (hi_own _ H) x u Hu Hx).
Qed.
Lemma runs_trigger : forall x tr u fx, (x < next t)%nat -> root tr = x -> rep t tr -> up t x u ->
  runs (map event_of (concat (map (self (updates n) rg) (inner fx tr)) ++ climb (updates n) rg u)) = filter (active t n) (inner fx tr) ++ chain t n u.
Proof.
  intros x tr u fx Hx E R Hu. assert (Hin : forall y, In y (inner fx tr) -> (y < next t)%nat) by (intros y Hy; eapply inner_lt; eauto).
  rewrite runs_owns.
  - rewrite owns_app, (owns_climb t (updates n) rg (inv_st _ (hi_base _ H)) (hi_up _ H) (hi_own _ H) x u Hu Hx). f_equal.
    apply (owns_selfs t (updates n) rg (hi_own _ H)). auto.
  - intros a Ha. apply in_app_or in Ha as [Ha|Ha]; [|apply (climb_sources x u Hx Hu a Ha)].
    apply in_concat in Ha as (k & Hk & Ha). apply in_map_iff in Hk as (y & <- & Hy). apply (self_sources y (Hin y Hy) a Ha).
Qed.
End Round.
End Final.
