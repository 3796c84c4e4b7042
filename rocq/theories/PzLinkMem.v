(** Proofs about the hierarchy, part 10: memory and values when linking and unlinking. *)
From Coq Require Import List ZArith Bool Lia Arith.
From Verif Require Import NpModel NpProofs IndexOpsModel PzModel PzSpec PzTree PzStruct PzLink PzWalk PzMem PzIo PzInv PzConn.
Import ListNotations.
Open Scope Z_scope.

Section LinkMem.
Context {V : Type}.
Implicit Types m : @memst V.

(** Of an initialised object the arrays of everything below are parts of its own array. A Parameterized
    whose last child was unlinked may keep an array of the old length. *)
Record meminv (t : struct) m : Prop := mkMeminv {
  mm_bnd : bnd m;
  mm_none : forall x, (x < next t)%nat -> kind t x = KNode -> inited t x <> Some true -> arr m x = None;
  mm_size : forall x b o n, (x < next t)%nat -> arr m x = Some (b, o, n) -> n = size t x \/ (kind t x = KNode /\ kids t x = []);
  mm_leaf : forall x, (x < next t)%nat -> is_leaf t x = true -> arr m x <> None;
  mm_al : forall x, inited t x = Some true -> exists b o, al t m x b o }.

Lemma al_sub : forall t m x b o y k n, al t m x b o -> below t x y k n -> al t m y b (o + k).
Proof. intros t m x b o y k n H B z k' n' Bz Hp. rewrite <- Z.add_assoc. eapply H; eauto. eapply below_trans; eauto. Qed.
Lemma leaf_kids : forall t x, swf t -> is_leaf t x = true -> kids t x = [].
Proof. intros t x W H. unfold is_leaf in H. destruct (kind t x) eqn:E; [|discriminate]. apply (PzTree.wf_leaf t W) in E. tauto. Qed.
Lemma kids_nil_above : forall t x y, kids t x = [] -> above t x y -> x = y.
Proof. intros t x y H [o [n B]]. inversion B as [|? i ? ? ? ? Hi]; subst; auto. rewrite H in Hi. destruct i; discriminate. Qed.
Lemma leaf_valid : forall t m x, meminv t m -> (x < next t)%nat -> is_leaf t x = true -> valid t m x.
Proof.
  intros t m x M Hx Hl. pose proof (mm_leaf _ _ M x Hx Hl) as H. destruct (arr m x) as [[[b o] n]|] eqn:E; [|congruence].
  exists b, o. destruct (mm_size _ _ M x b o n Hx E) as [->|[Q _]]; auto. unfold is_leaf in Hl. rewrite Q in Hl. discriminate.
Qed.
Lemma leaf_al : forall t m x, swf t -> meminv t m -> (x < next t)%nat -> is_leaf t x = true -> exists b o, al t m x b o.
Proof.
  intros t m x W M Hx Hl. destruct (leaf_valid t m x M Hx Hl) as [b [o E]]. exists b, o.
  intros y k n B Hp. assert (x = y) by (apply (kids_nil_above t); [apply leaf_kids; auto | exists k, n; auto]). subst y.
  destruct (wf_no_cycle _ _ _ _ W B) as [-> ->]. rewrite Z.add_0_r. auto.
Qed.
Lemma al_settled : forall t m c b o, 0 < size t c -> al t m c b o -> settledb t m c.
Proof.
  intros t m c b o Hp H. right. exists b, o. split; auto. rewrite <- (Z.add_0_r o). eapply H; eauto. constructor.
Qed.
Lemma zero_settled : forall t m c, swf t -> size t c = 0 -> settledb t m c.
Proof.
  intros t m c W Hz. destruct (valid_dec t m c) as [[b [o Q]]|Q]; [|left; auto]. right. exists b, o. split; auto.
  intros y k n B Hp. destruct (below_range _ _ _ _ _ W B). pose proof (size_nonneg t W y). lia.
Qed.
Lemma al_settled' : forall t m c b o, swf t -> al t m c b o -> settledb t m c.
Proof.
  intros t m c b o W H. pose proof (size_nonneg t W c). destruct (Z.eq_dec (size t c) 0) as [E|E]; [apply zero_settled; auto|].
  apply al_settled with b o; auto. lia.
Qed.
(** The value of element [j] of Param [y]. *)
Lemma wf_ok : forall t x, swf t -> forall z, above t x z -> node_ok t z /\ 0 <= size t z.
Proof. intros t x W z _. split; [apply wf_node_ok; auto | apply size_nonneg; auto]. Qed.

(** [_connect_parameters] on a well-formed hierarchy. *)
Lemma connect_wf : forall t r m, swf t -> (forall y, above t r y -> is_leaf t y = true -> valid t m y) -> bnd m ->
  exists m', connect_mem t r m = Ok m' /\ (nbuf m <= nbuf m')%nat /\ bnd m' /\
    (forall y, ~ above t r y -> arr m' y = arr m y) /\
    (kids t r = [] -> m' = m) /\
    (kids t r <> [] -> exists ba oa,
      (arr m r = Some (ba, oa, size t r) \/ (~ valid t m r /\ (nbuf m <= ba)%nat)) /\
      forall y k n, below t r y k n -> arr m' y = Some (ba, oa + k, size t y)) /\
    ((forall c, In c (kids t r) -> settledb t m c) -> safe t m r -> kept t m m').
Proof.
  intros t r m W Hv Hb. destruct (rep_kids_trees t r W) as [ts [R N]].
  pose proof (rep_new_height _ _ W R N) as Hh.
  apply connect_below with ts; auto.
  - apply rep_krep; auto.
  - intros; apply wf_node_ok; auto.
  - intros y Hy. apply Hv. apply (koids_below t (T r ts)); auto. apply rep_krep; auto.
  - intros c Hc. pose proof (height_child r ts c Hc). lia.
Qed.

(** ** Linking *)
Section AttachMem.
Variables (t0 t1 : struct) (self param r : oid) (k : nat) (a : Z) (n0 : nat).
Hypothesis W0 : swf t0.
Hypothesis W1 : swf t1.
Hypothesis L : linked t0 t1 self param k.
Hypothesis Hnot : ~ above t0 param self.
Hypothesis Hnext : next t1 = next t0.
Hypothesis Hkind : forall y, kind t1 y = kind t0 y.
Hypothesis Hnode : kind t0 self = KNode.
Hypothesis Hself : (self < next t0)%nat.
Hypothesis Hparam : (param < next t0)%nat.
Hypothesis Hpr : par t0 r = None.
Hypothesis Br : below t0 r self a n0.
Hypothesis Hi1 : forall y, above t1 r y -> inited t1 y = Some true.
Hypothesis Hi0 : forall y, ~ above t1 r y -> inited t1 y = inited t0 y.
Hypothesis Hir : inited t0 r = Some true.
Variable m : @memst V.
Hypothesis M : meminv t0 m.
Notation n := (size t0 param).

Let Hr : (r < next t0)%nat.
Proof. eapply root_lt; eauto. Qed.
Let Habove : forall x y, above t1 x y <-> above t0 x y \/ (above t0 x self /\ above t0 param y).
Proof. exact (at_above t0 t1 self param k W0 L Hnot). Qed.
Let Hrs : above t0 r self.
Proof. exists a, n0; auto. Qed.
Let Hlt : forall y, above t1 r y -> (y < next t0)%nat.
Proof. intros y [o [d B]]. rewrite <- Hnext. eapply below_lt; eauto. rewrite Hnext. auto. Qed.

Lemma am_leaf_size : forall y, is_leaf t0 y = true -> size t1 y = size t0 y.
Proof.
  intros y Hl. apply (ln_size' _ _ _ _ _ L). intros H. apply kids_nil_above in H; [|apply leaf_kids; auto]. subst y.
  unfold is_leaf in Hl. rewrite Hnode in Hl. discriminate.
Qed.
Lemma am_leaf : forall y, is_leaf t1 y = is_leaf t0 y.
Proof. intros. unfold is_leaf. rewrite Hkind. auto. Qed.
Lemma am_valid : forall y, (y < next t0)%nat -> is_leaf t1 y = true -> valid t1 m y.
Proof.
  intros y Hy Hl. rewrite am_leaf in Hl. destruct (leaf_valid t0 m y M Hy Hl) as [b [o E]]. exists b, o. rewrite am_leaf_size; auto.
Qed.
Lemma am_kids : kids t1 r <> [].
Proof.
  destruct (Nat.eq_dec r self) as [E|E].
  - rewrite E, (ln_kids _ _ _ _ _ L). destruct (firstn k (kids t0 self)); discriminate.
  - rewrite (ln_kids' _ _ _ _ _ L) by auto. intros Q. apply E. eapply kids_nil_above; eauto.
Qed.
Lemma am_same_below : forall x y o d, ~ above t0 x self -> below t1 x y o d -> below t0 x y o d.
Proof.
  intros x y o d Hx B. destruct (Nat.eq_dec x y) as [<-|Hne].
  { destruct (wf_no_cycle _ _ _ _ W1 B) as [-> ->]. constructor. }
  assert (Ha : above t1 x y) by (exists o, d; auto). apply Habove in Ha as [[o' [d' B']]|[Ha _]]; [|tauto].
  pose proof (below_same t0 t1 self param k L x y o' d' Hx B') as B1.
  destruct (below_unique _ _ _ _ _ _ _ W1 B B1) as [-> ->]. auto.
Qed.
Lemma am_al_same : forall x b o, ~ above t0 x self -> al t0 m x b o -> al t1 m x b o.
Proof.
  intros x b o Hx H y kk d B Hp. apply am_same_below in B; auto.
  assert (Hy : ~ above t0 y self). { intros Q. apply Hx. eapply above_trans; eauto. exists kk, d; auto. }
  rewrite (ln_size' _ _ _ _ _ L) in * by auto. eapply H; eauto.
Qed.
Lemma am_al_zero : forall x b o, n = 0 -> above t0 x self -> al t0 m x b o -> al t1 m x b o.
Proof.
  intros x b o Hn Hx H y kk d B Hp.
  assert (Hsz : forall z, size t1 z = size t0 z).
  { intros z. destruct (above_dec t0 z self W0) as [Q|Q]; [rewrite (ln_size _ _ _ _ _ L) by auto; lia | apply (ln_size' _ _ _ _ _ L); auto]. }
  rewrite Hsz in *. assert (Ha : above t1 x y) by (exists kk, d; auto). apply Habove in Ha as [[o' [d' B']]|[_ [o' [d' B']]]].
  - destruct Hx as [ax [nx Bx]].
    destruct (below_cases t0 t1 self param k W0 L Hnot x ax nx Bx y o' d' B') as [[A1 A2]|[[A1 [A2 A3]]|[A1 [A2 A3]]]].
    + destruct (below_unique _ _ _ _ _ _ _ W1 B A2) as [-> ->]. eapply H; eauto.
    + destruct (below_unique _ _ _ _ _ _ _ W1 B A3) as [-> ->]. eapply H; eauto.
    + destruct (below_unique _ _ _ _ _ _ _ W1 B A3) as [-> ->]. rewrite Hn, Z.add_0_r. eapply H; eauto.
  - exfalso. destruct (below_range _ _ _ _ _ W0 B'). lia.
Qed.
Lemma am_al_r : exists b o, al t0 m r b o.
Proof. apply (mm_al _ _ M r Hir). Qed.

(** The array [self] has left over from a child that was unlinked. *)
Definition leftover : Prop := kids t0 self = [] /\ exists b o, arr m self = Some (b, o, n).

Lemma am_reset : 0 < n -> ~ leftover -> forall z, above t0 z self -> ~ valid t1 m z.
Proof.
  intros Hn Hl z Hz [b [o E]]. rewrite (ln_size _ _ _ _ _ L) in E by auto.
  assert (Hzl : (z < next t0)%nat) by (destruct Hz as [? [? Hz]]; eapply root_lt; eauto).
  destruct (mm_size _ _ M z b o _ Hzl E) as [Q|[Q1 Q2]]; [lia|].
  pose proof (kids_nil_above _ _ _ Q2 Hz) as ->. apply Hl. split; auto. exists b, o. rewrite E.
  rewrite (PzTree.wf_node t0 W0 self Hnode), Q2. unfold sum_sizes. simpl. auto.
Qed.
Lemma am_safe0 : ~ leftover -> (exists b o, arr m r = Some (b, o, size t1 r) /\ al t1 m r b o) \/ size t1 r = 0 \/ ~ valid t1 m r.
Proof.
  intros Hl. pose proof (size_nonneg t0 W0 param). destruct (Z.eq_dec n 0) as [E|E].
  - pose proof (size_nonneg t1 W1 r). destruct (Z.eq_dec (size t1 r) 0) as [Ez|Ez]; [auto|]. left.
    destruct am_al_r as [b [o Q]]. apply am_al_zero in Q; auto. exists b, o. split; auto.
    rewrite <- (Z.add_0_r o). apply (Q r 0 0%nat); [constructor | lia].
  - right. right. apply am_reset; auto. lia.
Qed.
Lemma am_settled : ~ leftover -> forall c, In c (kids t1 r) -> settledb t1 m c.
Proof.
  intros Hl c Hc. pose proof (size_nonneg t0 W0 param).
  destruct (above_dec t0 c self W0) as [Hcs|Hcs].
  - destruct (Z.eq_dec n 0) as [E|E]; [|left; apply am_reset; auto; lia].
    assert (Hrc : above t0 r c).
    { apply above_kid in Hc. apply Habove in Hc as [Hc|[_ Hc]]; auto. exfalso. apply Hnot. eapply above_trans; eauto. }
    destruct am_al_r as [b [o Q]]. destruct Hrc as [kc [dc Bc]]. apply (al_settled' t1 m c b (o + kc)); auto.
    apply am_al_zero; auto. eapply al_sub; eauto.
  - apply above_kid in Hc. apply Habove in Hc as [[kc [dc Bc]]|[_ Hc]].
    + destruct am_al_r as [b [o Q]]. apply (al_settled' t1 m c b (o + kc)); auto.
      apply am_al_same; auto. eapply al_sub; eauto.
    + destruct (is_leaf t0 c) eqn:El.
      * assert (Hcl : (c < next t0)%nat) by (destruct Hc as [? [? Q]]; eapply below_lt; eauto).
        destruct (leaf_al t0 m c W0 M Hcl El) as [b [o Q]]. apply (al_settled' t1 m c b o); auto. apply am_al_same; auto.
      * destruct (inited t0 c) as [[|]|] eqn:Ei.
        { destruct (mm_al _ _ M c Ei) as [b [o Q]]. apply (al_settled' t1 m c b o); auto. apply am_al_same; auto. }
        all: left; intros [b [o Q]]; rewrite (mm_none _ _ M c) in Q; try congruence.
        all: try (destruct Hc as [? [? Hc]]; eapply below_lt; eauto).
        all: unfold is_leaf in El; destruct (kind t0 c); auto; discriminate.
Qed.
Lemma am_safe : ~ leftover -> (n0 <= 1)%nat -> (is_leaf t0 param = true \/ inited t0 param = Some true) -> safe t1 m r.
Proof.
  intros Hl Hd Hp. destruct (am_safe0 Hl) as [Q|[Q|Q]]; [left; auto | right; left; auto | right; right; split; auto].
  intros x kx Bx Hx.
  assert (Hxs : ~ above t0 x self).
  { intros Hxs. assert (Q1 : above t1 x self) by (apply Habove; auto). destruct Q1 as [o1 [d1 B1]].
    pose proof (below_trans _ _ _ _ _ _ _ _ Bx B1) as B2.
    destruct (below_cases t0 t1 self param k W0 L Hnot r a n0 Br self a n0 Br) as [[_ B3]|[[Q1 _]|[Q1 _]]]; try (exfalso; apply Q1, above_refl).
    destruct (below_unique _ _ _ _ _ _ _ W1 B2 B3) as [_ Q2]. lia. }
  assert (Ha : above t1 r x) by (exists kx, 2%nat; auto). apply Habove in Ha as [[k' [d' B']]|[_ [k' [d' B']]]].
  - destruct am_al_r as [b [o Q1]]. exists b, (o + k'). apply am_al_same; auto. eapply al_sub; eauto.
  - assert (Ha : exists b o, al t0 m param b o).
    { destruct Hp as [Hp|Hp]; [apply leaf_al; auto | apply (mm_al _ _ M _ Hp)]. }
    destruct Ha as [b [o Q1]]. exists b, (o + k'). apply am_al_same; auto. eapply al_sub; eauto.
Qed.

Lemma attach_mem : exists m', connect_mem t1 r m = Ok m' /\ meminv t1 m' /\ (nbuf m <= nbuf m')%nat /\
  (forall y, ~ above t1 r y -> arr m' y = arr m y) /\
  (~ leftover -> disj t1 m -> disj t1 m') /\
  (~ leftover -> (n0 <= 1)%nat -> is_leaf t0 param = true \/ inited t0 param = Some true -> kept t1 m m').
Proof.
  destruct (connect_wf t1 r m W1) as (m' & E & A1 & A2 & A3 & A4 & A5 & A6).
  { intros y Hy Hl. apply am_valid; auto. } { apply (mm_bnd _ _ M). }
  destruct (A5 am_kids) as (ba & oa & B1 & B2).
  exists m'. split; [exact E|]. split; [|split; [auto|split; [auto|split]]].
  - constructor.
    + auto.
    + intros x Hx Hk Hi. destruct (above_dec t1 r x W1) as [Q|Q]; [exfalso; apply Hi, Hi1; auto|].
      rewrite A3 by auto. rewrite Hi0 in Hi by auto. apply (mm_none _ _ M); congruence.
    + intros x b o n' Hx Q. destruct (above_dec t1 r x W1) as [[kx [dx Bx]]|Nx].
      * rewrite (B2 _ _ _ Bx) in Q. inversion Q; auto.
      * rewrite A3 in Q by auto.
        assert (Hxs : ~ above t0 x self).
        { intros Q1. apply Nx. assert (x = r); [|subst; apply above_refl]. apply (roots_eq t1 r x x W1).
          - exfalso. apply Nx. apply Habove. left.
            destruct (root_exists t0 x W0) as (q & oq & nq & _ & Hq & Bq).
            assert (q = r) as <- by (apply (roots_eq t0 r q self W0); auto; eapply above_trans; eauto; exists oq, nq; auto). exists oq, nq; auto.
          - apply above_refl.
          - apply (at_root t0 t1 self param k W0 W1 L). split; auto. intros E1. apply Hnot. rewrite <- E1; auto.
          - exfalso. apply Nx. apply Habove. left.
            destruct (root_exists t0 x W0) as (q & oq & nq & _ & Hq & Bq).
            assert (q = r) as <- by (apply (roots_eq t0 r q self W0); auto; eapply above_trans; eauto; exists oq, nq; auto). exists oq, nq; auto. }
        rewrite (ln_size' _ _ _ _ _ L), Hkind by auto.
        rewrite (ln_kids' _ _ _ _ _ L) by (intros ->; apply Hxs, above_refl).
        apply (mm_size _ _ M x b o n'); auto. congruence.
    + intros x Hx Hl. destruct (above_dec t1 r x W1) as [[kx [dx Bx]]|Nx].
      * rewrite (B2 _ _ _ Bx). discriminate.
      * rewrite A3 by auto. rewrite am_leaf in Hl. apply (mm_leaf _ _ M); auto. congruence.
    + intros x Hx. destruct (above_dec t1 r x W1) as [[kx [dx Bx]]|Nx].
      * exists ba, (oa + kx). intros y ky dy By _. rewrite <- Z.add_assoc. apply (B2 y (kx + ky) (dx + dy)%nat). eapply below_trans; eauto.
      * rewrite Hi0 in Hx by auto. destruct (mm_al _ _ M x Hx) as [b [o Q]].
        assert (Hxs : ~ above t0 x self).
        { intros Q1. apply Nx. apply Habove. left.
          destruct (root_exists t0 x W0) as (q & oq & nq & _ & Hq & Bq).
          assert (q = r) as <- by (apply (roots_eq t0 r q self W0); auto; eapply above_trans; eauto; exists oq, nq; auto). exists oq, nq; auto. }
        apply am_al_same in Q; auto. exists b, o. intros y ky dy By Hp. rewrite A3; [eapply Q; eauto|].
        intros [o1 [d1 B3]]. apply Nx.
        destruct (root_exists t1 x W1) as (q & oq & nq & _ & Hq & Bq).
        assert (q = r) as <-; [|exists oq, nq; auto].
        apply (roots_eq t1 r q y W1); auto; [exists o1, d1; auto | | apply (at_root t0 t1 self param k W0 W1 L); split; auto; intros E1; apply Hnot; rewrite <- E1; auto].
        eapply above_trans; [exists oq, nq; eauto | exists ky, dy; eauto].
  - intros Hl D. apply (connect_disj t1 r m m'); auto.
    + apply wf_ok; auto. + apply (mm_bnd _ _ M). + intros y; apply above_dec; auto. + apply am_safe0; auto.
  - intros Hl Hd Hp. apply A6; [apply am_settled; auto | apply am_safe; auto].
Qed.
End AttachMem.

(** ** Unlinking: [t1] before, [t0] after; [t2], [t4] the links while the method runs. *)
Definition cutlike (t0 t1 : struct) (self param : oid) (t : struct) : Prop :=
  next t = next t1 /\ forall y, kids t y = kids t0 y /\ kind t y = kind t1 y /\
    size t y = if Nat.eqb y self then size t1 self - size t1 param else size t1 y.
Lemma cut_cutlike : forall t0 t1 self param k t, linked t0 t1 self param k -> cut t1 self param k t -> cutlike t0 t1 self param t.
Proof.
  intros t0 t1 self param k t L [C1 C2]. split; auto. intros y. destruct (C2 y) as (A1 & A2 & A3 & A4).
  split; [|auto]. rewrite A3. destruct (Nat.eqb_spec y self) as [->|Hne]; [|apply (ln_kids' _ _ _ _ _ L); auto].
  pose proof (ln_pos _ _ _ _ _ L) as Hp. rewrite (ln_kids _ _ _ _ _ L).
  assert (Hl : length (firstn k (kids t0 self)) = k) by (apply firstn_length_le; auto).
  rewrite firstn_app, Hl, Nat.sub_diag, firstn_O, app_nil_r, firstn_firstn, Nat.min_id.
  rewrite skipn_app, Hl. replace (S k - k)%nat with 1%nat by lia. rewrite skipn_all2 by (rewrite Hl; lia).
  cbn [skipn app]. apply firstn_skipn.
Qed.

Section DetachMem.
Variables (t0 t1 t2 t4 : struct) (self param r : oid) (k : nat) (a : Z) (n0 : nat).
Hypothesis W0 : swf t0.
Hypothesis W1 : swf t1.
Hypothesis L : linked t0 t1 self param k.
Hypothesis Hnot : ~ above t0 param self.
Hypothesis Hnext : next t0 = next t1.
Hypothesis Hkind : forall y, kind t0 y = kind t1 y.
Hypothesis Hself : (self < next t0)%nat.
Hypothesis Hparam : (param < next t0)%nat.
Hypothesis Hpr : par t0 r = None.
Hypothesis Br : below t0 r self a n0.
Hypothesis Hi1 : forall y, above t0 r y -> inited t0 y = Some true.
Hypothesis Hi0 : forall y, ~ above t0 r y -> inited t0 y = inited t1 y.
Hypothesis C2 : cutlike t0 t1 self param t2.
Hypothesis C4 : cutlike t0 t1 self param t4.
Variable ts : list tree.
Hypothesis K2 : krep t2 (T self ts).
Hypothesis K4 : krep t4 (T self ts).
Hypothesis Nd : NoDup (oids (T self ts)).
Hypothesis Hh2 : forall c, In c ts -> (height c <= fuel t2)%nat.
Hypothesis Hh4 : forall c, In c ts -> (height c <= fuel t4)%nat.
Variable m : @memst V.
Hypothesis M : meminv t1 m.
Notation n := (size t1 param).

Let Hr : (r < next t0)%nat.
Proof. eapply root_lt; eauto. Qed.
Let Habove : forall x y, above t1 x y <-> above t0 x y \/ (above t0 x self /\ above t0 param y).
Proof. exact (at_above t0 t1 self param k W0 L Hnot). Qed.
Let Hrs : above t0 r self.
Proof. exists a, n0; auto. Qed.
Let Hpn : size t0 param = n.
Proof. symmetry. apply (ln_size' _ _ _ _ _ L); auto. Qed.
Let Hnn : 0 <= n.
Proof. apply size_nonneg; auto. Qed.
Let Hkid : In param (kids t1 self).
Proof. rewrite (ln_kids _ _ _ _ _ L). apply in_or_app. right; left; auto. Qed.
Let Hnode : kind t1 self = KNode.
Proof. destruct (kind t1 self) eqn:E; auto. apply (PzTree.wf_leaf t1 W1) in E as [E _]. rewrite E in Hkid. destruct Hkid. Qed.
Let Hdown : forall y, above t0 self y -> y <> self -> ~ above t0 y self.
Proof. intros y H Hne Q. apply Hne. apply (above_antisym t0); auto. Qed.

Lemma dm_size_cut : forall t y, cutlike t0 t1 self param t -> above t0 self y -> size t y = size t0 y.
Proof.
  intros t y [_ C] Hy. destruct (C y) as (_ & _ & ->). destruct (Nat.eqb_spec y self) as [->|Hne].
  - rewrite (ln_size _ _ _ _ _ L) by apply above_refl. lia.
  - apply (ln_size' _ _ _ _ _ L). auto.
Qed.
Lemma dm_below_cut : forall t x y o d, cutlike t0 t1 self param t -> above t0 self x -> (below t x y o d <-> below t0 x y o d).
Proof.
  intros t x y o d C Hx.
  assert (Hk : forall z, kids t z = kids t0 z) by (intros z; destruct C as [_ C]; destruct (C z); auto).
  assert (Hs : forall z i, above t0 self z -> sum_sizes t (firstn i (kids t z)) = sum_sizes t0 (firstn i (kids t0 z))).
  { intros z i Hz. rewrite Hk. apply sum_sizes_ext. intros w Hw. apply dm_size_cut; auto.
    eapply above_trans; eauto. apply above_kid. eapply firstn_In; eauto. }
  split; intros B.
  - induction B as [x|x i c y o d Hi B IH]; [constructor|]. rewrite Hs by auto. rewrite Hk in Hi. econstructor; eauto.
    apply IH. eapply above_trans; eauto. apply above_kid. eapply nth_error_In; eauto.
  - induction B as [x|x i c y o d Hi B IH]; [constructor|]. rewrite <- Hs by auto. econstructor; eauto.
    + rewrite Hk. eauto.
    + apply IH. eapply above_trans; eauto. apply above_kid. eapply nth_error_In; eauto.
Qed.
Lemma dm_above_cut : forall t y, cutlike t0 t1 self param t -> (above t self y <-> above t0 self y).
Proof. intros t y C. split; intros [o [d B]]; exists o, d; apply (dm_below_cut t self y o d C (above_refl _ _)); auto. Qed.
Lemma dm_al_cut : forall t m' x b o, cutlike t0 t1 self param t -> above t0 self x -> (al t m' x b o <-> al t0 m' x b o).
Proof.
  intros t m' x b o C Hx. split; intros H y kk d B Hp.
  - assert (Hy : above t0 self y) by (eapply above_trans; eauto; exists kk, d; auto).
    rewrite <- (dm_size_cut t y C Hy) in *. apply (H y kk d); auto. apply dm_below_cut; auto.
  - apply (dm_below_cut t x y kk d C Hx) in B.
    assert (Hy : above t0 self y) by (eapply above_trans; eauto; exists kk, d; auto).
    rewrite (dm_size_cut t y C Hy) in *. apply (H y kk d); auto.
Qed.
Lemma dm_leaf : forall y, is_leaf t0 y = is_leaf t1 y.
Proof. intros. unfold is_leaf. rewrite Hkind. auto. Qed.
Lemma dm_leaf_cut : forall t y, cutlike t0 t1 self param t -> is_leaf t y = is_leaf t1 y.
Proof. intros t y [_ C]. unfold is_leaf. destruct (C y) as (_ & -> & _). auto. Qed.
Lemma dm_leaf_size : forall y, is_leaf t1 y = true -> size t0 y = size t1 y.
Proof.
  intros y Hl. symmetry. apply (ln_size' _ _ _ _ _ L). intros H. rewrite <- dm_leaf in Hl.
  apply kids_nil_above in H; [|apply leaf_kids; auto]. subst y. unfold is_leaf in Hl. rewrite Hkind, Hnode in Hl. discriminate.
Qed.
Lemma dm_leaf_size_cut : forall t y, cutlike t0 t1 self param t -> is_leaf t1 y = true -> size t y = size t1 y.
Proof.
  intros t y [_ C] Hl. destruct (C y) as (_ & _ & ->). destruct (Nat.eqb_spec y self) as [->|]; auto.
  unfold is_leaf in Hl. rewrite Hnode in Hl. discriminate.
Qed.
Lemma dm_cut_ok : forall t, cutlike t0 t1 self param t -> forall z, above t self z -> node_ok t z /\ 0 <= size t z.
Proof.
  intros t C z Hz. apply (dm_above_cut t z C) in Hz. rewrite (dm_size_cut t z C Hz). split; [|apply size_nonneg; auto].
  pose proof (wf_node_ok t0 z W0) as H. unfold node_ok in *. destruct C as [C' C]. destruct (C z) as (-> & -> & Q).
  assert (Es : size t z = size t0 z) by (apply dm_size_cut; auto; split; auto).
  rewrite <- Hkind. rewrite Es. destruct (kind t0 z); auto. rewrite H. symmetry. apply sum_sizes_ext.
  intros w Hw. apply dm_size_cut; [split; auto|]. eapply above_trans; eauto. apply above_kid; auto.
Qed.
Lemma dm_al_other : forall x b o, ~ above t0 x self -> al t1 m x b o -> al t0 m x b o.
Proof.
  intros x b o Hx H y kk d B Hp. pose proof (below_same t0 t1 self param k L x y kk d Hx B) as B1.
  assert (Hy : ~ above t0 y self). { intros Q. apply Hx. eapply above_trans; eauto. exists kk, d; auto. }
  rewrite <- (ln_size' _ _ _ _ _ L y Hy) in *. eapply H; eauto.
Qed.
Lemma dm_size0 : n = 0 -> forall z, size t0 z = size t1 z.
Proof.
  intros Hn z. destruct (above_dec t0 z self W0) as [Q|Q]; [rewrite (ln_size _ _ _ _ _ L) by auto; lia | symmetry; apply (ln_size' _ _ _ _ _ L); auto].
Qed.
Lemma dm_al_zero : forall x b o, n = 0 -> al t1 m x b o -> al t0 m x b o.
Proof.
  intros x b o Hn H. destruct (above_dec t0 x self W0) as [[ax [nx Bx]]|Hx]; [|apply dm_al_other; auto].
  intros y kk d B Hp. pose proof (dm_size0 Hn) as Hsz. rewrite Hsz in Hp |- *.
  destruct (below_cases t0 t1 self param k W0 L Hnot x ax nx Bx y kk d B) as [[A1 A2]|[[A1 [A2 A3]]|[A1 [A2 A3]]]]; try (eapply H; eauto; fail).
  rewrite Hpn, Hn, Z.add_0_r in A3. eapply H; eauto.
Qed.
(** What stands above the unlinked object has an array of the wrong size now. *)
Lemma dm_reset : 0 < n -> forall z, above t0 z self -> forall b o, arr m z <> Some (b, o, size t0 z).
Proof.
  intros Hn z Hz b o E.
  assert (Hzl : (z < next t0)%nat) by (destruct Hz as [? [? Hz]]; eapply root_lt; eauto).
  destruct (mm_size _ _ M z b o _ ltac:(congruence) E) as [Q|[_ Q2]].
  - rewrite (ln_size _ _ _ _ _ L) in Q by auto. lia.
  - assert (Q : above t1 z param) by (eapply above_trans; [apply Habove; left; eauto | apply above_kid; auto]).
    apply kids_nil_above in Q; auto. subst z. apply Hnot. auto.
Qed.
Lemma dm_inited : forall x b o nn, (x < next t0)%nat -> kind t1 x = KNode -> arr m x = Some (b, o, nn) -> inited t1 x = Some true.
Proof.
  intros x b o nn Hx Hk E. destruct (inited t1 x) as [[|]|] eqn:Ei; auto; rewrite (mm_none _ _ M x) in E; try congruence.
Qed.
(** Of an object that keeps its size the arrays below are still parts of its own. *)
Lemma dm_valid_al : forall x b o, (x < next t0)%nat -> kind t1 x = KNode -> n = 0 -> arr m x = Some (b, o, size t0 x) -> 0 < size t0 x -> al t0 m x b o.
Proof.
  intros x b o Hx Hk Hn E Hp. pose proof (dm_inited x b o _ Hx Hk E) as Hi. destruct (mm_al _ _ M x Hi) as [b' [o' Q]].
  apply dm_al_zero in Q; auto. pose proof (Q x 0 0%nat (below_refl _ _) Hp) as E'. rewrite Z.add_0_r, E in E'. inversion E'; subst. auto.
Qed.

(** The first two calls of [_connect_parameters]. *)
Lemma detach_mem1 : exists m1 m2, connect_mem t2 self m = Ok m1 /\ connect_mem t4 self m1 = Ok m2 /\
  bnd m2 /\ (nbuf m <= nbuf m2)%nat /\
  (forall y, ~ above t0 self y -> arr m2 y = arr m y) /\
  (kids t0 self = [] -> m2 = m) /\
  (kids t0 self <> [] -> exists b o, forall y kk d, below t0 self y kk d -> arr m2 y = Some (b, o + kk, size t0 y)) /\
  (n = 0 -> inited t1 self = Some true -> forall y, 0 < size t0 y -> arr m2 y = arr m y) /\
  (disj t1 m -> disj t1 m2) /\
  (inited t1 self = Some true -> kept t1 m m2).
Proof.
  assert (Hk2 : forall z, kids t2 z = kids t0 z) by (intros z; destruct C2 as [_ C]; destruct (C z); auto).
  assert (Hk4 : forall z, kids t4 z = kids t0 z) by (intros z; destruct C4 as [_ C]; destruct (C z); auto).
  assert (Hlt : forall y, above t0 self y -> (y < next t1)%nat) by (intros y [o [d B]]; rewrite <- Hnext; eapply below_lt; eauto).
  destruct (connect_below t2 self ts m K2 Nd) as (m1 & E1 & A1 & A2 & A3 & A4 & A5 & A6); auto.
  { intros y Hy. apply (koids_below t2 (T self ts)) in Hy; auto. apply (dm_cut_ok t2 C2 y Hy). }
  { intros y Hy Hl. apply (koids_below t2 (T self ts)) in Hy; auto. apply (dm_above_cut t2 y C2) in Hy.
    rewrite (dm_leaf_cut t2 y C2) in Hl. destruct (leaf_valid t1 m y M (Hlt y Hy) Hl) as [b [o E]]. exists b, o.
    rewrite dm_leaf_size_cut; auto. }
  { apply (mm_bnd _ _ M). }
  assert (A3' : forall y, ~ above t0 self y -> arr m1 y = arr m y).
  { intros y Hy. apply A3. rewrite dm_above_cut; auto. }
  assert (V1 : forall y, above t0 self y -> is_leaf t1 y = true -> valid t4 m1 y).
  { intros y Hy Hl. rewrite Hk2 in A4, A5. destruct (kids t0 self) as [|c0 ks] eqn:Ek.
    - exfalso. apply kids_nil_above in Hy; auto. subst y. unfold is_leaf in Hl. rewrite Hnode in Hl. discriminate.
    - destruct A5 as (ba & oa & _ & B2); [congruence|]. assert (Hy' := Hy). apply (dm_above_cut t2 y C2) in Hy' as [kk [d B]].
      exists ba, (oa + kk). rewrite (B2 _ _ _ B). rewrite (dm_size_cut t2), (dm_size_cut t4); auto. }
  destruct (connect_below t4 self ts m1 K4 Nd) as (m2 & E2 & A1' & A2' & A3'' & A4' & A5' & A6'); auto.
  { intros y Hy. apply (koids_below t4 (T self ts)) in Hy; auto. apply (dm_cut_ok t4 C4 y Hy). }
  { intros y Hy Hl. apply (koids_below t4 (T self ts)) in Hy; auto. apply (dm_above_cut t4 y C4) in Hy.
    rewrite (dm_leaf_cut t4 y C4) in Hl. auto. }
  assert (A7 : forall y, ~ above t0 self y -> arr m2 y = arr m1 y).
  { intros y Hy. apply A3''. rewrite dm_above_cut; auto. }
  exists m1, m2. split; [exact E1|]. split; [exact E2|]. split; [auto|]. split; [lia|].
  split. { intros y Hy. rewrite A7, A3'; auto. }
  rewrite Hk2 in A4, A5. rewrite Hk4 in A4', A5'.
  split. { intros Ek. rewrite A4', A4; auto. }
  (* the second connection finds everything in place *)
  assert (B2 : kids t0 self <> [] -> exists b o, (arr m self = Some (b, o, size t0 self) \/ ((forall b' o', arr m self <> Some (b', o', size t0 self)) /\ (nbuf m <= b)%nat)) /\
     (forall y kk d, below t0 self y kk d -> arr m1 y = Some (b, o + kk, size t0 y)) /\
     (forall y kk d, below t0 self y kk d -> arr m2 y = Some (b, o + kk, size t0 y))).
  { intros Ek. destruct (A5 Ek) as (ba & oa & B1 & B2). destruct (A5' Ek) as (ba' & oa' & B1' & B2').
    assert (Q1 : forall y kk d, below t0 self y kk d -> arr m1 y = Some (ba, oa + kk, size t0 y)).
    { intros y kk d B. rewrite (B2 y kk d) by (apply dm_below_cut; auto; apply above_refl).
      rewrite (dm_size_cut t2); auto. exists kk, d; auto. }
    pose proof (Q1 self 0 0%nat (below_refl _ _)) as Qs.
    assert (ba' = ba /\ oa' = oa) as [-> ->].
    { destruct B1' as [B1'|[B1' _]].
      - rewrite Qs, (dm_size_cut t4 self C4 (above_refl _ _)) in B1'. inversion B1'. split; auto. lia.
      - exfalso. apply B1'. exists ba, (oa + 0). rewrite Qs, (dm_size_cut t4 self C4 (above_refl _ _)). auto. }
    exists ba, oa. split.
    - rewrite (dm_size_cut t2 self C2 (above_refl _ _)) in B1. destruct B1 as [B1|[B1 B3]]; [left; auto | right; split; auto].
      intros b' o' Q. apply B1. exists b', o'. rewrite (dm_size_cut t2 self C2 (above_refl _ _)). auto.
    - split; auto. intros y kk d B. rewrite (B2' y kk d) by (apply dm_below_cut; auto; apply above_refl).
      rewrite (dm_size_cut t4); auto. exists kk, d; auto. }
  split. { intros Ek. destruct (B2 Ek) as (b & o & _ & _ & Q). exists b, o. exact Q. }
  assert (Hso : forall b o, n = 0 -> arr m self = Some (b, o, size t0 self) -> 0 < size t0 self -> al t0 m self b o).
  { intros b o Hn Q Hp. apply dm_valid_al; auto. }
  split.
  { intros Hn Hi y Hp. destruct (above_dec t0 self y W0) as [[kk [d B]]|Hy]; [|rewrite A7, A3'; auto].
    destruct (kids t0 self) as [|c0 ks] eqn:Ek; [rewrite A4', A4; auto|].
    destruct B2 as (b & o & Q1 & _ & Q2); [congruence|]. rewrite (Q2 y kk d B).
    destruct (below_range _ _ _ _ _ W0 B).
    destruct (mm_al _ _ M self Hi) as [b' [o' Q]]. apply dm_al_zero in Q; auto.
    pose proof (Q self 0 0%nat (below_refl _ _) ltac:(lia)) as E'. rewrite Z.add_0_r in E'.
    destruct Q1 as [Q1|[Q1 _]]; [|exfalso; eapply Q1; eauto]. rewrite E' in Q1. inversion Q1; subst.
    symmetry. eapply Q; eauto. }
  assert (Dx : forall t (mm : @memst V), cutlike t0 t1 self param t -> (disj t mm <-> disj t1 mm)).
  { intros t mm C. unfold disj. split; intros H x y b ox oy Lx Ly Hne Ex Ey Px Py.
    - pose proof (H x y b ox oy) as Q. rewrite !(dm_leaf_cut t _ C), (dm_leaf_size_cut t x C Lx), (dm_leaf_size_cut t y C Ly) in Q. auto.
    - rewrite (dm_leaf_cut t _ C) in Lx. rewrite (dm_leaf_cut t _ C) in Ly. rewrite (dm_leaf_size_cut t x C Lx), (dm_leaf_size_cut t y C Ly) in *. eapply H; eauto. }
  assert (Kx : forall t (mm mm' : @memst V), cutlike t0 t1 self param t -> (kept t mm mm' <-> kept t1 mm mm')).
  { intros t mm mm' C. unfold kept. split; intros H y b o j Ly Ey Hj.
    - pose proof (H y b o j) as Q. rewrite !(dm_leaf_cut t _ C), (dm_leaf_size_cut t y C Ly) in Q. auto.
    - rewrite (dm_leaf_cut t _ C) in Ly. rewrite (dm_leaf_size_cut t y C Ly) in *. eapply H; eauto. }
  assert (Dec2 : forall y, above t2 self y \/ ~ above t2 self y).
  { intros y. rewrite (dm_above_cut t2 y C2). apply above_dec; auto. }
  assert (Dec4 : forall y, above t4 self y \/ ~ above t4 self y).
  { intros y. rewrite (dm_above_cut t4 y C4). apply above_dec; auto. }
  (* the second connection *)
  assert (S4 : kids t0 self <> [] -> exists b o, arr m1 self = Some (b, o, size t4 self) /\ al t4 m1 self b o).
  { intros Ek. destruct (B2 Ek) as (b & o & _ & Q & _). exists b, o.
    rewrite (dm_size_cut t4 self C4 (above_refl _ _)). split.
    - rewrite <- (Z.add_0_r o). apply (Q self 0 0%nat). constructor.
    - apply (dm_al_cut t4); auto; [apply above_refl|]. intros y kk d B _. apply (Q y kk d B). }
  (* the first one *)
  assert (S2 : (exists b o, arr m self = Some (b, o, size t2 self) /\ al t2 m self b o) \/ size t2 self = 0 \/ ~ valid t2 m self).
  { rewrite (dm_size_cut t2 self C2 (above_refl _ _)). pose proof (size_nonneg t0 W0 self).
    destruct (Z.eq_dec (size t0 self) 0) as [Ez|Ez]; [auto|].
    destruct (valid_dec t2 m self) as [[b [o Q]]|Q]; [|auto]. rewrite (dm_size_cut t2 self C2 (above_refl _ _)) in Q.
    destruct (Z.eq_dec n 0) as [En|En].
    - left. exists b, o. split; auto. apply (dm_al_cut t2); auto; [apply above_refl|]. apply Hso; auto. lia.
    - exfalso. eapply dm_reset; [| |exact Q]; [lia | apply above_refl]. }
  split.
  { intros D. apply (Dx t4 m2 C4).
    apply (connect_disj t4 self m1 m2); auto.
    - apply dm_cut_ok; auto.
    - rewrite Hk4. auto.
    - rewrite Hk4. auto.
    - destruct (kids t0 self) as [|c0 ks] eqn:Ek; [|left; apply S4; congruence]. right. left.
      rewrite (dm_size_cut t4 self C4 (above_refl _ _)). rewrite (PzTree.wf_node t0 W0 self) by (rewrite Hkind; auto). rewrite Ek. reflexivity.
    - apply (Dx t4 m1 C4). apply (Dx t2 m1 C2). apply (connect_disj t2 self m m1); auto.
      + apply dm_cut_ok; auto.
      + apply (mm_bnd _ _ M).
      + rewrite Hk2. auto.
      + rewrite Hk2. auto.
      + apply (Dx t2 m C2). auto. }
  intros Hi. destruct (mm_al _ _ M self Hi) as [bS [oS HS]].
  assert (HSx : forall x kk d, below t0 self x kk d -> x <> self -> exists b o, al t0 m x b o).
  { intros x kk d B Hne. assert (Hx : ~ above t0 x self) by (apply Hdown; auto; exists kk, d; auto).
    assert (Q : above t1 self x) by (apply Habove; left; exists kk, d; auto). destruct Q as [k' [d' B']].
    exists bS, (oS + k'). apply dm_al_other; auto. eapply al_sub; eauto. }
  assert (K12 : kept t1 m m1).
  { apply (Kx t2 m m1 C2). apply A6.
    - intros c Hc. rewrite Hk2 in Hc. assert (Hsc : above t0 self c) by (apply above_kid; auto).
      assert (Hne : c <> self). { intros ->. eapply no_self_kid; [exact W0 | apply above_refl | exact Hc]. }
      destruct Hsc as [kc [dc Bc]]. destruct (HSx c kc dc Bc Hne) as [b [o Q]].
      assert (Hsc : above t0 self c) by (apply above_kid; auto).
      pose proof (al_settled' t0 m c b o W0 Q) as Q2. unfold settledb, valid in *.
      rewrite (dm_size_cut t2 c C2 Hsc). destruct Q2 as [Q2|[b' [o' [Q2 Q3]]]]; [left; auto | right].
      exists b', o'. split; auto. apply (dm_al_cut t2); auto.
    - destruct S2 as [Q|[Q|Q]]; [left; auto | right; left; auto | right; right]. split; auto.
      intros x kx Bx Hx. apply (dm_below_cut t2 self x kx 2%nat C2 (above_refl _ _)) in Bx.
      assert (Hne : x <> self). { intros ->. destruct (wf_no_cycle _ _ _ _ W0 Bx). lia. }
      destruct (HSx x kx 2%nat Bx Hne) as [b [o Q2]]. exists b, o. apply (dm_al_cut t2); auto. exists kx, 2%nat; auto. }
  assert (K24 : kept t1 m1 m2).
  { apply (Kx t4 m1 m2 C4). destruct (kids t0 self) as [|c0 ks] eqn:Ek.
    { rewrite A4' by auto. intros y b o j _ Q _. exists b, o; auto. }
    destruct S4 as [b [o [Q1 Q2]]]; [congruence|]. apply A6'.
    - intros c Hc. destruct (above_kid t4 self c Hc) as [kc [dc Bc]]. pose proof (al_sub _ _ _ _ _ _ _ _ Q2 Bc) as Q3.
      assert (Hsc : above t0 self c) by (apply (dm_above_cut t4 c C4); exists kc, dc; auto).
      destruct (Z_le_gt_dec (size t4 c) 0) as [Hz|Hz]; [|apply (al_settled t4 m1 c b (o + kc)); auto; lia].
      destruct (valid_dec t4 m1 c) as [[b' [o' Q4]]|Q4]; [|left; auto]. right. exists b', o'. split; auto.
      intros y ky dy By Hp. exfalso. assert (Ok4 : forall z, above t4 c z -> node_ok t4 z /\ 0 <= size t4 z).
      { intros z Hz'. apply (dm_cut_ok t4 C4). eapply above_trans; eauto. exists kc, dc; auto. }
      destruct (below_range' _ _ _ _ _ Ok4 By). lia.
    - left. exists b, o. auto. }
  intros y b o j Ly Ey Hj. destruct (K12 y b o j Ly Ey Hj) as (b1 & o1 & E3 & E4).
  destruct (K24 y b1 o1 j Ly E3 Hj) as (b3 & o3 & E5 & E6). exists b3, o3. split; auto. congruence.
Qed.

Hypothesis Hrdown : inited t1 r = Some true -> inited t1 self = Some true.
Lemma detach_mem : exists m1 m2 m3, connect_mem t2 self m = Ok m1 /\ connect_mem t4 self m1 = Ok m2 /\ connect_mem t0 r m2 = Ok m3 /\
  meminv t0 m3 /\ (nbuf m <= nbuf m3)%nat /\
  (forall y, ~ above t0 r y -> arr m3 y = arr m y) /\
  (disj t1 m -> disj t0 m3) /\
  (inited t1 r = Some true -> (n0 <= 2)%nat -> kept t1 m m3).
Proof.
  destruct detach_mem1 as (m1 & m2 & E1 & E2 & F0 & F0' & F1 & F3 & F2 & F4 & F5 & F6).
  assert (Hlt : forall y, above t0 r y -> (y < next t1)%nat) by (intros y [o [d B]]; rewrite <- Hnext; eapply below_lt; eauto).
  assert (Hsr : forall y, above t0 self y -> above t0 r y) by (intros; eapply above_trans; eauto).
  assert (Hself0 : kids t0 self = [] -> size t0 self = 0).
  { intros Ek. rewrite (PzTree.wf_node t0 W0 self) by (rewrite Hkind; auto). rewrite Ek. reflexivity. }
  assert (Hleafself : is_leaf t1 self = true -> False) by (unfold is_leaf; rewrite Hnode; discriminate).
  destruct (connect_wf t0 r m2 W0) as (m3 & E3 & A1 & A2 & A3 & A4 & A5 & A6); auto.
  { intros y Hy Hl. rewrite dm_leaf in Hl. unfold valid. destruct (above_dec t0 self y W0) as [Hs|Hs].
    - destruct (kids t0 self) as [|c0 ks] eqn:Ek.
      + exfalso. apply kids_nil_above in Hs; auto. subst y. auto.
      + destruct F2 as (b & o & Q); [congruence|]. destruct Hs as [kk [d B]]. exists b, (o + kk). eauto.
    - rewrite F1 by auto. rewrite dm_leaf_size by auto. apply leaf_valid; auto. }
  exists m1, m2, m3. split; [auto|]. split; [auto|]. split; [auto|].
  assert (A3' : forall y, ~ above t0 r y -> arr m3 y = arr m y).
  { intros y Hy. rewrite A3 by auto. apply F1. auto. }
  assert (Hkr : kids t0 r = [] -> r = self).
  { intros Ek. eapply kids_nil_above; eauto. }
  assert (Hout : forall x, ~ above t0 r x -> ~ above t0 x self).
  { intros x Hx Q. apply Hx. destruct (root_exists t0 x W0) as (q & oq & nq & _ & Hq & Bq).
    assert (q = r) as <- by (apply (roots_eq t0 r q self W0); auto; eapply above_trans; eauto; exists oq, nq; auto). exists oq, nq; auto. }
  split.
  { constructor.
    - auto.
    - intros x Hx Hk Hi. destruct (above_dec t0 r x W0) as [Q|Q]; [exfalso; apply Hi, Hi1; auto|].
      rewrite A3' by auto. rewrite Hi0 in Hi by auto. apply (mm_none _ _ M); congruence.
    - intros x b o n' Hx Q. destruct (above_dec t0 r x W0) as [Nx|Nx].
      + destruct (kids t0 r) as [|c0 ks] eqn:Ek.
        * right. pose proof (kids_nil_above _ _ _ Ek Nx) as Q1. subst x. rewrite (Hkr eq_refl) in Ek |- *.
          split; [rewrite Hkind; auto | auto].
        * destruct A5 as (ba & oa & _ & B2); [congruence|]. destruct Nx as [kx [dx Bx]]. rewrite (B2 _ _ _ Bx) in Q. inversion Q; auto.
      + rewrite A3' in Q by auto. assert (Hxs := Hout x Nx).
        rewrite <- (ln_size' _ _ _ _ _ L), Hkind by auto.
        rewrite <- (ln_kids' _ _ _ _ _ L) by (intros ->; apply Hxs, above_refl).
        apply (mm_size _ _ M x b o n'); auto. congruence.
    - intros x Hx Hl. destruct (above_dec t0 r x W0) as [Nx|Nx].
      + destruct (kids t0 r) as [|c0 ks] eqn:Ek.
        * exfalso. pose proof (kids_nil_above _ _ _ Ek Nx) as Q1. subst x. rewrite dm_leaf, (Hkr eq_refl) in Hl. auto.
        * destruct A5 as (ba & oa & _ & B2); [congruence|]. destruct Nx as [kx [dx Bx]]. rewrite (B2 _ _ _ Bx). discriminate.
      + rewrite A3' by auto. rewrite dm_leaf in Hl. apply (mm_leaf _ _ M); auto. congruence.
    - intros x Hx. destruct (above_dec t0 r x W0) as [Nx|Nx].
      + destruct (kids t0 r) as [|c0 ks] eqn:Ek.
        * exists 0%nat, 0. intros y ky dy By Hp. exfalso.
          pose proof (kids_nil_above _ _ _ Ek Nx) as Q1. subst x. pose proof (Hkr eq_refl) as Q1. subst r.
          destruct (below_range _ _ _ _ _ W0 By). rewrite Hself0 in *; auto. lia.
        * destruct A5 as (ba & oa & _ & B2); [congruence|]. destruct Nx as [kx [dx Bx]].
          exists ba, (oa + kx). intros y ky dy By _. rewrite <- Z.add_assoc. apply (B2 y (kx + ky) (dx + dy)%nat). eapply below_trans; eauto.
      + rewrite Hi0 in Hx by auto. destruct (mm_al _ _ M x Hx) as [b [o Q]].
        assert (Hxs := Hout x Nx). apply dm_al_other in Q; auto. exists b, o. intros y ky dy By Hp. rewrite A3'; [eapply Q; eauto|].
        intros Hy. apply Nx.
        destruct (root_exists t0 x W0) as (q & oq & nq & _ & Hq & Bq).
        assert (q = r) as <-; [|exists oq, nq; auto].
        apply (roots_eq t0 r q y W0); auto. eapply above_trans; [exists oq, nq; eauto | exists ky, dy; eauto]. }
  split; [lia|]. split; [auto|].
  assert (Al2 : forall x b o, ~ above t0 x self -> ~ above t0 self x -> al t1 m x b o -> al t0 m2 x b o).
  { intros x b o N1 N2 Q. apply dm_al_other in Q; auto. intros y ky dy By Hp. rewrite F1; [eapply Q; eauto|].
    intros Hy. assert (Q1 : above t0 x self \/ above t0 self x); [|tauto].
    destruct Hy as [o1 [d1 B1]]. destruct (Nat.le_ge_cases dy d1) as [Hle|Hle].
    - destruct (below_comparable _ _ _ _ _ _ _ _ W0 By B1 Hle) as [z [Bz _]]. right. exists z; eauto.
    - destruct (below_comparable _ _ _ _ _ _ _ _ W0 B1 By Hle) as [z [Bz _]]. left. exists z; eauto. }
  (* above self, nothing has moved when the unlinked object is empty *)
  assert (Al0 : forall x b o, n = 0 -> inited t1 self = Some true -> al t1 m x b o -> al t0 m2 x b o).
  { intros x b o Hn Hi Q. apply dm_al_zero in Q; auto. intros y ky dy By Hp. rewrite F4 by auto. eapply Q; eauto. }
  assert (AlS : kids t0 self <> [] -> exists b o, al t0 m2 self b o /\ arr m2 self = Some (b, o, size t0 self)).
  { intros Ek. destruct (F2 Ek) as (b & o & Q). exists b, o. split; [intros y ky dy By _; eapply Q; eauto|].
    rewrite <- (Z.add_0_r o). apply (Q self 0 0%nat). constructor. }
  assert (Strict : forall z, above t0 z self -> z <> self -> arr m2 z = arr m z).
  { intros z Hz Hne. apply F1. intros Q. apply Hne. apply (above_antisym t0); auto. }
  assert (S0 : (exists b o, arr m2 r = Some (b, o, size t0 r) /\ al t0 m2 r b o) \/ size t0 r = 0 \/ ~ valid t0 m2 r).
  { pose proof (size_nonneg t0 W0 r). destruct (Z.eq_dec (size t0 r) 0) as [Ez|Ez]; [auto|].
    destruct (Nat.eq_dec r self) as [->|Hne].
    - destruct (kids t0 self) as [|c0 ks] eqn:Ek; [rewrite Hself0 in Ez; congruence|].
      destruct AlS as [b [o [Q1 Q2]]]; [congruence|]. left. exists b, o. auto.
    - destruct (valid_dec t0 m2 r) as [[b [o Q]]|Q]; [|auto]. rewrite Strict in Q by auto.
      destruct (Z.eq_dec n 0) as [En|En]; [|exfalso; eapply dm_reset; [| |exact Q]; auto; lia].
      assert (Hrk : kind t1 r = KNode).
      { destruct (kind t1 r) eqn:E; auto. exfalso. apply Hne. apply (kids_nil_above t0); auto. apply leaf_kids; auto.
        unfold is_leaf. rewrite Hkind, E. auto. }
      pose proof (dm_inited r b o _ Hr Hrk Q) as Hi. destruct (mm_al _ _ M r Hi) as [b' [o' Q1]].
      apply Al0 in Q1; auto. pose proof (Q1 r 0 0%nat (below_refl _ _) ltac:(lia)) as E'. rewrite Z.add_0_r in E'.
      left. exists b', o'. auto. }
  assert (Dx : forall (mm : @memst V), disj t0 mm <-> disj t1 mm).
  { intros mm. unfold disj. split; intros H x y b ox oy Lx Ly Hne Ex Ey Px Py.
    - pose proof (H x y b ox oy) as Q. rewrite !dm_leaf, (dm_leaf_size x Lx), (dm_leaf_size y Ly) in Q. auto.
    - rewrite dm_leaf in Lx. rewrite dm_leaf in Ly. rewrite (dm_leaf_size x Lx) in Ex, Px |- *. rewrite (dm_leaf_size y Ly) in Ey, Py |- *. exact (H x y b ox oy Lx Ly Hne Ex Ey Px Py). }
  split.
  { intros D. apply (connect_disj t0 r m2 m3); auto.
    - apply wf_ok; auto.
    - intros y; apply above_dec; auto.
    - apply Dx, F5. auto. }
  intros Hi Hd. specialize (Hrdown Hi). destruct (mm_al _ _ M r Hi) as [bR [oR QR]].
  assert (AlX : forall x, above t0 r x -> exists b o, al t1 m x b o).
  { intros x Hx. assert (Q : above t1 r x) by (apply Habove; auto). destruct Q as [kx [dx Bx]]. exists bR, (oR + kx). eapply al_sub; eauto. }
  assert (SubS : forall x, above t0 self x -> x <> self -> exists b o, al t0 m2 x b o).
  { intros x [kx [dx Bx]] Hne. destruct AlS as [b [o [Q1 _]]].
    - intros Ek. apply Hne. symmetry. apply (kids_nil_above t0); auto. exists kx, dx; auto.
    - exists b, (o + kx). eapply al_sub; eauto. }
  assert (K3 : kept t0 m2 m3).
  { apply A6.
    - intros c Hc. assert (Hrc : above t0 r c) by (apply above_kid; auto).
      destruct (above_dec t0 c self W0) as [Hcs|Hcs].
      + destruct (Nat.eq_dec c self) as [->|Hne].
        * destruct (kids t0 self) as [|c0 ks] eqn:Ek; [apply zero_settled; auto|].
          destruct AlS as [b [o [Q1 _]]]; [congruence|]. eapply al_settled'; eauto.
        * destruct (Z.eq_dec n 0) as [En|En].
          -- destruct (AlX c Hrc) as [b [o Q]]. apply Al0 in Q; auto. eapply al_settled'; eauto.
          -- left. intros [b [o Q]]. rewrite Strict in Q by auto. eapply dm_reset; [| |exact Q]; auto. lia.
      + destruct (above_dec t0 self c W0) as [Hsc|Hsc].
        * destruct (SubS c Hsc) as [b [o Q]]; [intros ->; apply Hcs, above_refl|]. eapply al_settled'; eauto.
        * destruct (AlX c Hrc) as [b [o Q]]. apply Al2 in Q; auto. eapply al_settled'; eauto.
    - destruct S0 as [Q|[Q|Q]]; [left; auto | right; left; auto | right; right]. split; auto.
      intros x kx Bx Hx. assert (Hrx : above t0 r x) by (exists kx, 2%nat; auto).
      destruct (above_dec t0 x self W0) as [Hxs|Hxs].
      + destruct (Nat.eq_dec x self) as [->|Hne].
        * destruct AlS as [b [o [Q1 _]]]; [|exists b, o; auto]. intros Ek. rewrite Hself0 in Hx; auto. lia.
        * exfalso. destruct Hxs as [o1 [d1 B1]]. pose proof (below_trans _ _ _ _ _ _ _ _ Bx B1) as B2.
          destruct (below_unique _ _ _ _ _ _ _ W0 B2 Br) as [_ Q2]. assert (d1 = 0%nat) by lia. subst d1. inversion B1; subst; auto.
      + destruct (above_dec t0 self x W0) as [Hsx|Hsx].
        * apply SubS; auto. intros ->; apply Hxs, above_refl.
        * destruct (AlX x Hrx) as [b [o Q1]]. apply Al2 in Q1; auto. exists b, o; auto. }
  intros y b o j Ly Ey Hj. destruct (F6 Hrdown y b o j Ly Ey Hj) as (b1 & o1 & Q1 & Q2).
  rewrite <- dm_leaf in Ly. assert (Ly' := Ly). rewrite dm_leaf in Ly'. pose proof (K3 y b1 o1 j Ly) as Q3.
  rewrite (dm_leaf_size y Ly') in Q3. destruct (Q3 Q1 Hj) as (b3 & o3 & Q4 & Q5). exists b3, o3. split; auto. congruence.
Qed.
End DetachMem.
End LinkMem.
