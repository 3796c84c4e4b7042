(** Proofs about copying, part 5: [copy] as a call. *)
From Coq Require Import List ZArith Bool Lia Arith.
From Verif Require Import NpModel NpProofs IndexOpsModel IndexOpsSpec IndexOpsProofs PzModel CopyModel PzSpec PzTree PzStruct PzLink PzWalk PzMem PzIo PzInv PzConn PzFix PzLinkMem PzPres PzUnlink PzTraverse PzNotify PzNew PzCmd PzInit PzVal PzOpt PzRandom PzGet CopyTree CopyDeep CopyJoin CopyConn CopySpec.
Import ListNotations.
Open Scope Z_scope.

Section Call.
Context {V : Type}.
Implicit Types s : @state V.
Notation "a ;; b" := (andthen a b) (at level 61, right associativity).

(** ** Paths *)
Lemma follow_iso : forall P t t' tr tr', krep t tr -> krep t' tr' -> iso P tr tr' -> forall path,
  match follow t (root tr) path, follow t' (root tr') path with
  | Some a, Some b => In a (oids tr) /\ In b (oids tr') /\ P a b
  | None, None => True
  | _, _ => False
  end.
Proof.
  intros P t t' tr. induction tr as [x ts IH] using tree_ind'. intros tr' K K' H path. inversion H as [x0 y ts0 us Hxy Hl]; subst. cbn [root].
  destruct path as [|i path]; cbn [follow]; [split; [left; auto|]; split; [left; auto | auto]|].
  rewrite (krep_kids _ _ _ K), (krep_kids _ _ _ K'), !nth_error_map.
  destruct (nth_error us i) as [d|] eqn:Ei; cbn.
  - destruct (Forall2_nth _ _ _ _ _ _ _ Hl Ei) as (c & Hc & Hcd). rewrite Hc. cbn. apply nth_error_In in Hc. apply nth_error_In in Ei.
    rewrite Forall_forall in IH. specialize (IH c Hc d (krep_child _ _ _ _ K Hc) (krep_child _ _ _ _ K' Ei) Hcd path).
    destruct (follow t (root c) path), (follow t' (root d) path); auto. destruct IH as (A & B & C). split; [eapply in_child; eauto|]. split; [eapply in_child; eauto | auto].
  - destruct (nth_error ts i) as [c|] eqn:Ei'; cbn; auto.
    assert (Q : nth_error ts i <> None) by congruence. apply nth_error_Some in Q. apply nth_error_None in Ei.
    assert (L : length ts = length us) by (clear - Hl; induction Hl; simpl; auto). lia.
Qed.
(** Where a path leads in the two trees. *)
Lemma follow_below : forall t path x a, follow t x path = Some a -> exists o n, below t x a o n.
Proof.
  intros t path. induction path as [|i path IH]; intros x a H; cbn [follow] in H; [inversion H; subst; exists 0, 0%nat; constructor|].
  destruct (nth_error (kids t x) i) as [c|] eqn:Ei; [|discriminate]. destruct (IH c a H) as (o & n & B). eexists; eexists. econstructor; eauto.
Qed.
Lemma below_follow : forall t x a o n, below t x a o n -> exists path, follow t x path = Some a.
Proof.
  intros t x a o n B. induction B as [x|x i c y o n Hi B [p IH]]; [exists []; auto|]. exists (i :: p). cbn [follow]. rewrite Hi. auto.
Qed.
(** Every new object is what an object of the original was. *)
Lemma copy_source : forall s s' x y z, copy_of s s' x y -> (next (st s) <= z < next (st s'))%nat ->
  exists path a, follow (st s) x path = Some a /\ follow (st s') y path = Some z /\ as_was s s' a z.
Proof.
  intros s s' x y z Co Hz. destruct (co_all _ _ _ _ Co z Hz) as (o & n & B). destruct (below_follow _ _ _ _ _ B) as [path E].
  pose proof (co_paths _ _ _ _ Co path) as P. rewrite E in P. destruct (follow (st s) x path) as [a|] eqn:Ea; [|contradiction].
  exists path, a. split; auto. split; auto. apply P.
Qed.
Lemma iso_below : forall P t t' tr tr', krep t tr -> krep t' tr' -> iso P tr tr' -> (forall a b, In a (oids tr) -> In b (oids tr') -> P a b -> size t' b = size t a) ->
  forall path a b, follow t (root tr) path = Some a -> follow t' (root tr') path = Some b ->
  exists o n, below t (root tr) a o n /\ below t' (root tr') b o n.
Proof.
  intros P t t' tr. induction tr as [x ts IH] using tree_ind'. intros tr' K K' H Sz path a b Fa Fb. inversion H as [x0 y ts0 us Hxy Hl]; subst. cbn [root] in *.
  destruct path as [|i path]; cbn [follow] in *; [inversion Fa; inversion Fb; subst; exists 0, 0%nat; split; constructor|].
  rewrite (krep_kids _ _ _ K) in Fa. rewrite (krep_kids _ _ _ K') in Fb. rewrite nth_error_map in Fa, Fb.
  destruct (nth_error us i) as [d|] eqn:Ei; cbn in Fb; [|discriminate].
  destruct (Forall2_nth _ _ _ _ _ _ _ Hl Ei) as (c & Hc & Hcd). rewrite Hc in Fa. cbn in Fa.
  assert (Inc : In c ts) by (eapply nth_error_In; eauto). assert (Ind : In d us) by (eapply nth_error_In; eauto).
  rewrite Forall_forall in IH. destruct (IH c Inc d (krep_child _ _ _ _ K Inc) (krep_child _ _ _ _ K' Ind) Hcd) with path a b as (o & n & B1 & B2); auto.
  { intros a' b' Ha Hb. apply Sz; eapply in_child; eauto. }
  assert (Es : sum_sizes t' (firstn i (map root us)) = sum_sizes t (firstn i (map root ts))).
  { assert (Sz' : forall c d, In c ts -> In d us -> iso P c d -> size t' (root d) = size t (root c)).
    { intros c' d' Hc' Hd' Q. apply Sz; [eapply in_child; eauto; apply oids_root | eapply in_child; eauto; apply oids_root | apply (iso_root _ _ _ Q)]. }
    clear - Hl Sz'. revert i. induction Hl as [|c d ts us Hcd Hl IHl]; intros i; [destruct i; auto|]. destruct i as [|i]; auto. cbn [map firstn]. rewrite !sum_sizes_cons.
    rewrite (Sz' c d); auto using in_eq. rewrite IHl; auto. intros c' d' Hc Hd. apply Sz'; right; auto. }
  exists (sum_sizes t (firstn i (map root ts)) + o), (S n). split.
  - rewrite <- (krep_kids _ _ _ K). econstructor; eauto. rewrite (krep_kids _ _ _ K), nth_error_map, Hc. auto.
  - rewrite <- Es, <- (krep_kids _ _ _ K'). econstructor; eauto. rewrite (krep_kids _ _ _ K'), nth_error_map, Ei. auto.
Qed.
Lemma iso_sub : forall P t t' tr tr', krep t tr -> krep t' tr' -> iso P tr tr' -> forall path a b, follow t (root tr) path = Some a -> follow t' (root tr') path = Some b ->
  exists ta tb, root ta = a /\ root tb = b /\ krep t ta /\ krep t' tb /\ iso P ta tb /\ incl (oids ta) (oids tr) /\ incl (oids tb) (oids tr').
Proof.
  intros P t t' tr. induction tr as [x ts IH] using tree_ind'. intros tr' K K' H path a b Fa Fb. inversion H as [x0 y ts0 us Hxy Hl]; subst. cbn [root] in *.
  destruct path as [|i path]; cbn [follow] in *.
  { injection Fa as <-. injection Fb as <-. exists (T x ts), (T y us). split; auto. split; auto. split; auto. split; auto. split; auto. split; apply incl_refl. }
  rewrite (krep_kids _ _ _ K) in Fa. rewrite (krep_kids _ _ _ K') in Fb. rewrite nth_error_map in Fa, Fb.
  destruct (nth_error us i) as [d|] eqn:Ei; cbn in Fb; [|discriminate].
  destruct (Forall2_nth _ _ _ _ _ _ _ Hl Ei) as (c & Hc & Hcd). rewrite Hc in Fa. cbn in Fa.
  assert (Inc : In c ts) by (eapply nth_error_In; eauto). assert (Ind : In d us) by (eapply nth_error_In; eauto).
  rewrite Forall_forall in IH. destruct (IH c Inc d (krep_child _ _ _ _ K Inc) (krep_child _ _ _ _ K' Ind) Hcd path a b Fa Fb) as (ta & tb & Q1 & Q2 & Q3 & Q4 & Q5 & Q6 & Q7).
  exists ta, tb. split; auto. split; auto. split; auto. split; auto. split; auto. split; intros z Hz; eapply in_child; eauto.
Qed.

(** ** Values of objects above Params *)
Lemma value_leaf : forall s a k z o n, Inv s -> (a < next (st s))%nat -> ready (st s) a -> is_leaf (st s) z = true -> below (st s) a z o n -> o <= k < o + size (st s) z ->
  value s a k = value s z (k - o).
Proof.
  intros s a k z o n H Ha Ra Lz B Hk. pose proof (inv_st _ H) as W. symmetry.
  apply (one_copy (st s) (mem s) a z (k - o) k W (inv_mem _ H) Ha); auto; [eapply below_lt; eauto | left; auto|].
  replace k with (k - o + o) at 2 by lia. eapply below_elem; eauto. lia.
Qed.

(** ** What does not matter to a user *)
Record calm s s' : Prop := mkCalm {
  cm_same : same (st s) (st s');
  cm_ready : forall z, (z < next (st s))%nat -> (ready (st s) z <-> ready (st s') z);
  cm_has : forall z p j, (z < next (st s))%nat -> (has s' z p j <-> has s z p j);
  cm_val : forall z j, (z < next (st s))%nat -> ready (st s) z -> 0 <= j < size (st s) z -> value s' z j = value s z j;
  cm_upd : forall z, (z < next (st s))%nat -> updates (nt s') z = updates (nt s) z;
  cm_disj : apart s -> apart s' }.
Lemma calm_was : forall s s' z, calm s s' -> (z < next (st s))%nat -> as_was s s' z z.
Proof.
  intros s s' z C Hz. destruct (cm_same _ _ C) as [_ Q]. destruct (Q z) as (q1 & q2 & q3 & q4 & q5 & q6). constructor; auto.
  - intros p j. apply (cm_has _ _ C); auto.
  - apply (cm_upd _ _ C); auto.
  - intros R j Hj. apply (cm_val _ _ C); auto.
Qed.
Lemma was_trans : forall s1 s2 s3 a b c, as_was s1 s2 a b -> as_was s2 s3 b c -> (ready (st s1) a -> ready (st s2) b) -> as_was s1 s3 a c.
Proof.
  intros s1 s2 s3 a b c [a1 a2 a3 a4 a5] [b1 b2 b3 b4 b5] R. constructor; try congruence.
  - intros p j. rewrite b3. apply a3.
  - intros Ra j Hj. rewrite b5; auto. rewrite a2. auto.
Qed.
Lemma follow_same : forall t t' path x, (forall z, kids t' z = kids t z) -> follow t' x path = follow t x path.
Proof. intros t t' path. induction path as [|i path IH]; intros x H; cbn [follow]; auto. rewrite H. destruct (nth_error (kids t x) i); auto. Qed.
Lemma calm_trans : forall s1 s2 s3, calm s1 s2 -> calm s2 s3 -> calm s1 s3.
Proof.
  intros s1 s2 s3 [a1 a2 a3 a4 a5 a6] [b1 b2 b3 b4 b5 b6]. assert (Hn : next (st s2) = next (st s1)) by apply a1. constructor.
  - eapply same_trans; eauto.
  - intros z Hz. rewrite a2 by auto. apply b2. rewrite Hn; auto.
  - intros z p j Hz. rewrite b3 by (rewrite Hn; auto). apply a3; auto.
  - intros z j Hz R Hj. assert (Es : size (st s2) z = size (st s1) z) by apply a1. rewrite b4; [apply a4; auto | rewrite Hn; auto | apply a2; auto | rewrite Es; auto].
  - intros z Hz. rewrite b5 by (rewrite Hn; auto). apply a5; auto.
  - auto.
Qed.
Lemma calm_refl : forall s, calm s s.
Proof. intros s. constructor; auto; intros; try tauto. apply same_refl. Qed.

Definition copied_ok s s' (x y : oid) : Prop := copy_of s s' x y /\ untouched s s' /\ (apart s -> apart s').
Lemma calm_before : forall s0 s s' x y, swf (st s) -> (x < next (st s0))%nat -> calm s0 s -> copied_ok s s' x y -> copied_ok s0 s' x y.
Proof.
  intros s0 s s' x y W Hx C (Co & U & A). assert (Hn : next (st s) = next (st s0)) by apply (cm_same _ _ C).
  assert (Hk : forall z, kids (st s) z = kids (st s0) z) by (intros z; apply same_kids, (cm_same _ _ C)).
  split; [|split; [|intros Q; apply A, (cm_disj _ _ C), Q]].
  - constructor.
    + rewrite <- Hn. apply (co_new _ _ _ _ Co).
    + apply (co_par _ _ _ _ Co).
    + intros path. pose proof (co_paths _ _ _ _ Co path) as Q. rewrite (follow_same (st s0) (st s)) in Q by auto.
      destruct (follow (st s0) x path) as [a|] eqn:Ea; destruct (follow (st s') y path) as [b|]; auto. rewrite <- Hn. destruct Q as (Q1 & Q2 & Q3). split; auto. split; auto.
      assert (Ha : (a < next (st s0))%nat).
      { rewrite <- Hn. rewrite <- (follow_same (st s0) (st s)) in Ea by auto. apply follow_below in Ea as (o & n & B). eapply below_lt; eauto. rewrite Hn; auto. }
      apply (was_trans s0 s s' a a b); auto; [apply calm_was; auto | apply (cm_ready _ _ C); auto].
    + rewrite <- Hn. apply (co_all _ _ _ _ Co).
  - intros z Hz. destruct (U z) as (q1 & q2 & q3 & q4); [rewrite Hn; auto|]. assert (Hp : par (st s) z = par (st s0) z) by (apply same_par, (cm_same _ _ C)).
    split; [apply (was_trans s0 s s' z z z); auto; [apply calm_was; auto | apply (cm_ready _ _ C); auto]|]. split; [congruence|]. split; [rewrite q3; auto|].
    rewrite (cm_ready _ _ C z Hz). auto.
Qed.
Lemma calm_after : forall s s' s2 x y, copied_ok s s' x y -> (next (st s) <= next (st s'))%nat -> calm s' s2 -> copied_ok s s2 x y.
Proof.
  intros s s' s2 x y (Co & U & A) Hle C. assert (Hn : next (st s2) = next (st s')) by apply (cm_same _ _ C).
  assert (Hk : forall z, kids (st s2) z = kids (st s') z) by (intros z; apply same_kids, (cm_same _ _ C)).
  split; [|split; [|intros Q; apply (cm_disj _ _ C); auto]].
  - constructor.
    + rewrite Hn. apply (co_new _ _ _ _ Co).
    + rewrite (same_par (st s') (st s2)) by apply (cm_same _ _ C). apply (co_par _ _ _ _ Co).
    + intros path. pose proof (co_paths _ _ _ _ Co path) as Q. rewrite (follow_same (st s') (st s2)) by auto.
      destruct (follow (st s) x path) as [a|]; destruct (follow (st s') y path) as [b|]; auto. rewrite Hn. destruct Q as (Q1 & Q2 & Q3). split; auto.
      split; [apply (was_trans s s' s2 a b b); auto; apply calm_was; [auto | lia]|]. apply (cm_ready _ _ C); auto. lia.
    + rewrite Hn. intros z Hz. destruct (co_all _ _ _ _ Co z Hz) as (o & n & B). exists o, n. eapply same_below; [apply (cm_same _ _ C) | auto].
  - intros z Hz. destruct (U z Hz) as (q1 & q2 & q3 & q4). assert (Hz' : (z < next (st s'))%nat) by lia.
    split; [apply (was_trans s s' s2 z z z); auto; [apply calm_was; auto | apply q4]|].
    split; [rewrite (same_par (st s') (st s2)) by apply (cm_same _ _ C); auto|]. split; [rewrite Hk; auto|]. rewrite q4. apply (cm_ready _ _ C); auto.
Qed.

Lemma joined_ok : forall s s2 x tr tr', Inv s -> Inv s2 -> (x < next (st s))%nat -> root tr = x -> rep (st s) tr -> joined s s2 x tr tr' -> copied_ok s s2 x (next (st s)).
Proof.
  intros s s2 x tr tr' H H2 Hx Er R Jn. set (y := next (st s)) in *. pose proof (inv_st _ H) as W. pose proof (inv_st _ H2) as W2.
  pose proof (jn_next _ _ _ _ _ Jn) as Hn. fold y in Hn. pose proof (jn_root _ _ _ _ _ Jn) as Er'. fold y in Er'.
  pose proof (rep_krep _ _ R) as K. pose proof (rep_krep _ _ (jn_rep _ _ _ _ _ Jn)) as K'. pose proof (jn_iso _ _ _ _ _ Jn) as Is.
  pose proof (jn_ids _ _ _ _ _ Jn) as Ids. fold y in Ids.
  assert (Sz : forall a b, In a (oids tr) -> In b (oids tr') -> alike s s2 a b -> size (st s2) b = size (st s) a) by (intros a b _ _ Q; apply Q).
  assert (Alt : forall a, In a (oids tr) -> (a < y)%nat).
  { intros a Ha. apply (koids_below (st s)) in Ha as (o & n & B); auto. rewrite Er in B. eapply below_lt; eauto. }
  assert (Rdy : forall b, In b (oids tr') -> ready (st s2) b).
  { intros b Hb. destruct (is_leaf (st s2) b) eqn:Lb; [left; auto|]. right. apply (jn_init _ _ _ _ _ Jn); auto. apply node_not_leaf; auto. }
  split; [|split].
  - constructor.
    + fold y. lia.
    + apply (jn_par _ _ _ _ _ Jn).
    + intros path. pose proof (follow_iso _ _ _ _ _ K K' Is path) as Q. rewrite Er, Er' in Q.
      destruct (follow (st s) x path) as [a|] eqn:Fa; destruct (follow (st s2) y path) as [b|] eqn:Fb; auto. destruct Q as (Ha & Hb & Al).
      split; [apply Ids; auto|]. split; [|apply Rdy; auto]. pose proof Al as (a1 & a2 & a3 & a4 & a5). constructor; auto.
      * intros p j. destruct (iso_below _ _ _ _ _ K K' Is Sz path a b) as (o & n & B1 & B2); [rewrite Er; auto | rewrite Er'; auto|]. rewrite Er in B1. rewrite Er' in B2.
        unfold has. pose proof (has_down (st s) (ios s) x a o n p j W (inv_io _ H) Hx B1) as D1.
        pose proof (has_down (st s2) (ios s2) y b o n p j W2 (inv_io _ H2) Hn B2) as D2. unfold hasi in D1, D2. rewrite D1, D2, a2.
        pose proof (jn_top _ _ _ _ _ Jn p (j + o)) as D3. fold y in D3. unfold has in D3. rewrite D3. tauto.
      * intros Ra j Hj. destruct (cover (st s) a j W Hj) as (z & o & n & Lz & B & Hr).
        destruct (below_follow _ _ _ _ _ B) as [q Fq].
        destruct (iso_sub _ _ _ _ _ K K' Is path a b) as (ta & tb & E1 & E2 & Ka & Kb & Iab & Na & Nb); [rewrite Er; auto | rewrite Er'; auto|].
        pose proof (follow_iso _ _ _ _ _ Ka Kb Iab q) as Q. rewrite E1, E2, Fq in Q. destruct (follow (st s2) b q) as [z'|] eqn:Fq'; [|contradiction].
        destruct Q as (Hz & Hz' & Az). pose proof Az as (z1 & z2 & z3 & z4 & z5).
        destruct (iso_below _ _ _ _ _ Ka Kb Iab) with q z z' as (o' & n' & B1 & B2); [intros a' b' Ha' Hb'; apply Sz; auto | rewrite E1; auto | rewrite E2; auto|].
        rewrite E1 in B1. rewrite E2 in B2. destruct (below_unique _ _ _ _ _ _ _ W B B1) as [<- <-].
        rewrite (value_leaf s a j z o n); auto.
        rewrite (value_leaf s2 b j z' o n); auto.
        -- apply z5; auto. lia.
        -- apply Ids in Hb. lia.
        -- unfold is_leaf in *. rewrite z1. auto.
        -- rewrite z2. auto.
    + intros z Hz. apply Ids in Hz. apply (koids_below (st s2)) in Hz; auto. rewrite Er' in Hz. exact Hz.
  - intros z Hz. destruct (jn_old _ _ _ _ _ Jn z Hz) as (q1 & q2 & q3 & q4 & q5 & q6 & q7). split.
    + constructor; auto; [intros p j; apply (jn_has _ _ _ _ _ Jn); auto | apply (jn_upd _ _ _ _ _ Jn); auto | intros; apply (jn_val _ _ _ _ _ Jn); auto].
    + split; auto. split; auto. unfold ready, is_leaf. rewrite q1, q7. tauto.
  - apply (jn_disj _ _ _ _ _ Jn).
Qed.

(** ** The commands *)
Lemma calm_reconnect : forall s s' h, Inv s -> Inv s' -> (h < next (st s))%nat -> inited (st s) h = Some true -> reconnected s s' h -> calm s s'.
Proof.
  intros s s' h H H' Hh Hi Rc. pose proof (rc_same _ _ _ Rc) as Sm. pose proof (inv_st _ H) as W.
  assert (Kp : kept (st s) (mem s) (mem s')) by (apply (rc_kept _ _ _ Rc); left; auto).
  assert (Rd : forall z, (z < next (st s))%nat -> (ready (st s) z <-> ready (st s') z)).
  { intros z Hz. assert (El : is_leaf (st s') z = is_leaf (st s) z) by (unfold is_leaf; destruct Sm as [_ Q]; destruct (Q z) as (-> & _); auto).
    unfold ready. rewrite El. destruct (above_dec (st s) h z W) as [Q|Q].
    - rewrite (rc_below _ _ _ Rc z Q). split; auto. intros _. destruct (is_leaf (st s) z) eqn:Lz; auto. right.
      apply (ii_down _ (inv_init _ H) h z); auto. apply node_not_leaf; auto.
    - rewrite (rc_other _ _ _ Rc z Q). tauto. }
  constructor; auto.
  - intros z p j Hz. apply (rc_has _ _ _ Rc); auto.
  - intros z j Hz Rz Hj. destruct (cover (st s) z j W Hj) as (c & o & n & Lc & B & Hr).
    assert (Hc : (c < next (st s))%nat) by (eapply below_lt; eauto).
    rewrite (value_leaf s z j c o n); auto. rewrite (value_leaf s' z j c o n); auto.
    + apply kept_value; auto. lia.
    + rewrite (proj1 Sm); auto.
    + apply Rd; auto.
    + unfold is_leaf in *. destruct Sm as [_ Q]. destruct (Q c) as (-> & _). auto.
    + eapply same_below; eauto.
    + rewrite (same_size (st s) (st s')) by auto. auto.
  - intros z Hz. rewrite (rc_nt _ _ _ Rc). auto.
  - apply (rc_disj _ _ _ Rc).
Qed.
Lemma calm_nt : forall s n, updates n = updates (nt s) -> calm s (with_nt s n).
Proof. intros s n E. constructor; auto; intros; try tauto. apply same_refl. cbn. rewrite E. auto. Qed.
Lemma calm_read : forall s s' x, read_only s s' x -> calm s s'.
Proof.
  intros s s' x (E1 & E2 & _ & E3 & _ & E4 & _ & _ & _ & E5). constructor.
  - rewrite E1. apply same_refl.
  - rewrite E1. tauto.
  - intros z p j _. unfold has. rewrite E2. tauto.
  - auto.
  - intros z _. rewrite E4. auto.
  - auto.
Qed.

Lemma post_in : forall fx tr y, In y (post fx tr) -> In y (oids tr).
Proof.
  intros fx tr. induction tr as [x ts IH] using tree_ind'. intros y H. cbn [post] in H. apply in_app_or in H as [H|[<-|[]]]; [|left; auto].
  apply in_concat in H as (l & Hl & H). apply in_map_iff in Hl as (c & <- & Hc). destruct (fx (root c)); [destruct H|].
  rewrite Forall_forall in IH. eapply in_child; eauto.
Qed.
Lemma inner_in : forall fx tr y, In y (inner fx tr) -> In y (oids tr).
Proof. intros fx [x ts] y H. apply (post_in fx). change (post fx (T x ts)) with (inner fx (T x ts) ++ [x]). apply in_or_app. auto. Qed.
Lemma takewhile_In : forall (A : Type) (f : A -> bool) l a, In a (takewhile f l) -> In a l.
Proof. intros A f l. induction l as [|b l IH]; intros a H; cbn in *; auto. destruct (f b); [destruct H; auto | destruct H]. Qed.

Variable tfinv : nat -> V -> V.
Lemma pickle_copy_ok : forall s x, Inv s -> (x < next (st s))%nat -> in_init (st s) x = false ->
  (is_leaf (st s) x = true -> forall j, ~ has s x Fixed j) ->
  exists s', pickle_copy x s = (s', None) /\ Inv s' /\ copied_ok s s' x (next (st s)) /\ par (st s') (next (st s)) = None /\
    in_init (st s') (next (st s)) = false /\ kind (st s') (next (st s)) = kind (st s) x /\ (is_leaf (st s) x = false -> inited (st s') (next (st s)) = Some true) /\
    exists l, trace (nt s') = l ++ trace (nt s) /\ (forall z, In z l -> (next (st s) <= z < next (st s'))%nat) /\
      forall z, (next (st s) <= z < next (st s'))%nat -> kind (st s') z = KNode -> In z l.
Proof.
  intros s x H Hx Hin Hfx. pose proof H as [W I F M N J]. unfold pickle_copy. destruct (wf_up (st s) W x) as [l Hl].
  destruct (traverse_parents_spec (fuel (st s)) (st s) (fun _ => false) x l (nt s) [] W Hl) as (n' & seen & e & Et & _ & A & _).
  { eapply up_length; eauto. } { intros z _. apply N. } { apply N. }
  destruct A as (-> & [(q1 & q2 & q3 & q4 & q5) q6] & _); [auto|]. rewrite Et.
  set (s0 := with_nt s n'). assert (H0 : Inv s0).
  { constructor; auto. destruct N as [N1 N2]. split; [intros z; cbn; rewrite q1; apply N1 | intros z; cbn; rewrite q6; apply N2]. }
  destruct (tree_exists (st s) W x) as [tr [Er [R Nd]]].
  destruct (dcopy_ok s0 tr H0 R Nd (fuel (st s0)) s0 None) as (s1 & tr' & Rd & Ct).
  { rewrite Er. auto. } { apply ext_refl. } { apply M. } { apply (rep_new_height _ _ W R Nd). }
  rewrite Er in Rd, Ct. change (fuel (st s)) with (fuel (st s0)). rewrite Rd.
  destruct (join_inv s0 s1 x tr tr' H0 Hx Er R Hin Hfx Ct) as [H2 Jn].
  set (s2 := with_st s1 (set_pidx (st s1) (next (st s0)) None)) in *.
  pose proof (joined_ok s0 s2 x tr tr' H0 H2 Hx Er R Jn) as Co.
  pose proof (inv_st _ H2) as W2. set (y := next (st s0)) in *.
  assert (Hy2 : (y < next (st s2))%nat) by apply (jn_next _ _ _ _ _ Jn).
  destruct (fixed_fun (st s2) (ios s2) W2 (inv_io _ H2)) as [fx [F1 _]]. destruct (tree_exists (st s2) W2 y) as [try [Ey [Ry Ny]]].
  destruct (trigger_spec fx (fuel (st s2)) (st s2) (ios s2) try (nt s2) W2 (inv_io _ H2)) as [_ (n3 & l3 & Up3 & E3 & R3)]; auto.
  { intros z Hz. exists (fx z). auto. } { apply rep_krep; auto. } { apply rep_new_height; auto. } { rewrite Ey; auto. } { apply H2. }
  rewrite Ey in E3, Up3. exists (with_nt s2 n3).
  assert (Run : (upd_st (fun t => set_pidx t y None) ;; lift (fun s => trigger_params (fuel (st s)) (st s) (ios s) y true (nt s)) with_nt) s1 = (with_nt s2 n3, None)).
  { unfold andthen, upd_st, lift. fold s2. rewrite E3. reflexivity. }
  split; [exact Run|].
  assert (H3 : Inv (with_nt s2 n3)).
  { apply (only_ran_inv s2 (filter (active (st s2) (nt s2)) (inner fx try) ++ chain (st s2) (nt s2) l3)); auto. repeat (split; auto); apply R3. }
  split; auto.
  assert (Al : alike s0 s2 x y) by (pose proof (iso_root _ _ _ (jn_iso _ _ _ _ _ Jn)) as Q; rewrite Er, (jn_root _ _ _ _ _ Jn) in Q; exact Q).
  destruct Al as (l1 & l2 & l3' & l4 & l5).
  split.
  { apply (calm_before s s0); auto; [apply calm_nt; auto|]. apply (calm_after s0 s2); auto; [fold y; lia|]. apply calm_nt. apply (ran_upd _ _ _ R3). }
  split; [apply (jn_par _ _ _ _ _ Jn)|]. split; [cbn [with_nt st]; change (next (st s)) with y; rewrite l3'; auto|].
  split; [exact l1|]. split.
  { intros Lx. apply (jn_init _ _ _ _ _ Jn); [apply (jn_ids _ _ _ _ _ Jn); fold y; change (next (st s)) with y; lia|]. change (kind (st s2) y = KNode). rewrite l1. apply node_not_leaf; auto. }
  destruct (jn_trace _ _ _ _ _ Jn) as (k & Tk & Hk & Ak). destruct R3 as (_ & T3 & _).
  exists (rev (filter (active (st s2) (nt s2)) (inner fx try) ++ chain (st s2) (nt s2) l3) ++ k). split.
  { cbn [with_nt nt]. rewrite T3, Tk, app_assoc. f_equal. exact q5. }
  split; [|intros z Hz Kz; apply in_or_app; right; apply Ak; auto].
  intros z Hz. apply in_app_or in Hz as [Hz|Hz]; [|apply Hk; auto]. apply in_rev in Hz. cbn [with_nt st]. change (next (st s)) with y.
  apply (jn_ids _ _ _ _ _ Jn). rewrite (koids_below (st s2) tr' z (rep_krep _ _ (jn_rep _ _ _ _ _ Jn))), (jn_root _ _ _ _ _ Jn). fold y.
  apply in_app_or in Hz as [Hz|Hz].
  - apply filter_In in Hz as [Hz _]. rewrite <- Ey. apply (koids_below (st s2)); [apply rep_krep; auto|]. eapply inner_in; eauto.
  - unfold chain in Hz. apply filter_In in Hz as [Hz _]. apply takewhile_In in Hz.
    assert (Q : l3 = [y]). { pose proof (jn_par _ _ _ _ _ Jn) as Q. fold y in Q. inversion Up3 as [? Hp|? p ? Hp]; subst; auto. rewrite Q in Hp. discriminate. }
    rewrite Q in Hz. destruct Hz as [<-|[]]. apply above_refl.
Qed.

Lemma copy_object_ok : forall s x, Inv s -> (x < next (st s))%nat -> ready (st s) x -> in_init (st s) x = false ->
  (is_leaf (st s) x = true -> forall j, ~ has s x Fixed j) ->
  exists s', copy_object tfinv x s = (s', None) /\ Inv s' /\ copied_ok s s' x (next (st s)) /\
    exists l, trace (nt s') = l ++ trace (nt s) /\ (forall z, In z l -> (next (st s) <= z < next (st s'))%nat) /\
      forall z, (next (st s) <= z < next (st s'))%nat -> kind (st s') z = KNode -> In z l.
Proof.
  intros s x H Hx Rx Hin Hfx. unfold copy_object. destruct (is_leaf (st s) x) eqn:Lx.
  - destruct (pickle_copy_ok s x H Hx Hin ltac:(auto)) as (s' & R & H' & Co & _ & _ & _ & _ & Tr). exists s'. auto.
  - destruct (get_any_ok tfinv s x H Hx Rx) as (v & s1 & R1 & H1 & Ro). pose proof (calm_read _ _ _ Ro) as C1.
    destruct Ro as (Es & _ & _ & _ & _ & _ & _ & Et & _).
    assert (Lx1 : is_leaf (st s1) x = false) by (rewrite Es; auto).
    destruct (pickle_copy_ok s1 x H1) as (s2 & R2 & H2 & Co2 & P2 & I2 & K2 & N2 & Tr2); [rewrite Es; auto | rewrite Es; auto | congruence|].
    rewrite Es in Co2, P2, I2, K2, N2, Tr2. set (y := next (st s)) in *. assert (Hy2 : (y < next (st s2))%nat) by apply (co_new _ _ _ _ (proj1 Co2)).
    destruct (reconnect_ok s2 y H2 Hy2 P2 I2) as (s3 & R3 & H3 & Rc).
    exists s3. split.
    { unfold andthen at 1. rewrite R1. unfold andthen at 1. rewrite R2. exact R3. }
    split; auto.
    pose proof (calm_reconnect s2 s3 y H2 H3 Hy2 (N2 Lx) Rc) as C3. split.
    + apply (calm_before s s1); auto; [apply H1|]. apply (calm_after s1 s2); auto. rewrite Es. fold y. lia.
    + destruct Tr2 as (l & T & Hl & Al). exists l. rewrite (rc_nt _ _ _ Rc). split; [congruence|]. rewrite (proj1 (rc_same _ _ _ Rc)). split; auto.
      intros z Hz. rewrite (proj1 (proj2 (rc_same _ _ _ Rc) z)). auto.
Qed.
End Call.
