(** Proofs about the hierarchy, part 3: what inserting and removing a child does to the links. *)
From Coq Require Import List ZArith Bool Lia Arith.
From Verif Require Import NpModel NpProofs IndexOpsModel PzModel PzSpec PzTree PzStruct.
Import ListNotations.
Open Scope Z_scope.

Notation above := part.

Lemma above_dec : forall st x y, wf st -> above st x y \/ ~ above st x y.
Proof.
  intros st x y W. destruct (wf_up _ W y) as [l Hl].
  destruct (in_dec Nat.eq_dec x l) as [H|H].
  - left. apply (up_below _ _ _ W Hl); auto.
  - right. intros H'. apply H. apply (up_below _ _ _ W Hl); auto.
Qed.
Lemma above_trans : forall st x y z, above st x y -> above st y z -> above st x z.
Proof. intros st x y z [a [n H]] [b [m H']]. exists (a + b), (n + m)%nat. eapply below_trans; eauto. Qed.
Lemma above_refl : forall st x, above st x x.
Proof. intros. exists 0, 0%nat. constructor. Qed.
Lemma above_kid : forall st x y, In y (kids st x) -> above st x y.
Proof. intros st x y H. apply In_nth_error in H as [i H]. eexists. eexists. apply below_one; eauto. Qed.
Lemma above_antisym : forall st x y, wf st -> above st x y -> above st y x -> x = y.
Proof.
  intros st x y W [a [n H]] [b [m H']]. pose proof (below_trans _ _ _ _ _ _ _ _ H H') as Hc.
  apply wf_no_cycle in Hc as [E _]; auto. assert (n = 0%nat) by lia. subst. inversion H; auto.
Qed.
Lemma above_root : forall st x y, wf st -> above st x y -> par st y = None -> x = y.
Proof.
  intros st x y W [o [n H]] Hp. destruct (Nat.eq_dec x y) as [|Hne]; auto.
  destruct (below_par _ (wf_par _ W) _ _ _ _ H Hne) as [q [_ [_ [Hq _]]]]. congruence.
Qed.
Lemma above_par : forall st x y p, wf st -> above st x y -> x <> y -> par st y = Some p -> above st x p.
Proof.
  intros st x y p W [o [n H]] Hne Hp.
  destruct (below_par _ (wf_par _ W) _ _ _ _ H Hne) as [q [o' [n' [Hq [Hb _]]]]].
  rewrite Hp in Hq. inversion Hq; subst. exists o', n'; auto.
Qed.

(** ** Sizes are not negative, blocks nest *)
Lemma size_nonneg : forall st, wf st -> forall x, 0 <= size st x.
Proof.
  intros st W x. destruct (wf_rank _ W) as [rk Hrk].
  remember (rk x) as n eqn:En. assert (Hn : (rk x <= n)%nat) by lia. clear En. revert x Hn.
  induction n as [n IH] using (well_founded_induction lt_wf). intros x Hn.
  destruct (kind st x) as [k|] eqn:E.
  - apply (wf_leaf _ W) in E as [_ E]. lia.
  - apply (wf_node _ W) in E. rewrite E. unfold sum_sizes.
    assert (F : forall y, In y (kids st x) -> 0 <= size st y).
    { intros y Hy. apply Hrk in Hy as Hlt. apply (IH (rk y)); lia. }
    clear E. induction (kids st x) as [|a l IHl]; simpl; [lia|].
    assert (0 <= size st a) by (apply F; left; auto).
    assert (0 <= fold_right Z.add 0 (map (size st) l)) by (apply IHl; intros; apply F; right; auto). lia.
Qed.
Lemma sum_sizes_nonneg : forall st, wf st -> forall l, 0 <= sum_sizes st l.
Proof.
  intros st W l. unfold sum_sizes. induction l as [|a l IH]; simpl; [lia|].
  pose proof (size_nonneg _ W a). lia.
Qed.
Lemma firstn_skipn_nth : forall (A : Type) (l : list A) i a, nth_error l i = Some a ->
  l = firstn i l ++ a :: skipn (S i) l.
Proof.
  induction l as [|b l IH]; intros [|i] a H; simpl in *; try discriminate.
  - inversion H; auto.
  - f_equal. apply IH; auto.
Qed.
Lemma sum_firstn_le : forall st, wf st -> forall l i c, nth_error l i = Some c ->
  sum_sizes st (firstn i l) + size st c <= sum_sizes st l.
Proof.
  intros st W l i c H. rewrite (firstn_skipn_nth _ _ _ _ H) at 2.
  rewrite sum_sizes_app, sum_sizes_cons. pose proof (sum_sizes_nonneg _ W (skipn (S i) l)). lia.
Qed.
Lemma sum_firstn_mono : forall st, wf st -> forall l i j c, nth_error l i = Some c -> (i < j)%nat ->
  sum_sizes st (firstn i l) + size st c <= sum_sizes st (firstn j l).
Proof.
  intros st W l i j c H Hij.
  assert (H' : nth_error (firstn j l) i = Some c).
  { clear - H Hij. revert i j H Hij. induction l as [|a l IH]; intros [|i] [|j] H Hij; simpl in *; try lia; try discriminate; auto.
    apply IH; auto. lia. }
  pose proof (sum_firstn_le _ W _ _ _ H').
  rewrite firstn_firstn in H0. rewrite Nat.min_l in H0 by lia. exact H0.
Qed.
Lemma kids_size : forall st x, wf st -> kids st x <> [] -> size st x = sum_sizes st (kids st x).
Proof.
  intros st x W H. destruct (kind st x) eqn:E.
  - apply (wf_leaf _ W) in E as [E _]. congruence.
  - apply wf_node; auto.
Qed.
Lemma below_range : forall st x y o n, wf st -> below st x y o n -> 0 <= o /\ o + size st y <= size st x.
Proof.
  intros st x y o n W H. induction H as [x|x i c y o n Hi Hb IH]; [lia|].
  pose proof (sum_firstn_le _ W _ _ _ Hi). pose proof (sum_sizes_nonneg _ W (firstn i (kids st x))).
  rewrite (kids_size st x W); [lia|]. intros E. rewrite E in Hi. destruct i; discriminate.
Qed.

(** ** Inserting a child *)
Record linked (st0 st1 : struct) (self param : oid) (k : nat) : Prop := mkLinked {
  ln_root : par st0 param = None;
  ln_pos : (k <= length (kids st0 self))%nat;
  ln_kids : kids st1 self = firstn k (kids st0 self) ++ param :: skipn k (kids st0 self);
  ln_kids' : forall x, x <> self -> kids st1 x = kids st0 x;
  ln_size : forall x, above st0 x self -> size st1 x = size st0 x + size st0 param;
  ln_size' : forall x, ~ above st0 x self -> size st1 x = size st0 x }.

Section Linked.
Variables (st0 st1 : struct) (self param : oid) (k : nat).
Hypothesis W0 : wf st0.
Hypothesis L : linked st0 st1 self param k.
Hypothesis Hnot : ~ above st0 param self.

Lemma ln_param_size : size st1 param = size st0 param.
Proof. apply (ln_size' _ _ _ _ _ L). exact Hnot. Qed.

Lemma sum_sizes_ext : forall st st' l, (forall y, In y l -> size st' y = size st y) -> sum_sizes st' l = sum_sizes st l.
Proof.
  intros st st' l H. unfold sum_sizes. f_equal. apply map_ext_in. exact H.
Qed.
Lemma firstn_In : forall (A : Type) n (l : list A) x, In x (firstn n l) -> In x l.
Proof. induction n; destruct l; simpl; intros; try tauto. destruct H; auto. Qed.

(** Outside the objects above the new child's parent nothing moves. *)
Lemma below_same : forall x y o n, ~ above st0 x self -> below st0 x y o n -> below st1 x y o n.
Proof.
  intros x y o n Hna H. induction H as [x|x i c y o n Hi Hb IH]; [constructor|].
  assert (Hx : x <> self) by (intros ->; apply Hna, above_refl).
  assert (N : forall d, In d (kids st0 x) -> ~ above st0 d self).
  { intros d Hd Ha. apply Hna. eapply above_trans; [apply above_kid; eauto | exact Ha]. }
  rewrite <- (sum_sizes_ext st0 st1).
  2:{ intros d Hd. apply firstn_In in Hd. apply (ln_size' _ _ _ _ _ L), N; auto. }
  rewrite <- (ln_kids' _ _ _ _ _ L x Hx). econstructor.
  - rewrite (ln_kids' _ _ _ _ _ L x Hx). exact Hi.
  - apply IH. apply N. eapply nth_error_In; eauto.
Qed.

Lemma kid_not_above : forall x c, above st0 x self -> In c (kids st0 self) -> ~ above st0 c self.
Proof.
  intros x c _ Hc Ha. assert (E : self = c) by (apply (above_antisym st0); auto; apply above_kid; auto).
  subst c. destruct (wf_rank _ W0) as [rk Hrk]. apply Hrk in Hc. lia.
Qed.

Definition start : Z := sum_sizes st0 (firstn k (kids st0 self)).

(** The three kinds of objects in the hierarchy the child is inserted into: above the insertion,
    entirely before it, entirely after it. *)
Lemma below_cases : forall w a n, below st0 w self a n -> forall y o m, below st0 w y o m ->
  (above st0 y self /\ below st1 w y o m) \/
  (~ above st0 y self /\ o + size st0 y <= a + start /\ below st1 w y o m) \/
  (~ above st0 y self /\ a + start <= o /\ below st1 w y (o + size st0 param) m).
Proof.
  intros w a n Hw. remember self as target eqn:Et. revert Et.
  induction Hw as [w|w j c target a n Hj Hb IH]; intros Et y o m Hy; subst.
  - inversion Hy as [|? i d ? o' m' Hi Hy']; subst.
    + left. split; [apply above_refl | constructor].
    + assert (Hd : In d (kids st0 self)) by (eapply nth_error_In; eauto).
      assert (Nd : ~ above st0 d self) by (apply (kid_not_above self); auto; apply above_refl).
      assert (Ny : ~ above st0 y self).
      { intros Ha. apply Nd. eapply above_trans; [|exact Ha]. exists o', m'; auto. }
      assert (Hy1 : below st1 d y o' m') by (apply below_same; auto).
      pose proof (below_range _ _ _ _ _ W0 Hy') as [R1 R2].
      assert (Hs : forall l, incl l (kids st0 self) -> sum_sizes st1 l = sum_sizes st0 l).
      { intros l Hl. apply sum_sizes_ext. intros z Hz. apply (ln_size' _ _ _ _ _ L).
        apply (kid_not_above self); [apply above_refl | auto]. }
      right. unfold start. pose proof (ln_pos _ _ _ _ _ L) as Hk.
      destruct (le_lt_dec k i) as [Hki|Hik].
      * right. split; auto. split.
        { pose proof (sum_sizes_nonneg _ W0 (firstn (i - k) (skipn k (kids st0 self)))).
          replace i with (k + (i - k))%nat by lia.
          rewrite <- (firstn_skipn k (kids st0 self)) at 2.
          rewrite firstn_app. rewrite firstn_length_le by lia.
          rewrite (firstn_all2 (n := (k + (i - k)))) by (rewrite firstn_length_le; lia).
          replace (k + (i - k) - k)%nat with (i - k)%nat by lia.
          rewrite sum_sizes_app. lia. }
        { replace (sum_sizes st0 (firstn i (kids st0 self)) + o' + size st0 param)
            with (sum_sizes st1 (firstn (S i) (kids st1 self)) + o').
          - econstructor; [|exact Hy1]. rewrite (ln_kids _ _ _ _ _ L).
            rewrite nth_error_app2 by (rewrite firstn_length_le; lia). rewrite firstn_length_le by lia.
            replace (S i - k)%nat with (S (i - k)) by lia. simpl.
            rewrite <- Hi. rewrite <- (firstn_skipn k (kids st0 self)) at 2.
            rewrite nth_error_app2 by (rewrite firstn_length_le; lia). rewrite firstn_length_le by lia. reflexivity.
          - rewrite (ln_kids _ _ _ _ _ L). rewrite firstn_app. rewrite firstn_length_le by lia.
            rewrite (firstn_all2 (n := S i)) by (rewrite firstn_length_le; lia).
            replace (S i - k)%nat with (S (i - k)) by lia. rewrite firstn_cons.
            rewrite sum_sizes_app, sum_sizes_cons. rewrite ln_param_size.
            assert (E : firstn i (kids st0 self) = firstn k (kids st0 self) ++ firstn (i - k) (skipn k (kids st0 self))).
            { rewrite <- (firstn_skipn k (kids st0 self)) at 1. rewrite firstn_app. rewrite firstn_length_le by lia.
              rewrite (firstn_all2 (n := i)) by (rewrite firstn_length_le; lia). reflexivity. }
            rewrite E, sum_sizes_app. rewrite !Hs; [lia | |].
            + intros z Hz. apply firstn_In in Hz. rewrite <- (firstn_skipn k (kids st0 self)). apply in_or_app; auto.
            + intros z Hz. apply firstn_In in Hz. auto. }
      * left. split; auto. split.
        { pose proof (sum_firstn_mono _ W0 _ _ _ _ Hi Hik). lia. }
        { replace (sum_sizes st0 (firstn i (kids st0 self))) with (sum_sizes st1 (firstn i (kids st1 self))).
          - econstructor; [|exact Hy1]. rewrite (ln_kids _ _ _ _ _ L).
            rewrite nth_error_app1 by (rewrite firstn_length_le; lia).
            rewrite <- Hi. rewrite <- (firstn_skipn k (kids st0 self)) at 2.
            rewrite nth_error_app1 by (rewrite firstn_length_le; lia). reflexivity.
          - rewrite (ln_kids _ _ _ _ _ L). rewrite firstn_app. rewrite firstn_length_le by lia.
            replace (i - k)%nat with 0%nat by lia. simpl. rewrite app_nil_r, firstn_firstn.
            rewrite Nat.min_l by lia. apply Hs. intros z Hz. apply firstn_In in Hz. auto. }
  - specialize (IH L Hnot eq_refl).
    assert (Hw : above st0 w self) by (eexists; eexists; econstructor; eauto).
    assert (Hwne : w <> self).
    { intros ->. assert (Hc := below_kid _ _ _ _ _ _ _ Hj Hb). apply wf_no_cycle in Hc as [E _]; auto. discriminate. }
    assert (Hk1 : kids st1 w = kids st0 w) by (apply (ln_kids' _ _ _ _ _ L); auto).
    assert (Hcs : above st0 c self) by (exists a, n; auto).
    inversion Hy as [|? i d ? o' m' Hi Hy']; subst.
    + left. split; auto. constructor.
    + assert (Nkid : forall i d, nth_error (kids st0 w) i = Some d -> i <> j -> ~ above st0 d self).
      { intros i0 d0 Hi0 Hne [a0 [n0 Ha0]].
        destruct (below_unique _ _ _ _ _ _ _ W0 (below_kid _ _ _ _ _ _ _ Hj Hb) (below_kid _ _ _ _ _ _ _ Hi0 Ha0)) as [_ En].
        inversion En; subst n0.
        destruct (below_comparable _ _ _ _ _ _ _ _ W0 Hb Ha0 (le_n _)) as [q [Hq _]].
        rewrite Nat.sub_diag in Hq. inversion Hq; subst.
        apply (wf_pidx _ W0) in Hj, Hi0. rewrite Hj in Hi0. inversion Hi0. lia. }
      assert (Hsame : forall i, (i <= j)%nat -> sum_sizes st1 (firstn i (kids st0 w)) = sum_sizes st0 (firstn i (kids st0 w))).
      { intros i0 Hi0. apply sum_sizes_ext. intros z Hz. apply (ln_size' _ _ _ _ _ L).
        apply In_nth_error in Hz as [q Hq].
        assert (q < i0)%nat.
        { assert (Hlt : (q < length (firstn i0 (kids st0 w)))%nat) by (apply nth_error_Some; congruence).
          rewrite firstn_length in Hlt. lia. }
        apply (Nkid q); [|lia]. rewrite <- Hq. rewrite <- (firstn_skipn i0 (kids st0 w)) at 1.
        apply nth_error_app1. apply nth_error_Some. congruence. }
      pose proof (below_range _ _ _ _ _ W0 Hy') as [R1 R2].
      pose proof (below_range _ _ _ _ _ W0 Hb) as [R3 R4].
      assert (Hstart : start <= size st0 self).
      { unfold start. destruct (kids st0 self) as [|u l] eqn:Eu; [destruct k; simpl; pose proof (size_nonneg _ W0 self); unfold sum_sizes; simpl; lia|].
        rewrite <- Eu. rewrite (kids_size st0 self W0) by congruence.
        rewrite <- (firstn_skipn k (kids st0 self)) at 2. rewrite sum_sizes_app.
        pose proof (sum_sizes_nonneg _ W0 (skipn k (kids st0 self))). lia. }
      assert (Hs0 : 0 <= start) by (apply sum_sizes_nonneg; auto).
      destruct (lt_eq_lt_dec i j) as [[Hlt|Heq]|Hgt].
      * assert (Nd : ~ above st0 d self) by (apply (Nkid i); auto; lia).
        right; left. split; [intros Ha; apply Nd; eapply above_trans; [exists o', m'; eauto | auto]|]. split.
        -- pose proof (sum_firstn_mono _ W0 _ _ _ _ Hi Hlt). lia.
        -- rewrite <- Hsame by lia. rewrite <- Hk1. econstructor; [rewrite Hk1; eauto|]. apply below_same; auto.
      * subst i. rewrite Hj in Hi. inversion Hi; subst d.
        destruct (IH y o' m' Hy') as [[H1 H2]|[[H1 [H2 H3]]|[H1 [H2 H3]]]].
        -- left. split; auto. rewrite <- Hsame by lia. rewrite <- Hk1. econstructor; [rewrite Hk1; eauto|auto].
        -- right; left. split; auto. split; [lia|]. rewrite <- Hsame by lia. rewrite <- Hk1. econstructor; [rewrite Hk1; eauto|auto].
        -- right; right. split; auto. split; [lia|]. rewrite <- Z.add_assoc. rewrite <- Hsame by lia. rewrite <- Hk1. econstructor; [rewrite Hk1; eauto|auto].
      * assert (Nd : ~ above st0 d self) by (apply (Nkid i); auto; lia).
        right; right. split; [intros Ha; apply Nd; eapply above_trans; [exists o', m'; eauto | auto]|]. split.
        -- pose proof (sum_firstn_mono _ W0 _ _ _ _ Hj Hgt). lia.
        -- replace (sum_sizes st0 (firstn i (kids st0 w)) + o' + size st0 param) with (sum_sizes st1 (firstn i (kids st1 w)) + o').
           ++ econstructor; [rewrite Hk1; eauto|]. apply below_same; auto.
           ++ rewrite Hk1.
              assert (Ef : firstn i (kids st0 w) = firstn j (kids st0 w) ++ c :: firstn (i - S j) (skipn (S j) (kids st0 w))).
              { rewrite (firstn_skipn_nth _ _ _ _ Hj) at 1. rewrite firstn_app.
                assert (Hlj : length (firstn j (kids st0 w)) = j).
                { apply firstn_length_le. apply Nat.lt_le_incl. apply nth_error_Some. congruence. }
                rewrite Hlj. rewrite firstn_all2 by lia.
                replace (i - j)%nat with (S (i - S j)) by lia. reflexivity. }
              rewrite Ef, !sum_sizes_app, !sum_sizes_cons. rewrite (Hsame j) by lia.
              rewrite (ln_size _ _ _ _ _ L c Hcs).
              rewrite (sum_sizes_ext st0 st1 (firstn (i - S j) (skipn (S j) (kids st0 w)))); [lia|].
              intros z Hz. apply (ln_size' _ _ _ _ _ L). apply firstn_In in Hz. apply In_nth_error in Hz as [q Hq].
              apply (Nkid (S j + q)%nat); [|lia]. rewrite <- Hq.
              rewrite (firstn_skipn_nth _ _ _ _ Hj) at 1.
              assert (Hlj : length (firstn j (kids st0 w)) = j).
              { apply firstn_length_le. apply Nat.lt_le_incl. apply nth_error_Some. congruence. }
              rewrite nth_error_app2 by lia. rewrite Hlj. replace (S j + q - j)%nat with (S q) by lia. reflexivity.
Qed.

(** The objects of the inserted part. *)
Lemma below_new : forall w a n y o m, below st0 w self a n -> below st0 param y o m ->
  below st1 w y (a + start + o) (n + S m).
Proof.
  intros w a n y o m Hw Hy.
  destruct (below_cases w a n Hw self a n Hw) as [[_ H]|[[H _]|[H _]]]; try (exfalso; apply H, above_refl).
  rewrite <- Z.add_assoc. apply below_trans with (y := self); auto.
  replace start with (sum_sizes st1 (firstn k (kids st1 self))).
  - econstructor.
    + rewrite (ln_kids _ _ _ _ _ L). rewrite nth_error_app2 by (rewrite firstn_length; lia).
      rewrite firstn_length_le by apply (ln_pos _ _ _ _ _ L). rewrite Nat.sub_diag. reflexivity.
    + apply below_same; auto.
  - unfold start. rewrite (ln_kids _ _ _ _ _ L). rewrite firstn_app.
    rewrite firstn_length_le by apply (ln_pos _ _ _ _ _ L). rewrite Nat.sub_diag. simpl. rewrite app_nil_r, firstn_firstn, Nat.min_id.
    apply sum_sizes_ext. intros z Hz. apply (ln_size' _ _ _ _ _ L). apply firstn_In in Hz.
    apply (kid_not_above self); auto. apply above_refl.
Qed.

(** There is nothing else below. *)
Hypothesis W1 : wf st1.
Lemma below_back : forall x y o n, below st1 x y o n ->
  above st0 x y \/ (above st0 x self /\ above st0 param y).
Proof.
  intros x y o n H. induction H as [x|x i c y o n Hi Hb IH]; [left; apply above_refl|].
  apply nth_error_In in Hi.
  destruct (Nat.eq_dec x self) as [->|Hne].
  - rewrite (ln_kids _ _ _ _ _ L) in Hi. apply in_app_or in Hi.
    assert (Hc : In c (kids st0 self) \/ c = param).
    { destruct Hi as [Hi|[Hi|Hi]]; [left | right | left].
      - eapply firstn_In; eauto.
      - auto.
      - rewrite <- (firstn_skipn k). apply in_or_app; auto. }
    destruct Hc as [Hc | ->].
    + destruct IH as [IH|[IH1 IH2]].
      * left. eapply above_trans; [apply above_kid; eauto | auto].
      * right. split; [apply above_refl | auto].
    + right. split; [apply above_refl|]. destruct IH as [IH|[IH1 IH2]]; auto.
  - rewrite (ln_kids' _ _ _ _ _ L x Hne) in Hi. destruct IH as [IH|[IH1 IH2]].
    + left. eapply above_trans; [apply above_kid; eauto | auto].
    + right. split; auto. eapply above_trans; [apply above_kid; eauto | auto].
Qed.
End Linked.
