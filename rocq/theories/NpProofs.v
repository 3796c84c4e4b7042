(** Facts about the numpy model. *)
From Coq Require Import List ZArith Bool Lia Sorting.Sorted.
From Verif Require Import NpModel.
Import ListNotations.
Open Scope Z_scope.

Definition ssorted (l : list Z) : Prop := StronglySorted Z.lt l.

Lemma zmem_In : forall x l, zmem x l = true <-> In x l.
Proof.
  intros; unfold zmem; rewrite existsb_exists; split.
  - intros (y & H & E). apply Z.eqb_eq in E. now subst.
  - intros H; exists x; split; auto. apply Z.eqb_refl.
Qed.

Lemma zmem_false : forall x l, zmem x l = false <-> ~ In x l.
Proof. intros; rewrite <- zmem_In. destruct (zmem x l); split; congruence. Qed.

Lemma zins_In : forall x l y, In y (zins x l) <-> y = x \/ In y l.
Proof.
  induction l as [|z r IH]; simpl; intros y; [intuition|].
  destruct (x <? z) eqn:E; simpl; [intuition|].
  destruct (x =? z) eqn:E2; simpl.
  - apply Z.eqb_eq in E2; subst; intuition.
  - rewrite IH; intuition.
Qed.

Lemma ssorted_cons_inv : forall x l, ssorted (x :: l) -> ssorted l /\ (forall y, In y l -> x < y).
Proof.
  intros x l H; inversion H; subst; split; auto.
  now apply Forall_forall.
Qed.

Lemma ssorted_cons : forall x l, ssorted l -> (forall y, In y l -> x < y) -> ssorted (x :: l).
Proof. intros; constructor; auto. now apply Forall_forall. Qed.

Lemma zins_sorted : forall x l, ssorted l -> ssorted (zins x l).
Proof.
  induction l as [|z r IH]; simpl; intros H.
  - repeat constructor.
  - destruct (x <? z) eqn:E; [|destruct (x =? z) eqn:E2]; auto.
    + apply Z.ltb_lt in E. apply ssorted_cons; auto.
      apply ssorted_cons_inv in H as [_ H]. simpl; intros y [->|Hy]; auto.
      specialize (H _ Hy); lia.
    + apply Z.ltb_ge in E; apply Z.eqb_neq in E2.
      apply ssorted_cons_inv in H as [Hs H].
      apply ssorted_cons; auto.
      intros y Hy; apply zins_In in Hy as [->|Hy]; auto; lia.
Qed.

Lemma np_unique_In : forall l y, In y (np_unique l) <-> In y l.
Proof.
  induction l as [|x r IH]; simpl; intros y; [tauto|].
  rewrite zins_In, IH. intuition.
Qed.

Lemma np_unique_sorted : forall l, ssorted (np_unique l).
Proof. induction l; simpl; [constructor | now apply zins_sorted]. Qed.

Lemma union1d_In : forall a b y, In y (union1d a b) <-> In y a \/ In y b.
Proof. intros; unfold union1d; rewrite np_unique_In, in_app_iff; tauto. Qed.

Lemma union1d_sorted : forall a b, ssorted (union1d a b).
Proof. intros; apply np_unique_sorted. Qed.

Lemma setdiff1d_In : forall a b y, In y (setdiff1d a b) <-> In y a /\ ~ In y b.
Proof.
  intros; unfold setdiff1d; rewrite filter_In, negb_true_iff, zmem_false; tauto.
Qed.

Lemma ssorted_filter : forall f l, ssorted l -> ssorted (filter f l).
Proof.
  induction l as [|x r IH]; simpl; intros H; auto.
  apply ssorted_cons_inv in H as [Hs H].
  destruct (f x); auto. apply ssorted_cons; auto.
  intros y Hy; apply filter_In in Hy as [Hy _]; auto.
Qed.

Lemma ssorted_map : forall g l, ssorted l ->
  (forall x y, In x l -> In y l -> x < y -> g x < g y) -> ssorted (map g l).
Proof.
  induction l as [|x r IH]; simpl; intros H Hg; [constructor|].
  apply ssorted_cons_inv in H as [Hs H].
  apply ssorted_cons.
  - apply IH; auto.
  - intros y Hy. apply in_map_iff in Hy as (z & <- & Hz). apply Hg; auto.
Qed.

Lemma setdiff1d_sorted : forall a b, ssorted a -> ssorted (setdiff1d a b).
Proof. intros; now apply ssorted_filter. Qed.

Lemma ssorted_NoDup : forall l, ssorted l -> NoDup l.
Proof.
  induction l; intros H; constructor; apply ssorted_cons_inv in H as [Hs H]; auto.
  intros Hin; specialize (H _ Hin); lia.
Qed.

(** A strictly increasing list is determined by its members. *)
Lemma ssorted_ext : forall a b, ssorted a -> ssorted b ->
  (forall x, In x a <-> In x b) -> a = b.
Proof.
  induction a as [|x a IH]; intros [|y b] Ha Hb H; auto.
  - exfalso; apply (H y); now left.
  - exfalso; apply (H x); now left.
  - apply ssorted_cons_inv in Ha as [Ha Hxa]. apply ssorted_cons_inv in Hb as [Hb Hyb].
    assert (x = y).
    { destruct (proj1 (H x) (or_introl eq_refl)) as [E|E]; auto.
      destruct (proj2 (H y) (or_introl eq_refl)) as [E2|E2]; auto.
      specialize (Hxa _ E2); specialize (Hyb _ E); lia. }
    subst y; f_equal. apply IH; auto.
    intros z; split; intros Hz.
    + destruct (proj1 (H z) (or_intror Hz)); auto. subst; specialize (Hxa _ Hz); lia.
    + destruct (proj2 (H z) (or_intror Hz)); auto. subst; specialize (Hyb _ Hz); lia.
Qed.

(* intersect1d with assume_unique *)
Definition wsorted (l : list Z) : Prop := StronglySorted Z.le l.

Lemma wsorted_cons_inv : forall x l, wsorted (x :: l) -> wsorted l /\ (forall y, In y l -> x <= y).
Proof. intros x l H; inversion H; subst; split; auto. now apply Forall_forall. Qed.

Lemma zins_dup_In : forall x l y, In y (zins_dup x l) <-> y = x \/ In y l.
Proof.
  induction l as [|z r IH]; simpl; intros y; [intuition|].
  destruct (x <=? z); simpl; [intuition|]. rewrite IH; intuition.
Qed.

Lemma zins_dup_sorted : forall x l, wsorted l -> wsorted (zins_dup x l).
Proof.
  induction l as [|z r IH]; simpl; intros H.
  - repeat constructor.
  - destruct (x <=? z) eqn:E.
    + apply Z.leb_le in E. constructor; auto. apply wsorted_cons_inv in H as [_ H].
      apply Forall_forall; simpl; intros y [->|Hy]; auto. specialize (H _ Hy); lia.
    + apply Z.leb_gt in E. apply wsorted_cons_inv in H as [Hs H]. constructor; [now apply IH|].
      apply Forall_forall; intros y Hy. apply zins_dup_In in Hy as [->|Hy]; auto; lia.
Qed.

Lemma zins_dup_count : forall x l y,
  count_occ Z.eq_dec (zins_dup x l) y = count_occ Z.eq_dec (x :: l) y.
Proof.
  induction l as [|z r IH]; intros y; auto.
  change (zins_dup x (z :: r)) with (if x <=? z then x :: z :: r else z :: zins_dup x r).
  destruct (x <=? z); auto.
  simpl. rewrite IH. simpl. destruct (Z.eq_dec z y), (Z.eq_dec x y); auto.
Qed.

Lemma np_sort_sorted : forall l, wsorted (np_sort l).
Proof. induction l; simpl; [constructor | now apply zins_dup_sorted]. Qed.

Lemma np_sort_count : forall l y, count_occ Z.eq_dec (np_sort l) y = count_occ Z.eq_dec l y.
Proof.
  induction l as [|x r IH]; intros y; auto.
  change (np_sort (x :: r)) with (zins_dup x (np_sort r)).
  rewrite zins_dup_count. simpl. now rewrite IH.
Qed.

Lemma adj_dups_In_sub : forall l y, In y (adj_dups l) -> In y l.
Proof.
  induction l as [|x r IH]; simpl; intros y H; auto.
  destruct r as [|z r']; [destruct H|].
  destruct (x =? z) eqn:E.
  - destruct H as [->|H]; auto.
  - right; auto.
Qed.

(** In a sorted list the adjacent duplicates are the values occurring at least twice, and a value
    occurring k times is reported k-1 times. *)
Lemma adj_dups_count : forall l y, wsorted l ->
  count_occ Z.eq_dec (adj_dups l) y = (count_occ Z.eq_dec l y - 1)%nat.
Proof.
  induction l as [|x r IH]; intros y H; auto.
  apply wsorted_cons_inv in H as [Hs H].
  destruct r as [|z r'].
  - simpl. destruct (Z.eq_dec x y); auto.
  - change (adj_dups (x :: z :: r')) with
      (if x =? z then x :: adj_dups (z :: r') else adj_dups (z :: r')).
    destruct (x =? z) eqn:E.
    + apply Z.eqb_eq in E; subst z.
      change (count_occ Z.eq_dec (x :: adj_dups (x :: r')) y) with
        (if Z.eq_dec x y then S (count_occ Z.eq_dec (adj_dups (x :: r')) y)
         else count_occ Z.eq_dec (adj_dups (x :: r')) y).
      rewrite IH by auto. simpl. destruct (Z.eq_dec x y); lia.
    + apply Z.eqb_neq in E.
      rewrite IH by auto.
      change (count_occ Z.eq_dec (x :: z :: r') y) with
        (if Z.eq_dec x y then S (count_occ Z.eq_dec (z :: r') y)
         else count_occ Z.eq_dec (z :: r') y).
      destruct (Z.eq_dec x y); auto. subst y.
      assert (~ In x (z :: r')) as Hn.
      { intros Hin. assert (x <= z) by (apply H; now left).
        destruct Hin as [->|Hin]; [congruence|].
        apply wsorted_cons_inv in Hs as [_ Hs]. specialize (Hs _ Hin). lia. }
      apply (count_occ_not_In Z.eq_dec) in Hn. rewrite Hn. auto.
Qed.

Lemma count_pos_In : forall l (y : Z), In y l <-> (count_occ Z.eq_dec l y > 0)%nat.
Proof. intros; apply count_occ_In. Qed.

Lemma NoDup_count_le1 : forall l (y : Z), NoDup l -> (count_occ Z.eq_dec l y <= 1)%nat.
Proof. intros l y H. now apply (NoDup_count_occ Z.eq_dec). Qed.

Lemma intersect1d_au_In : forall a b, NoDup a -> NoDup b ->
  forall y, In y (intersect1d_au a b) <-> In y a /\ In y b.
Proof.
  intros a b Ha Hb y. unfold intersect1d_au.
  rewrite count_pos_In, adj_dups_count by apply np_sort_sorted.
  rewrite np_sort_count, count_occ_app, !count_pos_In.
  pose proof (NoDup_count_le1 a y Ha). pose proof (NoDup_count_le1 b y Hb). lia.
Qed.

Lemma adj_dups_wsorted : forall l, wsorted l -> wsorted (adj_dups l).
Proof.
  induction l as [|x r IH]; intros H; [constructor|].
  apply wsorted_cons_inv in H as [Hs H].
  destruct r as [|z r']; [constructor|].
  change (adj_dups (x :: z :: r')) with
      (if x =? z then x :: adj_dups (z :: r') else adj_dups (z :: r')).
  destruct (x =? z); auto.
  constructor; [now apply IH|]. apply Forall_forall; intros y Hy. apply H. now apply adj_dups_In_sub.
Qed.

Lemma wsorted_NoDup_ssorted : forall l, wsorted l -> NoDup l -> ssorted l.
Proof.
  induction l as [|x r IH]; intros H N; [constructor|].
  apply wsorted_cons_inv in H as [Hs H]. inversion N; subst.
  apply ssorted_cons; auto. intros y Hy. specialize (H _ Hy).
  assert (x <> y) by (intros ->; auto). lia.
Qed.

Lemma intersect1d_au_sorted : forall a b, NoDup a -> NoDup b -> ssorted (intersect1d_au a b).
Proof.
  intros a b Ha Hb. apply wsorted_NoDup_ssorted.
  - apply adj_dups_wsorted, np_sort_sorted.
  - apply (NoDup_count_occ Z.eq_dec). intros y. unfold intersect1d_au.
    rewrite adj_dups_count by apply np_sort_sorted. rewrite np_sort_count, count_occ_app.
    pose proof (NoDup_count_le1 a y Ha). pose proof (NoDup_count_le1 b y Hb). lia.
Qed.

Lemma arange_In : forall n i, In i (arange n) <-> 0 <= i < n.
Proof.
  intros n i; unfold arange; rewrite in_map_iff; split.
  - intros (k & <- & H). apply in_seq in H. lia.
  - intros H. exists (Z.to_nat i). rewrite in_seq. lia.
Qed.

Lemma arange_sorted : forall n, ssorted (arange n).
Proof.
  intros n; unfold arange. generalize 0%nat at 1. intros s. revert s.
  induction (Z.to_nat n) as [|k IH]; intros s; simpl; [constructor|].
  apply ssorted_cons; auto. intros y Hy. apply in_map_iff in Hy as (m & <- & Hm).
  apply in_seq in Hm. lia.
Qed.

Lemma arange_length : forall n, 0 <= n -> Z.of_nat (length (arange n)) = n.
Proof. intros; unfold arange; rewrite map_length, seq_length; lia. Qed.
