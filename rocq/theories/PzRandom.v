(** [randomize]. *)
From Coq Require Import List ZArith Bool Lia Arith.
From Verif Require Import NpModel NpProofs IndexOpsModel IndexOpsSpec IndexOpsProofs PzModel PzSpec PzTree PzStruct PzLink PzWalk PzMem PzIo PzInv PzConn PzFix PzLinkMem PzPres PzUnlink PzTraverse PzNotify PzNew PzCmd PzInit PzCons PzVal PzOpt.
Import ListNotations.
Open Scope Z_scope.

Section Random.
Context {V : Type}.
Implicit Types s : @state V.

Lemma has_range : forall s x p k, Inv s -> (x < next (st s))%nat -> has s x p k -> 0 <= k < size (st s) x.
Proof. intros s x p k H Hx Hk. apply (hasi_range (st s) (ios s) x p k (inv_st _ H) (inv_io _ H) Hx). exact Hk. Qed.
Lemma same_has : forall s x k y j p, Inv s -> (x < next (st s))%nat -> same_elem (st s) y j x k -> (has s y p j <-> has s x p k).
Proof. intros s x k y j p H Hx Se. apply (same_elem_has (st s) (ios s) x k y j p (inv_st _ H) (inv_io _ H) Hx Se). Qed.
Lemma above_lt' : forall s x y, Inv s -> (x < next (st s))%nat -> above (st s) x y -> (y < next (st s))%nat.
Proof. intros s x y H Hx [o [n B]]. eapply below_lt; eauto. apply (inv_st _ H). Qed.

Lemma apart_ext : forall s s', st s' = st s -> mem s' = mem s -> apart s -> apart s'.
Proof. unfold apart. intros s s' -> ->. auto. Qed.

Lemma free_exists : forall s x, Inv s -> (x < next (st s))%nat -> exists ks, free s x ks.
Proof.
  intros s x H Hx. exists (filter (fun k => negb (zmem k (cons_get (ios s) x Fixed))) (arange (size (st s) x))). split; [apply sorted_increasing, ssorted_filter, arange_sorted|].
  intros k. rewrite filter_In, arange_In. destruct (zmem k (cons_get (ios s) x Fixed)) eqn:E; cbn [negb].
  - apply zmem_In in E. split; [intros [_ Q]; discriminate | intros [_ Q]; exfalso; apply Q; exact E].
  - apply zmem_false in E. split; intros [Q1 Q2]; split; auto.
Qed.

(** ** [randomize] *)
Lemma size_free : forall s x ks, Inv s -> (x < next (st s))%nat -> free s x ks -> Z.of_nat (length ks) = size_transformed s x.
Proof.
  intros s x ks H Hx [Hi Hk]. unfold size_transformed. pose proof (size_nonneg _ (inv_st _ H) x) as Hn.
  set (fx := cons_get (ios s) x Fixed).
  assert (Ek : ks = filter (fun k => negb (zmem k fx)) (arange (size (st s) x))).
  { apply increasing_unique; auto; [apply sorted_increasing, ssorted_filter, arange_sorted|]. intros k. rewrite Hk, filter_In, arange_In, negb_true_iff, zmem_false.
    reflexivity. }
  assert (Ef : length fx = length (filter (fun k => zmem k fx) (arange (size (st s) x)))).
  { assert (N1 : NoDup fx) by (apply (cons_get_nodup (st s) (ios s) x Fixed (inv_st _ H) (inv_io _ H) Hx)).
    assert (N2 : NoDup (filter (fun k => zmem k fx) (arange (size (st s) x)))) by (apply ssorted_NoDup, ssorted_filter, arange_sorted).
    apply Nat.le_antisymm; apply NoDup_incl_length; auto; intros k Q.
    - apply filter_In. split; [|apply zmem_In; auto]. apply arange_In. apply (has_range s x Fixed k H Hx). exact Q.
    - apply filter_In in Q as [_ Q]. apply zmem_In; auto. }
  assert (Ea : size (st s) x = Z.of_nat (length (arange (size (st s) x)))) by (rewrite arange_len; lia).
  rewrite Ef, Ek. rewrite Ea at 2. generalize (arange (size (st s) x)). clear. induction l as [|a l IH]; auto. cbn [filter length]. destruct (zmem a fx); cbn [negb length]; lia.
Qed.
Lemma put_mask_id : forall mk (l : list V), put_mask mk l (select mk l) 0 = l.
Proof.
  assert (G : forall mk (l p : list V), put_mask mk l (p ++ select mk l) (length p) = l).
  { induction mk as [|b mk IH]; intros [|a l] p; cbn [put_mask]; auto; try (destruct b; auto; fail). destruct b; unfold select; cbn [combine filter fst map snd]; fold (select mk l).
    - rewrite (cyc_in V (p ++ a :: select mk l) (length p) a a); [|rewrite nth_error_app2, Nat.sub_diag by auto; auto]. f_equal.
      specialize (IH l (p ++ [a])). rewrite app_length, <- app_assoc in IH. cbn [length app] in IH. rewrite Nat.add_1_r in IH. auto.
    - f_equal. apply IH. }
  intros mk l. apply (G mk l []).
Qed.

Lemma randomize_ok : forall tf s x draw ks, Inv s -> (x < next (st s))%nat -> ready (st s) x -> one_tr s x -> free s x ks ->
  exists s' l F, randomize tf x draw s = (s', None) /\ Inv s' /\ changed s s' x F /\ set_effect tf s x ks (map draw (seq 0 (length ks))) F /\
    (apart s -> apart s') /\ st s' = st s /\ ios s' = ios s /\ fix_ s' = fix_ s /\
    (forall y, together (st s) x y -> updates (nt s') y = updates (nt s) x) /\ (forall y, ~ together (st s) x y -> updates (nt s') y = updates (nt s) y) /\
    trace (nt s') = rev l ++ trace (nt s) /\ triggered (st s) (ios s) (nt s') x l /\ fresh (nt s') x = false.
Proof.
  intros tf s x draw ks H Hx Rx One Hks.
  pose proof (size_free s x ks H Hx Hks) as Lk.
  unfold randomize. rewrite <- Lk, Nat2Z.id. set (p := map draw (seq 0 (length ks))).
  destruct (update_model_ok s x false H Hx) as (s1 & l1 & r1 & R1 & H1 & A1 & P1 & E1 & E2 & E3 & E4 & U1 & L1 & _ & n1 & l1' & V1 & Nr1 & Rn1 & T1).
  assert (l1' = []) as ->. { eapply triggered_off; eauto. rewrite U1, (proj2 (omem_In _ _)); auto. apply L1. auto. }
  rewrite (andthen_ok _ _ _ _ R1).
  assert (Hh : forall y q j, has s1 y q j <-> has s y q j) by (intros; apply has_ext; auto).
  destruct (set_opt_ok tf s1 x p ks) as (s2 & l2 & F & R2 & H2 & C2 & Se2 & D2 & F1 & F2 & F3 & Rn2 & T2); try (rewrite E1; auto); auto.
  { intros k n m A B. apply Hh in A. apply Hh in B. eapply One; eauto. }
  { destruct Hks as [Q1 Q2]. split; auto. intros k. rewrite Q2, E1, Hh. tauto. }
  assert (l2 = []) as ->. { eapply triggered_off; eauto. rewrite U1, (proj2 (omem_In _ _)); auto. apply L1. auto. }
  rewrite (andthen_ok _ _ _ _ R2).
  assert (Hx2 : (x < next (st s2))%nat) by (rewrite F1, E1; auto). assert (Rx2 : ready (st s2) x) by (rewrite F1, E1; auto).
  destruct (store_ok s2 x H2 Hx2 Rx2) as (m1 & a & Ep & Hlen & _ & St).
  destruct (mask_set_ok (ones (size (st s2) x)) (cons_get (ios s2) x Fixed) false) as (mk & Em & _).
  { intros j Hj. rewrite ones_len by (apply size_nonneg; apply H2). apply (has_range s2 x Fixed j H2 Hx2). exact Hj. }
  destruct (St (read_arr m1 a) (fun _ v => v)) as (H3 & C3 & D3); auto.
  { intros k Hk. destruct (nth_error (read_arr m1 a) k); auto. }
  set (s3 := with_mem s2 (write_arr m1 a (read_arr m1 a))) in *.
  match goal with |- context [andthen ?c (update_model _ _) s2] => assert (R3 : c s2 = (s3, None)) by (rewrite Ep, Em, put_mask_id; reflexivity) end.
  rewrite (andthen_ok _ _ _ _ R3).
  assert (Hx3 : (x < next (st s3))%nat) by auto.
  destruct (update_model_ok s3 x (updates (nt s) x) H3 Hx3) as (s4 & l4 & r4 & R4 & H4 & A4 & P4 & G1 & G2 & G3 & G4 & U4 & L4 & _ & n4 & l4' & V4 & Nr4 & Rn4 & T4).
  assert (S3 : st s3 = st s) by (change (st s3) with (st s2); congruence).
  assert (S4 : st s4 = st s) by congruence. assert (I4 : ios s4 = ios s) by (rewrite G2; change (ios s3) with (ios s2); congruence).
  assert (N3 : nt s3 = nt s2) by reflexivity. rewrite S3 in *.
  assert (Hl4 : forall y, In y l4 <-> together (st s) x y).
  { intros y. rewrite L4. split; [intros Q; exists r4; auto|]. intros (q & Q1 & Q2). 
    destruct (root_exists (st s) q (inv_st _ H)) as (r & o & n & _ & Hp & B). assert (Aq : above (st s) r q) by (exists o, n; auto).
    assert (r = r4) as <-; [|eapply above_trans; eauto]. apply (roots_eq (st s) r4 r x); auto; [apply H | eapply above_trans; eauto]. }
  exists s4, l4', F. split; auto. split; auto. split; [|split].
  - apply (changed_mem s s3); auto. destruct C2 as [Ca Cb]. destruct C3 as [Cc Cd]. rewrite F1, E1 in *. split.
    + intros y j k Hy Ry Sj. rewrite (Cc y j k Hy Ry Sj). rewrite (Ca y j k Hy Ry Sj). unfold value. rewrite E4. destruct (arr (mem s) y) as [[[? ?] ?]|]; auto. destruct (_ && _); auto.
    + intros Ap y j Hy Ry Hj Hno. assert (Ap1 : apart s1) by (apply (apart_ext s s1); auto). rewrite Cd; auto. rewrite Cb; auto. unfold value. rewrite E4. auto.
  - destruct Se2 as [Q1 Q2]. split; [intros k v Q; apply Q1; apply Hh; auto|]. intros i k v Hi. destruct (Q2 i k v Hi) as [B1 B2]. split.
    + intros n Hn. apply B1. apply Hh; auto.
    + intros Hn. apply B2. intros n Q. apply Hh in Q. apply (Hn n Q).
  - split. { intros Ap. assert (Ap1 : apart s1) by (apply (apart_ext s s1); auto). apply (apart_ext s3 s4); auto; congruence. }
    split; auto. split; auto. split; [rewrite G3; change (fix_ s3) with (fix_ s2); congruence|].
    split. { intros y Hy. assert (Q : omem y l4 = true) by (apply omem_In, Hl4; exact Hy). rewrite U4, Q. reflexivity. }
    split. { intros y Hy. rewrite U4. destruct (omem y l4) eqn:Q; [apply omem_In, Hl4 in Q; contradiction|]. rewrite N3, (proj1 (proj2 (proj1 Rn2))).
      cbn. rewrite U1. destruct (omem y l1) eqn:Q'; auto. apply omem_In, L1 in Q'. exfalso. apply Hy. exists r1. auto. }
    split; [|split].
    + destruct Rn4 as (_ & -> & _). f_equal. destruct Nr4 as (_ & _ & _ & _ & N5). cbn in N5. rewrite N5; try rewrite N3. destruct Rn2 as (_ & -> & _). cbn.
      destruct Rn1 as (_ & -> & _). destruct Nr1 as (_ & _ & _ & _ & N6). cbn in N6. cbn. auto.
    + rewrite <- I4, G2. exact T4.
    + destruct Rn4 as (_ & _ & ->). destruct (omem x l4'); auto. destruct Nr4 as (_ & _ & _ & N5 & _). cbn in N5. rewrite N5; try rewrite N3. destruct Rn2 as (_ & _ & ->). cbn.
      apply upd_eq.
Qed.
End Random.
