(** Proofs about concatenations of parameters, part 2: the calls. *)
From Coq Require Import List ZArith Bool Lia Arith.
From Verif Require Import NpModel NpProofs IndexOpsModel IndexOpsSpec IndexOpsProofs PzModel PzSpec PzTree PzStruct PzLink PzWalk PzMem PzIo PzInv PzConn PzFix PzLinkMem PzPres PzUnlink PzTraverse PzNotify PzNew PzCmd PzInit PzCons PzVal PzOpt PzRandom PzHist PzOrder PzGrad PzKeep ConcatModel ConcatSpec ConcatProofs.
Import ListNotations.
Open Scope Z_scope.

Section Lists.
Context {V : Type}.

Lemma np_set_len : forall (l : list V) k v, 0 <= k < Z.of_nat (length l) -> length (np_set l k v) = length l.
Proof. intros l k v Hk. unfold np_set. rewrite app_length, firstn_length. cbn [length]. rewrite skipn_length. lia. Qed.
Lemma np_set_nth : forall (l : list V) k v i, 0 <= k < Z.of_nat (length l) -> nth_error (np_set l k v) i = if (i =? Z.to_nat k)%nat then Some v else nth_error l i.
Proof.
  intros l k v i Hk. unfold np_set. set (n := Z.to_nat k). assert (Hn : (n < length l)%nat) by lia. assert (Hf : length (firstn n l) = n) by (apply firstn_length_le; lia).
  rewrite <- (firstn_skipn n l) at 3. destruct (Nat.eqb_spec i n) as [->|Hne].
  - rewrite nth_error_app2 by lia. rewrite Hf, Nat.sub_diag. auto.
  - destruct (lt_dec i n) as [Hi|Hi]; [rewrite !nth_error_app1 by lia; auto|]. rewrite !nth_error_app2 by lia. rewrite Hf.
    destruct (i - n)%nat as [|d] eqn:E; [lia|]. cbn [nth_error].
    destruct (skipn n l) as [|a r] eqn:Es; [apply (f_equal (@length V)) in Es; rewrite skipn_length in Es; cbn in Es; lia|]. cbn [nth_error].
    replace (S n) with (1 + n)%nat by lia. rewrite <- skipn_add. rewrite Es. auto.
Qed.
Lemma scatter_fold : forall (es : list (Z * V)) (l : list V), (forall k v, In (k, v) es -> 0 <= k < Z.of_nat (length l)) ->
  let l' := fold_left (fun acc e => np_set acc (fst e) (snd e)) es l in
  length l' = length l /\ (forall i, ~ In (Z.of_nat i) (map fst es) -> nth_error l' i = nth_error l i) /\
  forall e1 k v e2, es = e1 ++ (k, v) :: e2 -> ~ In k (map fst e2) -> nth_error l' (Z.to_nat k) = Some v.
Proof.
  induction es as [|[k v] es IH]; intros l H; cbn [fold_left map fst snd].
  - split; auto. split; auto. intros [|? ?]; discriminate.
  - assert (Hk : 0 <= k < Z.of_nat (length l)) by (apply (H k v); left; auto).
    destruct (IH (np_set l k v)) as (H1 & H2 & H3).
    { intros k' v' Hi. rewrite np_set_len by auto. apply (H k' v'). right; auto. }
    split; [rewrite H1; apply np_set_len; auto|]. split.
    + intros i Hi. rewrite H2 by (intros Q; apply Hi; right; auto). rewrite np_set_nth by auto. destruct (Nat.eqb_spec i (Z.to_nat k)) as [->|]; auto.
      exfalso. apply Hi. left. lia.
    + intros e1 k' v' e2 E Hn. destruct e1 as [|e e1]; cbn [app] in E; injection E; intros; subst.
      * rewrite H2 by (rewrite Z2Nat.id by lia; auto). rewrite np_set_nth, Nat.eqb_refl by auto. auto.
      * eapply H3; eauto.
Qed.
Lemma combine_repeat : forall (sel : list Z) (v : V), map fst (combine sel (repeat v (length sel))) = sel.
Proof. induction sel as [|k sel IH]; intros v; cbn; [auto | f_equal; auto]. Qed.
Lemma combine_fst : forall (A B : Type) (a : list A) (b : list B), length b = length a -> map fst (combine a b) = a.
Proof. induction a as [|x a IH]; intros [|y b] E; try discriminate; auto. cbn. f_equal. apply IH. auto. Qed.
Lemma combine_in_split : forall (A B : Type) (a1 : list A) x a2 (b : list B) v, length b = length (a1 ++ x :: a2) -> nth_error b (length a1) = Some v ->
  exists b1 b2, combine (a1 ++ x :: a2) b = combine a1 b1 ++ (x, v) :: combine a2 b2 /\ length b1 = length a1 /\ length b2 = length a2.
Proof.
  induction a1 as [|y a1 IH]; intros x a2 [|w b] v E Ev; try discriminate.
  - cbn in *. injection Ev as ->. exists [], b. auto.
  - cbn in E, Ev. injection E as E. destruct (IH x a2 b v E Ev) as (b1 & b2 & Q & L1 & L2). exists (w :: b1), b2. cbn. rewrite Q. auto.
Qed.
Lemma scatter_ok : forall (l : list V) sel val, (forall k, In k sel -> 0 <= k < Z.of_nat (length l)) -> fits sel val ->
  exists vals, scatter l sel val = Ok vals /\ length vals = length l /\
    (forall i, ~ In (Z.of_nat i) sel -> nth_error vals i = nth_error l i) /\
    (forall k v, given sel val k v -> nth_error vals (Z.to_nat k) = Some v).
Proof.
  intros l sel val Hs Hf.
  assert (G : forall vs, length vs = length sel -> let vals := fold_left (fun acc e => np_set acc (fst e) (snd e)) (combine sel vs) l in
    length vals = length l /\ (forall i, ~ In (Z.of_nat i) sel -> nth_error vals i = nth_error l i) /\
    (forall l1 k r v, sel = l1 ++ k :: r -> ~ In k r -> nth_error vs (length l1) = Some v -> nth_error vals (Z.to_nat k) = Some v)).
  { intros vs Hv vals. destruct (scatter_fold (combine sel vs) l) as (H1 & H2 & H3).
    { intros k v Hi. apply Hs. eapply in_combine_l; eauto. }
    rewrite combine_fst in H2 by auto. split; auto. split; auto. intros l1 k r v E Hn Ev. subst sel.
    destruct (combine_in_split _ _ l1 k r vs v Hv Ev) as (b1 & b2 & Q & L1 & L2). apply (H3 (combine l1 b1) k v (combine r b2) Q). rewrite combine_fst; auto. }
  unfold scatter. destruct val as [|v [|v2 val]].
  - assert (sel = []) as -> by (destruct Hf as [Q|Q]; [discriminate | destruct sel; [auto | discriminate]]). cbn. exists l. split; auto. split; auto. split; auto.
    intros k v ([|? ?] & r & E & _); discriminate.
  - destruct (G (repeat v (length sel))) as (H1 & H2 & H3); [apply repeat_length|]. eexists. split; [reflexivity|]. split; auto. split; auto.
    intros k w (l1 & r & E & Hn & Hw). apply (H3 l1 k r w E Hn). assert (Hlt : (length l1 < length sel)%nat) by (rewrite E, app_length; cbn; lia).
    assert (w = v) as ->. { destruct Hw as [Q|[Q1 Q2]]; [congruence|]. cbn in Q1. destruct l1; [cbn in Q2; congruence | cbn in Hlt; lia]. }
    rewrite (nth_error_nth' _ v) by (rewrite repeat_length; auto). f_equal. apply nth_repeat.
  - assert (Q : length (v :: v2 :: val) = length sel) by (destruct Hf as [Q|Q]; [discriminate | auto]). rewrite Q, Nat.eqb_refl.
    destruct (G _ Q) as (H1 & H2 & H3). eexists. split; [reflexivity|]. split; auto. split; auto.
    intros k w (l1 & r & E & Hn & Hw). apply (H3 l1 k r w E Hn). destruct Hw as [Hw|[_ Hw]]; [discriminate | auto].
Qed.
Lemma last_occurrence : forall (sel : list Z) k, In k sel -> exists l r, sel = l ++ k :: r /\ ~ In k r.
Proof.
  induction sel as [|a sel IH]; intros k Hk; [destruct Hk|]. destruct (in_dec Z.eq_dec k sel) as [H|H].
  - destruct (IH k H) as (l & r & -> & Hn). exists (a :: l), r. auto.
  - destruct Hk as [->|Hk]; [|contradiction]. exists [], sel. auto.
Qed.
Lemma given_exists : forall sel (val : list V) k, fits sel val -> In k sel -> exists v, given sel val k v.
Proof.
  intros sel val k Hf Hk. destruct (last_occurrence sel k Hk) as (l & r & E & Hn). destruct Hf as [Hf|Hf].
  - destruct val as [|v [|? ?]]; try discriminate. exists v, l, r. auto.
  - destruct (nth_error val (length l)) as [v|] eqn:Ev.
    + exists v, l, r. split; auto.
    + apply nth_error_None in Ev. subst sel. rewrite app_length in Hf. cbn in Hf. lia.
Qed.
End Lists.

Lemma indicator_ok : forall n sel, 0 <= n -> (forall k, In k sel -> 0 <= k < n) ->
  indicator n sel = Ok (map (fun k => zmem k sel) (arange n)).
Proof.
  intros n sel Hn H. unfold indicator. replace (forallb _ sel) with true; auto. symmetry. apply forallb_forall. intros k Hk. apply H in Hk.
  apply andb_true_intro. split; [apply Z.leb_le | apply Z.ltb_lt]; lia.
Qed.
Lemma indicator_nth : forall n sel k, 0 <= k < n -> nth (Z.to_nat k) (map (fun k => zmem k sel) (arange n)) false = zmem k sel.
Proof.
  intros n sel k Hk. rewrite (nth_indep _ false (zmem 0 sel)) by (rewrite map_length, arange_len; lia). rewrite (map_nth (fun k => zmem k sel)).
  rewrite arange_nth by lia. rewrite Z2Nat.id by lia. auto.
Qed.
Lemma rank_all : forall mk k, (forall i, (i < k)%nat -> nth i mk false = true) -> rank mk k = k.
Proof.
  intros mk k. revert mk. induction k as [|k IH]; intros mk H; [unfold rank; cbn; auto|]. destruct mk as [|b mk].
  - specialize (H 0%nat ltac:(lia)). discriminate.
  - assert (b = true) as -> by (apply (H 0%nat); lia). unfold rank in *. cbn. f_equal. apply IH. intros i Hi. apply (H (S i)). lia.
Qed.

(** ** Updates *)
Section Updates.
Context {V : Type}.
Implicit Types s : @state V.

Lemma fixed_ext : forall s s', st s' = st s -> ios s' = ios s -> forall y, fixed s' y <-> fixed s y.
Proof. intros s s' E1 E2 y. unfold fixed, has. rewrite E1, E2. reflexivity. Qed.
Lemma woken_ext : forall s s' x y, st s' = st s -> ios s' = ios s -> woken s x y -> woken s' x y.
Proof.
  intros s s' x y E1 E2 H. induction H as [c H1 H2|c d H IH H1 H2].
  - apply woken_kid; [rewrite E1; auto | intros Q; apply H2; apply (fixed_ext s s' E1 E2); auto].
  - eapply woken_deep; [exact IH | rewrite E1; auto | intros Q; apply H2; apply (fixed_ext s s' E1 E2); auto].
Qed.
Lemma woken_between : forall s x y b, Inv s -> woken s x y -> part (st s) b y -> b <> y -> part (st s) x b -> b = x \/ woken s x b.
Proof.
  intros s x y b H Hw. pose proof (inv_st _ H) as W. induction Hw as [c H1 H2|c d Hc IH H1 H2]; intros Hb Hne Hx.
  - left. apply (PzTree.wf_par _ W) in H1. eapply above_antisym; eauto. eapply above_par; eauto.
  - apply (PzTree.wf_par _ W) in H1. assert (Hbc : above (st s) b c) by (eapply above_par; eauto).
    destruct (Nat.eq_dec b c) as [->|Hn]; auto.
Qed.

(** What [trigger_update(trigger_parent=False)] on [q] runs. *)
Definition block s (q : oid) (l : list oid) : Prop :=
  NoDup l /\ (forall y, In y l <-> kind (st s) y = KNode /\ (y = q \/ woken s q y)) /\
  forall a b, In a l -> In b l -> part (st s) b a -> a <> b -> before l a b.
Lemma block_ext : forall s s' q l, st s' = st s -> ios s' = ios s -> block s q l -> block s' q l.
Proof.
  intros s s' q l E1 E2 (A & B & C). split; auto. split.
  - intros y. rewrite B, E1. split; (intros [H1 [H2|H2]]; split; auto; right; (apply (woken_ext s s') || apply (woken_ext s' s)); auto).
  - rewrite E1. auto.
Qed.
Lemma trigger_down : forall s q, Inv s -> (q < next (st s))%nat -> in_init (st s) q = false -> (forall y, part (st s) q y -> updates (nt s) y = true) ->
  exists s' l, c_trigger q false s = (s', None) /\ only_ran s l s' /\ block s q l.
Proof.
  intros s q H Hq Hin Hon. pose proof H as [W I F M N J]. destruct (fixed_fun (st s) (ios s) W I) as [fx [F1 F2]]. destruct (tree_exists (st s) W q) as [tr [E [R Nd]]].
  destruct (trigger_spec fx (fuel (st s)) (st s) (ios s) tr (nt s) W I) as [[n1 [E1 R1]] _]; auto.
  { intros y Hy. exists (fx y). auto. }
  { apply rep_krep; auto. } { apply rep_new_height; auto. } { congruence. }
  rewrite E in *. unfold c_trigger, lift, trigger_update. rewrite Hin, Hon by apply above_refl. cbn [andb negb]. rewrite E1.
  exists (with_nt s n1), (filter (active (st s) (nt s)) (post fx tr)). split; auto. split; [repeat (split; auto); apply R1|].
  assert (Ho : forall y, In y (oids tr) <-> above (st s) q y) by (intros y; rewrite <- E; apply koids_below; apply rep_krep; auto).
  assert (Hf' : forall y, In y (oids tr) -> (fx y = false <-> ~ fixed s y)).
  { intros y Hy. apply Ho in Hy. assert (Hl : (y < next (st s))%nat) by (eapply above_lt'; eauto). specialize (F2 y Hl). change (all_fixed (st s) (ios s) y) with (fixed s y) in F2.
    destruct (fx y); split; intros Q; try discriminate; auto; [exfalso; apply Q, F2; auto | intros Q'; apply F2 in Q'; discriminate]. }
  destruct (inner_post (st s) (fun c => ~ fixed s c) fx tr (rep_krep _ _ R) Hf') as [_ Hi].
  split; [apply NoDup_filter; apply (post_nodup fx tr Nd)|]. split.
  - intros y. rewrite filter_In, Hi, E, woken_wk. unfold active. split.
    + intros [Hy Q]. apply andb_prop in Q as [_ Q]. apply node_kind in Q. auto.
    + intros [Q Hy]. split; auto. rewrite (proj2 (node_kind _ _) Q), Hon; auto. destruct Hy as [->|Hy]; [apply above_refl | eapply wk_above; eauto].
  - intros a b Ha Hb Hab Hne. apply filter_In in Ha as [Ha Fa]. apply filter_In in Hb as [Hb Fb]. apply before_filter; auto.
    apply (post_order (st s) fx tr (rep_krep _ _ R) Nd); auto.
Qed.
Lemma only_ran_refl : forall s, only_ran s [] s.
Proof. intros s. repeat (split; auto). Qed.
Lemma only_ran_trans : forall s1 l1 s2 l2 s3, only_ran s1 l1 s2 -> only_ran s2 l2 s3 -> only_ran s1 (l1 ++ l2) s3.
Proof.
  intros s1 l1 s2 l2 s3 (A1 & A2 & A3 & A4 & A5) (B1 & B2 & B3 & B4 & B5). repeat (split; [congruence|]). eapply ran_app; eauto.
Qed.
Lemma apart_ext : forall s s', st s' = st s -> mem s' = mem s -> apart s -> apart s'.
Proof. intros s s' E1 E2 H. unfold apart in *. rewrite E1, E2. auto. Qed.

Definition triggers (qs : list oid) : @cmd V := fold_right (fun q k => andthen (c_trigger q false) k) done qs.
Lemma triggers_any : forall qs s, Inv s -> (forall q, In q qs -> (q < next (st s))%nat) -> exists s' l, triggers qs s = (s', None) /\ only_ran s l s'.
Proof.
  induction qs as [|q qs IH]; intros s H Hq; [exists s, []; split; [auto | apply only_ran_refl]|].
  destruct (trigger_cmd s q false H) as (s1 & l1 & R1 & O1); [apply Hq; left; auto|].
  destruct (IH s1) as (s2 & l2 & R2 & O2); [eapply only_ran_inv; eauto | rewrite (proj1 O1); intros; apply Hq; right; auto|].
  exists s2, (l1 ++ l2). split; [|eapply only_ran_trans; eauto]. cbn [triggers fold_right]. rewrite (andthen_ok _ _ _ _ R1). exact R2.
Qed.
Lemma triggers_ok : forall qs s, Inv s -> (forall q, In q qs -> (q < next (st s))%nat /\ in_init (st s) q = false /\ forall y, part (st s) q y -> updates (nt s) y = true) ->
  exists s' L, triggers qs s = (s', None) /\ only_ran s (concat L) s' /\ Forall2 (block s) qs L.
Proof.
  induction qs as [|q qs IH]; intros s H Hq; [exists s, []; split; [auto | split; [apply only_ran_refl | constructor]]|].
  destruct (Hq q) as (Q1 & Q2 & Q3); [left; auto|]. destruct (trigger_down s q H Q1 Q2 Q3) as (s1 & l1 & R1 & O1 & B1).
  pose proof O1 as (E1 & E2 & _ & _ & E5).
  destruct (IH s1) as (s2 & L & R2 & O2 & B2); [eapply only_ran_inv; eauto | |].
  { intros q' Hq'. rewrite E1, (ran_upd _ _ _ E5). apply Hq. right; auto. }
  exists s2, (l1 :: L). split; [cbn [triggers fold_right]; rewrite (andthen_ok _ _ _ _ R1); exact R2|]. split; [cbn [concat]; eapply only_ran_trans; eauto|].
  constructor; auto. clear - B2 E1 E2. induction B2; constructor; auto. eapply block_ext; [| |eauto]; congruence.
Qed.

Lemma concat_split : forall (A : Type) (L : list (list A)) l1 a l2, concat L = l1 ++ a :: l2 ->
  exists L1 b1 b2 L2, L = L1 ++ (b1 ++ a :: b2) :: L2 /\ l2 = b2 ++ concat L2.
Proof.
  intros A L. induction L as [|b L IH]; intros l1 a l2 E; [destruct l1; discriminate|]. cbn [concat] in E.
  destruct (lt_dec (length l1) (length b)) as [Hl|Hl].
  - assert (exists b2, b = l1 ++ a :: b2 /\ l2 = b2 ++ concat L) as (b2 & -> & ->).
    { clear IH. revert l1 E Hl. induction b as [|x b IHb]; intros l1 E Hl; [cbn in Hl; lia|]. destruct l1 as [|y l1]; cbn in E; injection E; intros; subst.
      - exists b. auto.
      - destruct (IHb l1 H) as (b2 & -> & ->); [cbn in Hl; lia|]. exists b2. auto. }
    exists [], l1, b2, L. auto.
  - assert (exists l1', concat L = l1' ++ a :: l2) as (l1' & E').
    { clear IH. revert l1 E Hl. induction b as [|x b IHb]; intros l1 E Hl; [eauto|]. destruct l1 as [|y l1]; cbn in E; [cbn in Hl; lia|]. injection E; intros; subst.
      apply (IHb l1); auto. cbn in Hl. lia. }
    destruct (IH l1' a l2 E') as (L1 & b1 & b2 & L2 & -> & ->). exists (b :: L1), b1, b2, L2. auto.
Qed.
Lemma before_after : forall l a b l1 l2, NoDup l -> before l a b -> l = l1 ++ a :: l2 -> In b l2.
Proof.
  intros l a b l1 l2 Nd (m1 & m2 & E & Ha) E'. apply in_split in Ha as (k1 & k2 & ->). rewrite <- app_assoc in E. cbn in E. rewrite E' in *.
  destruct (split_unique _ l1 l2 k1 (k2 ++ b :: m2) a Nd E) as [_ ->]. apply in_elt.
Qed.
Lemma blocks_settled : forall s qs L, Inv s -> NoDup qs -> Forall2 (block s) qs L ->
  (forall q b, In q qs -> part (st s) b q -> b <> q -> before qs q b) -> settled (st s) (concat L).
Proof.
  intros s qs L H Nd B Ho l1 a l2 b E Hb Hne. pose proof (inv_st _ H) as W. destruct (concat_split _ L l1 a l2 E) as (L1 & b1 & b2 & L2 & -> & ->).
  apply Forall2_app_inv_r in B as (Q1 & Q2' & B1 & B2 & ->). inversion B2 as [|q bl Q2 L2' (Nb & Inb & Ob) B3]; subst.
  assert (Ha : In a (b1 ++ a :: b2)) by apply in_elt.
  pose proof (proj1 (Inb a) Ha) as [Ka Wa].
  assert (Hqa : above (st s) q a) by (destruct Wa as [->|Wa]; [apply above_refl | apply woken_wk in Wa; eapply wk_above; eauto]).
  assert (Kb : kind (st s) b = KNode).
  { destruct (above_step (st s) b a Hb) as (c & Hc & _); [auto|]. apply node_not_leaf. eapply kid_not_leaf; eauto. }
  assert (Cmp : above (st s) q b \/ (above (st s) b q /\ b <> q)).
  { destruct Hqa as [o [n Bq]]. destruct Hb as [o' [n' Bb]]. destruct (le_lt_dec n n') as [Hle|Hle].
    - destruct (below_comparable _ _ _ _ _ _ _ _ W Bq Bb Hle) as [z [Bz _]]. destruct (Nat.eq_dec b q) as [->|]; [left; apply above_refl|]. right. split; auto. eexists; eauto.
    - destruct (below_comparable _ _ _ _ _ _ _ _ W Bb Bq ltac:(lia)) as [z [Bz _]]. left. eexists; eauto. }
  apply in_or_app. destruct Cmp as [Hqb|[Hbq Hbn]].
  - left. assert (Hin : In b (b1 ++ a :: b2)).
    { apply Inb. split; auto. destruct Wa as [->|Wa]; [left; eapply above_antisym; eauto|]. apply (woken_between s q a b); auto. }
    exact (before_after _ a b b1 b2 Nb (Ob a b Ha Hin Hb Hne) eq_refl).
  - right. assert (Hb2 : In b Q2) by (exact (before_after _ q b Q1 Q2 Nd (Ho q b (in_elt _ _ _) Hbq Hbn) eq_refl)).
    clear - B3 Hb2 Kb. induction B3 as [|q' l' Q L (_ & Inb & _) B3 IH]; [destruct Hb2|]. cbn [concat]. apply in_or_app. destruct Hb2 as [->|Hb2]; [left; apply Inb; auto | right; auto].
Qed.
Lemma blocks_in : forall s qs L q, Forall2 (block s) qs L -> In q qs -> kind (st s) q = KNode -> In q (concat L).
Proof.
  intros s qs L q B. induction B as [|q' l Q L (_ & Inb & _) B IH]; intros Hq Kq; [destruct Hq|]. cbn [concat]. apply in_or_app.
  destruct Hq as [->|Hq]; [left; apply Inb; auto | right; auto].
Qed.
Lemma over_node : forall t ps q, swf t -> over t ps q -> kind t q = KNode.
Proof. intros t ps q W (p & Hp & H & Hne). destruct (above_step t q p H Hne) as (c & Hc & _). apply node_not_leaf. eapply kid_not_leaf; eauto. Qed.
Lemma over_lt : forall s ps q, Inv s -> over (st s) ps q -> (q < next (st s))%nat.
Proof.
  intros s ps q H (p & Hp & Hb & Hne). destruct (above_step (st s) q p Hb Hne) as (c & Hc & _). destruct (Nat.lt_ge_cases q (next (st s))) as [L|L]; auto.
  apply (wf_new _ (inv_st _ H)) in L as (L1 & L2 & L3). exfalso. destruct (kids (st s) q); [destruct Hc | congruence].
Qed.
(** The first use of a concatenation. *)
Lemma update_first : forall s ps, Inv s -> (forall q, over (st s) ps q -> in_init (st s) q = false) ->
  (forall p y, In p ps -> together (st s) p y -> updates (nt s) y = true) ->
  exists s' l, triggers (conc_parents (st s) ps) s = (s', None) /\ only_ran s l s' /\ (forall q, over (st s) ps q -> In q l) /\ settled (st s) l.
Proof.
  intros s ps H Hin Hon. pose proof (inv_st _ H) as W. destruct (conc_parents_ok (st s) ps W) as (Nd & Hps & Ord).
  destruct (triggers_ok (conc_parents (st s) ps) s H) as (s' & L & R & O & B).
  { intros q Hq. apply Hps in Hq. split; [eapply over_lt; eauto|]. split; auto. intros y Hy. destruct Hq as (p & Hp & Hpq & _). apply (Hon p y Hp). exists q. auto. }
  exists s', (concat L). split; auto. split; auto. split.
  - intros q Hq. eapply blocks_in; eauto; [apply Hps; auto | eapply over_node; eauto].
  - eapply blocks_settled; eauto.
Qed.
End Updates.
