(** The order in which updates run. *)
From Coq Require Import List ZArith Bool Lia Arith.
From Verif Require Import NpModel NpProofs IndexOpsModel IndexOpsSpec IndexOpsProofs PzModel PzSpec PzTree PzStruct PzLink PzWalk PzMem PzIo PzInv PzConn PzFix PzLinkMem PzPres PzUnlink PzTraverse PzNotify PzNew PzCmd PzInit PzCons PzVal PzOpt PzRandom PzHist PzKeep.
Import ListNotations.
Open Scope Z_scope.

Lemma before_app_l : forall l l' a b, before l a b -> before (l ++ l') a b.
Proof. intros l l' a b (l1 & l2 & -> & H). exists l1, (l2 ++ l'). rewrite <- app_assoc. split; auto. Qed.
Lemma before_app_r : forall l l' a b, before l a b -> before (l' ++ l) a b.
Proof. intros l l' a b (l1 & l2 & -> & H). exists (l' ++ l1), l2. rewrite <- app_assoc. split; auto. apply in_or_app; auto. Qed.
Lemma before_split : forall l l' a b, In a l -> In b l' -> before (l ++ l') a b.
Proof.
  intros l l' a b Ha Hb. apply in_split in Hb as (l1 & l2 & ->). exists (l ++ l1), l2. rewrite <- app_assoc. split; auto. apply in_or_app; auto.
Qed.
Lemma before_filter : forall (f : oid -> bool) l a b, before l a b -> f a = true -> f b = true -> before (filter f l) a b.
Proof.
  intros f l a b (l1 & l2 & -> & H) Fa Fb. exists (filter f l1), (filter f l2). rewrite filter_app. cbn [filter]. rewrite Fb. split; auto.
  apply filter_In; auto.
Qed.
Lemma before_concat : forall (ls : list (list oid)) l a b, In l ls -> before l a b -> before (concat ls) a b.
Proof.
  induction ls as [|k ls IH]; intros l a b H Hb; [destruct H|]; destruct H as [->|H]; cbn [concat]; [apply before_app_l; auto | apply before_app_r; eauto].
Qed.

Lemma nodup_subtree : forall x ts d c a, NoDup (oids (T x ts)) -> In d ts -> In c ts -> In a (oids d) -> In a (oids c) -> d = c.
Proof.
  intros x ts d c a Nd. cbn [oids] in Nd. inversion Nd as [|? ? _ N]; subst. clear Nd. induction ts as [|e ts IH]; intros Hd Hc Ha Ha'; [destruct Hd|].
  cbn [map concat] in N. apply nodup_app in N as (N1 & N2 & N3).
  assert (Hi : forall f, In f ts -> In a (oids f) -> In a (concat (map oids ts))).
  { intros f Hf Q. apply in_concat. exists (oids f). split; auto. apply in_map; auto. }
  destruct Hd as [->|Hd]; destruct Hc as [->|Hc]; auto; exfalso; eapply N3; eauto.
Qed.

Section Order.
Variable t : struct.
Hypothesis W : swf t.
Variable P : oid -> Prop.
Variable fx : oid -> bool.

Inductive wk (x : oid) : oid -> Prop :=
| wk_kid : forall c, In c (kids t x) -> P c -> wk x c
| wk_deep : forall c d, wk x c -> In d (kids t c) -> P d -> wk x d.
Lemma wk_top : forall x c y, In c (kids t x) -> P c -> wk c y -> wk x y.
Proof.
  intros x c y Hc Pc H. induction H as [d H1 H2|d e H IH H1 H2].
  - eapply wk_deep; eauto. apply wk_kid; auto.
  - eapply wk_deep; eauto.
Qed.
Lemma wk_inv : forall x y, wk x y -> exists c, In c (kids t x) /\ P c /\ (y = c \/ wk c y).
Proof.
  intros x y H. induction H as [c H1 H2|c d H (e & E1 & E2 & E3) H1 H2].
  - exists c; auto.
  - exists e. split; auto. split; auto. right. destruct E3 as [->|E3]; [apply wk_kid; auto | eapply wk_deep; eauto].
Qed.
Lemma wk_above : forall x y, wk x y -> above t x y /\ x <> y.
Proof.
  assert (G : forall x y, wk x y -> exists c, In c (kids t x) /\ above t c y).
  { intros x y H. induction H as [c H1 H2|c d H (e & E1 & E2) H1 H2]; [exists c; split; auto; apply above_refl|].
    exists e. split; auto. eapply above_trans; [exact E2 | apply above_kid; auto]. }
  intros x y H. destruct (G x y H) as (c & Hc & Ha). split; [eapply above_trans; [apply above_kid; exact Hc | auto]|].
  intros ->. exact (no_self_kid t c y W Ha Hc).
Qed.

Lemma inner_post : forall tr, krep t tr -> (forall y, In y (oids tr) -> (fx y = false <-> P y)) ->
  (forall y, In y (inner fx tr) <-> wk (root tr) y) /\ (forall y, In y (post fx tr) <-> y = root tr \/ wk (root tr) y).
Proof.
  intros tr. induction tr as [x ts IH] using tree_ind'. intros K Hf.
  assert (Hin : forall y, In y (inner fx (T x ts)) <-> wk x y).
  { intros y. cbn [inner]. rewrite in_concat. split.
    - intros (l & Hl & Hy). apply in_map_iff in Hl as (c & <- & Hc).
      destruct (fx (root c)) eqn:Ef; [destruct Hy|].
      assert (Ho : In (root c) (oids (T x ts))).
      { cbn [oids]. right. apply in_concat. exists (oids c). split; [apply in_map; auto | destruct c; left; auto]. }
      rewrite Forall_forall in IH. destruct (IH c Hc) as [_ Hpost].
      { eapply krep_child; eauto. } { intros z Hz. apply Hf. cbn [oids]. right. apply in_concat. exists (oids c). split; auto. apply in_map; auto. }
      apply Hpost in Hy. assert (Hk : In (root c) (kids t x)) by (rewrite (krep_kids _ _ _ K); apply in_map; auto).
      assert (Pc : P (root c)) by (apply Hf; auto). destruct Hy as [->|Hy]; [apply wk_kid; auto | eapply wk_top; eauto].
    - intros H. apply wk_inv in H as (c0 & Hc0 & Pc & Hy). rewrite (krep_kids _ _ _ K) in Hc0. apply in_map_iff in Hc0 as (c & <- & Hc).
      exists (if fx (root c) then [] else post fx c). split; [apply in_map_iff; exists c; auto|].
      assert (Ho : In (root c) (oids (T x ts))).
      { cbn [oids]. right. apply in_concat. exists (oids c). split; [apply in_map; auto | destruct c; left; auto]. }
      rewrite (proj2 (Hf _ Ho) Pc). rewrite Forall_forall in IH. destruct (IH c Hc) as [_ Hpost]; [eapply krep_child; eauto | |].
      { intros z Hz. apply Hf. cbn [oids]. right. apply in_concat. exists (oids c). split; auto. apply in_map; auto. }
      apply Hpost. auto. }
  split; auto. intros y. change (post fx (T x ts)) with (inner fx (T x ts) ++ [x]). rewrite in_app_iff, Hin. cbn [root In]. split; intros [H|H]; auto.
  destruct H as [->|[]]; auto.
Qed.

Lemma post_oids : forall tr y, In y (post fx tr) -> In y (oids tr).
Proof.
  intros tr. induction tr as [x ts IH] using tree_ind'. intros y H. cbn [post oids] in *. apply in_app_or in H. destruct H as [H|[->|[]]]; [right | left; auto].
  apply in_concat in H as (l & Hl & Hy). apply in_map_iff in Hl as (c & <- & Hc). destruct (fx (root c)); [destruct Hy|].
  apply in_concat. exists (oids c). split; [apply in_map; auto|]. rewrite Forall_forall in IH. apply (IH c Hc); auto.
Qed.
Lemma post_nodup : forall tr, NoDup (oids tr) -> NoDup (post fx tr).
Proof.
  intros tr. induction tr as [x ts IH] using tree_ind'. intros Nd. cbn [post]. cbn [oids] in Nd. inversion Nd as [|? ? Hx Nt]; subst.
  assert (G : forall l, incl l ts -> NoDup (concat (map oids l)) -> NoDup (concat (map (fun c => if fx (root c) then [] else post fx c) l))).
  { induction l as [|c l IHl]; intros Hi Nl; cbn [map concat] in *; [constructor|]. apply nodup_app in Nl as (N1 & N2 & N3).
    apply NoDup_app_intro'.
    - destruct (fx (root c)); [constructor|]. rewrite Forall_forall in IH. apply IH; auto. apply Hi; left; auto.
    - apply IHl; auto. intros d Hd; apply Hi; right; auto.
    - intros y Hy Hy'. apply (N3 y).
      + destruct (fx (root c)); [destruct Hy | apply post_oids; auto].
      + apply in_concat in Hy' as (k & Hk & Hy'). apply in_map_iff in Hk as (d & <- & Hd). destruct (fx (root d)); [destruct Hy'|].
        apply in_concat. exists (oids d). split; [apply in_map; auto | apply post_oids; auto]. }
  apply NoDup_app_intro'; [apply G; auto; apply incl_refl | repeat constructor; auto|].
  intros y Hy [<-|[]]. apply Hx. apply in_concat in Hy as (k & Hk & Hy). apply in_map_iff in Hk as (d & <- & Hd). destruct (fx (root d)); [destruct Hy|].
  apply in_concat. exists (oids d). split; [apply in_map; auto | apply post_oids; auto].
Qed.
Lemma inner_nodup : forall tr, NoDup (oids tr) -> NoDup (inner fx tr).
Proof.
  intros [x ts] H. apply post_nodup in H. change (post fx (T x ts)) with (inner fx (T x ts) ++ [x]) in H. apply nodup_app in H. tauto.
Qed.

Lemma post_order : forall tr, krep t tr -> NoDup (oids tr) -> forall a b, In a (post fx tr) -> In b (post fx tr) -> above t b a -> a <> b ->
  before (post fx tr) a b.
Proof.
  intros tr. induction tr as [x ts IH] using tree_ind'. intros K Nd a b Ha Hb Hab Hne. cbn [post] in *. rewrite Forall_forall in IH.
  set (L := map (fun c => if fx (root c) then [] else post fx c) ts) in *.
  apply in_app_or in Ha. apply in_app_or in Hb.
  assert (Hsub : forall c y, In c ts -> In y (oids c) <-> above t (root c) y).
  { intros c y Hc. apply koids_below. eapply krep_child; eauto. }
  assert (Hroot : ~ (exists c, In c ts /\ In x (oids c))).
  { intros (c & Hc & Hx). cbn [oids] in Nd. inversion Nd as [|? ? Hn _]; subst. apply Hn. apply in_concat. exists (oids c). split; auto. apply in_map; auto. }
  destruct Hb as [Hb|[<-|[]]].
  - apply in_concat in Hb as (k & Hk & Hb). apply in_map_iff in Hk as (c & <- & Hc). destruct (fx (root c)) eqn:Ef; [destruct Hb|].
    pose proof (post_oids _ _ Hb) as Ob. assert (Oa : In a (oids c)) by (apply Hsub; auto; eapply above_trans; [apply Hsub; eauto | auto]).
    destruct Ha as [Ha|[<-|[]]]; [|exfalso; apply Hroot; eauto].
    apply in_concat in Ha as (k & Hk & Ha). apply in_map_iff in Hk as (d & <- & Hd). destruct (fx (root d)) eqn:Ed; [destruct Ha|].
    assert (d = c) as ->.
    { apply (nodup_subtree x ts d c a); auto. apply post_oids; auto. }
    apply before_app_l. apply (before_concat L (post fx c)).
    + apply in_map_iff. exists c. rewrite Ef. auto.
    + apply IH; auto; [eapply krep_child; eauto | eapply nodup_child; eauto].
  - apply before_split; [|left; auto]. destruct Ha as [Ha|[<-|[]]]; auto. congruence.
Qed.
End Order.

Lemma exists_last_or_nil : forall (A : Type) (l : list A), l = [] \/ exists l' z, l = l' ++ [z].
Proof. intros A l. destruct l as [|a l] using rev_ind; eauto. Qed.
Lemma takewhile_all : forall (A : Type) (f : A -> bool) l, (forall y, In y l -> f y = true) -> takewhile f l = l.
Proof. intros A f l. induction l as [|a l IH]; intros H; auto. cbn [takewhile]. rewrite H by (left; auto). f_equal. apply IH. intros; apply H; right; auto. Qed.
Lemma up_order : forall t x l, swf t -> up t x l -> forall a b, In a l -> In b l -> above t b a -> a <> b -> before l a b.
Proof.
  intros t x l W H. induction H as [x Hp|x p l Hp Hup IH]; intros a b Ha Hb Hab Hne.
  - destruct Ha as [<-|[]]. destruct Hb as [<-|[]]. congruence.
  - destruct Ha as [<-|Ha].
    + destruct Hb as [<-|Hb]; [congruence|]. apply (before_split [x] l); [left; auto | auto].
    + destruct Hb as [<-|Hb]; [|apply (before_app_r l [x]); auto]. exfalso.
      apply (up_below t p l W Hup) in Ha. assert (Hk : In x (kids t p)) by (apply (PzTree.wf_par t W); auto).
      apply (no_self_kid t x p W); auto. eapply above_trans; [exact Hab | exact Ha].
Qed.

Section St.
Context {V : Type}.
Implicit Types s : @state V.

Lemma woken_wk : forall s x y, woken s x y <-> wk (st s) (fun c => ~ fixed s c) x y.
Proof. intros s x y. split; intros H; induction H; [apply wk_kid | eapply wk_deep | apply woken_kid | eapply woken_deep]; eauto. Qed.
Lemma node_kind : forall t y, negb (is_leaf t y) = true <-> kind t y = KNode.
Proof. intros t y. rewrite negb_true_iff. split; apply node_not_leaf. Qed.
Lemma part_together : forall t x y, part t x y -> together t x y.
Proof. intros t x y H. exists x. split; auto. apply above_refl. Qed.
Lemma part_together' : forall t x y, part t y x -> together t x y.
Proof. intros t x y H. exists y. split; auto. apply above_refl. Qed.

Lemma chain_order : forall s n x u, Inv s -> up (st s) x u -> (forall y, part (st s) y x -> updates n y = true) ->
  NoDup (chain (st s) n u) /\ (forall y, In y (@chain V (st s) n u) <-> kind (st s) y = KNode /\ part (st s) y x) /\
  forall a b, In a (chain (st s) n u) -> In b (chain (st s) n u) -> part (st s) b a -> a <> b -> before (chain (st s) n u) a b.
Proof.
  intros s n x u H Hu Hon. pose proof (inv_st _ H) as W. unfold chain. rewrite takewhile_all by (intros y Hy; apply Hon; apply (up_below _ _ _ W Hu); auto).
  split; [apply NoDup_filter; eapply up_nodup; eauto|]. split.
  - intros y. rewrite filter_In, node_kind, (up_below _ _ _ W Hu). unfold part. tauto.
  - intros a b Ha Hb Hab Hne. apply filter_In in Ha as [Ha Fa]. apply filter_In in Hb as [Hb Fb]. apply before_filter; auto. apply (up_order (st s) x u); auto.
Qed.

Lemma triggered_order : forall s n x l, Inv s -> (x < next (st s))%nat -> @triggered V (st s) (ios s) n x l -> in_init (st s) x = false ->
  (forall y, together (st s) x y -> updates n y = true) ->
  NoDup l /\ (forall y, In y l <-> kind (st s) y = KNode /\ (woken s x y \/ part (st s) y x)) /\
  forall a b, In a l -> In b l -> part (st s) b a -> a <> b -> before l a b.
Proof.
  intros s n x l H Hx (tr & u & fx & Ex & R & Nd & Hu & Hf & El) Hin Hon. pose proof (inv_st _ H) as W.
  rewrite Hon, Hin in El by (apply part_together; apply above_refl). cbn [andb negb] in El. subst l.
  assert (Ho : forall y, In y (oids tr) <-> above (st s) x y) by (intros y; rewrite <- Ex; apply koids_below; apply rep_krep; auto).
  assert (Hf' : forall y, In y (oids tr) -> (fx y = false <-> ~ fixed s y)).
  { intros y Hy. apply Ho in Hy. assert (Hl : (y < next (st s))%nat) by (eapply above_lt'; eauto). specialize (Hf y Hl). change (all_fixed (st s) (ios s) y) with (fixed s y) in Hf.
    destruct (fx y); split; intros Q; try discriminate; auto; [exfalso; apply Q, Hf; auto | intros Q'; apply Hf in Q'; discriminate]. }
  destruct (inner_post (st s) (fun c => ~ fixed s c) fx tr (rep_krep _ _ R) Hf') as [Hi _].
  assert (Hi' : forall y, In y (filter (active (st s) n) (inner fx tr)) <-> kind (st s) y = KNode /\ woken s x y).
  { intros y. rewrite filter_In, Hi, Ex, woken_wk. unfold active. split.
    - intros [Hy Q]. apply andb_prop in Q as [_ Q]. apply node_kind in Q. auto.
    - intros [Q Hy]. split; auto. rewrite (proj2 (node_kind _ _) Q), Hon; auto. apply part_together. eapply wk_above; eauto. }
  destruct (chain_order s n x u H Hu) as (C1 & C2 & C3); [intros y Hy; apply Hon, part_together'; auto|].
  assert (Hcl : forall y, woken s x y -> part (st s) y x -> False).
  { intros y Q1 Q2. apply woken_wk in Q1. apply wk_above in Q1 as [Q1 Q3]; auto. apply Q3. eapply above_antisym; eauto. }
  split; [|split].
  - apply NoDup_app_intro'; [apply NoDup_filter, (inner_nodup (fun _ => True) fx tr Nd) | exact C1 |]. intros y Q1 Q2. apply Hi' in Q1. apply C2 in Q2. eapply Hcl; [apply Q1 | apply Q2].
  - intros y. rewrite in_app_iff, Hi', C2. tauto.
  - intros a b Ha Hb Hab Hne. apply in_app_or in Ha. apply in_app_or in Hb. destruct Ha as [Ha|Ha]; destruct Hb as [Hb|Hb].
    + apply before_app_l. apply filter_In in Ha as [Ha Fa]. apply filter_In in Hb as [Hb Fb]. apply before_filter; auto.
      destruct tr as [x' ts]. pose proof (post_order (st s) fx (T x' ts) (rep_krep _ _ R) Nd a b) as Q.
      change (post fx (T x' ts)) with (inner fx (T x' ts) ++ [x']) in Q.
      destruct Q as (l1 & l2 & E & I1); auto; try (apply in_or_app; auto). cbn [root] in Ex. subst x'.
      assert (Hbx : b <> x). { intros ->. apply Hi in Hb. apply (wk_above (st s) W _ x x Hb). auto. }
      destruct (exists_last_or_nil _ l2) as [->|(l3 & z & ->)].
      * apply app_inj_tail in E as [_ E]. congruence.
      * rewrite app_comm_cons, app_assoc in E. apply app_inj_tail in E as [E _]. exists l1, l3. auto.
    + apply before_split; auto.
    + exfalso. apply C2 in Ha as [_ Ha]. apply Hi' in Hb as [_ Hb]. eapply Hcl; eauto. eapply above_trans; eauto.
    + apply before_app_r. apply C3; auto.
Qed.
End St.
