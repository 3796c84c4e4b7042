(** Proofs about the hierarchy, part 7: the links after [link_parameter] and [unlink_parameter]. *)
From Coq Require Import List ZArith Bool Lia Arith.
From Verif Require Import NpModel NpProofs IndexOpsModel IndexOpsSpec PzModel PzSpec PzTree PzStruct PzLink PzWalk PzMem PzIo.
Import ListNotations.
Open Scope Z_scope.

(** Everything but the links and sizes. *)
Definition rest (st st' : struct) : Prop :=
  next st' = next st /\ forall y, kind st' y = kind st y /\ in_init st' y = in_init st y /\ inited st' y = inited st y.

Lemma shift_pidx : forall l t, NoDup l ->
  let t' := fold_left (fun t p => set_pidx t p (option_map (Z.add 1) (pidx t p))) l t in
  rest t t' /\ (forall y, par t' y = par t y /\ kids t' y = kids t y /\ size t' y = size t y) /\
  (forall y, In y l -> pidx t' y = option_map (Z.add 1) (pidx t y)) /\ (forall y, ~ In y l -> pidx t' y = pidx t y).
Proof.
  induction l as [|a l IH]; intros t Hnd; simpl.
  - repeat split; auto. intros y [].
  - inversion Hnd; subst. destruct (IH (set_pidx t a (option_map (Z.add 1) (pidx t a))) H2) as (A & B & C & D). simpl in *.
    split; [exact A|]. split; [exact B|]. split.
    + intros y [->|Hy]; [rewrite D, upd_eq by auto; auto | rewrite C by auto]. rewrite upd_ne; auto. intros ->; auto.
    + intros y Hy. rewrite D by tauto. rewrite upd_ne; auto.
Qed.

Lemma up_above : forall st x l z, swf st -> up st x l -> (In z l <-> above st z x).
Proof. intros st x l z W U. rewrite (up_below st x l W U z). reflexivity. Qed.

(** Of the children of an object at most one is above a given object. *)
Lemma kid_above_unique : forall st x y c c', swf st -> In c (kids st x) -> In c' (kids st x) -> above st c y -> above st c' y -> c = c'.
Proof.
  intros st x y c c' W Hc Hc' [o [n B]] [o' [n' B']].
  assert (Hp : par st c = Some x) by (apply (PzTree.wf_par st W); auto).
  assert (Hp' : par st c' = Some x) by (apply (PzTree.wf_par st W); auto).
  destruct (Nat.le_ge_cases n n') as [Hle|Hle].
  - destruct (below_comparable _ _ _ _ _ _ _ _ W B B' Hle) as [z [Bz _]].
    destruct (Nat.eq_dec c' c) as [|Hne]; auto. exfalso.
    assert (Ha : above st c' x) by (eapply above_par; eauto; exists z; eauto).
    assert (c' = x) by (eapply above_antisym; eauto; eapply above_kid; eauto). subst.
    pose proof (below_one st x) as Q. apply In_nth_error in Hc' as [i Hi]. apply Q in Hi. apply wf_no_cycle in Hi as [Hi _]; auto. discriminate.
  - destruct (below_comparable _ _ _ _ _ _ _ _ W B' B Hle) as [z [Bz _]].
    destruct (Nat.eq_dec c c') as [|Hne]; auto. exfalso.
    assert (Ha : above st c x) by (eapply above_par; eauto; exists z; eauto).
    assert (c = x) by (eapply above_antisym; eauto; eapply above_kid; eauto). subst.
    pose proof (below_one st x) as Q. apply In_nth_error in Hc as [i Hi]. apply Q in Hi. apply wf_no_cycle in Hi as [Hi _]; auto. discriminate.
Qed.

Lemma sum_one : forall t t' l c n, NoDup l -> In c l -> size t' c = size t c + n ->
  (forall d, In d l -> d <> c -> size t' d = size t d) -> sum_sizes t' l = sum_sizes t l + n.
Proof.
  intros t t' l c n. induction l as [|d l IH]; intros Hnd Hc Hs Ho; [destruct Hc|].
  inversion Hnd; subst. rewrite !sum_sizes_cons. destruct Hc as [->|Hc].
  - rewrite Hs. rewrite (sum_sizes_ext t t' l); [lia|]. intros y Hy. apply Ho; [right; auto | intros ->; auto].
  - rewrite IH; auto; [|intros; apply Ho; auto; right; auto]. rewrite Ho; [lia | left; auto | intros ->; auto].
Qed.

(** An object strictly above another has a child above it. *)
Lemma above_step : forall st x y, above st x y -> x <> y -> exists c, In c (kids st x) /\ above st c y.
Proof.
  intros st x y [o [n B]] Hne. inversion B; subst; [congruence|]. exists c. split; [eapply nth_error_In; eauto | eexists; eexists; eauto].
Qed.

Definition insert_struct (t : struct) (self param : oid) (k : nat) : struct :=
  let ks := kids t self in
  set_kids (fold_left (fun t p => set_pidx t p (option_map (Z.add 1) (pidx t p))) (skipn k ks)
              (set_pidx (set_par t param (Some self)) param (Some (Z.of_nat k)))) self (firstn k ks ++ param :: skipn k ks).

Lemma nth_insert : forall (A : Type) (l : list A) k x i, (k <= length l)%nat ->
  nth_error (firstn k l ++ x :: skipn k l) i =
  if (i <? k)%nat then nth_error l i else if (i =? k)%nat then Some x else nth_error l (i - 1).
Proof.
  intros A l k x i Hk. assert (E : length (firstn k l) = k) by (rewrite firstn_length; lia).
  destruct (Nat.ltb_spec i k) as [H|H].
  - rewrite nth_error_app1 by lia. rewrite <- (firstn_skipn k l) at 2. rewrite nth_error_app1 by lia. auto.
  - rewrite nth_error_app2 by lia. rewrite E. destruct (Nat.eqb_spec i k) as [->|Hne].
    + rewrite Nat.sub_diag. reflexivity.
    + destruct (i - k)%nat as [|j] eqn:Ej; [lia|]. simpl. rewrite <- (firstn_skipn k l) at 2. rewrite nth_error_app2 by lia.
      f_equal. lia.
Qed.

Lemma nodup_nth : forall (A : Type) (l : list A) i j a, NoDup l -> nth_error l i = Some a -> nth_error l j = Some a -> i = j.
Proof. intros A l i j a H Hi Hj. rewrite NoDup_nth_error in H. apply H; [apply nth_error_Some; congruence | congruence]. Qed.

Lemma in_skipn_nth : forall (A : Type) (l : list A) k a, In a (skipn k l) <-> exists i, (k <= i)%nat /\ nth_error l i = Some a.
Proof.
  intros A l. induction l as [|b l IH]; intros k a.
  - rewrite skipn_nil. split; [intros [] | intros [i [_ Hi]]; destruct i; discriminate].
  - destruct k as [|k].
    + rewrite skipn_O. split; [intros H; apply In_nth_error in H as [i Hi]; exists i; split; [lia | auto] | intros [i [_ Hi]]; eapply nth_error_In; eauto].
    + rewrite skipn_cons, IH. split; intros [i [H1 H2]]; [exists (S i); split; [lia | auto]|].
      destruct i as [|i]; [lia|]. exists i. split; [lia | auto].
Qed.

Lemma attach_struct : forall t0 self param k, swf t0 -> kind t0 self = KNode -> par t0 param = None -> ~ above t0 param self ->
  (k <= length (kids t0 self))%nat -> (self < next t0)%nat -> (param < next t0)%nat ->
  exists t3, add_size (fuel (insert_struct t0 self param k)) (insert_struct t0 self param k) (Some self) (size t0 param) = Ok t3 /\
    swf t3 /\ linked t0 t3 self param k /\ rest t0 t3 /\
    (forall y, par t3 y = if Nat.eqb y param then Some self else par t0 y).
Proof.
  intros t0 self param k W Hkind Hroot Hnot Hk Hself Hparam.
  set (ks := kids t0 self) in *.
  assert (Hnp : ~ In param ks).
  { intros H. apply (PzTree.wf_par t0 W) in H. congruence. }
  assert (Hps : param <> self) by (intros E; apply Hnot; rewrite E; apply above_refl).
  assert (Hndk : NoDup ks) by (apply wf_nodup; auto).
  assert (Hskn : NoDup (skipn k ks)).
  { rewrite <- (firstn_skipn k ks) in Hndk. apply nodup_app in Hndk. tauto. }
  assert (Hsk : forall y, In y (skipn k ks) -> In y ks).
  { intros y Hy. rewrite <- (firstn_skipn k ks). apply in_or_app; auto. }
  destruct (shift_pidx (skipn k ks) (set_pidx (set_par t0 param (Some self)) param (Some (Z.of_nat k))) Hskn) as (R1 & R2 & R3 & R4).
  remember (insert_struct t0 self param k) as t2 eqn:E2. unfold insert_struct in E2. fold ks in E2.
  remember (fold_left (fun t p => set_pidx t p (option_map (Z.add 1) (pidx t p))) (skipn k ks)
              (set_pidx (set_par t0 param (Some self)) param (Some (Z.of_nat k)))) as t1 eqn:E1.
  cbv zeta in R1, R2, R3, R4. try rewrite <- E1 in R1, R2, R3, R4. simpl in R1, R2, R3, R4.
  assert (K2 : forall y, kids t2 y = if Nat.eqb y self then firstn k ks ++ param :: skipn k ks else kids t0 y).
  { intros y. rewrite E2. simpl. unfold upd. destruct (Nat.eqb y self); auto. apply R2. }
  assert (P2 : forall y, par t2 y = if Nat.eqb y param then Some self else par t0 y).
  { intros y. rewrite E2. simpl. destruct (R2 y) as [-> _]. reflexivity. }
  assert (S2 : forall y, size t2 y = size t0 y).
  { intros y. rewrite E2. simpl. apply R2. }
  assert (X2 : rest t0 t2).
  { rewrite E2. unfold rest in *. simpl in *. exact R1. }
  assert (D2 : pidx t2 param = Some (Z.of_nat k)).
  { rewrite E2. simpl. rewrite R4; [apply upd_eq|]. intros H; apply Hnp; auto. }
  assert (D2a : forall y, In y (skipn k ks) -> pidx t2 y = option_map (Z.add 1) (pidx t0 y)).
  { intros y Hy. rewrite E2. simpl. rewrite R3 by auto. rewrite upd_ne; auto. intros ->; auto. }
  assert (D2b : forall y, y <> param -> ~ In y (skipn k ks) -> pidx t2 y = pidx t0 y).
  { intros y Hy Hy'. rewrite E2. simpl. rewrite R4 by auto. rewrite upd_ne; auto. }
  assert (Enext : next t2 = next t0) by apply X2.
  clear E1 E2 R1 R2 R3 R4 t1.
  destruct (wf_up t0 W self) as [l U].
  assert (U2 : up t2 self l).
  { eapply up_frame; eauto. intros y Hy. rewrite P2. destruct (Nat.eqb_spec y param) as [->|]; auto. exfalso. apply Hnot.
    apply (up_above t0 self l param W U); auto. }
  destruct (add_size_up l t2 self (size t0 param) (fuel t2)) as (t3 & E3 & F1 & F2 & F3 & F4); auto.
  { eapply up_nodup; eauto. } { unfold fuel. rewrite Enext. eapply up_length; eauto. }
  exists t3. split; auto.
  assert (K3 : forall y, kids t3 y = if Nat.eqb y self then firstn k ks ++ param :: skipn k ks else kids t0 y).
  { intros y. rewrite <- K2. apply F1. }
  assert (P3 : forall y, par t3 y = if Nat.eqb y param then Some self else par t0 y).
  { intros y. rewrite <- P2. apply F1. }
  assert (Sa : forall y, above t0 y self -> size t3 y = size t0 y + size t0 param).
  { intros y Hy. rewrite F3, S2; auto. apply (up_above t0 self l y W U); auto. }
  assert (Sb : forall y, ~ above t0 y self -> size t3 y = size t0 y).
  { intros y Hy. rewrite F4, S2; auto. rewrite (up_above t0 self l y W U); auto. }
  assert (X3 : rest t0 t3).
  { destruct X2 as [Xa Xb]. split; [congruence|]. intros y. destruct (F1 y) as (A & _ & _ & _ & B & C). destruct (Xb y) as (A' & B' & C').
    rewrite A, B, C. auto. }
  assert (Hin : forall x y, In y (kids t3 x) <-> In y (kids t0 x) \/ (x = self /\ y = param)).
  { intros x y. rewrite K3. destruct (Nat.eqb_spec x self) as [->|Hne].
    - fold ks. rewrite in_app_iff. simpl. rewrite <- (firstn_skipn k ks) at 3. rewrite in_app_iff. intuition congruence.
    - tauto. }
  assert (Hks_na : forall c, In c ks -> ~ above t0 c self).
  { intros c Hc Ha. assert (c = self) by (eapply above_antisym; eauto; apply above_kid; auto). subst c.
    apply In_nth_error in Hc as [i Hi]. apply (below_one t0 self) in Hi. apply wf_no_cycle in Hi as [Hi _]; auto. discriminate. }
  split; [|split; [|split; auto]].
  - constructor.
    + destruct (PzTree.wf_rank t0 W) as [rk Hrk]. destruct (tree_exists t0 W param) as [tp [Ep [Rp Np]]].
      exists (fun y => if omem y (oids tp) then rk y else (rk y + S (rk param))%nat).
      assert (Ht : forall y, In y (oids tp) <-> above t0 param y).
      { intros y. rewrite (oids_below t0 tp y Rp). rewrite Ep. reflexivity. }
      intros x y Hy. apply Hin in Hy as [Hy|[-> ->]].
      * specialize (Hrk x y Hy). destruct (omem x (oids tp)) eqn:Ex.
        -- assert (omem y (oids tp) = true) as ->; auto. apply omem_In. apply Ht. apply omem_In in Ex. apply Ht in Ex.
           eapply above_trans; eauto. apply above_kid; auto.
        -- destruct (omem y (oids tp)) eqn:Ey; [|lia]. exfalso. apply omem_In in Ey. apply Ht in Ey. apply omem_false in Ex. apply Ex. apply Ht.
           apply (above_par t0 param y x); auto; [|apply (PzTree.wf_par t0 W); auto]. intros <-. apply (PzTree.wf_par t0 W) in Hy. congruence.
      * assert (omem param (oids tp) = true) as -> by (apply omem_In; apply Ht; apply above_refl).
        assert (omem self (oids tp) = false) as -> by (apply omem_false; rewrite Ht; auto). lia.
    + intros x y. rewrite Hin, P3, (PzTree.wf_par t0 W x y). destruct (Nat.eqb_spec y param) as [->|Hne].
      * rewrite Hroot. split; [intros [H|[-> _]]; congruence | intros H; inversion H; auto].
      * split; [intros [H|[_ H]]; congruence | auto].
    + intros x i y Hi. destruct (F1 y) as (_ & _ & -> & _). rewrite K3 in Hi. destruct (Nat.eqb_spec x self) as [->|Hne].
      * rewrite nth_insert in Hi by auto. destruct (Nat.ltb_spec i k) as [H|H]; [|destruct (Nat.eqb_spec i k) as [->|H']].
        -- rewrite D2b; [eapply (PzTree.wf_pidx t0 W); eauto | intros ->; apply Hnp; eapply nth_error_In; eauto |].
           rewrite in_skipn_nth. intros [j [Hj1 Hj2]]. assert (i = j) by (exact (nodup_nth _ ks i j y Hndk Hi Hj2)). lia.
        -- inversion Hi; subst; auto.
        -- rewrite D2a; [rewrite (PzTree.wf_pidx t0 W _ _ _ Hi); cbn [option_map]; f_equal; lia|]. apply in_skipn_nth. exists (i - 1)%nat. split; [lia | auto].
      * assert (Hp : par t0 y = Some x) by (apply (PzTree.wf_par t0 W); eapply nth_error_In; eauto).
        rewrite D2b; [eapply (PzTree.wf_pidx t0 W); eauto | congruence |].
        intros Hy. apply Hsk in Hy. apply (PzTree.wf_par t0 W) in Hy. congruence.
    + intros x Hx. rewrite P3 in Hx. destruct (F1 x) as (_ & _ & -> & _). destruct (Nat.eqb_spec x param) as [|Hne]; [discriminate|].
      rewrite D2b; auto; [apply (PzTree.wf_root t0 W); auto|]. intros Hy. apply Hsk in Hy. apply (PzTree.wf_par t0 W) in Hy. congruence.
    + intros x m Hx. destruct X3 as [_ X3]. destruct (X3 x) as [-> _] in Hx. destruct (PzTree.wf_leaf t0 W x m Hx) as [A B].
      assert (x <> self) by congruence. rewrite K3. destruct (Nat.eqb_spec x self) as [|_]; [congruence|]. split; auto.
      rewrite Sb; auto. intros Ha. apply above_step in Ha as [c [Hc _]]; auto. rewrite A in Hc. destruct Hc.
    + intros x Hx. destruct X3 as [_ X3]. destruct (X3 x) as [-> _] in Hx. pose proof (PzTree.wf_node t0 W x Hx) as A.
      destruct (Nat.eq_dec x self) as [->|Hne].
      * rewrite K3, Nat.eqb_refl. rewrite Sa by apply above_refl. rewrite A. fold ks. rewrite sum_sizes_app, sum_sizes_cons.
        rewrite Sb by auto. rewrite (sum_sizes_ext t0 t3 (firstn k ks)), (sum_sizes_ext t0 t3 (skipn k ks)).
        -- rewrite <- (firstn_skipn k ks) at 1. rewrite sum_sizes_app. lia.
        -- intros y Hy. apply Sb. apply Hks_na; auto.
        -- intros y Hy. apply Sb. apply Hks_na. eapply firstn_In; eauto.
      * rewrite K3. destruct (Nat.eqb_spec x self) as [|_]; [congruence|].
        destruct (above_dec t0 x self W) as [Ha|Ha].
        -- rewrite Sa by auto. destruct (above_step _ _ _ Ha Hne) as [c [Hc Hac]].
           rewrite (sum_one t0 t3 (kids t0 x) c (size t0 param)); auto; [lia | apply wf_nodup; auto |].
           intros d Hd Hdc. apply Sb. intros Had. apply Hdc. eapply kid_above_unique; eauto.
        -- rewrite Sb by auto. rewrite (sum_sizes_ext t0 t3); auto. intros y Hy. apply Sb. intros Hay. apply Ha. eapply above_trans; eauto. apply above_kid; auto.
    + intros x Hx. destruct X3 as [En X3]. rewrite En in Hx. destruct (PzTree.wf_new t0 W x Hx) as (A & B & C & D).
      rewrite K3, P3. destruct (Nat.eqb_spec x self) as [->|_]; [lia|]. destruct (Nat.eqb_spec x param) as [->|_]; [lia|].
      destruct (X3 x) as (-> & _ & ->). auto.
  - constructor; auto.
    + fold ks. rewrite K3, Nat.eqb_refl. auto.
    + intros x Hx. rewrite K3. destruct (Nat.eqb_spec x self); [congruence | auto].
Qed.

(** ** Unlinking *)
Definition remove_struct (t : struct) (self param : oid) (k : nat) : struct :=
  set_kids (set_size t self (size t self - size t param)) self (py_del (kids t self) (Z.of_nat k)).

(** Links downwards and sizes as they are while [unlink_parameter] runs. *)
Definition cut (t0 : struct) (self param : oid) (k : nat) (t : struct) : Prop :=
  next t = next t0 /\ forall y, kind t y = kind t0 y /\ in_init t y = in_init t0 y /\
    kids t y = (if Nat.eqb y self then firstn k (kids t0 self) ++ skipn (S k) (kids t0 self) else kids t0 y) /\
    size t y = (if Nat.eqb y self then size t0 self - size t0 param else size t0 y).

Lemma nodup_del : forall (A : Type) (l : list A) k a, NoDup l -> nth_error l k = Some a ->
  NoDup (firstn k l ++ skipn (S k) l) /\ forall y, In y (firstn k l ++ skipn (S k) l) <-> In y l /\ y <> a.
Proof.
  intros A l k a Hnd Hk. pose proof (firstn_skipn_nth _ _ _ _ Hk) as E. split.
  - rewrite E in Hnd. apply NoDup_remove_1 in Hnd. auto.
  - intros y. assert (H := Hnd). rewrite E in H. apply NoDup_remove_2 in H. 
    assert (Q : In y l <-> In y (firstn k l) \/ a = y \/ In y (skipn (S k) l)) by (rewrite E at 1; rewrite in_app_iff; simpl; tauto).
    rewrite Q. rewrite !in_app_iff in *.
    split; [intros Hy; split; [tauto | intros ->; tauto] | intros [[H1|[H1|H1]] H2]; auto; congruence].
Qed.

Lemma rep_kids_trees : forall t x, swf t -> exists ts, rep t (T x ts) /\ NoDup (oids (T x ts)).
Proof. intros t x W. destruct (tree_exists t W x) as [[y ts] [E [R N]]]. simpl in E. subst. exists ts; auto. Qed.

Lemma del_trees : forall (ts : list tree) k tp, nth_error ts k = Some tp -> NoDup (concat (map oids ts)) ->
  NoDup (concat (map oids (firstn k ts ++ skipn (S k) ts))) /\
  forall y, In y (concat (map oids (firstn k ts ++ skipn (S k) ts))) <-> In y (concat (map oids ts)) /\ ~ In y (oids tp).
Proof.
  intros ts k tp Hk Hnd. pose proof (firstn_skipn_nth _ _ _ _ Hk) as E.
  rewrite E in Hnd. rewrite map_app, concat_app in Hnd. cbn [map concat] in Hnd.
  assert (Q : forall y, In y (concat (map oids ts)) <-> In y (concat (map oids (firstn k ts))) \/ In y (oids tp) \/ In y (concat (map oids (skipn (S k) ts)))).
  { intros y. rewrite E at 1. rewrite map_app, concat_app. cbn [map concat]. rewrite !in_app_iff. tauto. }
  rewrite map_app, concat_app.
  apply nodup_app in Hnd as [N1 [N2 N3]]. apply nodup_app in N2 as [N4 [N5 N6]]. split.
  - clear E Hk Q. induction (concat (map oids (firstn k ts))) as [|a l IH]; simpl; auto. inversion N1; subst. constructor.
    + rewrite in_app_iff. intros [H|H]; auto. apply (N3 a); [left; auto | apply in_or_app; auto].
    + apply IH; auto. intros x Hx. apply N3. right; auto.
  - intros y. rewrite Q, !in_app_iff. split.
    + intros [H|H]; split; auto; intros H'; [apply (N3 y); auto; apply in_or_app; auto | apply (N6 y); auto].
    + tauto.
Qed.

Lemma no_self_kid : forall t x y, swf t -> above t x y -> In x (kids t y) -> False.
Proof.
  intros t x y W Ha Hk. assert (y = x) by (eapply above_antisym; eauto; apply above_kid; auto). subst.
  apply In_nth_error in Hk as [i Hi]. apply (below_one t x) in Hi. apply wf_no_cycle in Hi as [Hi _]; auto. discriminate.
Qed.

Lemma cut_ok : forall t0 self param k t ts0 tp, swf t0 -> nth_error (kids t0 self) k = Some param -> cut t0 self param k t ->
  rep t0 (T self ts0) -> NoDup (oids (T self ts0)) -> nth_error ts0 k = Some tp ->
  let ts := firstn k ts0 ++ skipn (S k) ts0 in
  krep t (T self ts) /\ NoDup (oids (T self ts)) /\ (forall c, In c ts -> (height c <= fuel t)%nat) /\
  (forall y, In y (oids (T self ts)) -> node_ok t y) /\ krep t tp /\ NoDup (oids tp) /\ (height tp <= fuel t)%nat /\
  root tp = param.
Proof.
  intros t0 self param k t ts0 tp W Hk [En C] R Hnd Htp ts.
  assert (Hkk : kids t0 self = map root ts0) by (inversion R; auto).
  assert (Hrp : root tp = param).
  { rewrite Hkk in Hk. rewrite nth_error_map, Htp in Hk. inversion Hk; auto. }
  assert (Hin : forall c, In c ts -> In c ts0).
  { intros c Hc. unfold ts in Hc. apply in_app_or in Hc as [Hc|Hc]; [eapply firstn_In; eauto|].
    rewrite <- (firstn_skipn (S k) ts0). apply in_or_app; auto. }
  simpl in Hnd. inversion Hnd as [|? ? Hns Hndc]; subst.
  assert (Hsub : forall c, In c ts0 -> krep t0 c) by (intros c Hc; eapply krep_child; [apply rep_krep; eauto | auto]).
  assert (Hself_c : forall c y, In c ts0 -> In y (oids c) -> y <> self).
  { intros c y Hc Hy ->. apply Hns. apply in_concat. exists (oids c). split; [apply in_map; auto | auto]. }
  assert (Hkr : forall c, In c ts0 -> krep t c).
  { intros c Hc. eapply krep_frame; [apply Hsub; auto|]. intros y Hy. destruct (C y) as (_ & _ & -> & _).
    destruct (Nat.eqb_spec y self) as [E|]; auto. exfalso. eapply Hself_c; eauto. }
  assert (Hh : forall c, In c ts0 -> (height c <= fuel t)%nat).
  { intros c Hc. pose proof (height_child self ts0 c Hc). pose proof (rep_new_height t0 _ W R ltac:(constructor; auto)).
    unfold fuel in *. rewrite En. lia. }
  destruct (del_trees ts0 k tp Htp Hndc) as [N1 N2].
  split; [|split; [|split; [|split; [|split; [|split; [|split]]]]]]; auto.
  - constructor; [|apply Forall_forall; auto]. destruct (C self) as (_ & _ & -> & _). rewrite Nat.eqb_refl, Hkk. unfold ts.
    rewrite map_app, firstn_map, skipn_map. reflexivity.
  - simpl. constructor; auto. intros H. apply N2 in H. tauto.
  - intros y Hy. unfold node_ok. destruct (C y) as (-> & _ & Ek & Es). rewrite Es.
    pose proof (wf_node_ok t0 y W) as Hok. unfold node_ok in Hok. rewrite Ek.
    assert (Hay : above t0 self y).
    { destruct Hy as [<-|Hy]; [apply above_refl|]. apply N2 in Hy as [Hy _].
      apply (oids_below t0 (T self ts0) y R). right; auto. }
    assert (Hsame : forall c, In c (kids t0 y) -> size t c = size t0 c).
    { intros c Hc. destruct (C c) as (_ & _ & _ & ->). destruct (Nat.eqb_spec c self) as [->|]; auto. exfalso.
      eapply no_self_kid; eauto. }
    destruct (Nat.eqb_spec y self) as [->|Hne].
    + assert (Hkd : kind t0 self = KNode).
      { destruct (kind t0 self) eqn:E; auto. destruct Hok as [Hok _]. rewrite Hok in Hk. destruct k; discriminate. }
      rewrite Hkd in *. rewrite Hok. rewrite (sum_sizes_ext t0 t).
      * rewrite (firstn_skipn_nth _ _ _ _ Hk) at 1. rewrite !sum_sizes_app, sum_sizes_cons. lia.
      * intros c Hc. apply Hsame. eapply (nodup_del _ _ k); eauto. apply wf_nodup; auto.
    + rewrite (sum_sizes_ext t0 t); auto.
  - apply Hkr. eapply nth_error_In; eauto.
  - apply (nodup_concat_in (map oids ts0)); auto. apply in_map. eapply nth_error_In; eauto.
  - apply Hh. eapply nth_error_In; eauto.
Qed.

Lemma detach_struct : forall t0 self param k, swf t0 -> (self < next t0)%nat -> nth_error (kids t0 self) k = Some param ->
  exists ts0 tp, rep t0 (T self ts0) /\ NoDup (oids (T self ts0)) /\ nth_error ts0 k = Some tp /\
  let ts := firstn k ts0 ++ skipn (S k) ts0 in
  let t2 := connect_struct (remove_struct t0 self param k) self in
  let t3 := set_pidx (set_par t2 param None) param None in
  let t4 := connect_struct t3 self in
  cut t0 self param k t2 /\ cut t0 self param k t3 /\ cut t0 self param k t4 /\
  rep t3 (T self ts) /\ rep t3 tp /\ rep t4 (T self ts) /\
  exists t5, add_size (fuel t4) t4 (par t4 self) (- size t0 param) = Ok t5 /\ swf t5 /\ linked t5 t0 self param k /\ ~ above t5 param self /\
    next t5 = next t0 /\ (forall y, kind t5 y = kind t0 y /\ in_init t5 y = in_init t0 y) /\
    (forall y, par t5 y = if Nat.eqb y param then None else par t0 y) /\
    (forall y, above t5 y self <-> above t0 y self) /\
    (forall y, In y (oids (T self ts)) -> inited t5 y = Some true) /\
    (forall y, ~ In y (oids (T self ts)) -> inited t5 y = inited t0 y).
Proof.
  intros t0 self param k W Hself Hk.
  destruct (rep_kids_trees t0 self W) as [ts0 [R Hnd]].
  assert (Hkk : kids t0 self = map root ts0) by (inversion R; auto).
  assert (Htp : exists tp, nth_error ts0 k = Some tp).
  { rewrite Hkk in Hk. apply nth_error_map' in Hk as [tp [Hk _]]. eauto. }
  destruct Htp as [tp Htp]. exists ts0, tp. split; auto. split; auto. split; auto. intros ts t2 t3 t4.
  set (t1 := remove_struct t0 self param k) in *.
  assert (C1 : cut t0 self param k t1).
  { split; auto. intros y. simpl. unfold upd. split; auto. split; auto. split; destruct (Nat.eqb y self) eqn:E; auto.
    unfold py_del. rewrite clip_nat. auto. }
  assert (Pp : par t0 param = Some self) by (apply (PzTree.wf_par t0 W); eapply nth_error_In; eauto).
  assert (Hps : param <> self).
  { intros E. assert (Q : In param (kids t0 self)) by (eapply nth_error_In; eauto). rewrite E in Q.
    exact (no_self_kid t0 self self W (above_refl _ _) Q). }
  destruct (cut_ok t0 self param k t1 ts0 tp W Hk C1 R Hnd Htp) as (K1 & Nd & Hh1 & Ok1 & Kp1 & Np & Hhp & Erp).
  clear Erp. fold ts in K1, Nd, Hh1, Ok1.
  assert (K1' := K1). inversion K1' as [x0 ts1 Ek1 Fk1 [Ex0 Ets1]]. subst x0 ts1.
  destruct (connect_struct_spec t1 self ts Ek1 Fk1 Nd Hh1) as (A1 & A2 & A3 & A4 & A5 & A6). fold t2 in A1, A2, A3, A4, A5, A6.
  assert (C2 : cut t0 self param k t2).
  { destruct C1 as [C1a C1b]. split; [congruence|]. intros y. destruct (A2 y) as (-> & -> & -> & ->). auto. }
  assert (C3 : cut t0 self param k t3) by exact C2.
  pose proof (proj2 (nodup_del _ _ _ _ (wf_nodup t0 self W) Hk)) as Hdel.
  assert (Htsin : forall c, In c ts -> In c ts0 /\ root c <> param).
  { intros c Hc. assert (Q : In (root c) (firstn k (kids t0 self) ++ skipn (S k) (kids t0 self))).
    { rewrite Hkk, firstn_map, skipn_map, <- map_app. apply in_map. auto. }
    apply Hdel in Q as [_ Q]. split; auto.
    unfold ts in Hc. apply in_app_or in Hc as [Hc|Hc]; [eapply firstn_In; eauto|].
    rewrite <- (firstn_skipn (S k) ts0). apply in_or_app; auto. }
  assert (Hroots : forall y, In y (map root ts) <-> In y (kids t0 self) /\ y <> param).
  { intros y. rewrite <- Hdel. rewrite Hkk, firstn_map, skipn_map, <- map_app. tauto. }
  assert (P2 : forall y, par t2 y = par t0 y).
  { intros y. destruct (in_dec Nat.eq_dec y (map root ts)) as [Hy|Hy].
    - assert (Hy' := Hy). apply Hroots in Hy' as [Hy' _]. apply (PzTree.wf_par t0 W) in Hy'. rewrite Hy'.
      apply In_nth_error in Hy as [i Hi]. apply nth_error_map' in Hi as [c [Hi ->]]. apply (A4 i c Hi).
    - destruct (A3 y Hy) as [-> _]. reflexivity. }
  assert (P3 : forall y, par t3 y = if Nat.eqb y param then None else par t0 y).
  { intros y. unfold t3. simpl. unfold upd. destruct (Nat.eqb y param); auto. }
  assert (D3 : forall y, y <> param -> ~ In y (map root ts) -> pidx t3 y = pidx t0 y).
  { intros y Hy Hy'. unfold t3. simpl. rewrite upd_ne by auto. destruct (A3 y Hy') as [_ ->]. reflexivity. }
  assert (Rk : forall y, (forall x ts, kids t3 x = map root ts -> True) -> kids t3 y = kids t1 y) by (intros; unfold t3; simpl; apply A2).
  assert (Hstrict : forall c y, In c ts0 -> In y (oids c) -> y <> root c -> ~ In y (kids t0 self)).
  { intros c y Hc Hy Hne Hk'. assert (Rc : rep t0 c) by (inversion R; subst; eapply Forall_forall; eauto).
    apply (oids_below t0 c y Rc) in Hy. apply (PzTree.wf_par t0 W) in Hk'.
    assert (above t0 (root c) self) by (eapply above_par; eauto).
    eapply no_self_kid; eauto. rewrite Hkk. apply in_map; auto. }
  assert (Hself_c : forall c y, In c ts0 -> In y (oids c) -> y <> self).
  { intros c y Hc Hy ->. simpl in Hnd. inversion Hnd; subst. apply H1. apply in_concat. exists (oids c). split; [apply in_map; auto | auto]. }
  assert (Rsub : forall c, In c ts0 -> rep t3 c).
  { intros c Hc. assert (Rc : rep t0 c) by (inversion R; subst; eapply Forall_forall; eauto).
    apply (rep_frame t0 t3 c Rc).
    - intros y Hy. destruct C3 as [_ C3]. destruct (C3 y) as (_ & _ & -> & _). destruct (Nat.eqb_spec y self) as [E|]; auto. exfalso; eapply Hself_c; eauto.
    - intros y Hy Hne. assert (Q := Hstrict c y Hc Hy Hne).
      assert (y <> param) by (intros ->; apply Q; eapply nth_error_In; eauto). rewrite P3, D3; auto.
      + destruct (Nat.eqb_spec y param); [congruence | auto].
      + rewrite Hroots. tauto.
    - apply (nodup_concat_in (map oids ts0)); [simpl in Hnd; inversion Hnd; auto | apply in_map; auto]. }
  assert (R3 : rep t3 (T self ts)).
  { constructor.
    - rewrite <- Ek1. unfold t3. simpl. apply A2.
    - intros i c Hi. assert (Hc : In c ts) by (eapply nth_error_In; eauto). destruct (Htsin c Hc) as [_ Hne].
      unfold t3. simpl. rewrite !upd_ne by auto. apply A4; auto.
    - apply Forall_forall. intros c Hc. apply Rsub. apply Htsin; auto. }
  assert (Rtp3 : rep t3 tp) by (apply Rsub; eapply nth_error_In; eauto).
  destruct (cut_ok t0 self param k t3 ts0 tp W Hk C3 R Hnd Htp) as (K3 & _ & Hh3 & _). fold ts in K3, Hh3.
  assert (K3' := K3). inversion K3' as [x0 ts1 Ek3 Fk3 [Ex0 Ets1]]. subst x0 ts1.
  destruct (connect_struct_spec t3 self ts Ek3 Fk3 Nd Hh3) as (B1 & B2 & B3 & B4 & B5 & B6). fold t4 in B1, B2, B3, B4, B5, B6.
  assert (C4 : cut t0 self param k t4).
  { destruct C3 as [C3a C3b]. split; [congruence|]. intros y. destruct (B2 y) as (-> & -> & -> & ->). auto. }
  assert (P4 : forall y, par t4 y = par t3 y /\ pidx t4 y = pidx t3 y).
  { intros y. destruct (in_dec Nat.eq_dec y (map root ts)) as [Hy|Hy]; [|apply B3; auto].
    apply In_nth_error in Hy as [i Hi]. apply nth_error_map' in Hi as [c [Hi ->]]. destruct (B4 i c Hi) as [-> ->].
    inversion R3 as [x0 ts1 E1 E2 E3 [Q1 Q2]]. subst x0 ts1. destruct (E2 i c Hi) as [-> ->]. auto. }
  assert (R4 : rep t4 (T self ts)).
  { apply (rep_frame t3 t4 _ R3); auto. intros y Hy. apply B2. }
  split; [exact C2|]. split; [exact C3|]. split; [exact C4|]. split; [exact R3|]. split; [exact Rtp3|]. split; [exact R4|].
  (* sizes above *)
  destruct (wf_up t0 W self) as [l U].
  assert (Hpl : ~ In param l).
  { rewrite (up_above t0 self l param W U). intros Ha. eapply no_self_kid; eauto. eapply nth_error_In; eauto. }
  assert (Hsize5 : exists t5, add_size (fuel t4) t4 (par t4 self) (- size t0 param) = Ok t5 /\
    (forall y, kind t5 y = kind t4 y /\ par t5 y = par t4 y /\ pidx t5 y = pidx t4 y /\ kids t5 y = kids t4 y
               /\ in_init t5 y = in_init t4 y /\ inited t5 y = inited t4 y) /\ next t5 = next t4 /\
    (forall y, In y l -> size t5 y = size t0 y - size t0 param) /\ (forall y, ~ In y l -> size t5 y = size t0 y)).
  { assert (Ps : par t4 self = par t0 self).
    { destruct (P4 self) as [-> _]. rewrite P3. destruct (Nat.eqb_spec self param); [congruence | auto]. }
    rewrite Ps. inversion U; subst.
    - rewrite H. exists t4. split; [destruct (fuel t4); reflexivity|]. split; [auto 10|]. split; auto. split.
      + intros y [<-|[]]. destruct C4 as [_ C4]. destruct (C4 self) as (_ & _ & _ & ->). rewrite Nat.eqb_refl. auto.
      + intros y Hy. destruct C4 as [_ C4]. destruct (C4 y) as (_ & _ & _ & ->). destruct (Nat.eqb_spec y self); auto. subst. exfalso. apply Hy. left; auto.
    - rewrite H. assert (Hnl : NoDup (self :: l0)) by (eapply up_nodup; eauto). inversion Hnl; subst.
      assert (Ufr : up t4 p l0).
      { eapply up_frame; eauto. intros y Hy. destruct (P4 y) as [-> _]. rewrite P3. destruct (Nat.eqb_spec y param) as [->|]; auto. exfalso. apply Hpl. right; auto. }
      destruct (add_size_up l0 t4 p (- size t0 param) (fuel t4)) as (t5 & E5 & F1 & F2 & F3 & F4); auto.
      { destruct C4 as [E4 _]. unfold fuel. rewrite E4. pose proof (up_length t0 self _ W U). unfold fuel in H1. simpl in H1. lia. }
      exists t5. split; auto. split; auto. split; auto. destruct C4 as [_ C4]. split.
      + intros y [<-|Hy].
        * rewrite F4 by auto. destruct (C4 self) as (_ & _ & _ & ->). rewrite Nat.eqb_refl. auto.
        * rewrite F3 by auto. destruct (C4 y) as (_ & _ & _ & ->). destruct (Nat.eqb_spec y self) as [->|]; [tauto | lia].
      + intros y Hy. rewrite F4 by (intros Q; apply Hy; right; auto). destruct (C4 y) as (_ & _ & _ & ->).
        destruct (Nat.eqb_spec y self) as [->|]; auto. exfalso. apply Hy. left; auto. }
  destruct Hsize5 as (t5 & E5 & F1 & F2 & F3 & F4). exists t5. split; auto.
  assert (Sa : forall y, above t0 y self -> size t5 y = size t0 y - size t0 param) by (intros y Hy; apply F3, (up_above t0 self l y W U); auto).
  assert (Sb : forall y, ~ above t0 y self -> size t5 y = size t0 y) by (intros y Hy; apply F4; rewrite (up_above t0 self l y W U); auto).
  destruct C4 as [En4 C4].
  assert (En5 : next t5 = next t0) by congruence.
  assert (K5 : forall y, kids t5 y = if Nat.eqb y self then firstn k (kids t0 self) ++ skipn (S k) (kids t0 self) else kids t0 y).
  { intros y. destruct (F1 y) as (_ & _ & _ & -> & _). apply C4. }
  assert (P5 : forall y, par t5 y = if Nat.eqb y param then None else par t0 y).
  { intros y. destruct (F1 y) as (_ & -> & _). destruct (P4 y) as [-> _]. auto. }
  assert (D5 : forall y, pidx t5 y = pidx t3 y).
  { intros y. destruct (F1 y) as (_ & _ & -> & _). apply P4. }
  assert (X5 : forall y, kind t5 y = kind t0 y /\ in_init t5 y = in_init t0 y).
  { intros y. destruct (F1 y) as (-> & _ & _ & _ & -> & _). destruct (C4 y) as (-> & -> & _). auto. }
  assert (Hin : forall x y, In y (kids t5 x) <-> In y (kids t0 x) /\ ~ (x = self /\ y = param)).
  { intros x y. rewrite K5. destruct (Nat.eqb_spec x self) as [->|Hne]; [|tauto].
    rewrite Hdel. tauto. }
  assert (I5 : (forall y, In y (oids (T self ts)) -> inited t5 y = Some true) /\ (forall y, ~ In y (oids (T self ts)) -> inited t5 y = inited t0 y)).
  { split.
    - intros y Hy. destruct (F1 y) as (_ & _ & _ & _ & _ & ->). apply B5; auto.
    - intros y Hy. destruct (F1 y) as (_ & _ & _ & _ & _ & ->). rewrite B6 by auto. unfold t3. simpl. rewrite A6 by auto. reflexivity. }
  assert (W5 : swf t5).
  { constructor.
    - destruct (PzTree.wf_rank t0 W) as [rk Hrk]. exists rk. intros x y Hy. apply Hin in Hy. apply Hrk. tauto.
    - intros x y. rewrite Hin, P5, (PzTree.wf_par t0 W x y). destruct (Nat.eqb_spec y param) as [->|Hne].
      + rewrite Pp. split; [intros [H1 H2]; exfalso; apply H2; split; congruence | discriminate].
      + tauto.
    - intros x i y Hi. rewrite D5. rewrite K5 in Hi. destruct (Nat.eqb_spec x self) as [->|Hne].
      + rewrite Hkk, firstn_map, skipn_map, <- map_app in Hi. apply nth_error_map' in Hi as [c [Hi ->]].
        inversion R3 as [x0 ts1 E1 E2 E3 [Q1 Q2]]. subst x0 ts1. apply (E2 i c Hi).
      + assert (Hp : par t0 y = Some x) by (apply (PzTree.wf_par t0 W); eapply nth_error_In; eauto).
        rewrite D3; [eapply (PzTree.wf_pidx t0 W); eauto | congruence |]. rewrite Hroots. intros [Q _]. apply (PzTree.wf_par t0 W) in Q. congruence.
    - intros x Hx. rewrite P5 in Hx. rewrite D5. destruct (Nat.eqb_spec x param) as [E|Hne]; [rewrite E; unfold t3; simpl; apply upd_eq|].
      rewrite D3; auto; [apply (PzTree.wf_root t0 W); auto|]. rewrite Hroots. intros [Q _]. apply (PzTree.wf_par t0 W) in Q. congruence.
    - intros x m Hx. rewrite (proj1 (X5 x)) in Hx. destruct (PzTree.wf_leaf t0 W x m Hx) as [A B].
      assert (x <> self) by (intros ->; rewrite A in Hk; destruct k; discriminate).
      rewrite K5. destruct (Nat.eqb_spec x self) as [|_]; [congruence|]. split; auto.
      rewrite Sb; auto. intros Ha. apply above_step in Ha as [c [Hc _]]; auto. rewrite A in Hc. destruct Hc.
    - intros x Hx. rewrite (proj1 (X5 x)) in Hx. pose proof (PzTree.wf_node t0 W x Hx) as A.
      assert (Hkid_na : forall c, In c (kids t0 self) -> ~ above t0 c self) by (intros c Hc Ha; eapply no_self_kid; eauto).
      destruct (Nat.eq_dec x self) as [->|Hne].
      + rewrite K5, Nat.eqb_refl. rewrite Sa by apply above_refl. rewrite A. rewrite (sum_sizes_ext t0 t5).
        * rewrite (firstn_skipn_nth _ _ _ _ Hk) at 1. rewrite !sum_sizes_app, sum_sizes_cons. lia.
        * intros c Hc. apply Sb. apply Hkid_na. apply Hdel in Hc. tauto.
      + rewrite K5. destruct (Nat.eqb_spec x self) as [|_]; [congruence|].
        destruct (above_dec t0 x self W) as [Ha|Ha].
        * rewrite Sa by auto. destruct (above_step _ _ _ Ha Hne) as [c [Hc Hac]].
          rewrite (sum_one t0 t5 (kids t0 x) c (- size t0 param)); auto; [lia | apply wf_nodup; auto | rewrite Sa by auto; lia |].
          intros d Hd Hdc. apply Sb. intros Had. apply Hdc. eapply kid_above_unique; eauto.
        * rewrite Sb by auto. rewrite (sum_sizes_ext t0 t5); auto. intros y Hy. apply Sb. intros Hay. apply Ha. eapply above_trans; eauto. apply above_kid; auto.
    - intros x Hx. rewrite En5 in Hx. destruct (PzTree.wf_new t0 W x Hx) as (A & B & C & D).
      rewrite K5, P5. destruct (Nat.eqb_spec x self) as [->|Hne]; [lia|]. destruct (X5 x) as [-> _]. split; auto. split; [destruct (Nat.eqb x param); auto|]. split; auto.
      rewrite (proj2 I5); auto. simpl. intros [E|Hy]; [auto|]. apply in_concat in Hy as [l' [Hl' Hy]]. apply in_map_iff in Hl' as [c [<- Hc]].
      apply Htsin in Hc as [Hc _]. assert (above t0 self x).
      { apply (oids_below t0 (T self ts0) x R). eapply in_child; eauto. }
      destruct H as [o [m Bx]]. assert ((x < next t0)%nat) by (eapply below_lt; eauto). lia. }
  assert (U5 : up t5 self l).
  { eapply up_frame; eauto. intros y Hy. rewrite P5. destruct (Nat.eqb_spec y param) as [->|]; [tauto | auto]. }
  assert (Hab : forall y, above t5 y self <-> above t0 y self).
  { intros y. rewrite <- (up_above t5 self l y W5 U5), <- (up_above t0 self l y W U). tauto. }
  assert (Hpa : ~ above t0 param self) by (rewrite <- (up_above t0 self l param W U); auto).
  split; [exact W5|]. split.
  { assert (Hlen : (k < length (kids t0 self))%nat) by (apply nth_error_Some; congruence).
    assert (Efk : length (firstn k (kids t0 self)) = k) by (rewrite firstn_length; lia).
    constructor.
    - rewrite P5, Nat.eqb_refl. auto.
    - rewrite K5, Nat.eqb_refl, app_length. lia.
    - rewrite K5, Nat.eqb_refl.
      rewrite firstn_app, Efk, Nat.sub_diag, firstn_O, app_nil_r. rewrite firstn_firstn, Nat.min_id.
      rewrite skipn_app, Efk, Nat.sub_diag. rewrite skipn_O. rewrite (skipn_all2 (firstn k (kids t0 self))) by lia. simpl.
      apply firstn_skipn_nth. auto.
    - intros x Hx. rewrite K5. destruct (Nat.eqb_spec x self); [congruence | auto].
    - intros x Hx. apply Hab in Hx. rewrite Sa, (Sb param) by auto. lia.
    - intros x Hx. rewrite Hab in Hx. rewrite Sb; auto. }
  split; [rewrite Hab; auto|]. split; [auto|]. split; [auto|]. split; [auto|]. split; [auto|]. exact I5.
Qed.
