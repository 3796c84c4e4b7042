(** Proofs about the hierarchy, part 1: trees, the well-formedness of the links, and the functions
    that walk up and down. *)
From Coq Require Import List ZArith Bool Lia Arith.
From Verif Require Import NpModel NpProofs IndexOpsModel PzModel PzSpec.
Import ListNotations.
Open Scope Z_scope.

Inductive tree : Type := T (x : oid) (ts : list tree).
Definition root (t : tree) : oid := match t with T x _ => x end.

Section TreeInd.
Variable P : tree -> Prop.
Hypothesis H : forall x ts, Forall P ts -> P (T x ts).
Fixpoint tree_ind' (t : tree) : P t :=
  match t with
  | T x ts => H x ts ((fix go (l : list tree) : Forall P l :=
                         match l with [] => Forall_nil _ | c :: r => Forall_cons _ (tree_ind' c) (go r) end) ts)
  end.
End TreeInd.

Fixpoint oids (t : tree) : list oid := match t with T x ts => x :: concat (map oids ts) end.
Fixpoint height (t : tree) : nat := match t with T x ts => S (fold_right Nat.max 0%nat (map height ts)) end.

(** Objects of the tree with their offsets, parents first. *)
Fixpoint offs (sz : oid -> Z) (o : Z) (t : tree) : list (oid * Z) :=
  match t with
  | T x ts => (x, o) :: (fix go (l : list tree) (o : Z) : list (oid * Z) :=
                           match l with [] => [] | c :: r => offs sz o c ++ go r (o + sz (root c)) end) ts o
  end.
Fixpoint offl (sz : oid -> Z) (o : Z) (l : list tree) : list (oid * Z) :=
  match l with [] => [] | c :: r => offs sz o c ++ offl sz (o + sz (root c)) r end.
Lemma offs_eq : forall sz o x ts, offs sz o (T x ts) = (x, o) :: offl sz o ts.
Proof.
  intros. simpl. f_equal. revert o. induction ts as [|c r IH]; intros; simpl; [reflexivity|].
  f_equal. apply IH.
Qed.

(** The tree is the part of the hierarchy at its root. *)
Inductive rep (st : struct) : tree -> Prop :=
| Rep : forall x ts, kids st x = map root ts ->
    (forall i c, nth_error ts i = Some c -> par st (root c) = Some x /\ pidx st (root c) = Some (Z.of_nat i)) ->
    Forall (rep st) ts -> rep st (T x ts).

Lemma upd_eq : forall (A : Type) (f : nat -> A) x v, upd f x v x = v.
Proof. intros. unfold upd. rewrite Nat.eqb_refl. reflexivity. Qed.
Lemma upd_ne : forall (A : Type) (f : nat -> A) x y v, y <> x -> upd f x v y = f y.
Proof. intros. unfold upd. destruct (Nat.eqb_spec y x); congruence. Qed.

Lemma omem_In : forall x l, omem x l = true <-> In x l.
Proof.
  intros. unfold omem. rewrite existsb_exists. split.
  - intros [y [H1 H2]]. apply Nat.eqb_eq in H2. subst; auto.
  - intros H. exists x. rewrite Nat.eqb_refl. auto.
Qed.
Lemma omem_false : forall x l, omem x l = false <-> ~ In x l.
Proof. intros. rewrite <- omem_In. destruct (omem x l); intuition congruence. Qed.

Lemma oids_root : forall t, In (root t) (oids t).
Proof. destruct t; left; reflexivity. Qed.

Lemma nodup_app : forall (A : Type) (a b : list A), NoDup (a ++ b) ->
  NoDup a /\ NoDup b /\ (forall x, In x a -> ~ In x b).
Proof.
  induction a as [|x a IH]; intros b H; simpl in *.
  - repeat split; [constructor | auto | tauto].
  - inversion H; subst. destruct (IH _ H3) as [H4 [H5 H6]]. rewrite in_app_iff in H2.
    repeat split; [constructor; tauto | auto |]. intros y [<-|Hy]; [tauto | auto].
Qed.
Lemma rep_frame : forall st st' t, rep st t ->
  (forall y, In y (oids t) -> kids st' y = kids st y) ->
  (forall y, In y (oids t) -> y <> root t -> par st' y = par st y /\ pidx st' y = pidx st y) ->
  NoDup (oids t) -> rep st' t.
Proof.
  intros st st' t. induction t as [x ts IH] using tree_ind'. intros Hr Hk Hp Hnd.
  inversion Hr as [x0 ts0 E1 E2 E3]; subst.
  assert (Hin : forall c, In c ts -> incl (oids c) (oids (T x ts))).
  { intros c Hc y Hy. right. apply in_concat. exists (oids c). split; [apply in_map|]; auto. }
  simpl in Hnd. inversion Hnd as [|? ? Hx Hnd']; subst.
  assert (Hne : forall c y, In c ts -> In y (oids c) -> y <> x).
  { intros c y Hc Hy E. subst. apply Hx. apply in_concat. exists (oids c). split; [apply in_map|]; auto. }
  constructor.
  - rewrite Hk; [exact E1 | left; reflexivity].
  - intros i c Hi. assert (Hc : In c ts) by (eapply nth_error_In; eauto).
    destruct (Hp (root c)) as [P1 P2].
    { apply (Hin c Hc), oids_root. }
    { simpl. apply (Hne c); auto. apply oids_root. }
    rewrite P1, P2. apply E2; auto.
  - rewrite Forall_forall in *. intros c Hc. apply IH; auto.
    + intros y Hy. apply Hk. apply (Hin c); auto.
    + intros y Hy Hyr. apply Hp; [apply (Hin c); auto | simpl; apply (Hne c); auto].
    + assert (Hnd2 := Hnd'). clear - Hnd2 Hc. induction ts as [|d r IH]; [destruct Hc|].
      simpl in Hnd2. apply nodup_app in Hnd2 as [H1 [H2 _]].
      destruct Hc as [->|Hc]; auto.
Qed.

Lemma nodup_concat_in : forall (l : list (list oid)) a, NoDup (concat l) -> In a l -> NoDup a.
Proof.
  induction l as [|b r IH]; intros a Hnd Ha; [destruct Ha|].
  simpl in Hnd. destruct Ha as [->|Ha].
  - apply nodup_app in Hnd as [H _]; auto.
  - apply IH; auto. apply nodup_app in Hnd as [_ [H _]]; auto.
Qed.
Lemma nodup_child : forall x ts c, NoDup (oids (T x ts)) -> In c ts -> NoDup (oids c).
Proof.
  intros x ts c H Hc. simpl in H. inversion H; subst.
  eapply nodup_concat_in; eauto. apply in_map; auto.
Qed.
Lemma in_child : forall x ts c y, In c ts -> In y (oids c) -> In y (oids (T x ts)).
Proof. intros. right. apply in_concat. exists (oids c). split; [apply in_map|]; auto. Qed.

(** ** Relation between trees and [below] *)

Lemma sum_sizes_app : forall st a b, sum_sizes st (a ++ b) = sum_sizes st a + sum_sizes st b.
Proof.
  intros. unfold sum_sizes. rewrite map_app. induction (map (size st) a); simpl; lia.
Qed.
Lemma sum_sizes_cons : forall st a b, sum_sizes st (a :: b) = size st a + sum_sizes st b.
Proof. reflexivity. Qed.

Lemma offl_in : forall sz l o y k, In (y, k) (offl sz o l) <->
  exists i c, nth_error l i = Some c /\
    In (y, k) (offs sz (o + fold_right Z.add 0 (map sz (map root (firstn i l)))) c).
Proof.
  induction l as [|a r IH]; intros; simpl.
  - split; [tauto|]. intros [i [c [H _]]]. destruct i; discriminate.
  - rewrite in_app_iff, IH. split.
    + intros [H|[i [c [H1 H2]]]].
      * exists 0%nat, a. simpl. rewrite Z.add_0_r. auto.
      * exists (S i), c. simpl. split; auto. rewrite Z.add_assoc. exact H2.
    + intros [i [c [H1 H2]]]. destruct i as [|i]; simpl in *.
      * left. inversion H1; subst. rewrite Z.add_0_r in H2. exact H2.
      * right. exists i, c. split; auto. rewrite <- Z.add_assoc. exact H2.
Qed.

Lemma offs_shift : forall t sz o y k, In (y, k) (offs sz o t) <-> In (y, k - o) (offs sz 0 t).
Proof.
  induction t as [x ts IH] using tree_ind'. intros. rewrite !offs_eq. simpl.
  assert (E : forall o' : Z, In (y, k) (offl sz o' ts) <-> In (y, k - o') (offl sz 0 ts)).
  { intros o'. rewrite !offl_in. rewrite Forall_forall in IH. split; intros [i [c [H1 H2]]];
    exists i, c; split; auto; assert (Hc : In c ts) by (eapply nth_error_In; eauto).
    - rewrite IH in H2 by auto. rewrite IH by auto.
      match goal with |- In (_, ?e) _ => match type of H2 with In (_, ?e') _ => replace e with e' by lia end end. exact H2.
    - rewrite IH in H2 by auto. rewrite IH by auto.
      match goal with |- In (_, ?e) _ => match type of H2 with In (_, ?e') _ => replace e with e' by lia end end. exact H2. }
  rewrite E. split.
  - intros [H|H]; [left|right; auto]. inversion H; subst. f_equal; lia.
  - intros [H|H]; [left|right; auto]. inversion H; subst. f_equal; lia.
Qed.

Lemma firstn_map : forall (A B : Type) (f : A -> B) n l, firstn n (map f l) = map f (firstn n l).
Proof. induction n; destruct l; simpl; auto. f_equal; auto. Qed.
Lemma nth_error_map' : forall (A B : Type) (f : A -> B) l i b,
  nth_error (map f l) i = Some b -> exists a, nth_error l i = Some a /\ b = f a.
Proof.
  intros A B f l. induction l as [|a l IH]; intros [|i] b H; simpl in *; try discriminate.
  - inversion H; eauto.
  - auto.
Qed.

Lemma below_offs : forall st t y k n, rep st t -> below st (root t) y k n -> In (y, k) (offs (size st) 0 t).
Proof.
  intros st t. induction t as [x ts IH] using tree_ind'. intros y k n Hr Hb.
  inversion Hr as [x0 ts0 E1 E2 E3]; subst. rewrite offs_eq. simpl root in Hb.
  inversion Hb as [|? i c ? o n' Hi Hb']; subst; [left; reflexivity|].
  rewrite E1 in Hi. apply nth_error_map' in Hi as [c' [Hi ->]].
  right. apply offl_in. exists i, c'. split; auto.
  apply offs_shift. rewrite Forall_forall in *.
  assert (Hc : In c' ts) by (eapply nth_error_In; eauto).
  replace (_ - _) with o.
  - eapply IH; eauto.
  - rewrite E1. unfold sum_sizes. rewrite firstn_map. lia.
Qed.
Lemma offs_below : forall st t y k, rep st t -> In (y, k) (offs (size st) 0 t) ->
  exists n, (n < height t)%nat /\ below st (root t) y k n.
Proof.
  intros st t. induction t as [x ts IH] using tree_ind'. intros y k Hr Hb.
  inversion Hr as [x0 ts0 E1 E2 E3]; subst. rewrite offs_eq in Hb. simpl root.
  destruct Hb as [Hb|Hb].
  - inversion Hb; subst. exists 0%nat. split; [simpl; lia | constructor].
  - apply offl_in in Hb as [i [c [Hi Hb]]]. apply offs_shift in Hb.
    assert (Hc : In c ts) by (eapply nth_error_In; eauto).
    rewrite Forall_forall in *. apply IH in Hb; auto. destruct Hb as [n [Hn Hb]].
    exists (S n). split.
    + simpl. apply -> Nat.succ_lt_mono. eapply Nat.lt_le_trans; [exact Hn|].
      clear - Hc. induction ts as [|a r IH]; [destruct Hc|]. simpl. destruct Hc as [->|Hc]; [lia|].
      specialize (IH Hc). lia.
    + replace k with (sum_sizes st (firstn i (kids st x)) + (k - (0 + fold_right Z.add 0 (map (size st) (map root (firstn i ts)))))).
      * econstructor; [|exact Hb]. rewrite E1. apply map_nth_error. exact Hi.
      * rewrite E1. unfold sum_sizes. rewrite firstn_map. lia.
Qed.
Lemma offs_fst : forall sz t o, map fst (offs sz o t) = oids t.
Proof.
  intros sz t. induction t as [x ts IH] using tree_ind'. intros. rewrite offs_eq. simpl. f_equal.
  revert o. induction ts as [|c r IHr]; intros; simpl; [reflexivity|].
  inversion IH; subst. rewrite map_app, H1. f_equal. apply IHr; auto.
Qed.
Lemma oids_below : forall st t y, rep st t -> (In y (oids t) <-> exists k n, below st (root t) y k n).
Proof.
  intros st t y Hr. split.
  - rewrite <- (offs_fst (size st) t 0). rewrite in_map_iff. intros [[y' k] [E H]]. simpl in E; subst.
    apply offs_below in H as [n [_ H]]; eauto.
  - intros [k [n H]]. eapply below_offs in H; eauto.
    rewrite <- (offs_fst (size st) t 0). apply in_map_iff. exists (y, k). auto.
Qed.

(** Last step instead of first step. *)
Lemma below_trans : forall st x y z a b n m, below st x y a n -> below st y z b m -> below st x z (a + b) (n + m).
Proof.
  intros st x y z a b n m H. revert z b m. induction H; intros; simpl; auto.
  rewrite <- Z.add_assoc. econstructor; eauto.
Qed.
Lemma below_one : forall st x i c, nth_error (kids st x) i = Some c ->
  below st x c (sum_sizes st (firstn i (kids st x))) 1.
Proof. intros. rewrite <- (Z.add_0_r (sum_sizes _ _)). econstructor; eauto. constructor. Qed.
Lemma below_last : forall st x y o n, below st x y o n ->
  (x = y /\ o = 0 /\ n = 0%nat) \/
  exists p i o' n', below st x p o' n' /\ nth_error (kids st p) i = Some y /\
    o = o' + sum_sizes st (firstn i (kids st p)) /\ n = S n'.
Proof.
  intros st x y o n H. induction H as [|x i c y o n Hi Hb IH]; [auto|]. right.
  destruct IH as [[-> [-> ->]]|[p [j [o' [n' [H1 [H2 [-> ->]]]]]]]].
  - exists x, i, 0, 0%nat. split; [constructor|]. split; auto. split; [lia|reflexivity].
  - exists p, j, (sum_sizes st (firstn i (kids st x)) + o'), (S n'). split.
    + econstructor; eauto.
    + split; auto. split; [lia|reflexivity].
Qed.

(** ** Well-formed links *)

Record wf (st : struct) : Prop := mkWf {
  wf_rank : exists rk : oid -> nat, forall x y, In y (kids st x) -> (rk y < rk x)%nat;
  wf_par : forall x y, In y (kids st x) <-> par st y = Some x;
  wf_pidx : forall x i y, nth_error (kids st x) i = Some y -> pidx st y = Some (Z.of_nat i);
  wf_root : forall x, par st x = None -> pidx st x = None;
  wf_leaf : forall x n, kind st x = KLeaf n -> kids st x = [] /\ size st x = Z.of_nat n;
  wf_node : forall x, kind st x = KNode -> size st x = sum_sizes st (kids st x);
  wf_new : forall x, (next st <= x)%nat -> kids st x = [] /\ par st x = None /\ kind st x = KNode /\ inited st x = None }.

Lemma wf_nodup : forall st x, wf st -> NoDup (kids st x).
Proof.
  intros st x W. apply NoDup_nth_error. intros i j Hi E.
  destruct (nth_error (kids st x) i) as [y|] eqn:Ei.
  - symmetry in E. apply (wf_pidx _ W) in Ei. apply (wf_pidx _ W) in E. rewrite Ei in E.
    inversion E. lia.
  - apply nth_error_None in Ei. lia.
Qed.

(** [below] with links only one way. *)
Lemma below_par : forall st, (forall x y, In y (kids st x) <-> par st y = Some x) ->
  forall x y o n, below st x y o n -> x <> y ->
  exists p o' n', par st y = Some p /\ below st x p o' n' /\ (n = S n')%nat.
Proof.
  intros st W x y o n H Hne. apply below_last in H as [[E _]|[p [i [o' [n' [H1 [H2 [_ E]]]]]]]]; [congruence|].
  exists p, o', n'. split; auto. apply W. eapply nth_error_In; eauto.
Qed.

Lemma below_rank : forall st rk, (forall x y, In y (kids st x) -> (rk y < rk x)%nat) ->
  forall x y o n, below st x y o n -> (rk y + n <= rk x)%nat.
Proof.
  intros st rk H x y o n Hb. induction Hb; [lia|].
  apply nth_error_In in H0. apply H in H0. lia.
Qed.
Lemma wf_no_cycle : forall st x o n, wf st -> below st x x o n -> n = 0%nat /\ o = 0.
Proof.
  intros st x o n W Hb. destruct (wf_rank _ W) as [rk Hrk].
  pose proof (below_rank _ _ Hrk _ _ _ _ Hb). assert (n = 0%nat) by lia. subst.
  inversion Hb; auto.
Qed.
(** Two objects above the same object: one is above the other. *)
Lemma below_comparable : forall st x x' y o o' n n', wf st -> below st x y o n -> below st x' y o' n' ->
  (n <= n')%nat -> exists k, below st x' x k (n' - n)%nat /\ o' = k + o.
Proof.
  intros st x x' y o o' n n' W. revert y o o' n'. induction n as [|n IH]; intros y o o' n' H1 H2 Hle.
  - inversion H1; subst. exists o'. rewrite Nat.sub_0_r. split; [auto|lia].
  - apply below_last in H1 as [[_ [_ E]]|[p [i [a [m [H1 [Hi [-> E]]]]]]]]; [discriminate|].
    inversion E; subst m.
    apply below_last in H2 as [[_ [_ E2]]|[p' [i' [a' [m' [H2 [Hi' [-> E2]]]]]]]]; [lia|].
    assert (p' = p).
    { apply nth_error_In in Hi, Hi'. apply (wf_par _ W) in Hi, Hi'. congruence. }
    subst p'. assert (i' = i).
    { apply (wf_pidx _ W) in Hi, Hi'. rewrite Hi in Hi'. inversion Hi'. lia. }
    subst i'. destruct (IH _ _ _ _ H1 H2) as [k [Hk Ek]]; [lia|].
    exists k. subst. simpl. split; [exact Hk | lia].
Qed.
Lemma below_unique : forall st x y o o' n n', wf st -> below st x y o n -> below st x y o' n' -> o = o' /\ n = n'.
Proof.
  intros st x y o o' n n' W H1 H2. destruct (wf_rank _ W) as [rk Hrk].
  destruct (le_lt_dec n n') as [L|L].
  - destruct (below_comparable _ _ _ _ _ _ _ _ W H1 H2 L) as [k [Hk E]].
    apply wf_no_cycle in Hk; auto. lia.
  - destruct (below_comparable _ _ _ _ _ _ _ _ W H2 H1 ltac:(lia)) as [k [Hk E]].
    apply wf_no_cycle in Hk; auto. lia.
Qed.

Lemma forall2_exists : forall (A B : Type) (P : A -> B -> Prop) l, (forall a, In a l -> exists b, P a b) ->
  exists bs, Forall2 P l bs.
Proof.
  intros A B P l. induction l as [|a l IH]; intros H; [exists []; constructor|].
  destruct (H a) as [b Hb]; [left; auto|]. destruct IH as [bs Hbs]; [intros; apply H; right; auto|].
  exists (b :: bs). constructor; auto.
Qed.

Lemma nodup_concat : forall (l : list (list oid)),
  (forall a, In a l -> NoDup a) ->
  (forall i j a b y, nth_error l i = Some a -> nth_error l j = Some b -> In y a -> In y b -> i = j) ->
  NoDup (concat l).
Proof.
  induction l as [|a l IH]; intros H1 H2; simpl; [constructor|].
  assert (Hl : NoDup (concat l)).
  { apply IH; [intros; apply H1; right; auto|]. intros i j b c y Hi Hj Hb Hc.
    assert (S i = S j) by (eapply H2; simpl; eauto). lia. }
  assert (Ha : NoDup a) by (apply H1; left; auto).
  assert (Hd : forall y, In y a -> ~ In y (concat l)).
  { intros y Hy Hc. apply in_concat in Hc as [b [Hb Hyb]]. apply In_nth_error in Hb as [j Hj].
    assert (0%nat = S j); [|discriminate]. apply (H2 0%nat (S j) a b y); auto. }
  clear - Hl Ha Hd. induction a as [|x a IH]; simpl; auto. inversion Ha; subst. constructor.
  - rewrite in_app_iff. intros [H|H]; [auto|]. apply (Hd x); [left|]; auto.
  - apply IH; auto. intros y Hy. apply Hd. right; auto.
Qed.

Lemma tree_exists : forall st, wf st -> forall x, exists t, root t = x /\ rep st t /\ NoDup (oids t).
Proof.
  intros st W. destruct (wf_rank _ W) as [rk Hrk].
  assert (G : forall n x, (rk x < n)%nat -> exists t, root t = x /\ rep st t).
  { induction n as [|n IH]; intros x Hx; [lia|].
    destruct (forall2_exists _ _ (fun c t => root t = c /\ rep st t) (kids st x)) as [ts Hts].
    { intros c Hc. apply IH. apply Hrk in Hc. lia. }
    exists (T x ts). split; [reflexivity|].
    assert (E : kids st x = map root ts).
    { clear - Hts. induction Hts; simpl; [reflexivity|]. destruct H. f_equal; auto. }
    constructor; auto.
    - intros i c Hi. assert (Hk : nth_error (kids st x) i = Some (root c)) by (rewrite E; apply map_nth_error; auto).
      split; [apply (wf_par _ W); eapply nth_error_In; eauto | eapply wf_pidx; eauto].
    - clear - Hts. induction Hts; constructor; auto. destruct H; auto. }
  assert (N : forall t, rep st t -> NoDup (oids t)).
  { induction t as [x ts IH] using tree_ind'. intros Hr. inversion Hr as [x0 ts0 E1 E2 E3]; subst.
    simpl. constructor.
    - intros Hin. apply in_concat in Hin as [l [Hl Hx]]. apply in_map_iff in Hl as [c [<- Hc]].
      rewrite Forall_forall in E3. apply (oids_below st) in Hx as [k [n Hb]]; auto.
      apply In_nth_error in Hc as [i Hi].
      assert (Hk : nth_error (kids st x) i = Some (root c)) by (rewrite E1; apply map_nth_error; auto).
      assert (Hb' := below_trans _ _ _ _ _ _ _ _ (below_one _ _ _ _ Hk) Hb).
      apply wf_no_cycle in Hb' as [E _]; auto. discriminate.
    - apply nodup_concat.
      + intros a Ha. apply in_map_iff in Ha as [c [<- Hc]]. rewrite Forall_forall in *. apply IH; auto.
      + intros i j a b y Hi Hj Ha Hb. apply nth_error_map' in Hi as [c [Hi ->]]. apply nth_error_map' in Hj as [d [Hj ->]].
        rewrite Forall_forall in E3.
        apply (oids_below st) in Ha as [k [n Ha]]; [|apply E3; eapply nth_error_In; eauto].
        apply (oids_below st) in Hb as [k' [n' Hb]]; [|apply E3; eapply nth_error_In; eauto].
        destruct (E2 _ _ Hi) as [P1 P2]. destruct (E2 _ _ Hj) as [P3 P4].
        assert (C : forall u v a b n n', par st u = Some x -> par st v = Some x -> (n <= n')%nat ->
                    below st u y a n -> below st v y b n' -> u = v).
        { intros u v e f m m' Hu Hv Hle Bu Bv.
          destruct (below_comparable _ _ _ _ _ _ _ _ W Bu Bv Hle) as [q [Hq _]].
          destruct (Nat.eq_dec v u) as [|Hne]; [auto|]. exfalso.
          destruct (below_par _ (wf_par _ W) _ _ _ _ Hq Hne) as [p [o' [m'' [Hp [Hb' _]]]]].
          rewrite Hu in Hp. inversion Hp; subst p.
          apply (wf_par _ W) in Hv. apply In_nth_error in Hv as [z Hz].
          assert (Hc := below_trans _ _ _ _ _ _ _ _ (below_one _ _ _ _ Hz) Hb').
          apply wf_no_cycle in Hc as [E _]; auto. discriminate. }
        assert (root c = root d).
        { destruct (le_lt_dec n n') as [L|L].
          - exact (C _ _ _ _ _ _ P1 P3 L Ha Hb).
          - symmetry. apply (C _ _ k' k n' n P3 P1); auto. lia. }
        rewrite H in P2. rewrite P2 in P4. inversion P4. lia. }
  intros x. destruct (G (S (rk x)) x) as [t [H1 H2]]; [lia|]. exists t. auto.
Qed.

Lemma height_oids : forall t, (height t <= length (oids t))%nat.
Proof.
  induction t as [x ts IH] using tree_ind'. simpl. apply le_n_S.
  induction ts as [|c r IHr]; simpl; [lia|]. inversion IH; subst. rewrite app_length.
  specialize (IHr H2). lia.
Qed.
Lemma rep_bound : forall st t, wf st -> rep st t -> (root t < next st)%nat -> NoDup (oids t) -> (height t <= next st)%nat.
Proof.
  intros st t W Hr Hx Hnd.
  assert (incl (oids t) (seq 0 (next st))).
  { intros y Hy. apply in_seq. apply (oids_below st) in Hy as [k [n Hb]]; auto. split; [lia|]. simpl.
    destruct (Nat.eq_dec (root t) y) as [<-|Hne]; [auto|].
    destruct (below_par _ (wf_par _ W) _ _ _ _ Hb Hne) as [p [o' [n' [Hp _]]]].
    destruct (le_lt_dec (next st) y) as [L|L]; auto. apply (wf_new _ W) in L as [_ [L _]]. congruence. }
  apply NoDup_incl_length in H; auto. rewrite seq_length in H. pose proof (height_oids t). lia.
Qed.
Lemma rep_new_height : forall st t, wf st -> rep st t -> NoDup (oids t) -> (height t <= fuel st)%nat.
Proof.
  intros st t W Hr Hnd. unfold fuel. destruct (le_lt_dec (next st) (root t)) as [L|L].
  - destruct t as [x ts]. simpl in L. apply (wf_new _ W) in L as [L _]. inversion Hr; subst.
    rewrite L in H1. destruct ts; [simpl; lia | discriminate].
  - pose proof (rep_bound _ _ W Hr L Hnd). lia.
Qed.
