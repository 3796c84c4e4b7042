(** Proofs about the hierarchy, part 6: who sees which constraints. *)
From Coq Require Import List ZArith Bool Lia Arith Sorting.Sorted.
From Verif Require Import NpModel NpProofs IndexOpsModel IndexOpsSpec IndexOpsProofs PzModel PzSpec PzTree PzStruct PzLink PzWalk.
Import ListNotations.
Open Scope Z_scope.

Definition dwf := IndexOpsProofs.wf.
Definition swf := PzTree.wf.
Definition hasi (i : iost) (x : oid) (p : prop) (j : Z) : Prop :=
  carries (snd (iop i x)) (dicts i (fst (iop i x))) p j.
Definition rid (i : iost) (x : oid) : nat := fst (iop i x).
Definition dof (i : iost) (x : oid) : dict := dicts i (rid i x).

(** Every top object has index operations of its own, everything below it has a view of these at its
    own place. *)
Record ioinv (t : struct) (i : iost) : Prop := mkIoinv {
  io_root : forall r, (r < next t)%nat -> par t r = None -> snd (iop i r) = Root;
  io_rid : forall r, (r < next t)%nat -> par t r = None -> (rid i r < nrid i)%nat;
  io_inj : forall r r', (r < next t)%nat -> par t r = None -> (r' < next t)%nat -> par t r' = None -> rid i r = rid i r' -> r = r';
  io_view : forall r y o n, (r < next t)%nat -> par t r = None -> below t r y o n -> y <> r ->
    iop i y = (rid i r, View Root o (size t y));
  io_dict : forall r, (r < next t)%nat -> par t r = None -> dwf (dof i r) /\
    forall p j, In j (lk (dof i r) p) -> 0 <= j < size t r }.

Lemma root_lt : forall t r y o n, swf t -> below t r y o n -> (y < next t)%nat -> (r < next t)%nat.
Proof.
  intros t r y o n W B Hy. destruct (Nat.lt_ge_cases r (next t)) as [H|H]; auto.
  destruct (PzTree.wf_new t W r H) as [Hk _]. inversion B; subst; auto. rewrite Hk in H0. destruct i; discriminate.
Qed.
Lemma below_lt : forall t r y o n, swf t -> below t r y o n -> (r < next t)%nat -> (y < next t)%nat.
Proof.
  intros t r y o n W B Hr. destruct (Nat.lt_ge_cases y (next t)) as [H|H]; auto. exfalso.
  destruct (PzTree.wf_new t W y H) as [_ [Hp _]]. apply below_last in B as [[-> _]|(p & i & _ & _ & _ & B & _)]; [lia|].
  apply nth_error_In in B. apply (PzTree.wf_par t W) in B. congruence.
Qed.

Lemma roots_eq : forall t r q y, swf t -> above t r y -> above t q y -> par t r = None -> par t q = None -> q = r.
Proof.
  intros t r q y W [o [n B]] [o' [n' B']] Hr Hq. destruct (Nat.le_ge_cases n n') as [Hle|Hle].
  - destruct (below_comparable _ _ _ _ _ _ _ _ W B B' Hle) as [z [Bz _]]. eapply above_root; eauto. exists z; eauto.
  - destruct (below_comparable _ _ _ _ _ _ _ _ W B' B Hle) as [z [Bz _]]. symmetry. eapply above_root; eauto. exists z; eauto.
Qed.

Lemma has_below : forall t i r y o n p j, swf t -> ioinv t i -> (r < next t)%nat -> par t r = None -> below t r y o n ->
  (hasi i y p j <-> In (j + o) (lk (dof i r) p) /\ 0 <= j < size t y).
Proof.
  intros t i r y o n p j W H Hr Hpr B. unfold hasi. rewrite carries_lk.
  destruct (Nat.eq_dec y r) as [->|Hne].
  - destruct (wf_no_cycle _ _ _ _ W B) as [-> ->]. rewrite (io_root _ _ H r Hr Hpr). simpl. rewrite !Z.add_0_r.
    split; [intros [A _]; split; [exact A|] | intros [A _]; split; [exact A | auto]].
    apply (io_dict _ _ H r Hr Hpr) with p. exact A.
  - rewrite (io_view _ _ H r y o n Hr Hpr B Hne). simpl. rewrite !Z.add_0_r. unfold dof. tauto.
Qed.

(** Element [j] of [z], read on an object below it. *)
Lemma has_down : forall t i z y o n p j, swf t -> ioinv t i -> (z < next t)%nat -> below t z y o n ->
  (hasi i y p j <-> hasi i z p (j + o) /\ 0 <= j < size t y).
Proof.
  intros t i z y o n p j W H Hz B.
  destruct (root_exists t z W) as (r & a & m & _ & Hpr & Br).
  assert (Hr : (r < next t)%nat) by (eapply root_lt; eauto).
  pose proof (below_trans _ _ _ _ _ _ _ _ Br B) as B'.
  rewrite (has_below t i r y _ _ p j W H Hr Hpr B'), (has_below t i r z _ _ p (j + o) W H Hr Hpr Br).
  destruct (below_range _ _ _ _ _ W B). replace (j + (a + o)) with (j + o + a) by lia. split; [intros [A C]; repeat split; auto; lia | tauto].
Qed.

(** ** Linking *)
Section Attach.
Variables (t0 t1 : struct) (self param r : oid) (k : nat) (a : Z) (n0 : nat).
Hypothesis W0 : swf t0.
Hypothesis W1 : swf t1.
Hypothesis L : linked t0 t1 self param k.
Hypothesis Hnot : ~ above t0 param self.
Hypothesis Hnext : next t1 = next t0.
Hypothesis Hself : (self < next t0)%nat.
Hypothesis Hparam : (param < next t0)%nat.
Hypothesis Hpr : par t0 r = None.
Hypothesis Br : below t0 r self a n0.
Notation n := (size t0 param).
Notation st_ := (start t0 self k).

Lemma at_r_lt : (r < next t0)%nat.
Proof. eapply root_lt; eauto. Qed.
Lemma at_param_r : param <> r.
Proof. intros ->. apply Hnot. exists a, n0; auto. Qed.
Lemma at_param_self : param <> self.
Proof. intros E. apply Hnot. rewrite E. apply above_refl. Qed.
Lemma at_kids : forall x y, In y (kids t1 x) <-> In y (kids t0 x) \/ (x = self /\ y = param).
Proof.
  intros x y. destruct (Nat.eq_dec x self) as [->|Hne].
  - rewrite (ln_kids _ _ _ _ _ L). rewrite in_app_iff. simpl.
    rewrite <- (firstn_skipn k (kids t0 self)) at 3. rewrite in_app_iff. intuition congruence.
  - rewrite (ln_kids' _ _ _ _ _ L) by auto. tauto.
Qed.
Lemma at_par : forall y, par t1 y = if Nat.eqb y param then Some self else par t0 y.
Proof.
  intros y. destruct (Nat.eqb_spec y param) as [->|Hne].
  - apply (PzTree.wf_par t1 W1). apply at_kids. auto.
  - destruct (par t0 y) as [x|] eqn:E.
    + apply (PzTree.wf_par t1 W1). apply at_kids. left. apply (PzTree.wf_par t0 W0). auto.
    + destruct (par t1 y) as [x|] eqn:E'; auto. exfalso. apply (PzTree.wf_par t1 W1) in E'. apply at_kids in E' as [E'|[_ E']]; auto.
      apply (PzTree.wf_par t0 W0) in E'. congruence.
Qed.
Lemma at_root : forall y, par t1 y = None <-> par t0 y = None /\ y <> param.
Proof.
  intros y. rewrite at_par. destruct (Nat.eqb_spec y param) as [->|Hne]; split; try tauto; try discriminate.
Qed.
Lemma at_r1 : par t1 r = None.
Proof. apply at_root. split; auto. intros E. apply at_param_r. auto. Qed.

(** What is below what afterwards. *)
Lemma at_below : forall x y o m, below t1 x y o m -> x <> y ->
  (~ above t0 x self /\ below t0 x y o m) \/
  (exists ax nx, below t0 x self ax nx /\
    ((above t0 y self /\ exists o', o' = o /\ below t0 x y o' m) \/
     (~ above t0 y self /\ o + size t0 y <= ax + st_ /\ below t0 x y o m) \/
     (~ above t0 y self /\ ax + st_ <= o - n /\ below t0 x y (o - n) m) \/
     (exists o' m', below t0 param y o' m' /\ o = ax + st_ + o'))).
Proof.
  intros x y o m B Hne.
  destruct (above_dec t0 x self W0) as [[ax [nx Hx]]|Hx].
  - right. exists ax, nx. split; auto.
    destruct (below_back t0 t1 self param k L x y o m B) as [[o' [m' B']]|[_ [o' [m' B']]]].
    + destruct (below_cases t0 t1 self param k W0 L Hnot x ax nx Hx y o' m' B') as [[A1 A2]|[[A1 [A2 A3]]|[A1 [A2 A3]]]].
      * left. destruct (below_unique _ _ _ _ _ _ _ W1 A2 B) as [-> ->]. split; auto. exists o; auto.
      * right. left. destruct (below_unique _ _ _ _ _ _ _ W1 A3 B) as [-> ->]. auto.
      * right. right. left. destruct (below_unique _ _ _ _ _ _ _ W1 A3 B) as [<- ->]. replace (o' + n - n) with o' by lia. auto.
    + right. right. right.
      pose proof (below_new t0 t1 self param k W0 L Hnot x ax nx y o' m' Hx B') as B2.
      destruct (below_unique _ _ _ _ _ _ _ W1 B2 B) as [<- _]. exists o', m'. auto.
  - left. split; auto.
    destruct (below_back t0 t1 self param k L x y o m B) as [[o' [m' B']]|[Hx' _]]; [|tauto].
    pose proof (below_same t0 t1 self param k L x y o' m' Hx B') as B2.
    destruct (below_unique _ _ _ _ _ _ _ W1 B2 B) as [-> ->]. auto.
Qed.

Lemma at_above : forall x y, above t1 x y <-> above t0 x y \/ (above t0 x self /\ above t0 param y).
Proof.
  intros x y. split.
  - intros [o [m B]]. exact (below_back t0 t1 self param k L x y o m B).
  - intros [[o [m B]]|[[ax [nx Bx]] [o [m B]]]].
    + destruct (above_dec t0 x self W0) as [[ax [nx Hx]]|Hx].
      * destruct (below_cases t0 t1 self param k W0 L Hnot x ax nx Hx y o m B) as [[A1 A2]|[[A1 [A2 A3]]|[A1 [A2 A3]]]]; eexists; eexists; eauto.
      * exists o, m. exact (below_same t0 t1 self param k L x y o m Hx B).
    + eexists; eexists. exact (below_new t0 t1 self param k W0 L Hnot x ax nx y o m Bx B).
Qed.

Variables (i0 i1 : iost).
Hypothesis I0 : ioinv t0 i0.
Hypothesis Hn1 : nrid i1 = nrid i0.
Hypothesis Hd1 : forall b, b <> rid i0 r -> dicts i1 b = dicts i0 b.
Hypothesis Hw1 : dwf (dicts i1 (rid i0 r)).
(** The new contents of the top object's index operations. *)
Hypothesis Hlk : forall p j, In j (lk (dicts i1 (rid i0 r)) p) <->
  (j < a + st_ /\ In j (lk (dof i0 r) p)) \/
  (a + st_ + n <= j /\ In (j - n) (lk (dof i0 r) p)) \/
  (In (j - a - st_) (lk (dof i0 param) p)).
Hypothesis Hv1 : forall y o m, below t1 r y o m -> y <> r -> iop i1 y = (rid i0 r, View Root o (size t1 y)).
Hypothesis Hv0 : forall y, (y < next t0)%nat -> (y = r \/ ~ above t1 r y) -> iop i1 y = iop i0 y.

Lemma attach_ioinv : ioinv t1 i1.
Proof.
  pose proof at_r_lt as Hr. pose proof at_r1 as Hr1.
  assert (Hid : forall y, (y < next t1)%nat -> par t1 y = None -> iop i1 y = iop i0 y).
  { intros y Hy Hp. apply Hv0; [congruence|]. destruct (Nat.eq_dec y r) as [|Hne]; auto. right. intros Ha.
    apply Hne. symmetry. eapply above_root; eauto. }
  assert (Hrd : forall y, (y < next t1)%nat -> par t1 y = None -> rid i1 y = rid i0 y).
  { intros y Hy Hp. unfold rid. rewrite Hid; auto. }
  assert (Hnn : 0 <= n) by (apply size_nonneg; auto).
  assert (Hst : 0 <= st_) by (unfold start; apply sum_sizes_nonneg; auto).
  assert (Har : 0 <= a /\ a + size t0 self <= size t0 r) by (eapply below_range; eauto).
  constructor.
  - intros y Hy Hp. rewrite Hid by auto. apply (io_root _ _ I0); [congruence|]. apply at_root; auto.
  - intros y Hy Hp. rewrite Hrd, Hn1 by auto. apply (io_rid _ _ I0); [congruence|]. apply at_root; auto.
  - intros y z Hy Hpy Hz Hpz. rewrite !Hrd by auto. apply (io_inj _ _ I0); try congruence; apply at_root; auto.
  - intros y z o m Hy Hpy B Hne. rewrite Hrd by auto. destruct (Nat.eq_dec y r) as [->|Hyr]; [eapply Hv1; eauto|].
    destruct (at_below y z o m B) as [[Hx B0]|[ax [nx [Hx _]]]]; auto.
    + rewrite Hv0.
      * rewrite (ln_size' _ _ _ _ _ L). { eapply (io_view _ _ I0); eauto; [congruence|]. apply at_root; auto. }
        intros Hz. apply Hx. eapply above_trans; eauto. exists o, m; auto.
      * rewrite <- Hnext. eapply below_lt; eauto.
      * right. intros Ha. apply Hyr. apply (roots_eq t1 r y z); auto. exists o, m; auto.
    + exfalso. apply Hyr. apply at_root in Hpy. apply (roots_eq t0 r y self); try tauto; [exists a, n0 | exists ax, nx]; auto.
  - intros y Hy Hp. destruct (Nat.eq_dec y r) as [->|Hyr].
    + unfold dof. rewrite Hrd by auto. split; [auto|]. intros p j Hj.
      rewrite (ln_size _ _ _ _ _ L) by (exists a, n0; auto).
      assert (Hs : st_ <= size t0 self).
      { unfold start. destruct (kids t0 self) eqn:E; [rewrite firstn_nil; unfold sum_sizes; simpl; apply size_nonneg; auto|].
        rewrite (kids_size t0 self W0) by congruence. rewrite <- E. rewrite <- (firstn_skipn k (kids t0 self)) at 2.
        rewrite sum_sizes_app. pose proof (sum_sizes_nonneg t0 W0 (skipn k (kids t0 self))). lia. }
      apply Hlk in Hj as [[H1 H2]|[[H1 H2]|H1]].
      * apply (io_dict _ _ I0 r Hr Hpr) in H2. lia.
      * apply (io_dict _ _ I0 r Hr Hpr) in H2. lia.
      * apply (io_dict _ _ I0 param Hparam (ln_root _ _ _ _ _ L)) in H1. lia.
    + assert (Hp0 : par t0 y = None) by (apply at_root; auto).
      assert (Hy0 : (y < next t0)%nat) by congruence.
      assert (rid i0 y <> rid i0 r) by (intros E; apply Hyr; eapply (io_inj _ _ I0); eauto).
      unfold dof. rewrite Hrd by auto. rewrite Hd1 by auto.
      rewrite (ln_size' _ _ _ _ _ L). { apply (io_dict _ _ I0); auto. }
      intros Ha. apply Hyr. apply (roots_eq t0 r y self); auto. exists a, n0; auto.
Qed.

(** Objects that the linked object is not put below see what they saw. *)
Lemma attach_has_same : forall y p j, (y < next t0)%nat -> ~ above t0 y self -> (hasi i1 y p j <-> hasi i0 y p j).
Proof.
  intros y p j Hy Hna. pose proof attach_ioinv as I1. pose proof at_r_lt as Hr. pose proof at_r1 as Hr1.
  assert (Hnn : 0 <= n) by (apply size_nonneg; auto).
  assert (Hsz : size t1 y = size t0 y) by (apply (ln_size' _ _ _ _ _ L); auto).
  destruct (root_exists t0 y W0) as (q & o & m & _ & Hq & Bq).
  assert (Hql : (q < next t0)%nat) by (eapply root_lt; eauto).
  assert (Hdi : forall z, (z < next t0)%nat -> par t0 z = None -> z <> param -> rid i1 z = rid i0 z).
  { intros z Hz Hp Hne. unfold rid. rewrite Hv0; auto. destruct (Nat.eq_dec z r) as [|Hne']; auto. right. intros Ha.
    apply Hne'. symmetry. eapply above_root; eauto. apply at_root; auto. }
  rewrite (has_below t0 i0 q y o m p j W0 I0 Hql Hq Bq).
  destruct (below_range _ _ _ _ _ W0 Bq) as [R1 R2].
  assert (Hdp : forall z, (z < next t0)%nat -> par t0 z = None -> z <> param -> z <> r -> dof i1 z = dof i0 z).
  { intros z Hz Hp Hne Hne'. unfold dof. rewrite Hdi by auto. apply Hd1. intros E. apply Hne'. eapply (io_inj _ _ I0); eauto. }
  destruct (Nat.eq_dec q param) as [->|Hqp].
  - (* the linked object itself *)
    pose proof (below_new t0 t1 self param k W0 L Hnot r a n0 y o m Br Bq) as B1.
    rewrite (has_below t1 i1 r y _ _ p j W1 I1 ltac:(congruence) Hr1 B1). rewrite Hsz.
    unfold dof at 1. rewrite (Hdi r) by auto using at_param_r. rewrite Hlk.
    assert (Hbd : forall j, In j (lk (dof i0 r) p) -> 0 <= j < size t0 r) by (intros; eapply (io_dict _ _ I0 r); eauto).
    replace (j + (a + st_ + o) - a - st_) with (j + o) by lia. split.
    + intros [[[H _]|[[H _]|H]] H']; try lia. auto.
    + intros [H1 H2]. split; auto.
  - destruct (Nat.eq_dec q r) as [->|Hqr].
    + unfold dof at 1.
      destruct (below_cases t0 t1 self param k W0 L Hnot r a n0 Br y o m Bq) as [[A1 A2]|[[A1 [A2 A3]]|[A1 [A2 A3]]]]; [tauto| |].
      * rewrite (has_below t1 i1 r y _ _ p j W1 I1 ltac:(congruence) Hr1 A3). rewrite Hsz.
        unfold dof at 1. rewrite (Hdi r) by auto. rewrite Hlk. split.
        -- intros [[[H1 H2]|[[H1 H2]|H1]] H']; auto; [lia|]. apply (io_dict _ _ I0 param Hparam (ln_root _ _ _ _ _ L)) in H1. lia.
        -- intros [H1 H2]. split; auto. left. split; auto. lia.
      * rewrite (has_below t1 i1 r y _ _ p j W1 I1 ltac:(congruence) Hr1 A3). rewrite Hsz.
        unfold dof at 1. rewrite (Hdi r) by auto. rewrite Hlk. replace (j + (o + n) - n) with (j + o) by lia. split.
        -- intros [[[H1 H2]|[[H1 H2]|H1]] H']; auto; [lia|]. apply (io_dict _ _ I0 param Hparam (ln_root _ _ _ _ _ L)) in H1. lia.
        -- intros [H1 H2]. split; auto. right. left. split; auto. lia.
    + assert (Hqs : ~ above t0 q self).
      { intros Ha. apply Hqr. apply (roots_eq t0 r q self); auto. exists a, n0; auto. }
      pose proof (below_same t0 t1 self param k L q y o m Hqs Bq) as B1.
      rewrite (has_below t1 i1 q y _ _ p j W1 I1 ltac:(congruence) ltac:(apply at_root; auto) B1).
      rewrite Hsz, Hdp; auto. tauto.
Qed.

(** The others see the new elements at the place of the linked object. *)
Lemma attach_has_above : forall z b m p j, below t0 z self b m ->
  (hasi i1 z p j <-> (j < b + st_ /\ hasi i0 z p j) \/
                     (b + st_ <= j < b + st_ + n /\ hasi i0 param p (j - b - st_)) \/
                     (b + st_ + n <= j /\ hasi i0 z p (j - n))).
Proof.
  intros z b m p j Bz. pose proof attach_ioinv as I1. pose proof at_r_lt as Hr. pose proof at_r1 as Hr1.
  assert (Hnn : 0 <= n) by (apply size_nonneg; auto).
  assert (Hzl : (z < next t0)%nat) by (eapply root_lt; eauto).
  destruct (root_exists t0 z W0) as (q & o & m' & _ & Hq & Bq).
  pose proof (below_trans _ _ _ _ _ _ _ _ Bq Bz) as Bqs.
  assert (q = r) as ->.
  { apply (roots_eq t0 r q self); auto; [exists a, n0; auto | eexists; eexists; eauto]. }
  destruct (below_unique _ _ _ _ _ _ _ W0 Br Bqs) as [Ea _].
  assert (Hz : above t0 z self) by (exists b, m; auto).
  assert (B1 : below t1 r z o m').
  { destruct (below_cases t0 t1 self param k W0 L Hnot r a n0 Br z o m' Bq) as [[A1 A2]|[[A1 _]|[A1 _]]]; tauto. }
  rewrite (has_below t1 i1 r z _ _ p j W1 I1 ltac:(congruence) Hr1 B1).
  rewrite (has_below t0 i0 r z _ _ p j W0 I0 Hr Hpr Bq), (has_below t0 i0 r z _ _ p (j - n) W0 I0 Hr Hpr Bq).
  rewrite (has_below t0 i0 param param 0 0 p _ W0 I0 Hparam (ln_root _ _ _ _ _ L) (below_refl _ _)).
  rewrite (ln_size _ _ _ _ _ L) by auto.
  assert (Hrd : dof i1 r = dicts i1 (rid i0 r)) by (unfold dof, rid; rewrite (Hv0 r); auto).
  rewrite Hrd, Hlk.
  destruct (below_range _ _ _ _ _ W0 Bq) as [R1 R2]. destruct (below_range _ _ _ _ _ W0 Bz) as [R3 R4].
  assert (Hst : 0 <= st_) by (unfold start; apply sum_sizes_nonneg; auto).
  assert (Hs : st_ <= size t0 self).
  { unfold start. destruct (kids t0 self) eqn:E; [rewrite firstn_nil; unfold sum_sizes; simpl; apply size_nonneg; auto|].
    rewrite (kids_size t0 self W0) by congruence. rewrite <- E. rewrite <- (firstn_skipn k (kids t0 self)) at 2.
    rewrite sum_sizes_app. pose proof (sum_sizes_nonneg t0 W0 (skipn k (kids t0 self))). lia. }
  replace (j + o - a - st_) with (j - b - st_ + 0) by lia. replace (j + o - n) with (j - n + o) by lia.
  split.
  - intros [[[H1 H2]|[[H1 H2]|H1]] H'].
    + left. split; [lia|]. split; [auto|lia].
    + right. right. split; [lia|]. split; [auto | lia].
    + right. left. assert (H1' := H1). apply (io_dict _ _ I0 param Hparam (ln_root _ _ _ _ _ L)) in H1'. split; [lia|]. split; auto. lia.
  - intros [[H1 [H2 H3]]|[[H1 [H2 H3]]|[H1 [H2 H3]]]]; split; try lia; [left | right; right | right; left]; auto; split; auto; lia.
Qed.
End Attach.

(** ** Unlinking: [t1] is the hierarchy before, [t0] after. *)
Section Detach.
Variables (t0 t1 : struct) (self param r : oid) (k : nat) (a : Z) (n0 : nat).
Hypothesis W0 : swf t0.
Hypothesis W1 : swf t1.
Hypothesis L : linked t0 t1 self param k.
Hypothesis Hnot : ~ above t0 param self.
Hypothesis Hnext : next t1 = next t0.
Hypothesis Hself : (self < next t0)%nat.
Hypothesis Hparam : (param < next t0)%nat.
Hypothesis Hpr : par t0 r = None.
Hypothesis Br : below t0 r self a n0.
Notation n := (size t0 param).
Notation st_ := (start t0 self k).
Variables (i1 i0 : iost).
Hypothesis I1 : ioinv t1 i1.
Hypothesis Hn1 : nrid i0 = S (nrid i1).
Hypothesis Hd1 : forall b, b <> rid i1 r -> b <> nrid i1 -> dicts i0 b = dicts i1 b.
Hypothesis Hw1 : dwf (dicts i0 (rid i1 r)).
Hypothesis Hw2 : dwf (dicts i0 (nrid i1)).
Hypothesis Hlk : forall p j, In j (lk (dicts i0 (rid i1 r)) p) <->
  (j < a + st_ /\ In j (lk (dof i1 r) p)) \/ (a + st_ <= j /\ In (j + n) (lk (dof i1 r) p)).
Hypothesis Hlk2 : forall p j, In j (lk (dicts i0 (nrid i1)) p) <-> 0 <= j < n /\ In (j + a + st_) (lk (dof i1 r) p).
Hypothesis Hv1 : forall y o m, below t0 r y o m -> y <> r -> iop i0 y = (rid i1 r, View Root o (size t0 y)).
Hypothesis Hv2 : forall y o m, below t0 param y o m -> y <> param -> iop i0 y = (nrid i1, View Root o (size t0 y)).
Hypothesis Hv3 : iop i0 param = (nrid i1, Root).
Hypothesis Hv0 : forall y, (y < next t0)%nat -> (y = r \/ ~ above t0 r y) -> ~ above t0 param y -> iop i0 y = iop i1 y.

Let Hpr0 : param <> r.
Proof. intros E. apply Hnot. rewrite E. exists a, n0; auto. Qed.
Let Hr : (r < next t0)%nat.
Proof. eapply root_lt; eauto. Qed.
Let Hr1 : par t1 r = None.
Proof. apply (at_root t0 t1 self param k W0 W1 L). auto. Qed.

Lemma detach_base : below t1 r self a n0.
Proof.
  destruct (below_cases t0 t1 self param k W0 L Hnot r a n0 Br self a n0 Br) as [[_ A]|[[A _]|[A _]]]; auto; exfalso; apply A, above_refl.
Qed.
Lemma detach_st : st_ <= size t0 self.
Proof.
  unfold start. destruct (kids t0 self) eqn:E; [rewrite firstn_nil; unfold sum_sizes; simpl; apply size_nonneg; auto|].
  rewrite (kids_size t0 self W0) by congruence. rewrite <- E. rewrite <- (firstn_skipn k (kids t0 self)) at 2.
  rewrite sum_sizes_app. pose proof (sum_sizes_nonneg t0 W0 (skipn k (kids t0 self))). lia.
Qed.
Lemma detach_rid : forall y, (y < next t0)%nat -> par t0 y = None -> y <> param -> iop i0 y = iop i1 y.
Proof.
  intros y Hy Hp Hne. apply Hv0; auto.
  - destruct (Nat.eq_dec y r) as [|Hn]; auto. right. intros Ha. apply Hn. symmetry. exact (above_root t0 r y W0 Ha Hp).
  - intros Ha. apply Hne. symmetry. exact (above_root t0 param y W0 Ha Hp).
Qed.
Lemma detach_root1 : forall y, par t0 y = None -> y <> param -> par t1 y = None.
Proof. intros y Hp Hne. apply (at_root t0 t1 self param k W0 W1 L). auto. Qed.

Lemma detach_ioinv : ioinv t0 i0.
Proof.
  assert (Hnn : 0 <= n) by (apply size_nonneg; auto).
  assert (Hst : 0 <= st_) by (unfold start; apply sum_sizes_nonneg; auto).
  pose proof detach_st as Hs.
  destruct (below_range _ _ _ _ _ W0 Br) as [R1 R2].
  assert (Hlt : forall y, (y < next t0)%nat -> (y < next t1)%nat) by (intros; congruence).
  assert (Hpp : rid i0 param = nrid i1) by (unfold rid; rewrite Hv3; auto).
  assert (Hid : forall y, (y < next t0)%nat -> par t0 y = None -> y <> param -> rid i0 y = rid i1 y).
  { intros. unfold rid. rewrite detach_rid; auto. }
  assert (Hrl : forall y, (y < next t0)%nat -> par t0 y = None -> y <> param -> (rid i1 y < nrid i1)%nat).
  { intros. apply (io_rid _ _ I1); auto. apply detach_root1; auto. }
  constructor.
  - intros y Hy Hp. destruct (Nat.eq_dec y param) as [->|Hne]; [rewrite Hv3; auto|]. rewrite detach_rid by auto.
    apply (io_root _ _ I1); auto. apply detach_root1; auto.
  - intros y Hy Hp. rewrite Hn1. destruct (Nat.eq_dec y param) as [->|Hne]; [rewrite Hpp; lia|]. rewrite Hid by auto.
    specialize (Hrl y Hy Hp Hne). lia.
  - intros y z Hy Hpy Hz Hpz E.
    destruct (Nat.eq_dec y param) as [->|Hne]; destruct (Nat.eq_dec z param) as [->|Hne']; auto.
    + exfalso. rewrite Hpp, Hid in E by auto. specialize (Hrl z Hz Hpz Hne'). lia.
    + exfalso. rewrite Hpp, Hid in E by auto. specialize (Hrl y Hy Hpy Hne). lia.
    + rewrite !Hid in E by auto. apply (io_inj _ _ I1); auto; apply detach_root1; auto.
  - intros y z o m Hy Hpy B Hne.
    destruct (Nat.eq_dec y param) as [->|Hyp]; [rewrite Hpp; eapply Hv2; eauto|].
    destruct (Nat.eq_dec y r) as [->|Hyr]; [rewrite Hid by auto; eapply Hv1; eauto|].
    rewrite Hid by auto.
    assert (Hzl : (z < next t0)%nat) by (eapply below_lt; eauto).
    assert (Hys : ~ above t0 y self).
    { intros Ha. apply Hyr. apply (roots_eq t0 r y self); auto. exists a, n0; auto. }
    rewrite Hv0; auto.
    + rewrite <- (ln_size' _ _ _ _ _ L).
      * eapply (io_view _ _ I1); eauto; [apply detach_root1; auto|]. exact (below_same t0 t1 self param k L y z o m Hys B).
      * intros Hz. apply Hys. eapply above_trans; eauto. exists o, m; auto.
    + right. intros Ha. apply Hyr. apply (roots_eq t0 r y z); auto. exists o, m; auto.
    + intros Ha. apply Hyp. apply (roots_eq t0 param y z); auto; [exists o, m; auto | apply (ln_root _ _ _ _ _ L)].
  - intros y Hy Hp. unfold dof. destruct (Nat.eq_dec y param) as [->|Hyp].
    + rewrite Hpp. split; auto. intros p j Hj. apply Hlk2 in Hj. lia.
    + destruct (Nat.eq_dec y r) as [->|Hyr].
      * rewrite Hid by auto. split; auto. intros p j Hj.
        assert (Hb : forall j, In j (lk (dof i1 r) p) -> 0 <= j < size t0 r + n).
        { intros j' Hj'. rewrite <- (ln_size _ _ _ _ _ L) by (exists a, n0; auto). eapply (io_dict _ _ I1 r); eauto. }
        apply Hlk in Hj as [[H1 H2]|[H1 H2]]; apply Hb in H2; lia.
      * rewrite Hid by auto. rewrite Hd1.
        -- rewrite <- (ln_size' _ _ _ _ _ L). { apply (io_dict _ _ I1); auto. apply detach_root1; auto. }
           intros Ha. apply Hyr. apply (roots_eq t0 r y self); auto. exists a, n0; auto.
        -- intros E. apply Hyr. apply (io_inj _ _ I1); auto. apply detach_root1; auto.
        -- specialize (Hrl y Hy Hp Hyp). lia.
Qed.

Lemma detach_has_same : forall y p j, (y < next t0)%nat -> ~ above t0 y self -> (hasi i0 y p j <-> hasi i1 y p j).
Proof.
  intros y p j Hy Hna. pose proof detach_ioinv as I0.
  assert (Hnn : 0 <= n) by (apply size_nonneg; auto).
  assert (Hlt : forall y, (y < next t0)%nat -> (y < next t1)%nat) by (intros; congruence).
  assert (Hsz : size t1 y = size t0 y) by (apply (ln_size' _ _ _ _ _ L); auto).
  destruct (root_exists t0 y W0) as (q & o & m & _ & Hq & Bq).
  assert (Hql : (q < next t0)%nat) by (eapply root_lt; eauto).
  rewrite (has_below t0 i0 q y o m p j W0 I0 Hql Hq Bq).
  destruct (below_range _ _ _ _ _ W0 Bq) as [R1 R2].
  destruct (Nat.eq_dec q param) as [->|Hqp].
  - pose proof (below_new t0 t1 self param k W0 L Hnot r a n0 y o m Br Bq) as B1.
    rewrite (has_below t1 i1 r y _ _ p j W1 I1 (Hlt r Hr) Hr1 B1). rewrite Hsz.
    unfold dof at 1. unfold rid. rewrite Hv3. cbn [fst]. rewrite Hlk2.
    replace (j + o + a + st_) with (j + (a + st_ + o)) by lia. intuition lia.
  - destruct (Nat.eq_dec q r) as [->|Hqr].
    + assert (Hdr : dof i0 r = dicts i0 (rid i1 r)) by (unfold dof, rid; rewrite detach_rid; auto).
      destruct (below_cases t0 t1 self param k W0 L Hnot r a n0 Br y o m Bq) as [[A1 A2]|[[A1 [A2 A3]]|[A1 [A2 A3]]]]; [tauto| |];
        rewrite (has_below t1 i1 r y _ _ p j W1 I1 (Hlt r Hr) Hr1 A3); rewrite Hsz, Hdr, Hlk.
      * split.
        -- intros [[[H1 H2]|[H1 H2]] H']; [auto | lia].
        -- intros [H1 H2]. split; auto. left. split; auto. lia.
      * replace (j + o + n) with (j + (o + n)) by lia. split.
        -- intros [[[H1 H2]|[H1 H2]] H']; [lia | auto].
        -- intros [H1 H2]. split; auto. right. split; auto. lia.
    + assert (Hqs : ~ above t0 q self).
      { intros Ha. apply Hqr. apply (roots_eq t0 r q self); auto. exists a, n0; auto. }
      pose proof (below_same t0 t1 self param k L q y o m Hqs Bq) as B1.
      assert (Hq1 : par t1 q = None) by (apply detach_root1; auto).
      rewrite (has_below t1 i1 q y _ _ p j W1 I1 (Hlt q Hql) Hq1 B1).
      assert (Hdq : dof i0 q = dof i1 q).
      { unfold dof, rid. rewrite detach_rid by auto. apply Hd1.
        - intros E. apply Hqr. apply (io_inj _ _ I1); auto.
        - pose proof (io_rid _ _ I1 q (Hlt q Hql) Hq1). unfold rid in *. lia. }
      rewrite Hsz, Hdq. tauto.
Qed.

Lemma detach_has_above : forall z b m p j, below t0 z self b m ->
  (hasi i0 z p j <-> (j < b + st_ /\ hasi i1 z p j) \/ (b + st_ <= j /\ hasi i1 z p (j + n))).
Proof.
  intros z b m p j Bz. pose proof detach_ioinv as I0.
  assert (Hnn : 0 <= n) by (apply size_nonneg; auto).
  assert (Hlt : forall y, (y < next t0)%nat -> (y < next t1)%nat) by (intros; congruence).
  assert (Hzl : (z < next t0)%nat) by (eapply root_lt; eauto).
  destruct (root_exists t0 z W0) as (q & o & m' & _ & Hq & Bq).
  pose proof (below_trans _ _ _ _ _ _ _ _ Bq Bz) as Bqs.
  assert (q = r) as ->.
  { apply (roots_eq t0 r q self); auto; [exists a, n0; auto | eexists; eexists; eauto]. }
  destruct (below_unique _ _ _ _ _ _ _ W0 Br Bqs) as [Ea _].
  assert (Hz : above t0 z self) by (exists b, m; auto).
  assert (B1 : below t1 r z o m').
  { destruct (below_cases t0 t1 self param k W0 L Hnot r a n0 Br z o m' Bq) as [[A1 A2]|[[A1 _]|[A1 _]]]; tauto. }
  rewrite (has_below t0 i0 r z _ _ p j W0 I0 Hr Hpr Bq).
  rewrite (has_below t1 i1 r z _ _ p j W1 I1 (Hlt r Hr) Hr1 B1), (has_below t1 i1 r z _ _ p (j + n) W1 I1 (Hlt r Hr) Hr1 B1).
  rewrite (ln_size _ _ _ _ _ L) by auto.
  assert (Hdr : dof i0 r = dicts i0 (rid i1 r)) by (unfold dof, rid; rewrite detach_rid; auto).
  rewrite Hdr, Hlk.
  destruct (below_range _ _ _ _ _ W0 Bq) as [R1 R2]. destruct (below_range _ _ _ _ _ W0 Bz) as [R3 R4].
  assert (Hst : 0 <= st_) by (unfold start; apply sum_sizes_nonneg; auto).
  pose proof detach_st as Hs.
  replace (j + o + n) with (j + n + o) by lia. split.
  - intros [[[H1 H2]|[H1 H2]] H']; [left | right]; (split; [lia | split; [auto | lia]]).
  - intros [[H1 [H2 H3]]|[H1 [H2 H3]]]; (split; [|lia]); [left | right]; split; auto; lia.
Qed.
End Detach.
