(** Proofs about the hierarchy, part 2: links and sizes. *)
From Coq Require Import List ZArith Bool Lia Arith.
From Verif Require Import NpModel NpProofs IndexOpsModel PzModel PzSpec PzTree.
Import ListNotations.
Open Scope Z_scope.

(** ** Python list operations *)
Lemma clip_nat : forall (A : Type) (l : list A) i, clip l (Z.of_nat i) = i.
Proof.
  intros. unfold clip. destruct (Z.leb_spec 0 (Z.of_nat i)); lia.
Qed.
Lemma py_nth_nat : forall (A : Type) (l : list A) i a, nth_error l i = Some a -> py_nth l (Z.of_nat i) = Ok a.
Proof.
  intros. unfold py_nth. rewrite clip_nat, H. destruct (Z.leb_spec 0 (Z.of_nat i)); [|lia].
  destruct (Z.leb_spec 0 (Z.of_nat i)); [reflexivity|lia].
Qed.
Lemma py_prefix_nat : forall (A : Type) (l : list A) i, py_prefix l (Z.of_nat i) = firstn i l.
Proof. intros. unfold py_prefix. rewrite clip_nat. reflexivity. Qed.

(** ** Walking up *)
Inductive up (st : struct) : oid -> list oid -> Prop :=
| up_root : forall x, par st x = None -> up st x [x]
| up_step : forall x p l, par st x = Some p -> up st p l -> up st x (x :: l).

Lemma up_fun : forall st x l l', up st x l -> up st x l' -> l = l'.
Proof.
  intros st x l l' H. revert l'. induction H; intros l' H'; inversion H'; subst; try congruence.
  rewrite H in H1. inversion H1; subst. f_equal; auto.
Qed.
Lemma up_frame : forall st st' x l, up st x l -> (forall y, In y l -> par st' y = par st y) -> up st' x l.
Proof.
  intros st st' x l H. induction H; intros E.
  - apply up_root. rewrite E; [auto | left; auto].
  - eapply up_step; [rewrite E; [eauto | left; auto]|]. apply IHup. intros; apply E; right; auto.
Qed.

Lemma wf_up : forall st, wf st -> forall x, exists l, up st x l.
Proof.
  intros st W. destruct (wf_rank _ W) as [rk Hrk].
  assert (B : exists M, forall x, (x < next st)%nat -> (rk x <= M)%nat).
  { exists (fold_right Nat.max 0%nat (map rk (seq 0 (next st)))). intros x Hx.
    assert (In (rk x) (map rk (seq 0 (next st)))) by (apply in_map, in_seq; lia).
    clear - H. induction (map rk (seq 0 (next st))); [destruct H|]. simpl. destruct H; [lia|].
    specialize (IHl H). lia. }
  destruct B as [M HM].
  assert (G : forall n x, (S M - rk x <= n)%nat -> exists l, up st x l).
  { induction n as [|n IH]; intros x Hn.
    - exists [x]. apply up_root. destruct (par st x) as [p|] eqn:E; [|reflexivity]. exfalso.
      assert (In x (kids st p)) by (apply (wf_par _ W); auto). apply Hrk in H.
      destruct (le_lt_dec (next st) x) as [L|L].
      + apply (wf_new _ W) in L as [_ [L _]]. congruence.
      + specialize (HM _ L). lia.
    - destruct (par st x) as [p|] eqn:E; [|exists [x]; apply up_root; auto].
      assert (In x (kids st p)) by (apply (wf_par _ W); auto). apply Hrk in H.
      assert (rk x <= M)%nat.
      { apply HM. destruct (le_lt_dec (next st) x) as [L|L]; auto.
        apply (wf_new _ W) in L as [_ [L _]]. congruence. }
      destruct (IH p) as [l Hl]; [lia|]. exists (x :: l). econstructor; eauto. }
  intros x. eapply G. apply le_n.
Qed.

Lemma up_below : forall st x l, wf st -> up st x l -> forall z, In z l <-> exists o n, below st z x o n.
Proof.
  intros st x l W H. induction H as [x H|x p l H Hup IH]; intros z.
  - split.
    + intros [<-|[]]. exists 0, 0%nat. constructor.
    + intros [o [n Hb]]. destruct (Nat.eq_dec z x) as [->|Hne]; [left; auto|].
      destruct (below_par _ (wf_par _ W) _ _ _ _ Hb Hne) as [q [_ [_ [Hq _]]]]. congruence.
  - split.
    + intros [<-|Hz]; [exists 0, 0%nat; constructor|].
      apply IH in Hz as [o [n Hb]].
      assert (Hk : In x (kids st p)) by (apply (wf_par _ W); auto).
      apply In_nth_error in Hk as [i Hi].
      exists (o + sum_sizes st (firstn i (kids st p))), (n + 1)%nat.
      eapply below_trans; eauto. apply below_one; auto.
    + intros [o [n Hb]]. destruct (Nat.eq_dec z x) as [->|Hne]; [left; auto|]. right.
      destruct (below_par _ (wf_par _ W) _ _ _ _ Hb Hne) as [q [o' [n' [Hq [Hb' _]]]]].
      rewrite H in Hq. inversion Hq; subst. apply IH. eauto.
Qed.
Lemma up_nodup : forall st x l, wf st -> up st x l -> NoDup l.
Proof.
  intros st x l W H. induction H as [x H|x p l H Hup IH]; constructor; auto.
  - constructor.
  - intros Hx. eapply up_below in Hx; eauto. destruct Hx as [o [n Hb]].
    assert (Hk : In x (kids st p)) by (apply (wf_par _ W); auto).
    apply In_nth_error in Hk as [i Hi].
    assert (Hc := below_trans _ _ _ _ _ _ _ _ (below_one _ _ _ _ Hi) Hb).
    apply wf_no_cycle in Hc as [E _]; auto. discriminate.
Qed.
Lemma up_length : forall st x l, wf st -> up st x l -> (length l <= fuel st)%nat.
Proof.
  intros st x l W H. pose proof (up_nodup _ _ _ W H) as Hnd. unfold fuel.
  destruct (le_lt_dec (next st) x) as [L|L].
  - apply (wf_new _ W) in L as [_ [L _]]. inversion H; subst; [simpl; lia | congruence].
  - assert (incl l (seq 0 (next st))).
    { intros z Hz. apply in_seq. split; [lia|]. simpl. eapply up_below in Hz as [o [n Hb]]; eauto.
      destruct (le_lt_dec (next st) z) as [L'|L']; auto.
      apply (wf_new _ W) in L' as [E _]. inversion Hb; subst; auto.
      rewrite E in H0. destruct i; discriminate. }
    apply NoDup_incl_length in H0; auto. rewrite seq_length in H0. lia.
Qed.
Lemma up_nonnil : forall st x l, up st x l -> l <> [].
Proof. intros st x l H; inversion H; discriminate. Qed.
Lemma last_cons : forall (A : Type) (l : list A) a d d', l <> [] -> last (a :: l) d = last l d'.
Proof.
  intros A l. induction l as [|b l IH]; intros a d d' H; [congruence|].
  destruct l as [|c l]; [reflexivity|]. change (last (b :: c :: l) d = last (b :: c :: l) d').
  rewrite (IH b d d'), (IH b d' d'); auto; discriminate.
Qed.
Lemma up_last : forall st x l, up st x l -> par st (last l x) = None.
Proof.
  intros st x l H. induction H; [auto|].
  rewrite (last_cons _ l x x p); auto. eapply up_nonnil; eauto.
Qed.

Lemma highest_up : forall st x l f, up st x l -> (length l <= f)%nat -> highest f st x = Ok (last l x).
Proof.
  intros st x l f H. revert f. induction H; intros f Hf; destruct f; simpl in *; try lia; rewrite H.
  - reflexivity.
  - rewrite IHup by lia. f_equal. destruct l; [exfalso; eapply up_nonnil; eauto|].
    symmetry. apply (last_cons _ (o :: l) x x p). discriminate.
Qed.

(** The top object of a hierarchy. *)
Lemma root_exists : forall st x, wf st -> exists r o n,
  highest (fuel st) st x = Ok r /\ par st r = None /\ below st r x o n.
Proof.
  intros st x W. destruct (wf_up _ W x) as [l Hl].
  pose proof (up_length _ _ _ W Hl). pose proof (up_last _ _ _ Hl).
  assert (In (last l x) l).
  { destruct l; [exfalso; eapply up_nonnil; eauto|]. clear. revert o. induction l; intros; [left; auto|].
    right. change (last (o :: a :: l) x) with (last (a :: l) x). apply IHl. }
  apply (up_below _ _ _ W Hl) in H1 as [o [n Hb]].
  exists (last l x), o, n. split; auto. apply highest_up; auto.
Qed.
Lemma highest_root : forall st r x o n, wf st -> below st r x o n -> par st r = None ->
  highest (fuel st) st x = Ok r.
Proof.
  intros st r x o n W Hb Hr. destruct (root_exists st x W) as [r' [o' [n' [H1 [H2 H3]]]]].
  rewrite H1. f_equal.
  assert (C : forall r r' o o' n n', below st r x o n -> below st r' x o' n' -> par st r = None -> (n <= n')%nat -> r' = r).
  { clear - W. intros r r' o o' n n' H1 H2 Hp Hle.
    destruct (below_comparable _ _ _ _ _ _ _ _ W H1 H2 Hle) as [k [Hk _]].
    destruct (Nat.eq_dec r' r) as [|Hne]; auto.
    destruct (below_par _ (wf_par _ W) _ _ _ _ Hk Hne) as [q [_ [_ [Hq _]]]]. congruence. }
  destruct (le_lt_dec n n'); [eapply C; [exact Hb | exact H3 | | ] | symmetry; eapply C; [exact H3 | exact Hb | |]]; auto. lia.
Qed.

(** Sizes along the way up. *)
Lemma add_size_up : forall l st x n f, up st x l -> NoDup l -> (length l <= f)%nat ->
  exists st', add_size f st (Some x) n = Ok st' /\
    (forall y, kind st' y = kind st y /\ par st' y = par st y /\ pidx st' y = pidx st y /\ kids st' y = kids st y
               /\ in_init st' y = in_init st y /\ inited st' y = inited st y) /\
    next st' = next st /\
    (forall y, In y l -> size st' y = size st y + n) /\ (forall y, ~ In y l -> size st' y = size st y).
Proof.
  induction l as [|a l IH]; intros st x n f Hup Hnd Hf; [inversion Hup|].
  destruct f as [|f]; [simpl in Hf; lia|].
  assert (a = x) by (inversion Hup; auto). subst a.
  set (st1 := set_size st x (size st x + n)).
  assert (S1 : forall y, y <> x -> size st1 y = size st y) by (intros; unfold st1; simpl; apply upd_ne; auto).
  assert (S2 : size st1 x = size st x + n) by (unfold st1; simpl; apply upd_eq).
  inversion Hup as [x' Hp|x' p l' Hp Hup']; subst.
  - exists st1. split; [simpl; rewrite Hp; destruct f; reflexivity|].
    split; [intros y; unfold st1; simpl; auto 10|]. split; [reflexivity|]. split.
    + intros y [<-|[]]. exact S2.
    + intros y Hy. apply S1. intros E; apply Hy; left; auto.
  - inversion Hnd; subst.
    destruct (IH st1 p n f) as [st' [E [F [N [G1 G2]]]]]; auto; [| |].
    + eapply up_frame; eauto.
    + simpl in Hf. lia.
    + exists st'. split.
      * simpl. rewrite Hp. exact E.
      * split; [intros y; destruct (F y) as (?&?&?&?&?&?); unfold st1 in *; simpl in *; auto 10|].
        split; [exact N|]. split.
        -- intros y [<-|Hy]; [rewrite G2; auto|]. rewrite G1 by auto. rewrite S1; auto. intros ->; auto.
        -- intros y Hy. rewrite G2 by (intros Q; apply Hy; right; auto). apply S1. intros ->; apply Hy; left; auto.
Qed.

(** ** Offsets *)
Lemma rep_sub : forall st t y, rep st t -> In y (oids t) -> exists t', root t' = y /\ rep st t' /\ incl (oids t') (oids t).
Proof.
  intros st t. induction t as [x ts IH] using tree_ind'. intros y Hr Hy.
  destruct Hy as [<-|Hy]; [exists (T x ts); split; [auto|split; [auto|intros z Hz; auto]]|].
  apply in_concat in Hy as [l [Hl Hy]]. apply in_map_iff in Hl as [c [<- Hc]].
  inversion Hr; subst. rewrite Forall_forall in *.
  destruct (IH c Hc y) as [t' [H1' [H2' H3']]]; auto. exists t'. split; auto. split; auto.
  intros z Hz. eapply in_child; eauto.
Qed.
Lemma rep_kid : forall st t p i y, rep st t -> In p (oids t) -> nth_error (kids st p) i = Some y ->
  par st y = Some p /\ pidx st y = Some (Z.of_nat i) /\ In y (oids t).
Proof.
  intros st t p i y Hr Hp Hi. destruct (rep_sub _ _ _ Hr Hp) as [t' [<- [H2 H3]]].
  destruct t' as [x ts]. inversion H2; subst. simpl in *. rewrite H1 in Hi.
  apply nth_error_map' in Hi as [c [Hi ->]]. destruct (H4 _ _ Hi). split; auto. split; auto.
  apply H3. apply nth_error_In in Hi. eapply in_child; eauto. apply oids_root.
Qed.
Lemma offs_unique : forall sz t o y a b, NoDup (oids t) -> In (y, a) (offs sz o t) -> In (y, b) (offs sz o t) -> a = b.
Proof.
  intros sz t o y a b Hnd Ha Hb. rewrite <- (offs_fst sz t o) in Hnd. revert Ha Hb.
  induction (offs sz o t) as [|[z c] l IH]; intros Ha Hb; [destruct Ha|].
  simpl in Hnd. inversion Hnd; subst. simpl in *.
  assert (N : forall d, In (y, d) l -> z <> y) by (intros d Hd ->; apply H1; apply in_map_iff; exists (y, d); auto).
  destruct Ha as [Ha|Ha], Hb as [Hb|Hb]; try (inversion Ha; inversion Hb; subst; congruence); auto.
  - inversion Ha; subst. exfalso. eapply N; eauto.
  - inversion Hb; subst. exfalso. eapply N; eauto.
Qed.

Lemma offset_ok : forall n st t y o f, rep st t -> NoDup (oids t) -> below st (root t) y o n -> y <> root t -> (n <= f)%nat ->
  offset_for f st (root t) y = Ok o.
Proof.
  induction n as [|n IH]; intros st t y o f Hr Hnd Hb Hne Hf.
  - inversion Hb; subst. congruence.
  - destruct f as [|f]; [lia|].
    apply below_last in Hb as [[_ [_ E]]|[p [i [o' [n' [Hb [Hi [-> E]]]]]]]]; [discriminate|]. inversion E; subst n'.
    assert (Hp : In p (oids t)) by (apply (oids_below st); eauto).
    destruct (rep_kid _ _ _ _ _ Hr Hp Hi) as [P1 [P2 P3]].
    simpl. rewrite P1, P2. rewrite (py_nth_nat _ _ _ _ Hi). simpl.
    destruct (omem y (kids st (root t))) eqn:Em.
    + rewrite P2. apply omem_In in Em. apply In_nth_error in Em as [j Hj].
      destruct (rep_kid _ _ _ _ _ Hr (oids_root t) Hj) as [Q1 [Q2 _]].
      rewrite P1 in Q1. inversion Q1; subst p. rewrite P2 in Q2. inversion Q2. assert (i = j) by lia. subst j.
      assert (o' = 0).
      { eapply (offs_unique (size st) t 0 (root t)); eauto.
        - eapply below_offs; eauto.
        - destruct t; rewrite offs_eq; left; reflexivity. }
      subst. rewrite py_prefix_nat. reflexivity.
    + assert (p <> root t).
      { intros ->. apply omem_false in Em. apply Em. eapply nth_error_In; eauto. }
      rewrite (IH st t p o' f); auto; [|lia]. simpl.
      destruct f as [|f]; [destruct n; [inversion Hb; subst; congruence | lia]|].
      simpl. rewrite P1, P2. rewrite (py_nth_nat _ _ _ _ Hi). simpl.
      assert (Em' : omem y (kids st p) = true) by (apply omem_In; eapply nth_error_In; eauto).
      rewrite Em', P2. rewrite py_prefix_nat. reflexivity.
Qed.
Lemma offset_offs : forall st t y o f, rep st t -> NoDup (oids t) -> In (y, o) (offs (size st) 0 t) -> y <> root t -> (height t <= S f)%nat ->
  offset_for f st (root t) y = Ok o.
Proof.
  intros st t y o f Hr Hnd Hin Hne Hf. apply offs_below in Hin as [n [Hn Hb]]; auto.
  eapply offset_ok; eauto. lia.
Qed.
