(** Proofs about the hierarchy, part 13: [traverse] and [traverse_parents]. *)
From Coq Require Import List ZArith Bool Lia Arith.
From Verif Require Import NpModel NpProofs IndexOpsModel IndexOpsSpec IndexOpsProofs PzModel PzSpec PzTree PzStruct PzLink PzWalk PzMem PzIo PzInv PzConn.
Import ListNotations.
Open Scope Z_scope.

(** The objects of a tree that can be reached without passing a marked one, parents first. *)
Fixpoint prune (v : oid -> bool) (t : tree) : list oid :=
  match t with T x ts => if v x then [] else x :: concat (map (prune v) ts) end.

Lemma prune_ext : forall v v' t, (forall y, In y (oids t) -> v y = v' y) -> prune v t = prune v' t.
Proof.
  intros v v'. fix IH 1. intros [x ts] H. cbn [prune]. rewrite <- (H x) by (left; auto). destruct (v x); auto. f_equal. f_equal.
  assert (G : forall y, In y (concat (map oids ts)) -> v y = v' y) by (intros y Hy; apply H; right; auto).
  clear H. induction ts as [|c l IHl]; auto. simpl in G. cbn [map]. f_equal.
  - apply IH. intros y Hy. apply G. apply in_or_app; auto.
  - apply IHl. intros y Hy. apply G. apply in_or_app; auto.
Qed.
Lemma prune_all : forall v t, (forall y, In y (oids t) -> v y = false) -> prune v t = oids t.
Proof.
  intros v. fix IH 1. intros [x ts] H. cbn [prune oids]. rewrite H by (left; auto). f_equal. f_equal.
  assert (G : forall y, In y (concat (map oids ts)) -> v y = false) by (intros y Hy; apply H; right; auto).
  clear H. induction ts as [|c l IHl]; auto. simpl in G. cbn [map]. f_equal.
  - apply IH. intros y Hy. apply G. apply in_or_app; auto.
  - apply IHl. intros y Hy. apply G. apply in_or_app; auto.
Qed.
Lemma prune_incl : forall v t y, In y (prune v t) -> In y (oids t).
Proof.
  intros v. fix IH 1. intros [x ts] y. cbn [prune oids]. destruct (v x); [intros []|]. intros [->|H]; [left; auto | right].
  induction ts as [|c l IHl]; simpl in *; [auto|]. apply in_app_or in H. apply in_or_app. destruct H; [left | right; auto].
  apply IH; auto.
Qed.
Lemma prune_above : forall st v t y, swf st -> krep st t ->
  (In y (prune v t) <-> above st (root t) y /\ forall z, above st (root t) z -> above st z y -> v z = false).
Proof.
  intros st v t y W. revert y.
  assert (G : forall n t, (height t <= n)%nat -> krep st t -> forall y,
    In y (prune v t) <-> above st (root t) y /\ forall z, above st (root t) z -> above st z y -> v z = false).
  2:{ intros y H. apply (G (height t) t (le_n _)); auto. }
  clear t. induction n as [|n IH]; intros [x ts] Hh K y; [simpl in Hh; lia|].
  assert (Hc : forall c, In c ts -> forall y, In y (prune v c) <-> above st (root c) y /\ forall z, above st (root c) z -> above st z y -> v z = false).
  { intros c Hc. apply IH; [|inversion K as [? ? ? F]; subst; rewrite Forall_forall in F; auto].
    simpl in Hh. assert (height c <= fold_right Nat.max 0 (map height ts))%nat; [|lia].
    clear - Hc. induction ts as [|d l IHl]; [contradiction|]. simpl. destruct Hc as [->|Hc]; [lia | specialize (IHl Hc); lia]. }
  assert (Ek : kids st x = map root ts) by (inversion K; auto).
  cbn [prune root]. destruct (v x) eqn:Ev.
  - split; [intros []|]. intros [A B]. rewrite (B x (above_refl _ _) A) in Ev. discriminate.
  - cbn [In]. rewrite in_concat. split.
    + intros [<-|[l [Hl Hy]]].
      * split; [apply above_refl|]. intros z A B. rewrite <- (above_antisym st x z W A B). auto.
      * apply in_map_iff in Hl as [c [<- Hc']]. apply (Hc c Hc') in Hy as [A B].
        assert (Hk : In (root c) (kids st x)) by (rewrite Ek; apply in_map; auto).
        split; [apply above_trans with (root c); auto; apply above_kid; auto|].
        intros z Hz Hzy. destruct (Nat.eq_dec z x) as [->|Hne]; auto. apply B; auto.
        destruct A as [o [m A]]. destruct Hzy as [o' [m' A']]. destruct (Nat.le_ge_cases m' m) as [L|L].
        -- destruct (below_comparable _ _ _ _ _ _ _ _ W A' A L) as [q [Bq _]]. eexists; eexists; eauto.
        -- destruct (below_comparable _ _ _ _ _ _ _ _ W A A' L) as [q [Bq _]].
           destruct (Nat.eq_dec z (root c)) as [->|Hne2]; [apply above_refl|]. exfalso. apply Hne.
           apply (above_antisym st); auto. apply (above_par st z (root c) x W); auto; [eexists; eexists; eauto|].
           apply (PzTree.wf_par st W); auto.
    + intros [[o [m A]] B]. inversion A as [|? i c ? o' m' Hi A']; subst; [left; auto|]. right.
      rewrite Ek in Hi. apply nth_error_In in Hi. apply in_map_iff in Hi as [c' [E Hc']]. subst c.
      exists (prune v c'). split; [apply in_map; auto|]. apply (Hc c' Hc'). split; [eexists; eexists; eauto|].
      intros z Hz Hzy. apply B; auto. apply above_trans with (root c'); auto. apply above_kid. rewrite Ek. apply in_map; auto.
Qed.

Lemma NoDup_app_intro' : forall (A : Type) (a b : list A), NoDup a -> NoDup b -> (forall x, In x a -> ~ In x b) -> NoDup (a ++ b).
Proof.
  induction a as [|x a IH]; intros b Ha Hb H; simpl; auto. inversion Ha; subst. constructor.
  - rewrite in_app_iff. intros [Q|Q]; [auto|]. apply (H x); [left; auto | auto].
  - apply IH; auto. intros y Hy. apply H. right; auto.
Qed.

Section Tr.
Context {V : Type}.
Implicit Types n : @ntst V.

(** Everything but the marks of a traversal. *)
Definition nrest n n' : Prop :=
  passes n' = passes n /\ updates n' = updates n /\ copied n' = copied n /\ fresh n' = fresh n /\ trace n' = trace n.
Definition nsame n n' : Prop := nrest n n' /\ forall y, visited n' y = visited n y.
Lemma nrest_refl : forall n, nrest n n.
Proof. repeat split. Qed.
Lemma nrest_trans : forall a b c, nrest a b -> nrest b c -> nrest a c.
Proof. unfold nrest. intros a b c (A1 & A2 & A3 & A4 & A5) (B1 & B2 & B3 & B4 & B5). repeat split; congruence. Qed.
Lemma nsame_refl : forall n, nsame n n.
Proof. split; [apply nrest_refl | auto]. Qed.
Lemma nsame_trans : forall a b c, nsame a b -> nsame b c -> nsame a c.
Proof. intros a b c [A1 A2] [B1 B2]. split; [eapply nrest_trans; eauto | intros; congruence]. Qed.
Lemma nrest_set : forall n x v, nrest n (set_visited n x v).
Proof. repeat split. Qed.

Lemma traverse_spec : forall f st stop t n seen, (height t <= f)%nat -> krep st t -> NoDup (oids t) ->
  exists n' seen' e, traverse f st stop (root t) (n, seen) = (n', seen', e) /\ nrest n n' /\
    ((forall y, In y (prune (visited n) t) -> stop y = false) ->
       e = None /\ seen' = rev (prune (visited n) t) ++ seen /\ nsame n n') /\
    ((exists y, In y (prune (visited n) t) /\ stop y = true) -> e = Some HierarchyError).
Proof.
  induction f as [|f IH]; intros st stop [x ts] n seen Hh K Nd; [simpl in Hh; lia|].
  cbn [traverse root]. cbn [prune]. destruct (visited n x) eqn:Ev.
  { exists n, seen, None. split; auto. split; [apply nrest_refl|]. split; [intros _; split; auto; split; auto; apply nsame_refl|]. intros [y [[] _]]. }
  destruct (stop x) eqn:Es.
  { exists n, seen, (Some HierarchyError). split; auto. split; [apply nrest_refl|]. split; auto. intros H. rewrite H in Es by (left; auto). discriminate. }
  rewrite (krep_kids _ _ _ K).
  assert (Hx : ~ In x (concat (map oids ts))) by (simpl in Nd; inversion Nd; auto).
  assert (Ndt : NoDup (concat (map oids ts))) by (simpl in Nd; inversion Nd; auto).
  set (g := fun (a : ntst * list oid * option exn) c => match a with (s', None) => traverse f st stop c s' | _ => a end).
  assert (Stuck : forall l s e, fold_left g l (s, Some e) = (s, Some e)).
  { induction l as [|c l IHl]; intros s e; auto. simpl. apply IHl. }
  assert (G : forall l n0 seen0, incl l ts -> NoDup (concat (map oids l)) -> (forall y, In y (concat (map oids l)) -> visited n0 y = visited n y) ->
    exists n' seen' e, fold_left g (map root l) ((n0, seen0), None) = ((n', seen'), e) /\ nrest n0 n' /\
      ((forall y, In y (concat (map (prune (visited n)) l)) -> stop y = false) ->
          e = None /\ seen' = rev (concat (map (prune (visited n)) l)) ++ seen0 /\ nsame n0 n') /\
      ((exists y, In y (concat (map (prune (visited n)) l)) /\ stop y = true) -> e = Some HierarchyError)).
  { induction l as [|c l IHl]; intros n0 seen0 Hin Hnd Hv.
    - exists n0, seen0, None. split; auto. split; [apply nrest_refl|]. split; [intros _; split; auto; split; auto; apply nsame_refl|]. intros [y [[] _]].
    - cbn [map fold_left concat]. cbn [map concat] in Hnd, Hv.
      assert (Hcin : In c ts) by (apply Hin; left; auto).
      assert (Hhc : (height c <= f)%nat).
      { simpl in Hh. assert (height c <= fold_right Nat.max 0 (map height ts))%nat; [|lia].
        clear - Hcin. induction ts as [|d l' IHl']; [contradiction|]. simpl. destruct Hcin as [->|Hc]; [lia | specialize (IHl' Hc); lia]. }
      pose proof (nodup_app _ _ _ Hnd) as (N1 & N2 & N3).
      destruct (IH st stop c n0 seen0 Hhc (krep_child _ _ _ _ K Hcin) N1) as (n1 & seen1 & e1 & E1 & R1 & A1 & B1).
      assert (Ep : prune (visited n0) c = prune (visited n) c) by (apply prune_ext; intros; apply Hv; apply in_or_app; auto).
      rewrite Ep in A1, B1. unfold g at 2. rewrite E1.
      destruct (existsb stop (prune (visited n) c)) eqn:Ex.
      + assert (Q : exists y, In y (prune (visited n) c) /\ stop y = true) by (apply existsb_exists; auto).
        rewrite (B1 Q). rewrite Stuck. exists n1, seen1, (Some HierarchyError). split; auto. split; auto. split; auto.
        intros H. destruct Q as [y [Q1 Q2]]. rewrite H in Q2 by (apply in_or_app; auto). discriminate.
      + assert (Q : forall y, In y (prune (visited n) c) -> stop y = false).
        { intros y Hy. destruct (stop y) eqn:E; auto. assert (existsb stop (prune (visited n) c) = true) by (apply existsb_exists; eauto). congruence. }
        destruct (A1 Q) as (-> & -> & S1).
        destruct (IHl n1 (rev (prune (visited n) c) ++ seen0)) as (n2 & seen2 & e2 & E2 & R2 & A2 & B2); auto.
        { intros d Hd. apply Hin. right; auto. }
        { intros y Hy. rewrite (proj2 S1). apply Hv. apply in_or_app; auto. }
        exists n2, seen2, e2. split; [exact E2|]. split; [eapply nrest_trans; eauto|]. split.
        * intros H. destruct A2 as (-> & -> & S2); [intros y Hy; apply H; apply in_or_app; auto|].
          split; auto. split; [rewrite rev_app_distr, app_assoc; auto | eapply nsame_trans; eauto].
        * intros [y [H1 H2]]. apply B2. exists y. split; auto. apply in_app_or in H1 as [H1|H1]; auto. rewrite (Q y H1) in H2. discriminate. }
  destruct (G ts (set_visited n x true) (x :: seen)) as (n' & seen' & e & E & R & A & B).
  { apply incl_refl. } { auto. }
  { intros y Hy. simpl. unfold upd. destruct (Nat.eqb_spec y x) as [->|]; auto. contradiction. }
  change ((fun (a : ntst * list oid * option exn) (c : oid) => match a with (s', None) => traverse f st stop c s' | (_, Some _) => a end)) with g.
  rewrite E. destruct e as [e|].
  - exists n', seen', (Some e). split; auto. split; [eapply nrest_trans; [apply nrest_set | eauto]|]. split.
    + intros H. destruct A as (Q & _); [intros y Hy; apply H; right; auto | discriminate].
    + intros [y [[<-|H1] H2]]; [congruence|]. apply B. eauto.
  - exists (set_visited n' x false), seen', None. split; auto. split; [eapply nrest_trans; [|apply nrest_set]; eapply nrest_trans; [apply nrest_set | eauto]|]. split.
    + intros H. destruct A as (_ & -> & S); [intros y Hy; apply H; right; auto|]. split; auto. split.
      * cbn [rev]. rewrite <- app_assoc. reflexivity.
      * split; [eapply nrest_trans; [|apply nrest_set]; eapply nrest_trans; [apply nrest_set | eauto]|].
        intros y. simpl. unfold upd. destruct (Nat.eqb_spec y x) as [->|Hne]; auto. rewrite (proj2 S). simpl. rewrite upd_ne; auto.
    + intros [y [[<-|H1] H2]]; [congruence|]. assert (None = Some HierarchyError) by (apply B; eauto). discriminate.
Qed.

(** In a well-formed hierarchy without marks. *)
Lemma traverse_wf : forall st stop x n seen, swf st -> (forall y, visited n y = false) ->
  exists tr, root tr = x /\ rep st tr /\ NoDup (oids tr) /\ (forall y, In y (oids tr) <-> above st x y) /\
  exists n' seen' e, traverse (fuel st) st stop x (n, seen) = (n', seen', e) /\ nrest n n' /\
    ((forall y, above st x y -> stop y = false) -> e = None /\ seen' = rev (oids tr) ++ seen /\ nsame n n') /\
    ((exists y, above st x y /\ stop y = true) -> e = Some HierarchyError).
Proof.
  intros st stop x n seen W Hv. destruct (tree_exists st W x) as [tr [E [R N]]].
  exists tr. split; auto. split; auto. split; auto.
  assert (Ho : forall y, In y (oids tr) <-> above st x y) by (intros y; rewrite <- E; apply koids_below; apply rep_krep; auto).
  split; auto.
  destruct (traverse_spec (fuel st) st stop tr n seen (rep_new_height _ _ W R N) (rep_krep _ _ R) N) as (n' & seen' & e & E1 & R1 & A & B).
  rewrite prune_all in A, B by auto. rewrite E in E1.
  exists n', seen', e. split; auto. split; auto. split.
  - intros H. apply A. intros y Hy. apply H, Ho; auto.
  - intros [y [H1 H2]]. apply B. exists y. split; auto. apply Ho; auto.
Qed.

Lemma traverse_parents_spec : forall f st stop x l n seen, swf st -> up st x l -> (length l <= f)%nat ->
  (forall y, ~ above st x y -> visited n y = false) -> visited n x = false ->
  exists n' seen' e, traverse_parents f st stop x (n, seen) = (n', seen', e) /\ nrest n n' /\
    ((forall r y, par st r = None -> above st r x -> above st r y -> ~ above st x y -> stop y = false) -> e = None /\ nsame n n' /\
       exists vs, seen' = vs ++ seen /\ NoDup vs /\ forall y, In y vs <-> ~ above st x y /\ exists r, par st r = None /\ above st r x /\ above st r y) /\
    ((exists r y, par st r = None /\ above st r x /\ above st r y /\ ~ above st x y /\ stop y = true) -> e = Some HierarchyError).
Proof.
  intros f st stop x l n seen W Hup. revert f n seen. induction Hup as [x Hp|x p l Hp Hup IH]; intros f n seen Hl Hv Hvx.
  - destruct f as [|f]; [simpl in Hl; lia|]. cbn [traverse_parents]. rewrite Hp.
    assert (Hone : forall r y, par st r = None -> above st r x -> above st r y -> above st x y).
    { intros r y _ H1 H2. apply (above_root st r x W) in H1; auto. subst; auto. }
    exists n, seen, None. split; auto. split; [apply nrest_refl|]. split.
    + intros _. split; auto. split; [apply nsame_refl|]. exists []. split; auto. split; [constructor|].
      intros y. split; [intros [] | intros [H1 [r [H2 [H3 H4]]]]]. exfalso. eauto.
    + intros (r & y & H1 & H2 & H3 & H4 & _). exfalso. eauto.
  - destruct f as [|f]; [simpl in Hl; lia|]. cbn [traverse_parents]. rewrite Hp.
    assert (Hpx : In x (kids st p)) by (apply (PzTree.wf_par st W); auto).
    assert (Hapx : above st p x) by (apply above_kid; auto).
    assert (Hnpx : ~ above st x p) by (intros Q; exact (no_self_kid st x p W Q Hpx)).
    set (n1 := set_visited n x true).
    destruct (IH f n1 seen) as (n2 & seen2 & e2 & E2 & R2 & A2 & B2).
    { simpl in Hl; lia. }
    { intros y Hy. simpl. rewrite upd_ne; [apply Hv; intros Q; apply Hy; eapply above_trans; eauto | intros ->; auto]. }
    { simpl. rewrite upd_ne; [apply Hv; auto | intros ->; apply Hnpx, above_refl]. }
    rewrite E2.
    assert (Hrt : forall r, above st r x -> par st r = None -> above st r p).
    { intros r H1 H2. apply (above_par st r x p W); auto. intros ->. congruence. }
    assert (Hsplit : forall r y, par st r = None -> above st r x -> above st r y -> ~ above st x y -> above st p y \/ ~ above st p y) by (intros; destruct (above_dec st p y W); auto).
    destruct (above_dec st p p W) as [_|Q]; [|exfalso; apply Q, above_refl].
    set (P := forall r y, par st r = None -> above st r p -> above st r y -> ~ above st p y -> stop y = false) in *.
    destruct (tree_exists st W p) as [tr [Et [Rt Nt]]].
    assert (Dec : e2 = Some HierarchyError /\ nrest n n2 \/
      (e2 = None /\ nsame n1 n2 /\ P)).
    { destruct e2 as [e|].
      - left. assert (Ee : e = HierarchyError).
        { destruct e; auto; exfalso; (assert (Q : P); [|destruct (A2 Q) as [Q1 _]; discriminate]);
            intros r y H1 H2 H3 H4; destruct (stop y) eqn:Es; auto; discriminate B2; exists r, y; auto. }
        subst e. split; [reflexivity|]. eapply nrest_trans; [|eauto]. apply nrest_set.
      - right. assert (Q : P).
        { intros r y H1 H2 H3 H4. destruct (stop y) eqn:Es; auto. assert (Q1 : None = Some HierarchyError) by (apply B2; exists r, y; auto). discriminate. }
        destruct (A2 Q) as (_ & S & _). auto. }
    assert (Hup_ : forall r, above st r p -> above st r x) by (intros r Q; eapply above_trans; eauto).
    destruct Dec as [[-> Rn]|(-> & S12 & HP)].
    + exists n2, seen2, (Some HierarchyError). split; auto. split; auto. split; auto.
      intros H. assert (Q : P).
      { intros r y H1 H2 H3 H4. apply (H r y); auto. intros Q. apply H4. eapply above_trans; eauto. }
      destruct (A2 Q) as [Q1 _]. discriminate.
    + destruct (A2 HP) as (_ & _ & vs & -> & Nvs & Hvs).
      destruct (traverse_spec (fuel st) st stop tr n2 (vs ++ seen) (rep_new_height _ _ W Rt Nt) (rep_krep _ _ Rt) Nt) as (n3 & seen3 & e3 & E3 & R3 & A3 & B3).
      rewrite Et in E3. rewrite E3.
      assert (Hpr : forall y, In y (prune (visited n2) tr) <-> above st p y /\ ~ above st x y).
      { intros y. rewrite (prune_above st _ tr y W (rep_krep _ _ Rt)), Et. split.
        - intros [Q1 Q2]. split; auto. intros Q. specialize (Q2 x Hapx Q). rewrite (proj2 S12) in Q2. simpl in Q2. rewrite upd_eq in Q2. discriminate.
        - intros [Q1 Q2]. split; auto. intros z Hz Hzy. rewrite (proj2 S12). simpl. rewrite upd_ne; [apply Hv|]; [intros Q; apply Q2; eapply above_trans; eauto | intros ->; auto]. }
      destruct e3 as [e3|].
      * exists n3, seen3, (Some e3). split; auto. split; [eapply nrest_trans; [apply nrest_set|]; eapply nrest_trans; [apply (proj1 S12)|]; eauto|].
        split.
        -- intros H. destruct A3 as [Q _]; [|discriminate]. intros y Hy. apply Hpr in Hy as [H1 H2].
           destruct (root_exists st p W) as (r & o & m & _ & Hr & Br). apply (H r y); auto.
           ++ apply Hup_. exists o, m; auto.
           ++ apply above_trans with p; auto. exists o, m; auto.
        -- intros (r & y & H1 & H2 & H3 & H4 & H5). apply B3. exists y. split; auto. apply Hpr.
           destruct (above_dec st p y W) as [Q|Q]; [split; auto|]. exfalso. rewrite (HP r y) in H5; auto. discriminate.
      * exists (set_visited n3 x false), seen3, None. split; auto.
        assert (Rn : nrest n (set_visited n3 x false)).
        { eapply nrest_trans; [|apply nrest_set]. eapply nrest_trans; [apply (nrest_set n x true)|]. eapply nrest_trans; [apply (proj1 S12) | eauto]. }
        split; auto. split.
        -- intros H. destruct A3 as (_ & -> & S3).
           { intros y Hy. apply Hpr in Hy as [H1 H2]. destruct (root_exists st p W) as (r & o & m & _ & Hr & Br). apply (H r y); auto.
             - apply Hup_. exists o, m; auto.
             - apply above_trans with p; auto. exists o, m; auto. }
           split; auto. split.
           ++ split; auto. intros y. simpl. unfold upd. destruct (Nat.eqb_spec y x) as [->|Hne]; [auto|]. rewrite (proj2 S3), (proj2 S12). simpl. rewrite upd_ne; auto.
           ++ exists (rev (prune (visited n2) tr) ++ vs). split; [rewrite app_assoc; auto|]. split.
              ** assert (Np : NoDup (prune (visited n2) tr)).
                 { clear - Nt. revert tr Nt. fix IH 1. intros [x ts] Nd. cbn [prune]. destruct (visited n2 x); [constructor|].
                   cbn [oids] in Nd. inversion Nd as [|? ? Hx Nd']; subst. constructor.
                   - intros Q. apply Hx. clear - Q. induction ts as [|c l IHl]; auto. simpl in *. apply in_app_or in Q. apply in_or_app. destruct Q; [left; eapply prune_incl; eauto | right; auto].
                   - clear Hx Nd. induction ts as [|c l IHl]; [constructor|]. cbn [map concat] in *. apply nodup_app in Nd' as (Q1 & Q2 & Q3).
                     apply NoDup_app_intro'; auto. intros y H1 H2. apply (Q3 y); [eapply prune_incl; eauto|].
                     clear - H2. induction l as [|d l IHl]; auto. simpl in *. apply in_app_or in H2. apply in_or_app. destruct H2; [left; eapply prune_incl; eauto | right; auto]. }
                 apply NoDup_app_intro'; auto; [apply NoDup_rev; auto|]. intros y H1 H2. apply in_rev in H1. apply Hpr in H1. apply Hvs in H2. tauto.
              ** intros y. rewrite in_app_iff, <- in_rev, Hpr, Hvs. split.
                 --- intros [[H1 H2]|[H1 [r [H2 [H3 H4]]]]].
                     +++ split; auto. destruct (root_exists st p W) as (r & o & m & _ & Hr & Br). exists r. split; auto. split.
                         *** apply Hup_. exists o, m; auto.
                         *** apply above_trans with p; auto. exists o, m; auto.
                     +++ split; [intros Q; apply H1; eapply above_trans; eauto|]. exists r. split; auto.
                 --- intros [H1 [r [H2 [H3 H4]]]]. destruct (above_dec st p y W) as [Q|Q]; [left; auto | right]. split; auto. exists r. split; auto.
        -- intros (r & y & H1 & H2 & H3 & H4 & H5). destruct (above_dec st p y W) as [Q|Q].
           ++ assert (None = Some HierarchyError); [|discriminate]. apply B3. exists y. split; auto. apply Hpr. auto.
           ++ rewrite (HP r y) in H5; auto. discriminate.
Qed.
End Tr.
