(** Proofs about saving and loading, part 2: a part of something larger cannot be loaded. *)
From Coq Require Import List ZArith Bool Lia Arith.
From Verif Require Import NpModel NpProofs IndexOpsModel IndexOpsSpec IndexOpsProofs PzModel CopyModel PzSpec PzTree PzStruct PzLink PzWalk PzMem PzIo PzInv PzConn PzFix PzLinkMem PzPres PzUnlink PzTraverse PzNotify PzNew PzCmd PzInit PzHist CopySpec CopyTree CopyDeep CopyJoin CopyConn CopyCall CopyFinal PkModel PkSpec PkProofs.
Import ListNotations.
Open Scope Z_scope.

(** ** Objects not yet met *)
Definition unmet (n : nat) (M : list oid) : nat := length (filter (fun z => negb (omem z M)) (seq 0 n)).
Lemma filter_le : forall (A : Type) (p q : A -> bool) l, (forall z, In z l -> p z = true -> q z = true) -> (length (filter p l) <= length (filter q l))%nat.
Proof.
  intros A p q l. induction l as [|a l IH]; intros H; cbn [filter]; auto. assert (IH' := IH (fun z Hz => H z (or_intror Hz))).
  destruct (p a) eqn:Ep; [rewrite (H a (or_introl eq_refl) Ep); cbn; lia|]. destruct (q a); cbn; lia.
Qed.
Lemma filter_lt : forall (A : Type) (p q : A -> bool) l a, (forall z, In z l -> p z = true -> q z = true) -> In a l -> p a = false -> q a = true ->
  (length (filter p l) < length (filter q l))%nat.
Proof.
  intros A p q l a. induction l as [|b l IH]; intros H Ha Hp Hq; [destruct Ha|]. assert (H' := fun z Hz => H z (or_intror Hz)). cbn [filter].
  pose proof (filter_le A p q l H') as Le. destruct Ha as [->|Ha].
  - rewrite Hp, Hq. cbn. lia.
  - specialize (IH H' Ha Hp Hq). destruct (p b) eqn:Ep; [rewrite (H b (or_introl eq_refl) Ep); cbn; lia|]. destruct (q b); cbn; lia.
Qed.
Lemma omem_iff : forall x l, omem x l = true <-> In x l.
Proof. intros x l. apply omem_In. Qed.
Lemma unmet_le : forall n M M', incl M M' -> (unmet n M' <= unmet n M)%nat.
Proof.
  intros n M M' H. apply filter_le. intros z _. rewrite !negb_true_iff. intros Q. apply not_true_iff_false. intros Q'. apply not_true_iff_false in Q. apply Q. apply omem_iff. apply H, omem_iff. auto.
Qed.
Lemma unmet_lt : forall n M x, (x < n)%nat -> ~ In x M -> (unmet n (x :: M) < unmet n M)%nat.
Proof.
  intros n M x Hx Hn. apply (filter_lt _ _ _ _ x).
  - intros z _. rewrite !negb_true_iff. intros Q. apply not_true_iff_false. intros Q'. apply not_true_iff_false in Q. apply Q. apply omem_iff. right. apply omem_iff. auto.
  - apply in_seq. lia.
  - apply negb_false_iff. apply omem_iff. left; auto.
  - apply negb_true_iff. apply not_true_iff_false. intros Q. apply omem_iff in Q. auto.
Qed.
Lemma unmet_start : forall n M, (unmet n M <= n)%nat.
Proof.
  intros n M. unfold unmet. rewrite <- (seq_length n 0) at 2. generalize (seq 0 n). induction l as [|a l IH]; cbn [filter]; auto. destruct (negb (omem a M)); cbn; lia.
Qed.
(** A list without repetition of objects not met is no longer than all objects not met. *)
Lemma unmet_many : forall n M l, NoDup l -> (forall z, In z l -> (z < n)%nat /\ ~ In z M) -> (length l <= unmet n M)%nat.
Proof.
  intros n M l Nd H. unfold unmet. apply NoDup_incl_length; auto. intros z Hz. destruct (H z Hz) as [H1 H2]. apply filter_In. split; [apply in_seq; lia|].
  apply negb_true_iff, not_true_iff_false. intros Q. apply omem_iff in Q. auto.
Qed.
Lemma height_oids : forall tr, (height tr <= length (oids tr))%nat.
Proof.
  induction tr as [x ts IH] using tree_ind'. cbn [height oids length]. apply le_n_S. induction IH as [|c ts Hc Hl IHl]; cbn [map fold_right concat]; [lia|].
  rewrite app_length. lia.
Qed.

Section Load.
Context {V : Type}.
Implicit Types s : @state V.
Notation reader := (@reader V).
Implicit Types r : reader.

(** ** What reading adds *)
Definition closed s (B : list oid) : Prop := forall z c, In z B -> is_leaf (st s) z = false -> In c (kids (st s) z) -> In c B.
Record adds s r r' (o : outcome) : Prop := mkAdds {
  ad_memo : exists l k, memo r' = l ++ memo r /\ built r' = k ++ built r /\ (forall z, In z (map fst l) -> ~ In z (dom r)) /\
    (forall z, In z k -> In z (map fst l)) /\ (o = Done -> forall z, In z (map fst l) -> In z k);
  ad_closed : closed s (built r) -> closed s (built r') }.
Lemma adds_refl : forall s r o, adds s r r o.
Proof. intros s r o. constructor; auto. exists [], []. cbn. auto 10. Qed.
Lemma adds_trans : forall s r1 r2 r3 o, adds s r1 r2 Done -> adds s r2 r3 o -> adds s r1 r3 o.
Proof.
  intros s r1 r2 r3 o [(l1 & k1 & a1 & a2 & a3 & a4 & a5) a6] [(l2 & k2 & b1 & b2 & b3 & b4 & b5) b6]. constructor; auto.
  exists (l2 ++ l1), (k2 ++ k1). rewrite b1, a1, b2, a2, !app_assoc. split; auto. split; auto. split; [|split].
  - intros z Hz. rewrite map_app in Hz. apply in_app_or in Hz as [Hz|Hz]; auto. intros Q. apply (b3 z Hz). unfold dom in *. rewrite a1, map_app. apply in_or_app; auto.
  - intros z Hz. rewrite map_app. apply in_or_app. apply in_app_or in Hz as [Hz|Hz]; auto.
  - intros Ho z Hz. rewrite map_app in Hz. apply in_or_app. apply in_app_or in Hz as [Hz|Hz]; auto.
Qed.
Lemma adds_dom : forall s r r' o z, adds s r r' o -> In z (dom r) -> In z (dom r').
Proof. intros s r r' o z [(l & k & a1 & _) _] H. unfold dom in *. rewrite a1, map_app. apply in_or_app; auto. Qed.
Lemma each_adds : forall s g, (forall x r r' o, g x r = (r', o) -> adds s r r' o /\ (o = Done -> In x (dom r'))) ->
  forall l r r' o, each g l r = (r', o) -> adds s r r' o /\ (o = Done -> incl l (dom r')).
Proof.
  intros s g Hg l. induction l as [|c l IH]; intros r r' o E.
  - rewrite each_nil in E. injection E as <- <-. split; [apply adds_refl | intros _ z []].
  - rewrite each_cons in E. destruct (g c r) as [r1 o1] eqn:E1. destruct (Hg _ _ _ _ E1) as [A1 D1].
    destruct o1; try (injection E as <- <-; split; [auto | discriminate]).
    destruct (IH _ _ _ E) as [A2 D2]. split; [eapply adds_trans; eauto|]. intros Ho z [<-|Hz]; [eapply adds_dom; eauto | apply D2; auto].
Qed.
Variables before after : oid -> list oid.
Notation rd := (rd before after).
Notation refs := (refs before after).
Lemma rd_adds : forall s f x r r' o, rd f s x r = (r', o) -> adds s r r' o /\ (o = Done -> In x (dom r')).
Proof.
  intros s f. induction f as [|f IH]; intros x r r' o E.
  - cbn [PkModel.rd] in E. destruct (assoc x (memo r)) as [y|] eqn:Ea; injection E as <- <-; [|split; [apply adds_refl | discriminate]].
    split; [apply adds_refl|]. intros _. destruct (in_dec Nat.eq_dec x (dom r)) as [Q|Q]; auto. apply assoc_none in Q. congruence.
  - destruct (in_dec Nat.eq_dec x (dom r)) as [Q|Q].
    { rewrite rd_met in E by auto. injection E as <- <-. split; [apply adds_refl | auto]. }
    rewrite rd_new in E by auto. set (y := next (st (rs r))) in *. set (r0 := mkR (alloc (rs r)) ((x, y) :: memo r) (built r)) in *.
    destruct (each (rd f s) (refs s x) r0) as [r1 o1] eqn:E1. destruct (each_adds s (rd f s) IH _ _ _ _ E1) as [[(l & k & a1 & a2 & a3 & a4 & a5) a6] D1].
    change (memo r0) with ((x, y) :: memo r) in a1. change (built r0) with (built r) in a2, a6.
    assert (Fr : forall z, In z (map fst (l ++ [(x, y)])) -> ~ In z (dom r)).
    { intros z Hz. rewrite map_app in Hz. apply in_app_or in Hz as [Hz|[<-|[]]]; auto. intros Q'. apply (a3 z Hz). right. auto. }
    assert (Em : memo r1 = (l ++ [(x, y)]) ++ memo r) by (rewrite a1, <- app_assoc; auto).
    assert (Open : forall r2 o2, memo r2 = memo r1 -> built r2 = built r1 -> o2 <> Done -> adds s r r2 o2).
    { intros r2 o2 M2 B2 No. constructor; [|rewrite B2; auto]. exists (l ++ [(x, y)]), k. rewrite M2, B2. split; auto. split; auto. split; auto.
      split; [intros z Hz; rewrite map_app; apply in_or_app; auto | congruence]. }
    destruct o1; try (injection E as <- <-; split; [apply Open; auto; discriminate | discriminate]).
    assert (Shut : forall s2, (is_leaf (st s) x = false -> incl (kids (st s) x) (built r1)) -> adds s r (mkR s2 (memo r1) (x :: built r1)) Done /\ In x (dom (mkR s2 (memo r1) (x :: built r1)))).
    { intros s2 Hk. split.
      - constructor.
        + exists (l ++ [(x, y)]), (x :: k). cbn [memo built]. rewrite a2. split; auto. split; auto. split; auto. split.
          * intros z [<-|Hz]; rewrite map_app; apply in_or_app; [right; left; auto | auto].
          * intros _ z Hz. rewrite map_app in Hz. apply in_app_or in Hz as [Hz|[<-|[]]]; [right; auto | left; auto].
        + intros Cl z c [<-|Hz] Lf Hc; right; [apply Hk; auto | eapply a6; eauto].
      - unfold dom. cbn [memo]. rewrite Em, map_app, map_app. apply in_or_app. left. apply in_or_app. right. left. auto. }
    unfold build in E. destruct (is_leaf (st s) x) eqn:Lf.
    { injection E as <- <-. destruct (Shut (build_leaf x y (option_map (stands r1) (par (st s) x)) (rs r1))); [discriminate | auto]. }
    destruct (forallb (fun c => omem c (built r1)) (kids (st s) x)) eqn:Fa.
    + assert (Hk : incl (kids (st s) x) (built r1)). { intros c Hc. rewrite forallb_forall in Fa. apply omem_In, Fa; auto. }
      destruct (end_setstate y (set_attrs x y (option_map (stands r1) (par (st s) x)) (map (stands r1) (kids (st s) x)) None (rs r1))) as [s2 [e|]]; injection E as <- <-.
      * split; [apply Open; auto; discriminate | discriminate].
      * destruct (Shut s2); auto.
    + injection E as <- <-. split; [apply Open; auto; discriminate | discriminate].
Qed.
Lemma rd_fuel : forall s n, (forall x z, In z (refs s x) -> (x < n)%nat -> (z < n)%nat) -> forall f x r, (x < n)%nat -> (unmet n (dom r) <= f)%nat -> snd (rd f s x r) <> Unfinished.
Proof.
  intros s n Hr f. induction f as [|f IH]; intros x r Hx Hf.
  - rewrite rd_met; [discriminate|]. destruct (in_dec Nat.eq_dec x (dom r)) as [Q|Q]; auto. pose proof (unmet_lt n (dom r) x Hx Q). lia.
  - destruct (in_dec Nat.eq_dec x (dom r)) as [Q|Q]; [rewrite rd_met by auto; discriminate|].
    rewrite rd_new by auto. set (y := next (st (rs r))). pose proof (unmet_lt n (dom r) x Hx Q) as Hl.
    assert (G : forall l r1, (forall z, In z l -> (z < n)%nat) -> (unmet n (dom r1) <= f)%nat -> snd (each (rd f s) l r1) <> Unfinished).
    { induction l as [|c l IHl]; intros r1 Hin Hu; [rewrite each_nil; discriminate|]. rewrite each_cons. destruct (rd f s c r1) as [r2 o] eqn:E2.
      pose proof (IH c r1 (Hin c (or_introl eq_refl)) Hu) as N. rewrite E2 in N. cbn [snd] in N. destruct o; auto. apply IHl; [intros z Hz; apply Hin; right; auto|].
      destruct (rd_adds s f c r1 r2 Done E2) as [A _]. eapply Nat.le_trans; [apply unmet_le|exact Hu]. intros z Hz. eapply adds_dom; eauto. }
    destruct (each _ _ _) as [r1 o] eqn:E1.
    assert (G1 : snd (r1, o) <> Unfinished).
    { rewrite <- E1. apply G; [intros z Hz; apply (Hr x z Hz Hx)|]. change (unmet n (x :: dom r) <= f)%nat. lia. }
    cbn [snd] in G1. destruct o; [|discriminate | congruence].
    unfold build. destruct (is_leaf (st s) x); [discriminate|]. destruct (forallb _ _); [|discriminate].
    destruct (end_setstate _ _) as [s2 [e|]]; discriminate.
Qed.

(** A part of something larger: its parent is given its state first. *)
Lemma part_fails : forall s x p, swf (st s) -> (x < next (st s))%nat -> par (st s) x = Some p -> (forall y z, In z (before y ++ after y) -> (z < next (st s))%nat) ->
  exists s' e, load before after x s = (s', Raised e).
Proof.
  intros s x p W Hx Hp Hr.
  assert (Hp' : In x (kids (st s) p)) by (apply (PzTree.wf_par _ W); auto).
  assert (Hpx : p <> x). { intros ->. destruct (PzTree.wf_rank _ W) as [rk Hrk]. pose proof (Hrk x x Hp'). lia. }
  assert (Lp : is_leaf (st s) p = false). { destruct (is_leaf (st s) p) eqn:L; auto. rewrite (leaf_kids _ _ W L) in Hp'. destruct Hp'. }
  assert (Rf : forall y z, In z (refs s y) -> (y < next (st s))%nat -> (z < next (st s))%nat).
  { intros y z Hz Hy. unfold PkModel.refs in Hz. apply in_app_or in Hz as [Hz|Hz]; [apply (Hr y); apply in_or_app; auto|].
    apply in_app_or in Hz as [Hz|Hz]; [apply (kid_lt _ _ _ W) in Hz; tauto|]. apply in_app_or in Hz as [Hz|Hz]; [|apply (Hr y); apply in_or_app; auto].
    destruct (par (st s) y) as [q|] eqn:Eq; [|destruct Hz]. destruct Hz as [<-|[]]. apply (PzTree.wf_par _ W) in Eq. apply (kid_lt _ _ _ W) in Eq. tauto. }
  unfold load. destruct (rd (fuel (st s)) s x (mkR s [] [])) as [r o] eqn:E.
  assert (No : o <> Unfinished).
  { pose proof (rd_fuel s (next (st s)) Rf (fuel (st s)) x (mkR s [] []) Hx) as N. rewrite E in N. apply N. unfold fuel. pose proof (unmet_start (next (st s)) (dom (mkR s [] []))). lia. }
  destruct o as [|e|]; [|eauto|congruence]. exfalso. unfold fuel in E. rewrite rd_new in E by (intros []).
  set (r0 := mkR (alloc s) [(x, next (st s))] []) in *. cbn [rs memo built] in E.
  destruct (each _ _ _) as [r1 o1] eqn:E1 in E. destruct (each_adds s _ (rd_adds s (next (st s))) _ _ _ _ E1) as [[(l & k & a1 & a2 & a3 & a4 & a5) a6] D1].
  destruct o1; try discriminate. assert (Pd : In p (dom r1)).
  { apply D1; auto. unfold PkModel.refs. rewrite Hp. apply in_or_app. right. apply in_or_app. right. left. auto. }
  unfold dom in Pd. rewrite a1, map_app in Pd. apply in_app_or in Pd as [Pd|[Q|[]]]; [|cbn in Q; congruence].
  apply (a5 eq_refl) in Pd. assert (Xb : In x (built r1)).
  { apply (a6 ltac:(intros z c []) p x); auto. rewrite a2. apply in_or_app; auto. }
  rewrite a2 in Xb. apply in_app_or in Xb as [Xb|[]]. apply a4 in Xb. apply (a3 x Xb). left. auto.
Qed.
End Load.

(** ** Without other references *)
Section Plain.
Context {V : Type}.
Implicit Types s : @state V.
Notation reader := (@reader V).
Implicit Types r : reader.
Notation rd := (rd none none).
Lemma okr_none : forall t M, okr none none M t.
Proof.
  induction t as [x ts IH] using tree_ind'. intros M. apply okr_T. split; [intros z []|]. split; [|intros z []].
  generalize (x :: M). induction ts as [|c ts IHt]; intros M'; cbn [okl]; auto. inversion IH; subst. split; auto.
Qed.
Lemma kids_read : forall s0 z ts, Inv s0 -> rep (st s0) (T z ts) -> NoDup (oids (T z ts)) -> (z < next (st s0))%nat ->
  forall f l r, incl l ts -> NoDup (concat (map oids l)) -> In z (dom r) -> ext s0 (rs r) -> bnd (mem (rs r)) -> (unmet (next (st s0)) (dom r) <= f)%nat ->
  (forall c, In c l -> incl (oids c) (dom r) \/ forall w, In w (oids c) -> ~ In w (dom r)) ->
  exists r', each (rd f s0) (map root l) r = (r', Done) /\ (forall w, In w (dom r') <-> In w (dom r) \/ In w (concat (map oids l))) /\
    (forall w, In w (built r') -> In w (built r) \/ exists c, In c l /\ In w (oids c) /\ ~ In (root c) (dom r)) /\ ext s0 (rs r') /\ bnd (mem (rs r')).
Proof.
  intros s0 z ts H R Nd Hz f. pose proof (inv_st _ H) as W. assert (Ek : kids (st s0) z = map root ts) by (inversion R; auto).
  induction l as [|c l IH]; intros r Hin Ndl Zr E Bd Hf Hc.
  - exists r. cbn [map concat]. rewrite each_nil. split; auto. split; [cbn; tauto|]. auto.
  - cbn [map concat] in *. assert (Hct : In c ts) by (apply Hin; left; auto). destruct (nodup_app _ _ _ Ndl) as (N1 & N2 & N3).
    assert (Step : exists r1, rd f s0 (root c) r = (r1, Done) /\ (forall w, In w (dom r1) <-> In w (dom r) \/ In w (oids c)) /\
       (forall w, In w (built r1) -> In w (built r) \/ In w (oids c) /\ ~ In (root c) (dom r)) /\ ext s0 (rs r1) /\ bnd (mem (rs r1))).
    { destruct (Hc c (or_introl eq_refl)) as [Q|Q].
      - exists r. rewrite rd_met by (apply Q, oids_root). split; auto. split; [intros w; split; [auto | intros [|]; auto]|]. auto.
      - assert (Rc : rep (st s0) c) by (inversion R as [? ? _ _ Q']; subst; rewrite Forall_forall in Q'; auto).
        assert (Lt : forall w, In w (oids c) -> (w < next (st s0))%nat).
        { intros w Hw. apply (koids_below (st s0)) in Hw as (o & n & B); [|apply rep_krep; auto]. eapply below_lt; eauto.
          destruct (kid_lt (st s0) z (root c) W) as [Q1 Q2]; [rewrite Ek; apply in_map; auto | auto]. }
        destruct (rd_sub none none s0 c H Rc N1 f r) as (r1 & Rd & _ & (k & Em & Hk) & _ & Bt & E1 & B1); auto.
        + apply Lt, oids_root.
        + eapply Nat.le_trans; [apply height_oids|]. eapply Nat.le_trans; [|exact Hf]. apply unmet_many; auto.
        + apply okr_none.
        + intros p Hp. assert (Q' : par (st s0) (root c) = Some z) by (inversion R as [? ? _ Q2 _]; subst; apply In_nth_error in Hct as [i Hi]; apply (Q2 i c Hi)).
          assert (p = z) by congruence. subst p. auto.
        + exists r1. split; auto. split; [|split; [|auto]].
          * intros w. unfold dom. rewrite Em, map_app, in_app_iff, Hk. tauto.
          * intros w Hw. apply Bt in Hw as [Hw|Hw]; auto. right. split; auto. apply Q, oids_root. }
    destruct Step as (r1 & R1 & D1 & B1 & E1 & M1). rewrite each_cons, R1.
    destruct (IH r1) as (r2 & R2 & D2 & B2 & E2 & M2); auto.
    { intros w Hw. apply Hin. right. auto. } { apply D1; auto. }
    { eapply Nat.le_trans; [apply unmet_le | exact Hf]. intros w Hw. apply D1; auto. }
    { intros d Hd. destruct (Hc d (or_intror Hd)) as [Q|Q]; [left; intros w Hw; apply D1; auto|]. right. intros w Hw Q'. apply D1 in Q' as [Q'|Q']; [apply (Q w Hw Q')|].
      apply (N3 w Q'). apply in_concat. exists (oids d). split; auto. apply in_map; auto. }
    exists r2. split; auto. split; [|split; [|auto]].
    + intros w. rewrite D2, D1, in_app_iff. tauto.
    + intros w Hw. apply B2 in Hw as [Hw|(d & Hd & Hw & Nr)].
      * apply B1 in Hw as [Hw|[Hw Nr]]; auto. right. exists c. split; [left|]; auto.
      * right. exists d. split; [right; auto|]. split; auto. intros Q. apply Nr, D1. auto.
Qed.
Lemma after_kids : forall s0 z f r, Inv s0 -> (z < next (st s0))%nat -> ~ In z (dom r) -> ext s0 (rs r) -> bnd (mem (rs r)) -> (unmet (next (st s0)) (dom r) <= S f)%nat ->
  (forall w, In w (dom r) -> above (st s0) z w) -> incl (built r) (dom r) ->
  (forall c, In c (kids (st s0) z) -> (forall w, above (st s0) c w -> In w (dom r)) \/ forall w, above (st s0) c w -> ~ In w (dom r)) ->
  exists r1, each (rd f s0) (kids (st s0) z) (mkR (alloc (rs r)) ((z, next (st (rs r))) :: memo r) (built r)) = (r1, Done) /\
    (forall w, In w (dom r1) <-> above (st s0) z w) /\ incl (built r1) (dom r1) /\ ~ In z (built r1) /\
    (forall w, In w (built r1) -> In w (built r) \/ exists k, In k (kids (st s0) z) /\ above (st s0) k w /\ ~ In k (dom r)) /\
    ext s0 (rs r1) /\ bnd (mem (rs r1)) /\ (unmet (next (st s0)) (dom r1) <= f)%nat.
Proof.
  intros s0 z f r H Hz Nz E Bd Hf Dm Bi Hc. pose proof (inv_st _ H) as W. destruct (tree_exists (st s0) W z) as [tr [Er [R Nd]]]. destruct tr as [z' ts]. cbn [root] in Er. subst z'.
  assert (Ek : kids (st s0) z = map root ts) by (inversion R; auto). set (r0 := mkR (alloc (rs r)) ((z, next (st (rs r))) :: memo r) (built r)).
  assert (D0 : forall w, In w (dom r0) <-> w = z \/ In w (dom r)) by (intros w; unfold dom; cbn; split; intros [Q|Q]; auto).
  assert (Kc : forall c w, In c ts -> (In w (oids c) <-> above (st s0) (root c) w)).
  { intros c w Hin. apply koids_below. eapply krep_child; [apply rep_krep; exact R | auto]. }
  assert (Zc : forall c, In c ts -> ~ In z (oids c)).
  { intros c Hin Q. inversion Nd as [|? ? N _]; subst. apply N. apply in_concat. exists (oids c). split; auto. apply in_map; auto. }
  assert (Hl : (unmet (next (st s0)) (dom r0) <= f)%nat) by (pose proof (unmet_lt (next (st s0)) (dom r) z Hz Nz); change (dom r0) with (z :: dom r); lia).
  destruct (kids_read s0 z ts H R Nd Hz f ts r0) as (r1 & R1 & D1 & B1 & E1 & M1); auto.
  { apply incl_refl. } { inversion Nd; auto. } { apply D0; auto. } { eapply ext_trans; [exact E | apply alloc_ext]. }
  { intros c Hin. destruct (Hc (root c)) as [Q|Q]; [rewrite Ek; apply in_map; auto | left | right].
    - intros w Hw. apply D0. right. apply Q, Kc; auto.
    - intros w Hw Q'. apply D0 in Q' as [->|Q']; [apply (Zc c); auto|]. apply (Q w); auto. apply Kc; auto. }
  assert (B1' : forall w, In w (built r1) -> In w (built r) \/ exists k, In k (kids (st s0) z) /\ above (st s0) k w /\ ~ In k (dom r)).
  { intros w Hw. apply B1 in Hw as [Hw|(c & Hin & Hw & Nr)]; auto. right. exists (root c). split; [rewrite Ek; apply in_map; auto|]. split; [apply Kc; auto|]. intros Q. apply Nr, D0. auto. }
  exists r1. rewrite Ek at 1. split; auto. split; [|split; [|split; [|split; [exact B1'|split; [auto|split; auto]]]]].
  - intros w. rewrite D1, D0. split.
    + intros [[->|Q]|Q]; [apply above_refl | auto|]. apply in_concat in Q as (l & Hl' & Q). apply in_map_iff in Hl' as (c & <- & Hin).
      apply (koids_below (st s0) (T z ts)); [apply rep_krep; auto|]. eapply in_child; eauto.
    + intros A. apply (koids_below (st s0) (T z ts)) in A; [|apply rep_krep; auto]. destruct A as [<-|A]; auto.
  - intros w Hw. apply D1. apply B1 in Hw as [Hw|(c & Hin & Hw & _)]; [left; apply D0; right; apply Bi; auto|]. right. apply in_concat. exists (oids c). split; auto. apply in_map; auto.
  - intros Q. apply B1 in Q as [Q|(c & Hin & Q & _)]; [apply Nz, Bi; auto | apply (Zc c Hin Q)].
  - eapply Nat.le_trans; [apply unmet_le | exact Hl]. intros w Hw. apply D1; auto.
Qed.
Lemma kid_not_above : forall s0 z c, Inv s0 -> In c (kids (st s0) z) -> ~ above (st s0) c z.
Proof.
  intros s0 z c H Hc (o & n & B). destruct (PzTree.wf_rank _ (inv_st _ H)) as [rk Hrk]. pose proof (Hrk z c Hc) as Q.
  assert (G : forall a b o n, below (st s0) a b o n -> (rk b <= rk a)%nat).
  { intros a b o' n' B'. induction B' as [|a i d b o' n' Hi B' IH]; auto. apply nth_error_In, Hrk in Hi. lia. }
  apply G in B. lia.
Qed.
Lemma kids_apart : forall s0 z c k w, Inv s0 -> (z < next (st s0))%nat -> In c (kids (st s0) z) -> In k (kids (st s0) z) -> c <> k -> above (st s0) c w -> above (st s0) k w -> False.
Proof.
  intros s0 z c k w H Hz Hc Hk Hne A B. pose proof (inv_st _ H) as W. destruct (tree_exists (st s0) W z) as [tr [Er [R Nd]]]. destruct tr as [z' ts]. cbn [root] in Er. subst z'.
  assert (Ek : kids (st s0) z = map root ts) by (inversion R; auto). rewrite Ek in Hc, Hk. apply in_map_iff in Hc as (c' & <- & Hc). apply in_map_iff in Hk as (k' & <- & Hk).
  apply (koids_below (st s0)) in A; [|eapply krep_child; [apply rep_krep; exact R | auto]]. apply (koids_below (st s0)) in B; [|eapply krep_child; [apply rep_krep; exact R | auto]].
  inversion Nd as [|? ? _ N]; subst. clear - Hc Hk Hne A B N. induction ts as [|d ts IH]; [destruct Hc|]. cbn [map concat] in N. destruct (nodup_app _ _ _ N) as (_ & N2 & N3).
  assert (G : forall e, In e ts -> In w (oids e) -> In w (oids d) -> False).
  { intros e He We Wd. apply (N3 w Wd). apply in_concat. exists (oids e). split; auto. apply in_map; auto. }
  destruct Hc as [<-|Hc]; destruct Hk as [<-|Hk]; try congruence; eauto.
Qed.
Lemma rd_up : forall s0, Inv s0 -> forall l z, up (st s0) z l -> (z < next (st s0))%nat -> forall f r c, par (st s0) c = Some z ->
  (forall w, In w (dom r) <-> above (st s0) c w) -> incl (built r) (dom r) -> ~ In c (built r) -> ext s0 (rs r) -> bnd (mem (rs r)) ->
  (unmet (next (st s0)) (dom r) <= f)%nat -> exists r', rd f s0 z r = (r', Raised AttributeError).
Proof.
  intros s0 H l z Up. pose proof (inv_st _ H) as W. induction Up as [z Hp|z p l Hp Up IH]; intros Hz f r c Hc Dm Bi Nb E Bd Hf;
    (assert (Hk : In c (kids (st s0) z)) by (apply (PzTree.wf_par _ W); auto));
    (assert (Nz : ~ In z (dom r)) by (rewrite Dm; apply kid_not_above; auto));
    (destruct f as [|f]; [pose proof (unmet_lt (next (st s0)) (dom r) z Hz Nz); lia|]);
    (destruct (after_kids s0 z f r H Hz Nz E Bd Hf) as (r1 & R1 & D1 & B1 & Z1 & Bo & E1 & M1 & U1); auto;
      [intros w Hw; apply Dm in Hw; eapply above_trans; [apply above_kid; eauto | auto]
      |intros k Hk'; destruct (Nat.eq_dec k c) as [->|Hne]; [left; intros w Hw; apply Dm; auto|]; right; intros w Hw Q; apply Dm in Q; apply (kids_apart s0 z k c w); auto|]);
    (rewrite rd_new by auto); unfold PkModel.refs; change (none z) with (@nil oid); cbn [app]; rewrite Hp, each_app;
    (destruct (each _ (kids (st s0) z) _) as [q o]; injection R1 as -> ->; cbv iota; rewrite ?app_nil_r).
  - rewrite each_nil. unfold build.
    assert (Lz : is_leaf (st s0) z = false) by (destruct (is_leaf (st s0) z) eqn:L; auto; rewrite (leaf_kids _ _ W L) in Hk; destruct Hk).
    rewrite Lz. replace (forallb (fun d => omem d (built r1)) (kids (st s0) z)) with false; [eauto|].
    symmetry. apply not_true_iff_false. intros Q. rewrite forallb_forall in Q. pose proof (Q c Hk) as Q'. apply omem_In in Q'. apply Bo in Q' as [Q'|(k & Hk' & A & Nk)]; [auto|].
    destruct (Nat.eq_dec k c) as [->|Hne]; [apply Nk, Dm, above_refl|]. apply (kids_apart s0 z k c c); auto. apply above_refl.
  - rewrite each_cons. assert (Hpl : (p < next (st s0))%nat) by (apply (PzTree.wf_par _ W) in Hp; apply (kid_lt _ _ _ W) in Hp; tauto).
    destruct (IH Hpl f r1 z Hp D1 B1 Z1 E1 M1 U1) as [r2 R2]. rewrite R2. eauto.
Qed.
Lemma plain_fails : forall s x p, Inv s -> (x < next (st s))%nat -> par (st s) x = Some p -> exists s', load none none x s = (s', Raised AttributeError).
Proof.
  intros s x p H Hx Hp. pose proof (inv_st _ H) as W. unfold load, fuel. destruct (wf_up (st s) W p) as [l Hl].
  assert (Hpl : (p < next (st s))%nat) by (pose proof Hp as Q; apply (PzTree.wf_par _ W) in Q; apply (kid_lt _ _ _ W) in Q; tauto).
  destruct (after_kids s x (next (st s)) (mkR s [] []) H Hx) as (r1 & R1 & D1 & B1 & Z1 & _ & E1 & M1 & U1); cbn [rs]; auto.
  { apply ext_refl. } { apply (inv_mem _ H). } { pose proof (unmet_start (next (st s)) (dom (mkR s [] []))). lia. } { intros w []. } { intros w []. }
  rewrite rd_new by (intros []). unfold PkModel.refs. change (none x) with (@nil oid). cbn [app]. rewrite Hp, each_app.
  destruct (each _ (kids (st s) x) _) as [q o]. injection R1 as -> ->. cbv iota. rewrite ?app_nil_r, each_cons.
  destruct (rd_up s H l p Hl Hpl (next (st s)) r1 x Hp D1 B1 Z1 E1 M1 U1) as [r2 R2]. rewrite R2. eauto.
Qed.
End Plain.
