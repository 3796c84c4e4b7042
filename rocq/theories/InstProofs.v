(** Proofs about transformation objects. *)
From Coq Require Import List ZArith Bool Arith Lia.
From Verif Require Import InstModel InstSpec.
Import ListNotations.
Open Scope Z_scope.

Lemma nth_comb : forall (l : list tobj) (f : nat * tobj -> tobj) a x, nth_error (map f (combine (seq a (length l)) l)) x = option_map (fun t => f ((a + x)%nat, t)) (nth_error l x).
Proof.
  induction l as [|t l IH]; intros f a x; [destruct x; reflexivity|]. destruct x as [|x]; cbn.
  - rewrite Nat.add_0_r. reflexivity.
  - rewrite IH. destruct (nth_error l x); cbn; auto. replace (a + S x)%nat with (S (a + x)) by lia. reflexivity.
Qed.
Lemma nth_set : forall o b s x, nth_error (objs (set_bds o b s)) x = option_map (fun t => if (x =? o)%nat then mkT (tcls t) b else t) (nth_error (objs s) x).
Proof. intros o b s x. cbn [set_bds objs]. rewrite nth_comb. reflexivity. Qed.
Lemma cls_set : forall o b s x, cls_of (set_bds o b s) x = cls_of s x.
Proof. intros o b s x. unfold cls_of. rewrite nth_set. destruct (nth_error (objs s) x); cbn; auto. destruct (x =? o)%nat; auto. Qed.
Lemma bds_set : forall o b s x, bds_of (set_bds o b s) x = if (x =? o)%nat then (if (x <? length (objs s))%nat then b else None) else bds_of s x.
Proof.
  intros o b s x. unfold bds_of. rewrite nth_set. destruct (nth_error (objs s) x) eqn:E; cbn [option_map].
  - assert (x < length (objs s))%nat by (apply nth_error_Some; congruence). destruct (x <? length (objs s))%nat eqn:L; [|apply Nat.ltb_ge in L; lia]. destruct (x =? o)%nat; cbn; auto.
  - apply nth_error_None in E. destruct (x <? length (objs s))%nat eqn:L; [apply Nat.ltb_lt in L; lia|]. destruct (x =? o)%nat; auto.
Qed.
Lemma len_set : forall o b s, length (objs (set_bds o b s)) = length (objs s).
Proof. intros. cbn. rewrite map_length, combine_length, seq_length. lia. Qed.

(** Growing: no object changes its class, none comes back to life. *)
Record grows (s s' : tst) : Prop := mkGrows {
  gr_cls : forall o c, cls_of s o = Some c -> cls_of s' o = Some c;
  gr_len : (length (objs s) <= length (objs s'))%nat;
  gr_dead : forall o, (o < length (objs s))%nat -> alive s' o = true -> alive s o = true;
  gr_single : forall c o, single s c = Some o -> single s' c = Some o }.
Lemma cls_lt : forall s o c, cls_of s o = Some c -> (o < length (objs s))%nat.
Proof. intros s o c E. unfold cls_of in E. apply nth_error_Some. intros Q. rewrite Q in E. discriminate E. Qed.
Lemma cls_some : forall s o, (o < length (objs s))%nat -> exists c, cls_of s o = Some c.
Proof. intros s o H. apply nth_error_Some in H. unfold cls_of. destruct (nth_error (objs s) o) as [t|]; [eexists; reflexivity | congruence]. Qed.
Lemma bds_lt : forall s o b, bds_of s o = Some b -> (o < length (objs s))%nat.
Proof. intros s o b E. unfold bds_of in E. apply nth_error_Some. intros Q. rewrite Q in E. discriminate E. Qed.
Lemma grows_refl : forall s, grows s s.
Proof. intros s. constructor; auto. Qed.
Lemma grows_trans : forall a b c, grows a b -> grows b c -> grows a c.
Proof.
  intros a b c [A1 A2 A3 A4] [B1 B2 B3 B4]. constructor; auto; [lia|]. intros o Ho E. apply A3; auto. apply B3; auto. lia.
Qed.
Lemma fresh_cls : forall c s x, cls_of (fst (fresh_obj c s)) x = if (x =? length (objs s))%nat then Some c else cls_of s x.
Proof.
  intros c s x. unfold cls_of, fresh_obj. cbn. destruct (x =? length (objs s))%nat eqn:E.
  - apply Nat.eqb_eq in E. subst. rewrite nth_error_app2, Nat.sub_diag; [reflexivity | lia].
  - apply Nat.eqb_neq in E. destruct (Nat.lt_ge_cases x (length (objs s))).
    + rewrite nth_error_app1; auto.
    + rewrite nth_error_app2; auto. destruct (x - length (objs s))%nat as [|m] eqn:D; [lia|]. cbn. rewrite (proj2 (nth_error_None (objs s) x)); auto. destruct m; reflexivity.
Qed.
Lemma fresh_bds : forall c s x, bds_of (fst (fresh_obj c s)) x = bds_of s x.
Proof.
  intros c s x. unfold bds_of, fresh_obj. cbn. destruct (Nat.lt_ge_cases x (length (objs s))).
  - rewrite nth_error_app1; auto.
  - rewrite nth_error_app2; auto. rewrite (proj2 (nth_error_None (objs s) x)); auto. destruct (x - length (objs s))%nat as [|[|m]]; reflexivity.
Qed.
Lemma fresh_grows : forall c s, grows s (fst (fresh_obj c s)).
Proof.
  intros c s. constructor.
  - intros o c' E. rewrite fresh_cls. pose proof (cls_lt _ _ _ E). destruct (o =? length (objs s))%nat eqn:Q; auto. apply Nat.eqb_eq in Q. lia.
  - cbn. rewrite app_length. lia.
  - intros o Ho. cbn. destruct (o =? length (objs s))%nat eqn:Q; auto. apply Nat.eqb_eq in Q. lia.
  - auto.
Qed.
Lemma set_grows : forall o b s, grows s (set_bds o b s).
Proof. intros o b s. constructor; [intros; rewrite cls_set; auto | rewrite len_set; lia | auto | auto]. Qed.
Lemma drop_grows : forall o s, grows s (drop o s).
Proof. intros o s. constructor; auto. intros x _. cbn. destruct (x =? o)%nat; [discriminate | auto]. Qed.

Section Proofs.
Variable mro : nat -> list nat.
Variable bounded : nat -> bool.
Variable fl : Z -> Z.
Variable dflt : Z.
Hypothesis mro_self : forall c, exists r, mro c = c :: r.
Notation later := (later mro bounded fl dflt).
Notation construct := (construct mro bounded fl dflt).
Notation duplicate := (duplicate mro bounded dflt).
Notation tstep := (tstep mro bounded fl dflt).

Lemma new_bounded_grows : forall c lo hi s, grows s (fst (new_bounded c lo hi s)).
Proof.
  intros c lo hi s. unfold new_bounded. destruct (search _ _ _ _); [constructor; auto|].
  destruct (fresh_grows c (mkTst (objs s) (alive s) (single s) (filter (alive s) (weak s)))) as [A B C D]. constructor; auto.
Qed.
Lemma construct_bounded_cases : forall c args kept s s' r, bounded c = true -> construct c args kept s = (s', r) ->
  let '(lo, hi) := match args with Some b => b | None => (dflt, dflt) end in
  exists s1 q, new_bounded c lo hi s = (s1, q) /\
    match q with
    | inr e => s' = s1 /\ r = inr e
    | inl o =>
      (isinstance mro s1 o c = false /\ s' = s1 /\ r = inl o) \/
      (isinstance mro s1 o c = true /\ exists l h, args = Some (l, h) /\ l < h /\ s' = set_bds o (Some (fl l, fl h)) s1 /\ r = inl o) \/
      (exists e, r = inr e /\ isinstance mro s1 o c = true /\ (args = None \/ exists l h, args = Some (l, h) /\ h <= l) /\
         ((s' = s1 /\ (kept = true \/ (o < length (objs s))%nat)) \/ (s' = drop o s1 /\ (length (objs s) <= o)%nat)))
    end.
Proof.
  intros c args kept s s' r B E. unfold InstModel.construct in E. rewrite B in E.
  destruct (match args with Some b => b | None => (dflt, dflt) end) as [lo hi] eqn:EA.
  destruct (new_bounded c lo hi s) as [s1 [o|e]] eqn:EN; exists s1; [exists (inl o) | exists (inr e)]; (split; [reflexivity|]).
  2:{ injection E as <- <-; auto. }
  destruct (isinstance mro s1 o c) eqn:EI; [|injection E as <- <-; auto].
  right.
  assert (Fl : forall e, (if kept then s1 else if (length (objs s) <=? o)%nat then drop o s1 else s1, @inr nat texn e) = (s', r) -> (args = None \/ exists l h, args = Some (l, h) /\ h <= l) ->
    exists e, r = inr e /\ true = true /\ (args = None \/ exists l h, args = Some (l, h) /\ h <= l) /\ ((s' = s1 /\ (kept = true \/ (o < length (objs s))%nat)) \/ (s' = drop o s1 /\ (length (objs s) <= o)%nat))).
  { intros e Q A. injection Q as <- <-. exists e. split; auto. split; auto. split; auto. destruct kept; auto. destruct (length (objs s) <=? o)%nat eqn:L; [apply Nat.leb_le in L | apply Nat.leb_gt in L]; auto. }
  destruct args as [[l h]|].
  - destruct (l <? h) eqn:Lt; [apply Z.ltb_lt in Lt | apply Z.ltb_ge in Lt].
    + left. injection E as <- <-. split; auto. exists l, h. auto.
    + right. apply (Fl AssertionError); auto. right. eauto.
  - right. apply (Fl TypeError); auto.
Qed.
Definition sing_ok (s : tst) : Prop := forall c o, single s c = Some o -> cls_of s o = Some c.
Lemma new_single_cases : forall c args s s' r, sing_ok s -> new_single mro c args s = (s', r) ->
  (exists o, single s c = Some o /\ s' = s /\ r = inl o) \/
  (single s c = None /\ args = true /\ s' = s /\ r = inr TypeError) \/
  (single s c = None /\ args = false /\ r = inl (length (objs s)) /\
   s' = mkTst (objs (fst (fresh_obj c s))) (alive (fst (fresh_obj c s))) (fun x => if (x =? c)%nat then Some (length (objs s)) else single s x) (weak s)).
Proof.
  intros c args s s' r K E. unfold new_single in E. destruct (mro_self c) as [q Eq]. rewrite Eq in E. cbn [lookup] in E.
  destruct (single s c) as [o|] eqn:ES.
  - left. exists o. rewrite (K c o ES), Nat.eqb_refl in E. injection E as <- <-. auto.
  - right. destruct (lookup s q) as [o|] eqn:EL.
    + destruct (cls_of s o) as [c'|] eqn:EC; [destruct (c' =? c)%nat eqn:Ec|].
      * (* an object of class [c] that is not its own: cannot be *)
        exfalso. apply Nat.eqb_eq in Ec. subst c'. clear E Eq. revert EL. induction q as [|d q IH]; cbn; [discriminate|].
        destruct (single s d) as [o'|] eqn:Ed; auto. intros Q. injection Q as ->. pose proof (K d o Ed) as K'. rewrite EC in K'. injection K' as <-. congruence.
      * destruct args; injection E as <- <-; auto.
      * destruct args; injection E as <- <-; auto.
    + destruct args; injection E as <- <-; auto.
Qed.
Lemma new_bounded_single : forall c lo hi s, single (fst (new_bounded c lo hi s)) = single s.
Proof. intros c lo hi s. unfold new_bounded. destruct (search _ _ _ _); reflexivity. Qed.
Lemma new_single_grows : forall c args s, sing_ok s -> grows s (fst (new_single mro c args s)) /\ sing_ok (fst (new_single mro c args s)).
Proof.
  intros c args s K. destruct (new_single mro c args s) as [s' r] eqn:E. cbn [fst]. pose proof (fresh_grows c s) as [G1 G2 G3 G4].
  destruct (new_single_cases c args s s' r K E) as [(o & _ & -> & _)|[(_ & _ & -> & _)|(N & _ & _ & ->)]]; try (split; [apply grows_refl | exact K]). split.
  - constructor; auto. cbn. intros c' o E'. destruct (c' =? c)%nat eqn:Q; auto. apply Nat.eqb_eq in Q. congruence.
  - intros c' o E'. cbn in E'. change (cls_of (fst (fresh_obj c s)) o = Some c'). rewrite fresh_cls. destruct (c' =? c)%nat eqn:Q.
    + apply Nat.eqb_eq in Q. injection E' as <-. rewrite Nat.eqb_refl. congruence.
    + pose proof (K c' o E') as K'. pose proof (cls_lt _ _ _ K'). destruct (o =? length (objs s))%nat eqn:Q'; auto. apply Nat.eqb_eq in Q'. lia.
Qed.
Lemma sing_grows : forall s s', grows s s' -> (forall c o, single s' c = Some o -> single s c = Some o) -> sing_ok s -> sing_ok s'.
Proof. intros s s' G Q K c o E. apply (gr_cls _ _ G). auto. Qed.
Lemma construct_grows : forall c args kept s, sing_ok s -> grows s (fst (construct c args kept s)) /\ sing_ok (fst (construct c args kept s)).
Proof.
  intros c args kept s K. destruct (bounded c) eqn:B.
  - destruct (construct c args kept s) as [s' r] eqn:E. cbn [fst].
    pose proof (construct_bounded_cases c args kept s s' r B E) as C. destruct (match args with Some b => b | None => (dflt, dflt) end) as [lo hi].
    destruct C as (s1 & q & EN & C). pose proof (new_bounded_grows c lo hi s) as G. pose proof (new_bounded_single c lo hi s) as S1. rewrite EN in G, S1. cbn in G, S1.
    assert (H : grows s s' /\ single s' = single s).
    { destruct q as [o|e].
      - destruct C as [(_ & -> & _)|[(_ & l & h & _ & _ & -> & _)|(e & _ & _ & _ & [(-> & _)|(-> & _)])]]; auto.
        + split; [eapply grows_trans; [exact G | apply set_grows] | exact S1].
        + split; [eapply grows_trans; [exact G | apply drop_grows] | exact S1].
      - destruct C as (-> & _). auto. }
    destruct H as [H1 H2]. split; auto. apply (sing_grows s); auto. rewrite H2. auto.
  - unfold InstModel.construct. rewrite B. apply new_single_grows. auto.
Qed.
Lemma duplicate_grows : forall o s, sing_ok s -> grows s (fst (duplicate o s)) /\ sing_ok (fst (duplicate o s)).
Proof.
  intros o s K. unfold InstModel.duplicate. destruct (nth_error (objs s) o) as [t|]; [|split; [apply grows_refl | exact K]].
  destruct (bounded (tcls t)); [|apply new_single_grows; auto].
  pose proof (new_bounded_grows (tcls t) dflt dflt s) as G. pose proof (new_bounded_single (tcls t) dflt dflt s) as S1.
  destruct (new_bounded (tcls t) dflt dflt s) as [s1 [o'|e]]; cbn in G, S1.
  - assert (H : grows s s1 /\ sing_ok s1) by (split; auto; apply (sing_grows s); auto; rewrite S1; auto). destruct H as [H1 H2].
    destruct (bds t) as [b|]; cbn [fst]; split; auto.
    + eapply grows_trans; [exact G | apply set_grows].
    + apply (sing_grows s1); auto. apply set_grows.
  - cbn [fst]. split; auto. apply (sing_grows s); auto. rewrite S1; auto.
Qed.
Lemma step_grows : forall s k, sing_ok s -> grows s (tstep s k) /\ sing_ok (tstep s k).
Proof.
  intros s [c args kept|o|o] K; cbn [InstModel.tstep]; [apply construct_grows; auto | apply duplicate_grows; auto|].
  destruct (cls_of s o) as [c|]; [destruct (bounded c)|]; try (split; [apply grows_refl | exact K]). split; [apply drop_grows | exact K].
Qed.
Lemma later_grows : forall ok s s', sing_ok s -> later ok s s' -> grows s s' /\ sing_ok s'.
Proof.
  intros ok s s' K H. induction H as [|s' k H [IH1 IH2] O]; [split; [apply grows_refl | exact K]|].
  destruct (step_grows s' k IH2) as [A B]. split; auto. eapply grows_trans; eauto.
Qed.
Lemma later_mono : forall (ok ok' : tst -> tcall -> Prop), (forall s k, ok s k -> ok' s k) -> forall s s', later ok s s' -> later ok' s s'.
Proof. intros ok ok' M s s' H. induction H; constructor; auto. Qed.
Lemma later_trans : forall ok a b c, later ok a b -> later ok b c -> later ok a c.
Proof. intros ok a b c H H'. induction H' as [|c k H' IH O]; [exact H|]. apply later_step; auto. Qed.
Lemma start_sing : sing_ok tstart.
Proof. intros c o E. discriminate E. Qed.
Lemma construct_step : forall c args kept s, fst (construct c args kept s) = tstep s (Construct c args kept).
Proof. reflexivity. Qed.

(** ** One object per class *)
Lemma single_final : forall s c kept, later anything tstart s -> bounded c = false ->
  exists s1 o, construct c None kept s = (s1, inl o) /\ cls_of s1 o = Some c /\
    forall s2 kept2, later anything s1 s2 -> construct c None kept2 s2 = (s2, inl o).
Proof.
  intros s c kept R B. destruct (later_grows _ _ _ start_sing R) as [_ K].
  destruct (construct c None kept s) as [s1 r] eqn:E.
  pose proof (construct_grows c None kept s K) as [G K1]. rewrite E in G, K1. cbn [fst] in G, K1.
  pose proof E as E0. unfold InstModel.construct in E0. rewrite B in E0.
  assert (H : exists o, single s1 c = Some o /\ r = inl o).
  { destruct (new_single_cases c false s s1 r K E0) as [(o & A & -> & A')|[(_ & A & _)|(_ & _ & A & ->)]]; [eauto | discriminate|].
    exists (length (objs s)). split; auto. cbn. rewrite Nat.eqb_refl. reflexivity. }
  destruct H as (o & Ho & ->). exists s1, o. split; auto. split; [apply K1; auto|].
  intros s2 kept2 L. destruct (later_grows _ _ _ K1 L) as [G2 K2]. pose proof (gr_single _ _ G2 c o Ho) as Q.
  unfold InstModel.construct. rewrite B. destruct (new_single mro c false s2) as [s3 r3] eqn:E3.
  destruct (new_single_cases c false s2 s3 r3 K2 E3) as [(o' & A & -> & ->)|[(A & _)|(A & _)]]; congruence.
Qed.

Lemma arguments_final : forall s c b kept, later anything tstart s -> bounded c = false ->
  (construct c (Some b) kept s = (s, inr TypeError) /\ exists s1 o, construct c None kept s = (s1, inl o) /\ cls_of s o = None) \/
  (exists o, construct c (Some b) kept s = (s, inl o) /\ construct c None kept s = (s, inl o)).
Proof.
  intros s c b kept R B. destruct (later_grows _ _ _ start_sing R) as [_ K]. unfold InstModel.construct. rewrite B.
  destruct (new_single mro c true s) as [s1 r1] eqn:E1. destruct (new_single mro c false s) as [s2 r2] eqn:E2.
  destruct (new_single_cases c true s s1 r1 K E1) as [(o & A & -> & ->)|[(A & _ & -> & ->)|(_ & A & _)]]; [| |discriminate].
  - right. exists o. split; auto. destruct (new_single_cases c false s s2 r2 K E2) as [(o' & A' & -> & ->)|[(A' & _)|(A' & _)]]; congruence.
  - left. split; auto. destruct (new_single_cases c false s s2 r2 K E2) as [(o' & A' & _)|[(_ & A' & _)|(_ & _ & -> & _)]]; [congruence | discriminate|].
    exists s2, (length (objs s)). split; auto. unfold cls_of. rewrite (proj2 (nth_error_None _ _)); auto.
Qed.

(** ** One object per pair of bounds *)
Lemma search_cases : forall s os lo hi,
  match search s os lo hi with
  | Some (inl o) => In o os /\ bds_of s o = Some (lo, hi)
  | Some (inr e) => e = AttributeError /\ exists o, In o os /\ bds_of s o = None
  | None => forall o, In o os -> exists b, bds_of s o = Some b /\ b <> (lo, hi)
  end.
Proof.
  intros s os lo hi. induction os as [|o os IH]; cbn [search]; [intros o []|].
  destruct (bds_of s o) as [[l h]|] eqn:E.
  - destruct ((l =? lo) && (h =? hi)) eqn:Q.
    + apply andb_true_iff in Q. destruct Q as [Q1 Q2]. apply Z.eqb_eq in Q1, Q2. subst. split; [left; auto | auto].
    + destruct (search s os lo hi) as [[o'|e]|].
      * destruct IH. split; [right; auto | auto].
      * destruct IH as (-> & o' & A & B). split; auto. exists o'. split; [right; auto | auto].
      * intros o' [<-|Ho]; [|auto]. exists (l, h). split; auto. intros X. injection X as -> ->. rewrite !Z.eqb_refl in Q. discriminate.
  - split; auto. exists o. split; [left; auto | auto].
Qed.
Definition purged (s : tst) : tst := mkTst (objs s) (alive s) (single s) (filter (alive s) (weak s)).
Definition added (c : nat) (s : tst) : tst :=
  mkTst (objs s ++ [mkT c None]) (fun x => if (x =? length (objs s))%nat then true else alive s x) (single s) (filter (alive s) (weak s) ++ [length (objs s)]).
Lemma new_bounded_cases : forall c lo hi s s1 q, new_bounded c lo hi s = (s1, q) ->
  (exists o, q = inl o /\ s1 = purged s /\ In o (weak s) /\ alive s o = true /\ bds_of s o = Some (lo, hi)) \/
  (q = inr AttributeError /\ s1 = purged s /\ exists o, In o (weak s) /\ alive s o = true /\ bds_of s o = None) \/
  (q = inl (length (objs s)) /\ s1 = added c s /\ forall o, In o (weak s) -> alive s o = true -> exists b, bds_of s o = Some b /\ b <> (lo, hi)).
Proof.
  intros c lo hi s s1 q E. unfold new_bounded in E. pose proof (search_cases s (filter (alive s) (weak s)) lo hi) as C.
  destruct (search s (filter (alive s) (weak s)) lo hi) as [[o|e]|].
  - injection E as <- <-. destruct C as [C1 C2]. apply filter_In in C1. left. exists o. split; auto. split; [reflexivity|]. split; [apply C1|]. split; [apply C1 | auto].
  - injection E as <- <-. destruct C as (-> & o & C1 & C2). apply filter_In in C1. right. left. split; auto. split; [reflexivity|]. exists o. split; [apply C1|]. split; [apply C1 | auto].
  - cbn in E. injection E as <- <-. right. right. split; auto. split; [reflexivity|]. intros o Ho A. apply C. apply filter_In. auto.
Qed.
Lemma added_bds : forall c s x, bds_of (added c s) x = bds_of s x.
Proof. intros c s x. exact (fresh_bds c s x). Qed.
Lemma added_cls : forall c s x, cls_of (added c s) x = if (x =? length (objs s))%nat then Some c else cls_of s x.
Proof. intros c s x. exact (fresh_cls c s x). Qed.
Lemma added_len : forall c s, length (objs (added c s)) = S (length (objs s)).
Proof. intros c s. cbn. rewrite app_length. cbn. lia. Qed.
Lemma added_inst : forall c s, isinstance mro (added c s) (length (objs s)) c = true.
Proof.
  intros c s. unfold isinstance. rewrite added_cls, Nat.eqb_refl. destruct (mro_self c) as [r ->]. cbn. rewrite Nat.eqb_refl. reflexivity.
Qed.
(** The bounds of all objects are proper. *)
Definition proper (s : tst) : Prop := forall o l h, bds_of s o = Some (l, h) -> l < h /\ fl l = l /\ fl h = h.
Definition stay (s s' : tst) : Prop := forall o b, bds_of s o = Some b -> bds_of s' o = Some b.
Lemma new_fresh_none : forall s, bds_of s (length (objs s)) = None.
Proof. intros s. unfold bds_of. rewrite (proj2 (nth_error_None _ _)); auto. Qed.
(** What a construction of a bounded object with exact bounds does. *)
Lemma construct_exact : forall c lo hi kept s s' r, bounded c = true -> fl lo = lo -> fl hi = hi -> construct c (Some (lo, hi)) kept s = (s', r) -> proper s ->
  proper s' /\ stay s s' /\ forall o, r = inl o -> bds_of s' o = Some (lo, hi).
Proof.
  intros c lo hi kept s s' r B Fl Fh E P. pose proof (construct_bounded_cases c (Some (lo, hi)) kept s s' r B E) as (s1 & q & EN & C).
  destruct (new_bounded_cases c lo hi s s1 q EN) as [(o & -> & -> & Hw & Ha & Hb)|[(-> & -> & _)|(-> & -> & Hn)]].
  - destruct C as [(_ & -> & ->)|[(_ & l & h & A & Lt & -> & ->)|(e & -> & _ & [A|(l & h & A & Le)] & C)]]; [| |discriminate|].
    + split; [exact P|]. split; [intros o' b Q; exact Q|]. intros o' Q. injection Q as <-. exact Hb.
    + injection A as <- <-. rewrite Fl, Fh. pose proof (bds_lt _ _ _ Hb) as Ho.
      assert (X : forall x, bds_of (set_bds o (Some (lo, hi)) (purged s)) x = bds_of s x).
      { intros x. rewrite bds_set. destruct (x =? o)%nat eqn:Q; [|reflexivity]. apply Nat.eqb_eq in Q. subst x. change (objs (purged s)) with (objs s).
        destruct (o <? length (objs s))%nat eqn:L; [congruence | apply Nat.ltb_ge in L; lia]. }
      split; [intros x l h; rewrite X; apply P|]. split; [intros x b Q; rewrite X; auto|]. intros x Q. injection Q as <-. rewrite X. auto.
    + injection A as <- <-. pose proof (P o lo hi Hb). lia.
  - destruct C as (-> & ->). split; [exact P|]. split; [intros o' b Q; exact Q | intros o' Q; discriminate].
  - assert (Bs : forall x b, bds_of s x = Some b -> (x =? length (objs s))%nat = false).
    { intros x b Q. apply bds_lt in Q. apply Nat.eqb_neq. lia. }
    destruct C as [(A & -> & ->)|[(_ & l & h & A & Lt & -> & ->)|(e & -> & _ & _ & C)]].
    + rewrite added_inst in A. discriminate.
    + injection A as <- <-. rewrite Fl, Fh.
      assert (X : forall x, bds_of (set_bds (length (objs s)) (Some (lo, hi)) (added c s)) x = if (x =? length (objs s))%nat then Some (lo, hi) else bds_of s x).
      { intros x. rewrite bds_set, added_len, added_bds. destruct (x =? length (objs s))%nat eqn:Q; auto. apply Nat.eqb_eq in Q. subst x.
        destruct (length (objs s) <? S (length (objs s)))%nat eqn:L; auto. apply Nat.ltb_ge in L. lia. }
      split.
      { intros x l h. rewrite X. destruct (x =? length (objs s))%nat; [intros Q; injection Q as <- <-; auto | apply P]. }
      split; [intros x b Q; rewrite X, (Bs x b Q); auto|].
      intros x Q. injection Q as <-. rewrite X, Nat.eqb_refl. reflexivity.
    + assert (X : forall x, bds_of s' x = bds_of s x) by (intros x; destruct C as [(-> & _)|(-> & _)]; apply (added_bds c s x)).
      split; [intros x l h; rewrite X; apply P|]. split; [intros x b Q; rewrite X; auto | intros o Q; discriminate].
Qed.
Lemma construct_none : forall c kept s s' r, bounded c = true -> construct c None kept s = (s', r) -> proper s -> forall x, bds_of s' x = bds_of s x.
Proof.
  intros c kept s s' r B E P x. pose proof (construct_bounded_cases c None kept s s' r B E) as (s1 & q & EN & C).
  assert (X : bds_of s1 x = bds_of s x).
  { destruct (new_bounded_cases c dflt dflt s s1 q EN) as [(o & -> & -> & Hw & Ha & Hb)|[(-> & -> & _)|(-> & -> & Hn)]]; auto. apply added_bds. }
  destruct q as [o|e]; [|destruct C as (-> & _); auto].
  destruct C as [(_ & -> & _)|[(_ & l & h & A & _)|(e & -> & _ & _ & [(-> & _)|(-> & _)])]]; auto; discriminate.
Qed.
Lemma single_bds : forall c args s, sing_ok s -> forall x, bds_of (fst (new_single mro c args s)) x = bds_of s x.
Proof.
  intros c args s K x. destruct (new_single mro c args s) as [s' r] eqn:E. cbn [fst].
  destruct (new_single_cases c args s s' r K E) as [(o & _ & -> & _)|[(_ & _ & -> & _)|(N & _ & _ & ->)]]; auto. exact (fresh_bds c s x).
Qed.
Lemma duplicate_exact : forall o s, sing_ok s -> proper s -> proper (fst (duplicate o s)) /\ stay s (fst (duplicate o s)).
Proof.
  intros o s K P. unfold InstModel.duplicate. destruct (nth_error (objs s) o) as [t|] eqn:Et; [|split; [exact P | intros x b; auto]].
  destruct (bounded (tcls t)) eqn:B.
  2:{ split; [intros x l h; rewrite (single_bds (tcls t) false s K); [apply P | try exact K ..] | intros x b Q; rewrite (single_bds (tcls t) false s K); [exact Q | try exact K ..]]. }
  destruct (new_bounded (tcls t) dflt dflt s) as [s1 q] eqn:EN.
  destruct (new_bounded_cases (tcls t) dflt dflt s s1 q EN) as [(o' & -> & -> & Hw & Ha & Hb)|[(-> & -> & _)|(-> & -> & Hn)]].
  - apply P in Hb. lia.
  - split; [exact P | intros x b; auto].
  - cbn [fst]. destruct (bds t) as [[l h]|] eqn:Eb.
    + assert (X : forall x, bds_of (set_bds (length (objs s)) (Some (l, h)) (added (tcls t) s)) x = if (x =? length (objs s))%nat then Some (l, h) else bds_of s x).
      { intros x. rewrite bds_set, added_len, added_bds. destruct (x =? length (objs s))%nat eqn:Q; auto. apply Nat.eqb_eq in Q. subst x.
        destruct (length (objs s) <? S (length (objs s)))%nat eqn:L; auto. apply Nat.ltb_ge in L. lia. }
      assert (Ho : bds_of s o = Some (l, h)) by (unfold bds_of; rewrite Et; auto).
      split.
      * intros x l' h'. rewrite X. destruct (x =? length (objs s))%nat; [intros Q; injection Q as <- <-; eauto | apply P].
      * intros x b Q. rewrite X. pose proof (bds_lt _ _ _ Q). destruct (x =? length (objs s))%nat eqn:Qx; auto. apply Nat.eqb_eq in Qx. lia.
    + split; [intros x l h; rewrite added_bds; [apply P | try exact K ..] | intros x b Q; rewrite added_bds; [exact Q | try exact K ..]].
Qed.
Lemma step_exact : forall s k, sing_ok s -> proper s -> exact_bounds fl s k -> proper (tstep s k) /\ stay s (tstep s k).
Proof.
  intros s [c args kept|o|o] K P X; cbn [InstModel.tstep]; [| apply duplicate_exact; auto|].
  - destruct (bounded c) eqn:B.
    + destruct args as [[lo hi]|].
      * destruct (construct c (Some (lo, hi)) kept s) as [s' r] eqn:E. cbn [exact_bounds] in X. destruct (construct_exact c lo hi kept s s' r B (proj1 X) (proj2 X) E P) as (A1 & A2 & _). auto.
      * destruct (construct c None kept s) as [s' r] eqn:E. pose proof (construct_none c kept s s' r B E P) as A. cbn [fst]. split; [intros x l h; rewrite A; [apply P | try exact K ..] | intros x b Q; rewrite A; [exact Q | try exact K ..]].
    + unfold InstModel.construct. rewrite B. split; [intros x l h; rewrite single_bds; [apply P | try exact K ..] | intros x b Q; rewrite single_bds; [exact Q | try exact K ..]].
  - destruct (cls_of s o) as [c|]; [destruct (bounded c)|]; split; auto; intros x b Q; exact Q.
Qed.
Lemma later_exact : forall s s', sing_ok s -> proper s -> later (exact_bounds fl) s s' -> sing_ok s' /\ proper s' /\ stay s s'.
Proof.
  intros s s' K P H. induction H as [|s' k H (K1 & P1 & S1) O]; [split; auto; split; [exact P | intros x b Q; exact Q]|].
  destruct (step_exact s' k K1 P1 O) as [A B]. split; [apply step_grows; auto|]. split; auto. intros x b Q. apply B, S1, Q.
Qed.
Lemma start_proper : proper tstart.
Proof. intros o l h E. unfold bds_of in E. destruct o; discriminate E. Qed.
Lemma bounds_final : forall s c lo hi kept s1 o, later (exact_bounds fl) tstart s -> bounded c = true -> fl lo = lo -> fl hi = hi ->
  construct c (Some (lo, hi)) kept s = (s1, inl o) ->
  forall s2, later (exact_bounds fl) s1 s2 -> bds_of s2 o = Some (lo, hi).
Proof.
  intros s c lo hi kept s1 o R B Fl Fh E s2 L. destruct (later_exact _ _ start_sing start_proper R) as (K & P & _).
  destruct (construct_exact c lo hi kept s s1 (inl o) B Fl Fh E P) as (P1 & _ & Q). pose proof (construct_grows c (Some (lo, hi)) kept s K) as [_ K1]. rewrite E in K1.
  destruct (later_exact s1 s2 K1 P1 L) as (_ & _ & St). apply St. auto.
Qed.

(** In simple use. *)
Record tidy (c : nat) (s : tst) : Prop := mkTidy {
  td_set : forall o, In o (weak s) -> alive s o = true -> cls_of s o = Some c /\ exists b, bds_of s o = Some b;
  td_in : forall o b, alive s o = true -> bds_of s o = Some b -> In o (weak s);
  td_one : forall o o' b, In o (weak s) -> In o' (weak s) -> alive s o = true -> alive s o' = true -> bds_of s o = Some b -> bds_of s o' = Some b -> o = o';
  td_weak : forall o, In o (weak s) -> (o < length (objs s))%nat }.
Lemma start_tidy : forall c, tidy c tstart.
Proof. intros c. constructor; cbn; try (intros; contradiction). intros o b Q. discriminate. Qed.
Lemma tidy_drop : forall c s o, tidy c s -> tidy c (drop o s).
Proof.
  intros c s o [A B C D]. assert (X : forall x, alive (drop o s) x = true -> alive s x = true) by (intros x; cbn; destruct (x =? o)%nat; [discriminate | auto]).
  constructor; auto.
  - intros x Hx Ax. apply A; auto.
  - intros x b Ax. apply B; auto.
  - intros x x' b H1 H2 A1 A2. apply C; auto.
Qed.
Lemma tidy_purged : forall c s, tidy c s -> tidy c (purged s).
Proof.
  intros c s [A B C D]. constructor; cbn [purged weak alive].
  - intros o Ho Ha. apply filter_In in Ho. apply A; [apply Ho | auto].
  - intros o b Ha Hb. apply filter_In. split; auto. apply (B o b); auto.
  - intros o o' b Ho Ho'. apply filter_In in Ho, Ho'. apply C; [apply Ho | apply Ho'].
  - intros o Ho. apply filter_In in Ho. apply D, Ho.
Qed.
Lemma tidy_same : forall c s s', tidy c s -> weak s' = weak s -> (forall x, (x < length (objs s))%nat -> alive s' x = alive s x) -> (forall x k, (x < length (objs s))%nat -> cls_of s x = Some k -> cls_of s' x = Some k) ->
  (forall x, bds_of s' x = bds_of s x) -> (length (objs s) <= length (objs s'))%nat -> tidy c s'.
Proof.
  intros c s s' [A B C D] W L K Q N. constructor; rewrite ?W.
  - intros o Ho Ha. pose proof (D o Ho) as Lo. rewrite L in Ha by auto. destruct (A o Ho Ha) as [A1 [b A2]]. split; [apply K; auto | exists b; rewrite Q; auto].
  - intros o b Ha Hb. rewrite Q in Hb. pose proof (bds_lt _ _ _ Hb). rewrite L in Ha by auto. apply (B o b); auto.
  - intros o o' b Ho Ho' Ha Ha' Hb Hb'. rewrite Q in Hb, Hb'. rewrite L in Ha, Ha' by auto. apply (C o o' b); auto.
  - intros o Ho. pose proof (D o Ho). lia.
Qed.
Lemma tidy_single : forall c c' args s, sing_ok s -> tidy c s -> tidy c (fst (new_single mro c' args s)).
Proof.
  intros c c' args s K T. pose proof (new_single_grows c' args s K) as [G _]. pose proof (single_bds c' args s K) as Q. destruct (new_single mro c' args s) as [s' r] eqn:E. cbn [fst] in *.
  apply (tidy_same c s); auto.
  - destruct (new_single_cases c' args s s' r K E) as [(o & _ & -> & _)|[(_ & _ & -> & _)|(N & _ & _ & ->)]]; auto.
  - intros x Hx. destruct (new_single_cases c' args s s' r K E) as [(o & _ & -> & _)|[(_ & _ & -> & _)|(N & _ & _ & ->)]]; auto.
    cbn. destruct (x =? length (objs s))%nat eqn:Qx; auto. apply Nat.eqb_eq in Qx. lia.
  - intros x k _ Hk. apply (gr_cls _ _ G). auto.
  - apply (gr_len _ _ G).
Qed.
Lemma tidy_added : forall c s l h, tidy c s -> (forall o, In o (weak s) -> alive s o = true -> exists b, bds_of s o = Some b /\ b <> (l, h)) ->
  tidy c (set_bds (length (objs s)) (Some (l, h)) (added c s)).
Proof.
  intros c s l h [A B C D] N.
  assert (X : forall x, bds_of (set_bds (length (objs s)) (Some (l, h)) (added c s)) x = if (x =? length (objs s))%nat then Some (l, h) else bds_of s x).
  { intros x. rewrite bds_set, added_len, added_bds. destruct (x =? length (objs s))%nat eqn:Q; auto. apply Nat.eqb_eq in Q. subst x.
    destruct (length (objs s) <? S (length (objs s)))%nat eqn:L; auto. apply Nat.ltb_ge in L. lia. }
  assert (W : forall x, In x (weak (added c s)) -> x = length (objs s) \/ (x <> length (objs s) /\ In x (weak s) /\ alive s x = true)).
  { intros x. cbn. rewrite in_app_iff, filter_In. intros [[H1 H2]|[<-|[]]]; auto. right. pose proof (D x H1). split; [lia | auto]. }
  assert (W' : forall x, In x (weak (added c s)) -> (x =? length (objs s))%nat = false -> In x (weak s) /\ alive s x = true).
  { intros x Hx Q. apply Nat.eqb_neq in Q. destruct (W x Hx) as [E|(_ & E)]; auto. contradiction. }
  constructor; change (weak (set_bds (length (objs s)) (Some (l, h)) (added c s))) with (weak (added c s)); change (alive (set_bds (length (objs s)) (Some (l, h)) (added c s))) with (alive (added c s)).
  - intros o Ho Ha. rewrite cls_set, added_cls, X. destruct (o =? length (objs s))%nat eqn:Q; [eauto|]. destruct (W' o Ho Q) as [H1 H2]. apply A; auto.
  - intros o b Ha. rewrite X. cbn in Ha |- *. rewrite in_app_iff, filter_In. destruct (o =? length (objs s))%nat eqn:Q; [apply Nat.eqb_eq in Q; intros _; right; left; auto|].
    intros Hb. left. split; auto. apply (B o b); auto.
  - intros o o' b Ho Ho' _ _. rewrite !X. destruct (o =? length (objs s))%nat eqn:Q; destruct (o' =? length (objs s))%nat eqn:Q'.
    + apply Nat.eqb_eq in Q, Q'. congruence.
    + intros E1 E2. destruct (W' o' Ho' Q') as [H1 H2]. destruct (N o' H1 H2) as (b' & E3 & E4). congruence.
    + intros E1 E2. destruct (W' o Ho Q) as [H1 H2]. destruct (N o H1 H2) as (b' & E3 & E4). congruence.
    + destruct (W' o Ho Q), (W' o' Ho' Q'). apply C; auto.
  - intros o Ho. rewrite len_set, added_len. destruct (W o Ho) as [->|(_ & Hw & _)]; [lia|]. pose proof (D o Hw). lia.
Qed.
Lemma tidy_dropped : forall c s, tidy c s -> tidy c (drop (length (objs s)) (added c s)).
Proof.
  intros c s [A B C D].
  assert (L : forall x, alive (drop (length (objs s)) (added c s)) x = true -> (x =? length (objs s))%nat = false /\ alive s x = true).
  { intros x. cbn. destruct (x =? length (objs s))%nat; [discriminate | auto]. }
  assert (W : forall x, In x (weak (added c s)) -> (x =? length (objs s))%nat = false -> In x (weak s) /\ alive s x = true).
  { intros x. cbn. rewrite in_app_iff, filter_In. intros [H|[<-|[]]]; auto. rewrite Nat.eqb_refl. discriminate. }
  constructor; change (weak (drop (length (objs s)) (added c s))) with (weak (added c s)); change (bds_of (drop (length (objs s)) (added c s))) with (bds_of (added c s)); change (cls_of (drop (length (objs s)) (added c s))) with (cls_of (added c s)).
  - intros o Ho Ha. apply L in Ha. destruct Ha as [Q Ha]. destruct (W o Ho Q) as [H1 _]. rewrite added_cls, added_bds, Q. apply A; auto.
  - intros o b Ha Hb. apply L in Ha. destruct Ha as [Q Ha]. rewrite added_bds in Hb. cbn. rewrite in_app_iff, filter_In. left. split; auto. apply (B o b); auto.
  - intros o o' b Ho Ho' Ha Ha'. apply L in Ha, Ha'. destruct Ha as [Q Ha], Ha' as [Q' Ha']. rewrite !added_bds. apply C; auto; eapply W; eauto.
  - intros o Ho. change (o < length (objs (added c s)))%nat. rewrite added_len. cbn in Ho. rewrite in_app_iff, filter_In in Ho. destruct Ho as [[Ho _]|[<-|[]]]; [|lia]. pose proof (D o Ho). lia.
Qed.
Lemma step_tidy : forall c s k, sing_ok s -> proper s -> tidy c s -> simple_use bounded fl c s k -> tidy c (tstep s k).
Proof.
  intros c s [c' args kept|o|o] K P T [X U]; cbn [InstModel.tstep].
  - destruct (bounded c') eqn:B.
    2:{ unfold InstModel.construct. rewrite B. apply tidy_single; auto. }
    destruct (U eq_refl) as [-> ->]. destruct (construct c args false s) as [s' r] eqn:E. cbn [fst].
    pose proof (construct_bounded_cases c args false s s' r B E) as Q. destruct (match args with Some b => b | None => (dflt, dflt) end) as [lo hi] eqn:EA.
    destruct Q as (s1 & q & EN & Q).
    destruct (new_bounded_cases c lo hi s s1 q EN) as [(o & -> & -> & Hw & Ha & Hb)|[(-> & -> & o & Hw & Ha & Hb)|(-> & -> & Hn)]].
    + destruct Q as [(_ & -> & _)|[(_ & l & h & A & Lt & -> & _)|(e & _ & _ & _ & [(-> & _)|(-> & Q)])]].
      * apply tidy_purged; auto.
      * subst args. injection EA as -> ->. cbn in X. destruct X as [X1 X2]. rewrite X1, X2. pose proof (tidy_purged c s T) as T1. apply (tidy_same c (purged s)); auto.
        -- intros x k _ Hk. rewrite cls_set. auto.
        -- intros x. rewrite bds_set. destruct (x =? o)%nat eqn:Qx; auto. apply Nat.eqb_eq in Qx. subst x. pose proof (bds_lt _ _ _ Hb). change (objs (purged s)) with (objs s).
           destruct (o <? length (objs s))%nat eqn:L; [rewrite <- Hb; reflexivity | apply Nat.ltb_ge in L; lia].
        -- rewrite len_set. auto.
      * apply tidy_purged; auto.
      * pose proof (bds_lt _ _ _ Hb). lia.
    + destruct Q as [-> _]. apply tidy_purged; auto.
    + destruct Q as [(A & _)|[(_ & l & h & A & Lt & -> & _)|(e & _ & _ & _ & [(-> & [Q|Q])|(-> & Q)])]].
      * rewrite added_inst in A. discriminate.
      * subst args. injection EA as -> ->. cbn in X. destruct X as [X1 X2]. rewrite X1, X2. apply tidy_added; auto.
      * discriminate.
      * lia.
      * apply tidy_dropped; auto.
  - unfold InstModel.duplicate. destruct (nth_error (objs s) o) as [t|] eqn:Et; [|exact T].
    rewrite (U (tcls t)); [apply tidy_single; auto|]. unfold cls_of. rewrite Et. reflexivity.
  - destruct (cls_of s o) as [c'|]; [destruct (bounded c')|]; auto. apply tidy_drop. auto.
Qed.
Lemma later_tidy : forall c s s', sing_ok s -> proper s -> tidy c s -> later (simple_use bounded fl c) s s' -> tidy c s'.
Proof.
  intros c s s' K P T H.
  assert (X : sing_ok s' /\ proper s' /\ tidy c s'); [|apply X].
  induction H as [|s' k H (K1 & P1 & T1) O]; auto.
  split; [apply step_grows; auto|]. split; [apply step_exact; auto; apply O | apply step_tidy; auto].
Qed.
Lemma bounded_final : forall c s lo hi kept s1 o, bounded c = true -> later (simple_use bounded fl c) tstart s -> fl lo = lo -> fl hi = hi ->
  construct c (Some (lo, hi)) false s = (s1, inl o) ->
  forall s2, later (simple_use bounded fl c) s1 s2 -> alive s2 o = true -> exists s3, construct c (Some (lo, hi)) kept s2 = (s3, inl o).
Proof.
  intros c s lo hi kept s1 o B R Fl Fh E s2 L Al.
  assert (R2 : later (simple_use bounded fl c) tstart s2).
  { apply (later_trans _ _ s1); auto. assert (s1 = tstep s (Construct c (Some (lo, hi)) false)) as -> by (cbn [InstModel.tstep]; rewrite E; reflexivity).
    apply later_step; auto. split; [cbn; auto | auto]. }
  pose proof (later_mono (simple_use bounded fl c) (exact_bounds fl) (fun s k H => proj1 H)) as M.
  pose proof (bounds_final s c lo hi false s1 o (M _ _ R) B Fl Fh E s2 (M _ _ L)) as Hb.
  destruct (later_exact _ _ start_sing start_proper (M _ _ R2)) as (K & P & _).
  pose proof (later_tidy c _ _ start_sing start_proper (start_tidy c) R2) as [T1 T2 T3 T4].
  pose proof (T2 o _ Al Hb) as Hw.
  unfold InstModel.construct. rewrite B. destruct (new_bounded c lo hi s2) as [s3 q] eqn:EN.
  destruct (new_bounded_cases c lo hi s2 s3 q EN) as [(o' & -> & -> & Hw' & Ha' & Hb')|[(-> & -> & o' & Hw' & Ha' & Hb')|(-> & -> & Hn)]].
  - assert (o' = o) by (apply (T3 o' o (lo, hi)); auto). subst o'.
    assert (Lt : lo < hi) by (apply (P o lo hi Hb)). apply Z.ltb_lt in Lt. rewrite Lt. destruct (isinstance mro (purged s2) o c); eauto.
  - destruct (T1 o' Hw' Ha') as [_ [b Q]]. congruence.
  - destruct (Hn o Hw Al) as (b & Q1 & Q2). congruence.
Qed.
Lemma different_final : forall s c lo hi kept s1 o, later (exact_bounds fl) tstart s -> bounded c = true -> fl lo = lo -> fl hi = hi ->
  construct c (Some (lo, hi)) kept s = (s1, inl o) ->
  forall s2 c' lo' hi' kept' s3 o', later (exact_bounds fl) s1 s2 -> bounded c' = true -> fl lo' = lo' -> fl hi' = hi' -> construct c' (Some (lo', hi')) kept' s2 = (s3, inl o') ->
  (lo', hi') <> (lo, hi) -> o' <> o.
Proof.
  intros s c lo hi kept s1 o R B Fl Fh E s2 c' lo' hi' kept' s3 o' L B' Fl' Fh' E' N ->.
  assert (R2 : later (exact_bounds fl) tstart s2).
  { apply (later_trans _ _ s1); auto. assert (s1 = tstep s (Construct c (Some (lo, hi)) kept)) as -> by (cbn [InstModel.tstep]; rewrite E; reflexivity).
    apply later_step; auto. cbn. auto. }
  assert (L3 : later (exact_bounds fl) s1 s3).
  { assert (s3 = tstep s2 (Construct c' (Some (lo', hi')) kept')) as -> by (cbn [InstModel.tstep]; rewrite E'; reflexivity). apply later_step; auto. cbn. auto. }
  pose proof (bounds_final s c lo hi kept s1 o R B Fl Fh E s3 L3) as A1.
  pose proof (bounds_final s2 c' lo' hi' kept' s3 o R2 B' Fl' Fh' E' s3 (later_now _ _ _ _ _ _)) as A2. congruence.
Qed.
End Proofs.
