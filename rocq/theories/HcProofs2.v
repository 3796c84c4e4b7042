(** Copies of HcModel.v; the invariant holds in every state reached. *)
From Coq Require Import List Bool Arith ZArith Lia.
From Verif Require Import HcModel HcSpec HcProofs.
Import ListNotations.

(** Internal: [s'] has all of [s], and maybe more. *)
Definition ext (s s' : state) : Prop :=
  no s <= no s' /\ nc s <= nc s' /\
  (forall x, x < no s -> data (obj s' x) = data (obj s x) /\ kids (obj s' x) = kids (obj s x) /\ f_on (obj s' x) = f_on (obj s x) /\ attrs (obj s' x) = attrs (obj s x)) /\
  (forall c, c < nc s -> cch s' c = cch s c).
Lemma ext_refl : forall s, ext s s.
Proof. intros s. split; [lia|]. split; [lia|]. split; [intros; repeat split | reflexivity]. Qed.
Lemma ext_trans : forall a b c, ext a b -> ext b c -> ext a c.
Proof.
  intros a b c [A1 [A2 [A3 A4]]] [B1 [B2 [B3 B4]]]. split; [lia|]. split; [lia|]. split.
  - intros x L. destruct (A3 x L) as [P1 [P2 [P3 P4]]]. destruct (B3 x) as [Q1 [Q2 [Q3 Q4]]]; [lia|]. repeat split; congruence.
  - intros x L. rewrite B4 by lia. apply A4. exact L.
Qed.
Lemma make_ext : forall s t m lim en, ext s (make s t m lim en) /\ (forall x, par (obj (make s t m lim en) x) = par (obj s x)).
Proof.
  intros s t m lim en. split.
  - split; [cbn; lia|]. split; [cbn; lia|]. split.
    + intros x L. cbn. unfold upd. destruct (Nat.eqb_spec x t) as [E|N]; [subst x; repeat split | repeat split].
    + intros c L. cbn. apply upd_other. lia.
  - intros x. cbn. unfold upd. destruct (Nat.eqb_spec x t) as [E|N]; [subst x; reflexivity | reflexivity].
Qed.
Lemma born_ext : forall s d ks ats, ext s (born s d ks ats).
Proof.
  intros s d ks ats. split; [cbn; lia|]. split; [cbn; lia|]. split; [|reflexivity].
  intros x L. cbn. rewrite upd_other by lia. destruct (set_par_at (no s) ks (obj s) x) as [A [B [C [D [E _]]]]]. repeat split; assumption.
Qed.
Lemma Forall2_in : forall A B (R Q : A -> B -> Prop) l l', (forall a b, In a l -> R a b -> Q a b) -> Forall2 R l l' -> Forall2 Q l l'.
Proof.
  intros A B R Q l l' H F. induction F as [|a b l l' Hab F IH]; constructor; [apply H; [left; reflexivity | exact Hab]|].
  apply IH. intros c d Hc. apply H. right. exact Hc.
Qed.
Lemma renewed_l : forall s s1 s2 c c', ext s s1 -> c < nc s -> c_obj (cch s c) < no s -> renewed s1 s2 c c' -> renewed s s2 c c'.
Proof.
  intros s s1 s2 c c' [E1 [E2 [E3 E4]]] L L2 [R1 [R2 [R3 [R4 [R5 R6]]]]]. rewrite E4 in * by exact L. destruct (E3 _ L2) as [_ [_ [X _]]].
  split; [lia|]. split; [exact R2|]. split; [exact R3|]. split; [exact R4|]. split; [exact R5 | congruence].
Qed.
Lemma renewed_r : forall s s1 s2 c c', ext s1 s2 -> renewed s s1 c c' -> renewed s s2 c c'.
Proof.
  intros s s1 s2 c c' [E1 [E2 [E3 E4]]] [R1 [R2 [R3 [R4 [R5 R6]]]]]. unfold renewed. rewrite E4 by lia.
  split; [lia|]. split; [exact R2|]. split; [exact R3|]. split; [exact R4|]. split; [exact R5 | exact R6].
Qed.
Lemma copied_l : forall s s1 s2, wf s -> ext s s1 -> forall x x', x < no s -> copied s1 s2 x x' -> copied s s2 x x'.
Proof.
  intros s s1 s2 W E x. induction x as [x IH] using lt_wf_ind. intros x' L C. inversion C as [a b H1 H2 H3 H4 H5]; subst a b.
  pose proof E as [E1 [E2 [E3 E4]]]. destruct (E3 _ L) as [X1 [X2 [X3 X4]]]. rewrite X1 in H2. rewrite X2 in H4. rewrite X4 in H5.
  constructor; [lia | exact H2 | exact H3 | |].
  - eapply Forall2_in; [|exact H4]. cbn. intros a b Hi Hc. destruct (w_kids _ W _ _ L Hi). apply IH; [lia | lia | exact Hc].
  - eapply Forall2_in; [|exact H5]. cbn. intros [k c] [k' c'] Hi [Hf Hr]. split; [exact Hf|]. cbn in *. assert (Lc := w_attr _ W _ _ _ L Hi).
    eapply renewed_l; [exact E | exact Lc | apply w_obj; assumption | exact Hr].
Qed.
Lemma copied_r : forall s s1 s2, wf s -> ext s1 s2 -> forall x x', x < no s -> copied s s1 x x' -> copied s s2 x x'.
Proof.
  intros s s1 s2 W E x. induction x as [x IH] using lt_wf_ind. intros x' L C. inversion C as [a b H1 H2 H3 H4 H5]; subst a b.
  pose proof E as [E1 [E2 [E3 E4]]]. destruct (E3 x') as [X1 [X2 [X3 X4]]]; [lia|].
  constructor; [lia | congruence | congruence | |].
  - rewrite X2. eapply Forall2_in; [|exact H4]. cbn. intros a b Hi Hc. destruct (w_kids _ W _ _ L Hi). apply IH; [lia | lia | exact Hc].
  - rewrite X4. eapply Forall2_in; [|exact H5]. cbn. intros [k c] [k' c'] Hi [Hf Hr]. split; [exact Hf|]. eapply renewed_r; eassumption.
Qed.

Lemma copy_attrs_ok : forall l s, wf s -> (forall k c, In (k, c) l -> c < nc s) ->
  let r := copy_attrs s l in
  wf (fst r) /\ ext s (fst r) /\ no (fst r) = no s /\ (forall x, par (obj (fst r) x) = par (obj s x)) /\
  Forall2 (fun e e' => fst e' = fst e /\ renewed s (fst r) (snd e) (snd e')) l (snd r).
Proof.
  induction l as [|[k c] l IH]; intros s W HL; cbv zeta; cbn [copy_attrs].
  - cbn. split; [exact W|]. split; [apply ext_refl|]. split; [reflexivity|]. split; [reflexivity | constructor].
  - assert (Lc : c < nc s) by (apply (HL k); left; reflexivity). assert (Lo := w_obj _ W _ Lc).
    set (s1 := make s (c_obj (cch s c)) (c_meth (cch s c)) (c_lim (cch s c)) true).
    assert (W1 : wf s1) by (apply wf_make; assumption).
    destruct (make_ext s (c_obj (cch s c)) (c_meth (cch s c)) (c_lim (cch s c)) true) as [X1 P1]. fold s1 in X1, P1.
    destruct (IH s1 W1) as [W2 [X2 [N2 [P2 F2]]]].
    { intros k' c' H. destruct X1 as [_ [X1 _]]. specialize (HL k' c' (or_intror H)). lia. }
    destruct (copy_attrs s1 l) as [s2 r'] eqn:E. cbn [fst snd] in *.
    split; [exact W2|]. split; [eapply ext_trans; eassumption|]. split; [exact N2|]. split; [intros x; rewrite P2; apply P1|].
    constructor.
    + split; [reflexivity|]. cbn [snd]. assert (R : renewed s s1 c (nc s)).
      { unfold renewed, s1. cbn. rewrite upd_same. cbn. repeat split; lia. }
      eapply renewed_r; eassumption.
    + eapply Forall2_in; [|exact F2]. cbn. intros [k1 c1] [k2 c2] Hi [Hf Hr]. split; [exact Hf|]. cbn in *.
      assert (L1 : c1 < nc s) by (apply (HL k1); right; exact Hi). eapply renewed_l; [exact X1 | exact L1 | apply w_obj; assumption | exact Hr].
Qed.

(** What is said of the copy of one object. *)
Definition good_copy (s : state) (o : nat) (r : state * nat) : Prop :=
  wf (fst r) /\ ext s (fst r) /\ (forall x, x < no s -> par (obj (fst r) x) = par (obj s x)) /\
  no s <= snd r < no (fst r) /\ par (obj (fst r) (snd r)) = None /\ copied s (fst r) o (snd r).
Lemma copy_list_ok : forall cp l s, (forall s o, wf s -> o < no s -> In o l -> good_copy s o (cp s o)) -> wf s -> (forall o, In o l -> o < no s) ->
  let r := copy_list cp s l in
  wf (fst r) /\ ext s (fst r) /\ (forall x, x < no s -> par (obj (fst r) x) = par (obj s x)) /\
  (forall k, In k (snd r) -> no s <= k < no (fst r) /\ par (obj (fst r) k) = None) /\ Forall2 (copied s (fst r)) l (snd r).
Proof.
  intros cp l. induction l as [|o l IH]; intros s HC W HL; cbv zeta; cbn [copy_list].
  - cbn. split; [exact W|]. split; [apply ext_refl|]. split; [reflexivity|]. split; [intros k [] | constructor].
  - destruct (HC s o W (HL _ (or_introl eq_refl)) (or_introl eq_refl)) as [W1 [X1 [P1 [B1 [N1 C1]]]]].
    destruct (cp s o) as [s1 o'] eqn:E1. cbn [fst snd] in *.
    destruct (IH s1) as [W2 [X2 [P2 [B2 F2]]]].
    { intros t q Wt Lq Hq. apply HC; [exact Wt | exact Lq | right; exact Hq]. }
    { exact W1. }
    { intros q Hq. destruct X1 as [X1 _]. specialize (HL q (or_intror Hq)). lia. }
    destruct (copy_list cp s1 l) as [s2 r'] eqn:E2. cbn [fst snd] in *. pose proof X1 as [XN _]. pose proof X2 as [XN2 _].
    split; [exact W2|]. split; [eapply ext_trans; eassumption|]. split; [intros x L; rewrite P2 by lia; apply P1; exact L|]. split.
    + intros k [Ek|Hk]; [subst k; split; [lia|]; rewrite P2 by lia; exact N1|]. destruct (B2 k Hk) as [B3 B4]. split; [lia | exact B4].
    + constructor; [eapply copied_r; [exact W | exact X2 | apply HL; left; reflexivity | exact C1]|].
      eapply Forall2_in; [|exact F2]. cbn. intros a b Ha Hab. eapply copied_l; [exact W | exact X1 | apply HL; right; exact Ha | exact Hab].
Qed.
Lemma copy_tree_ok : forall n s o, wf s -> o < no s -> o < n -> good_copy s o (copy_tree n s o).
Proof.
  induction n as [|n IH]; intros s o W L Ln; [lia|]. cbn [copy_tree].
  destruct (copy_list_ok (copy_tree n) (kids (obj s o)) s) as [W1 [X1 [P1 [B1 F1]]]].
  { intros t q Wt Lq Hq. destruct (w_kids _ W _ _ L Hq). apply IH; [exact Wt | exact Lq | lia]. }
  { exact W. }
  { intros q Hq. destruct (w_kids _ W _ _ L Hq). lia. }
  destruct (copy_list (copy_tree n) s (kids (obj s o))) as [s1 ks]. cbn [fst snd] in *.
  pose proof X1 as [XN [XC _]].
  destruct (copy_attrs_ok (attrs (obj s o)) s1) as [W2 [X2 [N2 [P2 F2]]]].
  { exact W1. }
  { intros k c H. assert (c < nc s) by (eapply w_attr; eassumption). lia. }
  destruct (copy_attrs s1 (attrs (obj s o))) as [s2 ats]. cbn [fst snd] in *.
  change (good_copy s o (born s2 (data (obj s o)) ks ats, no s2)).
  assert (W3 : wf (born s2 (data (obj s o)) ks ats)).
  { apply wf_born; [exact W2 | |].
    - intros k Hk. destruct (B1 k Hk) as [B2 B3]. split; [lia|]. rewrite P2. exact B3.
    - intros k c H. assert (G : forall l l', Forall2 (fun e e' : nat * nat => fst e' = fst e /\ renewed s1 s2 (snd e) (snd e')) l l' -> In (k, c) l' -> c < nc s2).
      { intros l l' F. induction F as [|e e' l l' [He Hr] F IHF]; [intros []|]. intros [Ee|Hi]; [subst e'; destruct Hr as [Hr _]; cbn in Hr; lia | apply IHF; exact Hi]. }
      eapply G; eassumption. }
  assert (X3 := born_ext s2 (data (obj s o)) ks ats).
  set (s3 := born s2 (data (obj s o)) ks ats) in *.
  assert (X13 : ext s1 s3) by (eapply ext_trans; eassumption).
  unfold good_copy. cbn [fst snd].
  split; [exact W3|]. split; [eapply ext_trans; eassumption|]. split.
  { intros x Lx. unfold s3. cbn. rewrite upd_other by lia. destruct (set_par_at (no s2) ks (obj s2) x) as [_ [_ [_ [_ [_ [_ G]]]]]].
    rewrite G; [rewrite P2; apply P1; exact Lx|]. intros Hi. destruct (B1 _ Hi). lia. }
  assert (OB : obj s3 (no s2) = mkO (data (obj s o)) ks None true [] ats) by (unfold s3; cbn; apply upd_same).
  split; [unfold s3; cbn; lia|]. split; [rewrite OB; reflexivity|].
  constructor; rewrite ?OB; cbn.
  - lia.
  - reflexivity.
  - reflexivity.
  - eapply Forall2_in; [|exact F1]. cbn. intros a b Ha Hab. destruct (w_kids _ W _ _ L Ha). eapply copied_r; [exact W | exact X13 | lia | exact Hab].
  - eapply Forall2_in; [|exact F2]. cbn. intros [k c] [k' c'] Hi [Hf Hr]. split; [exact Hf|]. cbn in *. assert (Lc := w_attr _ W _ _ _ L Hi).
    eapply renewed_l; [exact X1 | exact Lc | apply w_obj; assumption|]. eapply renewed_r; [exact X3 | exact Hr].
Qed.

(** *** The invariant. *)
Lemma wf_start : wf start.
Proof. constructor; cbn; intros; lia. Qed.
Lemma wf_attr_set : forall s o j c, wf s -> c < nc s -> wf (set_obj s o (set_attr (obj s o) j c)).
Proof.
  intros s o j c W L. pose proof W as [K P T O D U].
  assert (G : forall A (g : objr -> A), (forall a k d, g (set_attr a k d) = g a) -> forall x, g (upd (obj s) o (set_attr (obj s o) j c) x) = g (obj s x)).
  { intros A g Hg x. unfold upd. destruct (Nat.eqb_spec x o) as [E|N]; [subst x; apply Hg | reflexivity]. }
  constructor; cbn.
  - intros x k Lx. rewrite (G _ kids), (G _ par) by reflexivity. apply K. exact Lx.
  - intros x p Lx. rewrite (G _ kids), (G _ par) by reflexivity. apply P. exact Lx.
  - intros x k d Lx. unfold upd. destruct (Nat.eqb_spec x o) as [E|N]; [subst x; cbn | apply T; exact Lx].
    intros H. assert (X : forall l, In (k, d) (put j c l) -> d = c \/ In (k, d) l).
    { induction l as [|[i b] r IH]; cbn; [intros [E|[]]; injection E as E1 E2; left; auto|]. destruct (Nat.eqb_spec i j) as [E|N]; cbn.
      - intros [E1|E1]; [injection E1 as E1 E2; left; auto | right; right; exact E1].
      - intros [E1|E1]; [right; left; exact E1|]. destruct (IH E1) as [E2|E2]; [left; exact E2 | right; right; exact E2]. }
    destruct (X _ H) as [E|E]; [subst d; exact L | eapply T; eassumption].
  - exact O.
  - intros x Lx. rewrite (G _ f_cur) by reflexivity. apply D. exact Lx.
  - intros x m d Lx. rewrite (G _ f_cur) by reflexivity. apply U. exact Lx.
Qed.
Lemma wf_step : forall F s k, wf s -> legal s k -> wf (st (exec F k s)).
Proof.
  intros F s k W L. destruct k as [d ks|o j t m lim en|o j x|o d|o|o|o j b|o|o]; cbn [exec legal] in L |- *.
  - destruct L as [_ L]. change (wf (born s d ks [])). apply wf_born; [exact W | exact L | intros k c []].
  - destruct L as [L1 [L2 _]]. change (wf (set_obj (make s t m lim en) o (set_attr (obj (make s t m lim en) o) j (nc s)))).
    apply wf_attr_set; [apply wf_make; assumption | cbn; lia].
  - destruct (get j (attrs (obj s o))) as [c|]; [|exact W]. destruct (c_on (cch s c)); [|exact W]. destruct (get x (c_res (cch s c))); [exact W|].
    cbn. eapply wf_alike; [apply alike_cch; reflexivity | exact W].
  - eapply wf_alike; [apply alike_obj; reflexivity | exact W].
  - destruct (switch_all false (hierarchy s o) s) as [A _]. eapply wf_alike; [exact A | exact W].
  - destruct (switch_all true (hierarchy s o) s) as [A _]. eapply wf_alike; [exact A | exact W].
  - destruct (get j (attrs (obj s o))) as [c|]; [|exact W]. cbn. eapply wf_alike; [apply alike_cch; destruct b; reflexivity | exact W].
  - destruct (copy_tree_ok (S o) s o W L (Nat.lt_succ_diag_r o)) as [W1 _]. destruct (copy_tree (S o) s o) as [s' o']. exact W1.
  - destruct (existsb _ _); exact W.
Qed.
Lemma wf_run : forall F l s, wf s -> all_legal F s l -> wf (run F s l).
Proof. intros F l. induction l as [|k r IH]; intros s W L; cbn; [exact W|]. destruct L as [L1 L2]. apply IH; [apply wf_step; assumption | exact L2]. Qed.
Lemma reached_wf : forall F s, reached F s -> wf s.
Proof. intros F s [l [L E]]. subst s. apply wf_run; [apply wf_start | exact L]. Qed.
