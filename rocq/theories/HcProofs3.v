(** Switching, copying, values and pickling in the model of HcModel.v. *)
From Coq Require Import List Bool Arith ZArith Lia.
From Verif Require Import HcModel HcSpec HcProofs HcProofs2.
Import ListNotations.

Lemma invoke_off : forall F s o j c, is_attr s o j c -> c_on (cch s c) = false -> executes F s o j c.
Proof. intros F s o j c A E x. unfold is_attr in A. cbn. rewrite A, E. cbn. repeat split. Qed.
Lemma latest_cur : forall s c, latest s c <-> cur s (c_obj (cch s c)) (c_meth (cch s c)) c.
Proof. intros s c. unfold latest, cur. intuition. Qed.
Lemma in_cur : forall s c, wf s -> c < nc s -> forall o, o < no s ->
  ((exists x m, In x (hierarchy s o) /\ In (m, c) (f_cur (obj s x))) <-> under s o (c_obj (cch s c)) /\ latest s c).
Proof.
  intros s c W Lc o Lo. split.
  - intros [x [m [Hx Hm]]]. apply (under_hier _ _ _ W Lo) in Hx. assert (Lx := under_le _ _ _ W Hx Lo). assert (Lx' : x < no s) by lia.
    apply (w_cur _ W _ _ _ Lx') in Hm. pose proof Hm as [_ [E1 [E2 _]]]. subst x m. split; [exact Hx|]. apply latest_cur. exact Hm.
  - intros [U La]. exists (c_obj (cch s c)), (c_meth (cch s c)). split; [apply (under_hier _ _ _ W Lo); exact U|].
    apply (w_cur _ W); [apply w_obj; assumption | apply latest_cur; exact La].
Qed.
(** Both switches. *)
Lemma tree_switch : forall (b : bool) s o, wf s -> o < no s -> let s' := fold_left (switch b) (hierarchy s o) s in
  (forall x, data (obj s' x) = data (obj s x) /\ kids (obj s' x) = kids (obj s x) /\ attrs (obj s' x) = attrs (obj s x)) /\ nc s' = nc s /\ no s' = no s /\
  (forall x, (under s o x -> f_on (obj s' x) = b) /\ (~ under s o x -> f_on (obj s' x) = f_on (obj s x))) /\
  (forall c, c < nc s -> (under s o (c_obj (cch s c)) /\ latest s c -> cch s' c = (if b then on1 else off1) (cch s c)) /\
                         (~ (under s o (c_obj (cch s c)) /\ latest s c) -> cch s' c = cch s c)).
Proof.
  intros b s o W Lo. cbv zeta. destruct (switch_all b (hierarchy s o) s) as [A [B [C D]]]. set (s' := fold_left (switch b) (hierarchy s o) s) in *.
  destruct A as [A1 [A2 [A3 A4]]].
  split; [intros x; destruct (A3 x) as [P1 [P2 [P3 P4]]]; repeat split; [apply B | exact P1 | exact P4]|]. split; [exact A2|]. split; [exact A1|]. split.
  - intros x. rewrite <- (under_hier _ _ _ W Lo). apply C.
  - intros c Lc. rewrite <- (in_cur s c W Lc o Lo). apply D.
Qed.
Lemma off_effect : forall F s o, reached F s -> o < no s ->
  let s' := st (exec F (TreeOff o) s) in
  (forall q j c, q < no s -> is_attr s q j c -> under s o (c_obj (cch s c)) -> latest s c ->
     is_attr s' q j c /\ c_obj (cch s' c) = c_obj (cch s c) /\ c_meth (cch s' c) = c_meth (cch s c) /\ c_res (cch s' c) = [] /\ executes F s' q j c) /\
  (forall c, c < nc s -> ~ (under s o (c_obj (cch s c)) /\ latest s c) -> cch s' c = cch s c).
Proof.
  intros F s o R Lo. assert (W := reached_wf _ _ R). destruct (tree_switch false s o W Lo) as [A [B [B2 [C D]]]]. cbv zeta. cbn [exec st].
  set (s' := fold_left (switch false) (hierarchy s o) s) in *. split.
  - intros q j c Lq Ha U La. destruct (A q) as [_ [_ A3]]. assert (Ha' : is_attr s' q j c) by (unfold is_attr; rewrite A3; exact Ha).
    assert (Lc : c < nc s) by (apply (w_attr _ W q j); [exact Lq | apply get_in; exact Ha]).
    destruct (D c Lc) as [D1 _]. specialize (D1 (conj U La)). split; [exact Ha'|]. split; [rewrite D1; reflexivity|]. split; [rewrite D1; reflexivity|]. split; [rewrite D1; reflexivity|].
    apply invoke_off; [exact Ha' | rewrite D1; reflexivity].
  - intros c Lc N. apply D; assumption.
Qed.
Lemma on_effect : forall F s o, reached F s -> o < no s ->
  let s' := st (exec F (TreeOn o) s) in
  forall c, c < nc s ->
    (under s o (c_obj (cch s c)) /\ latest s c -> c_on (cch s' c) = true /\ c_res (cch s' c) = c_res (cch s c)) /\
    (~ (under s o (c_obj (cch s c)) /\ latest s c) -> cch s' c = cch s c).
Proof.
  intros F s o R Lo. assert (W := reached_wf _ _ R). destruct (tree_switch true s o W Lo) as [A [B [B2 [C D]]]]. cbv zeta. cbn [exec st].
  intros c Lc. destruct (D c Lc) as [D1 D2]. split; [|exact D2]. intros H. rewrite (D1 H). split; reflexivity.
Qed.

(** *** Off until switched on. *)
Definition offish (P K : nat -> Prop) (s : state) : Prop :=
  (forall t, P t -> t < no s /\ f_on (obj s t) = false) /\ (forall c, c < nc s -> P (c_obj (cch s c)) -> K c -> c_on (cch s c) = false).
Lemma offish_make : forall P K s t m lim en, offish P K s -> t < no s -> offish P K (make s t m lim en).
Proof.
  intros P K s t m lim en [O1 O2] L. split.
  - intros x Px. destruct (O1 x Px) as [A B]. split; [exact A|]. cbn. unfold upd. destruct (Nat.eqb_spec x t) as [E|N]; [subst x; exact B | exact B].
  - intros c. cbn. unfold upd. destruct (Nat.eqb_spec c (nc s)) as [E|N]; cbn.
    + intros _ Pt _. destruct (O1 t Pt) as [_ B]. rewrite B. apply andb_false_r.
    + intros Lc. apply O2. lia.
Qed.
Lemma offish_born : forall P K s d ks ats, offish P K s -> offish P K (born s d ks ats).
Proof.
  intros P K s d ks ats [O1 O2]. split; [|exact O2]. intros x Px. destruct (O1 x Px) as [A B]. split; [cbn; lia|].
  destruct (born_ext s d ks ats) as [_ [_ [E _]]]. destruct (E x A) as [_ [_ [E1 _]]]. rewrite E1. exact B.
Qed.
Lemma offish_attrs : forall P K l s, wf s -> (forall k c, In (k, c) l -> c < nc s) -> offish P K s -> offish P K (fst (copy_attrs s l)).
Proof.
  intros P K l. induction l as [|[k c] l IH]; intros s W HL O; cbn [copy_attrs]; [exact O|].
  assert (Lc : c < nc s) by (apply (HL k); left; reflexivity). assert (Lo := w_obj _ W _ Lc).
  specialize (IH (make s (c_obj (cch s c)) (c_meth (cch s c)) (c_lim (cch s c)) true)).
  destruct (copy_attrs _ l) as [s2 r']. cbn in IH |- *. apply IH.
  - apply (wf_make s (c_obj (cch s c)) (c_meth (cch s c)) (c_lim (cch s c)) true W Lo).
  - intros k' c' H. cbn. specialize (HL k' c' (or_intror H)). lia.
  - apply (offish_make P K s (c_obj (cch s c)) (c_meth (cch s c)) (c_lim (cch s c)) true O Lo).
Qed.
Lemma offish_list : forall P K cp l s, (forall s o, wf s -> o < no s -> In o l -> good_copy s o (cp s o) /\ (offish P K s -> offish P K (fst (cp s o)))) ->
  wf s -> (forall o, In o l -> o < no s) -> offish P K s -> offish P K (fst (copy_list cp s l)).
Proof.
  intros P K cp l. induction l as [|o l IH]; intros s HC W HL O; cbn [copy_list]; [exact O|].
  destruct (HC s o W (HL _ (or_introl eq_refl)) (or_introl eq_refl)) as [[W1 [X1 _]] O1].
  destruct (cp s o) as [s1 o']. cbn [fst snd] in *. specialize (IH s1). destruct (copy_list cp s1 l) as [s2 r']. cbn [fst] in *. apply IH.
  - intros t q Wt Lq Hq. apply HC; [exact Wt | exact Lq | right; exact Hq].
  - exact W1.
  - intros q Hq. destruct X1 as [X1 _]. specialize (HL q (or_intror Hq)). lia.
  - apply O1. exact O.
Qed.
Lemma offish_tree : forall P K n s o, wf s -> o < no s -> o < n -> offish P K s -> offish P K (fst (copy_tree n s o)).
Proof.
  intros P K. induction n as [|n IH]; intros s o W L Ln O; [lia|]. cbn [copy_tree].
  assert (HC : forall t q, wf t -> q < no t -> In q (kids (obj s o)) -> good_copy t q (copy_tree n t q)).
  { intros t q Wt Lq Hq. destruct (w_kids _ W _ _ L Hq). apply copy_tree_ok; [exact Wt | exact Lq | lia]. }
  assert (HL : forall q, In q (kids (obj s o)) -> q < no s) by (intros q Hq; destruct (w_kids _ W _ _ L Hq); lia).
  destruct (copy_list_ok (copy_tree n) (kids (obj s o)) s HC W HL) as [W1 [X1 _]].
  assert (O1 : offish P K (fst (copy_list (copy_tree n) s (kids (obj s o))))).
  { apply offish_list; [|exact W | exact HL | exact O]. intros t q Wt Lq Hq. split; [apply HC; assumption|]. destruct (w_kids _ W _ _ L Hq). apply IH; [exact Wt | exact Lq | lia]. }
  destruct (copy_list (copy_tree n) s (kids (obj s o))) as [s1 ks]. cbn [fst snd] in *. destruct X1 as [XN [XC _]].
  assert (HA : forall k c, In (k, c) (attrs (obj s o)) -> c < nc s1) by (intros k c H; assert (c < nc s) by (eapply w_attr; eassumption); lia).
  assert (O2 := offish_attrs P K _ _ W1 HA O1).
  destruct (copy_attrs s1 (attrs (obj s o))) as [s2 ats]. cbn [fst snd] in *. exact (offish_born P K s2 (data (obj s o)) ks ats O2).
Qed.
Lemma offish_step : forall F P K s k, wf s -> legal s k -> ~ turns_on k -> offish P K s -> offish P K (st (exec F k s)).
Proof.
  intros F P K s k W L T O. pose proof O as [O1 O2]. destruct k as [d ks|o j t m lim en|o j x|o d|o|o|o j b|o|o]; cbn [exec legal turns_on] in L, T |- *.
  - apply offish_born. exact O.
  - destruct L as [_ [L _]]. destruct (offish_make P K s t m lim en O L) as [Q1 Q2]. split; [|exact Q2]. intros y Py. destruct (Q1 y Py) as [A B]. split; [exact A|].
    cbn [st obj set_obj]. unfold upd. destruct (Nat.eqb_spec y o) as [E|N]; [subst y; exact B | exact B].
  - destruct (get j (attrs (obj s o))) as [c|]; [|exact O]. destruct (c_on (cch s c)) eqn:E; [|exact O]. destruct (get x (c_res (cch s c))); [exact O|].
    split; [exact O1|]. intros d. cbn. unfold upd. destruct (Nat.eqb_spec d c) as [E1|N]; [subst d; cbn | apply O2].
    intros Lc Pc Kc. specialize (O2 c Lc Pc Kc). congruence.
  - split; [|exact O2]. intros y Py. destruct (O1 y Py) as [A B]. split; [exact A|]. cbn. unfold upd. destruct (Nat.eqb_spec y o) as [E|N]; [subst y; exact B | exact B].
  - destruct (tree_switch false s o W L) as [_ [N1 [N2 [C D]]]]. cbn [st]. set (s' := fold_left (switch false) (hierarchy s o) s) in *. split.
    + intros y Py. rewrite N2. destruct (O1 y Py) as [A B]. split; [exact A|]. destruct (C y) as [C1 C2].
      destruct (in_dec Nat.eq_dec y (hierarchy s o)) as [Hi|Hn]; [apply C1; apply under_hier; assumption|].
      rewrite C2; [exact B|]. intros U. apply Hn. apply under_hier; assumption.
    + intros c. rewrite N1. intros Lc. destruct (switch_all false (hierarchy s o) s) as [[_ [_ [_ A4]]] [_ [_ D']]]. fold s' in A4, D'.
      destruct (A4 c) as [E1 _]. rewrite E1. intros Pc Kc. specialize (O2 c Lc Pc Kc).
      destruct (existsb (fun x => existsb (fun e => Nat.eqb c (snd e)) (f_cur (obj s x))) (hierarchy s o)) eqn:X.
      * destruct (D' c) as [D1 _]. rewrite D1; [reflexivity|]. apply existsb_exists in X. destruct X as [y [Hy X]]. apply existsb_exists in X. destruct X as [[m c'] [Hi X]].
        apply Nat.eqb_eq in X. cbn in X. subst c'. exists y, m. split; assumption.
      * destruct (D' c) as [_ D2]. rewrite D2; [exact O2|]. intros [y [m [Hy Hi]]].
        assert (Y : existsb (fun x => existsb (fun e => Nat.eqb c (snd e)) (f_cur (obj s x))) (hierarchy s o) = true); [|congruence].
        apply existsb_exists. exists y. split; [exact Hy|]. apply existsb_exists. exists (m, c). split; [exact Hi | apply Nat.eqb_refl].
  - exfalso. apply T. exact Logic.I.
  - destruct (get j (attrs (obj s o))) as [c|]; [|exact O]. destruct b; [exfalso; apply T; reflexivity|].
    split; [exact O1|]. intros d. cbn. unfold upd. destruct (Nat.eqb_spec d c) as [E1|N]; [reflexivity | apply O2].
  - assert (G := offish_tree P K (S o) s o W L (Nat.lt_succ_diag_r o) O). destruct (copy_tree (S o) s o) as [s' o']. exact G.
  - destruct (existsb _ _); exact O.
Qed.
Lemma offish_run : forall F P K l s, wf s -> all_legal F s l -> (forall k, In k l -> ~ turns_on k) -> offish P K s -> offish P K (run F s l).
Proof.
  intros F P K l. induction l as [|k r IH]; intros s W L T O; cbn; [exact O|]. destruct L as [L1 L2].
  apply IH; [apply wf_step; assumption | exact L2 | intros q Hq; apply T; right; exact Hq | apply offish_step; [exact W | exact L1 | apply T; left; reflexivity | exact O]].
Qed.
Lemma stays_off : forall F s o l, reached F s -> o < no s ->
  let s1 := st (exec F (TreeOff o) s) in all_legal F s1 l -> (forall k, In k l -> ~ turns_on k) ->
  let s2 := run F s1 l in
  forall q j c, q < no s2 -> is_attr s2 q j c -> under s o (c_obj (cch s2 c)) -> nc s <= c \/ latest s c -> executes F s2 q j c.
Proof.
  intros F s o l R Lo s1 AL T s2 q j c Lq Ha U K. assert (W := reached_wf _ _ R).
  assert (W1 : wf s1) by (apply wf_step; [exact W | exact Lo]). assert (W2 : wf s2) by (apply wf_run; assumption).
  assert (O : offish (under s o) (fun c => nc s <= c \/ latest s c) s2).
  { apply offish_run; [exact W1 | exact AL | exact T|]. destruct (tree_switch false s o W Lo) as [_ [N1 [N2 [C D]]]].
    change (fold_left (switch false) (hierarchy s o) s) with s1 in *. split.
    - intros t Ut. rewrite N2. assert (X := under_le _ _ _ W Ut Lo). split; [lia|]. apply C. exact Ut.
    - intros d. rewrite N1. intros Ld. destruct (switch_all false (hierarchy s o) s) as [[_ [_ [_ A4]]] _]. change (fold_left (switch false) (hierarchy s o) s) with s1 in A4.
      destruct (A4 d) as [E1 _]. rewrite E1. intros Ud [Hd|Hd]; [lia|]. destruct (D d Ld) as [D1 _]. rewrite D1; [reflexivity | split; assumption]. }
  apply invoke_off; [exact Ha|]. apply O; [|exact U | exact K]. apply (w_attr _ W2 q j); [exact Lq | apply get_in; exact Ha].
Qed.

(** *** Copies. *)
Lemma copy_effect : forall F s o, reached F s -> o < no s ->
  let r := exec F (Copy o) s in let s' := st r in
  exn r = None /\ (exists o', ref r = Some o' /\ par (obj s' o') = None /\ copied s s' o o') /\
  (forall x, x < no s -> data (obj s' x) = data (obj s x) /\ kids (obj s' x) = kids (obj s x) /\ par (obj s' x) = par (obj s x) /\ attrs (obj s' x) = attrs (obj s x)) /\
  (forall c, c < nc s -> cch s' c = cch s c).
Proof.
  intros F s o R Lo. assert (W := reached_wf _ _ R). destruct (copy_tree_ok (S o) s o W Lo (Nat.lt_succ_diag_r o)) as [W1 [[E1 [E2 [E3 E4]]] [P [B [N C]]]]].
  cbv zeta. cbn [exec]. destruct (copy_tree (S o) s o) as [s' o']. cbn [fst snd st exn ref] in *.
  split; [reflexivity|]. split; [exists o'; split; [reflexivity|]; split; assumption|]. split; [|exact E4].
  intros x L. destruct (E3 x L) as [Q1 [Q2 [Q3 Q4]]]. repeat split; [exact Q1 | exact Q2 | apply P; exact L | exact Q4].
Qed.

(** *** Values. *)
Definition right (F : nat -> Z -> nat -> Z) (t : nat) (s : state) : Prop :=
  forall c, c < nc s -> c_obj (cch s c) = t -> forall x v, In (x, v) (c_res (cch s c)) -> v = F (c_meth (cch s c)) (data (obj s t)) x.
Lemma tl_in : forall A (l : list A) a, In a (tl l) -> In a l.
Proof. intros A [|b l] a H; [exact H | right; exact H]. Qed.
Lemma right_ext_tree : forall F t n s o, wf s -> o < no s -> o < n -> right F t s -> right F t (fst (copy_tree n s o)).
Proof.
  intros F t n s o W L Ln R.
  assert (Z0 : forall s s', wf s -> ext s s' -> (forall c, nc s <= c < nc s' -> c_res (cch s' c) = []) -> right F t s -> right F t s').
  { intros a a' Wa [A1 [A2 [A3 A4]]] H Ra c Lc Et x v Hi. destruct (lt_dec c (nc a)) as [Lc'|Nc].
    - rewrite A4 in * by exact Lc'. assert (Lt := w_obj _ Wa _ Lc'). rewrite Et in Lt. destruct (A3 t Lt) as [E _]. rewrite E. apply Ra; assumption.
    - rewrite H in Hi by lia. destruct Hi. }
  apply (Z0 s); [exact W | apply copy_tree_ok; assumption | | exact R]. clear R Z0 t F.
  assert (ZA : forall l s, wf s -> (forall k c, In (k, c) l -> c < nc s) -> forall c, nc s <= c < nc (fst (copy_attrs s l)) -> c_res (cch (fst (copy_attrs s l)) c) = []).
  { induction l as [|[k d] l IH]; intros a Wa HL c Hc; cbn [copy_attrs] in *; [cbn in Hc; lia|].
    assert (Ld : d < nc a) by (apply (HL k); left; reflexivity). assert (Lo := w_obj _ Wa _ Ld).
    set (a1 := make a (c_obj (cch a d)) (c_meth (cch a d)) (c_lim (cch a d)) true) in *.
    assert (W1 : wf a1) by (apply wf_make; assumption).
    assert (HL1 : forall k' c', In (k', c') l -> c' < nc a1) by (intros k' c' H; specialize (HL k' c' (or_intror H)); unfold a1; cbn; lia).
    specialize (IH a1 W1 HL1 c). destruct (copy_attrs_ok l a1 W1 HL1) as [_ [[_ [X2 [_ X4]]] _]].
    destruct (copy_attrs a1 l) as [a2 r]. cbn [fst] in *. destruct (Nat.eq_dec c (nc a)) as [E|N]; [|apply IH; unfold a1; cbn; lia].
    rewrite X4 by (unfold a1; cbn; lia). unfold a1. cbn. rewrite E, upd_same. reflexivity. }
  revert s o W L Ln. induction n as [|n IH]; intros s o W L Ln; [lia|].
  assert (HC : forall t q, wf t -> q < no t -> In q (kids (obj s o)) -> good_copy t q (copy_tree n t q)).
  { intros t q Wt Lq Hq. destruct (w_kids _ W _ _ L Hq). apply copy_tree_ok; [exact Wt | exact Lq | lia]. }
  assert (HL : forall q, In q (kids (obj s o)) -> q < no s) by (intros q Hq; destruct (w_kids _ W _ _ L Hq); lia).
  assert (ZL : forall l a, incl l (kids (obj s o)) -> wf a -> (forall q, In q l -> q < no a) -> forall c, nc a <= c < nc (fst (copy_list (copy_tree n) a l)) -> c_res (cch (fst (copy_list (copy_tree n) a l)) c) = []).
  { induction l as [|q l IHl]; intros a HI Wa HLa c Hc; cbn [copy_list] in *; [cbn in Hc; lia|].
    assert (Hq : In q (kids (obj s o))) by (apply HI; left; reflexivity). assert (Lq : q < no a) by (apply HLa; left; reflexivity).
    destruct (HC a q Wa Lq Hq) as [W1 [X1 _]]. assert (Y : q < n) by (destruct (w_kids _ W _ _ L Hq); lia). specialize (IH a q Wa Lq Y c).
    assert (HI1 : incl l (kids (obj s o))) by (intros y Hy; apply HI; right; exact Hy).
    destruct (copy_tree n a q) as [a1 q']. cbn [fst] in *. destruct X1 as [XN [XC _]].
    assert (HL1 : forall y, In y l -> y < no a1) by (intros y Hy; specialize (HLa y (or_intror Hy)); lia).
    destruct (copy_list_ok (copy_tree n) l a1 (fun t y Wt Ly Hy => HC t y Wt Ly (HI1 _ Hy)) W1 HL1) as [_ [[_ [X2 [_ X4]]] _]].
    specialize (IHl a1 HI1 W1 HL1 c). destruct (copy_list (copy_tree n) a1 l) as [a2 r]. cbn [fst] in *.
    destruct (lt_dec c (nc a1)) as [Lc|Nc]; [rewrite X4 by exact Lc; apply IH; lia | apply IHl; lia]. }
  cbn [copy_tree]. specialize (ZL (kids (obj s o)) s (incl_refl _) W HL).
  destruct (copy_list_ok (copy_tree n) (kids (obj s o)) s HC W HL) as [W1 [X1 _]].
  destruct (copy_list (copy_tree n) s (kids (obj s o))) as [s1 ks]. cbn [fst] in *. destruct X1 as [XN [XC _]].
  assert (HA : forall k c, In (k, c) (attrs (obj s o)) -> c < nc s1) by (intros k c H; assert (c < nc s) by (eapply w_attr; eassumption); lia).
  specialize (ZA (attrs (obj s o)) s1 W1 HA). destruct (copy_attrs_ok _ _ W1 HA) as [_ [[_ [X2 [_ X4]]] _]].
  destruct (copy_attrs s1 (attrs (obj s o))) as [s2 ats]. cbn [fst nc cch] in *. intros c Hc.
  destruct (lt_dec c (nc s1)) as [Lc|Nc]; [rewrite X4 by exact Lc; apply ZL; lia | apply ZA; lia].
Qed.
Lemma right_step : forall F t s k, wf s -> legal s k -> (forall d, k <> SetData t d) -> right F t s -> right F t (st (exec F k s)).
Proof.
  intros F t s k W L T R. destruct k as [d ks|o j u m lim en|o j x|o d|o|o|o j b|o|o]; cbn [exec legal] in L, T |- *.
  - intros c Lc Et x v Hi. cbn [st cch nc] in *. assert (Lt := w_obj _ W _ Lc). rewrite Et in Lt. destruct (born_ext s d ks []) as [_ [_ [E _]]]. destruct (E t Lt) as [E1 _].
    change (v = F (c_meth (cch s c)) (data (obj (born s d ks []) t)) x). rewrite E1. apply R; assumption.
  - destruct L as [_ [L _]]. intros c Lc Et x v Hi. cbn [st cch nc set_obj make] in *.
    assert (D : data (obj (set_obj (make s u m lim en) o (set_attr (obj (make s u m lim en) o) j (nc s))) t) = data (obj s t)).
    { cbn. unfold upd. destruct (Nat.eqb_spec t o) as [E|N]; cbn; [subst o|]; (destruct (Nat.eqb_spec t u) as [E1|N1]; [subst u; reflexivity | reflexivity]). }
    rewrite D. unfold upd in Hi, Et |- *. destruct (Nat.eqb_spec c (nc s)) as [E|N]; [destruct Hi|]. apply R; [lia | exact Et | exact Hi].
  - destruct (get j (attrs (obj s o))) as [c|]; [|exact R]. destruct (c_on (cch s c)) eqn:E; [|exact R]. destruct (get x (c_res (cch s c))); [exact R|].
    intros e Le Et y v Hi. cbn [st cch nc obj set_cch] in *. unfold upd in Et, Hi |- *. destruct (Nat.eqb_spec e c) as [E1|N]; [|apply R; assumption].
    subst e. cbn in Et, Hi |- *. apply in_app_iff in Hi. destruct Hi as [Hi|[Hi|[]]].
    + assert (Hi' : In (y, v) (c_res (cch s c))) by (destruct (Nat.eqb _ _); [apply tl_in; exact Hi | exact Hi]). apply (R c Le Et _ _ Hi').
    + injection Hi as H1 H2. subst y v. rewrite Et. reflexivity.
  - intros c Lc Et x v Hi. cbn [st cch nc set_obj obj] in *. rewrite upd_other by (intros E; apply (T d); rewrite E; reflexivity). apply R; assumption.
  - destruct (switch_all false (hierarchy s o) s) as [[_ [N [_ A4]]] [B [_ D]]]. cbn [st]. intros c Lc Et x v Hi. rewrite N in Lc. destruct (A4 c) as [E1 E2]. rewrite E2, B. rewrite E1 in Et.
    destruct (D c) as [D1 D2]. destruct (existsb (fun x => existsb (fun e => Nat.eqb c (snd e)) (f_cur (obj s x))) (hierarchy s o)) eqn:X.
    + rewrite D1 in Hi; [destruct Hi|]. apply existsb_exists in X. destruct X as [y [Hy X]]. apply existsb_exists in X. destruct X as [[m c'] [Hz X]].
      apply Nat.eqb_eq in X. cbn in X. subst c'. exists y, m. split; assumption.
    + rewrite D2 in Hi; [apply R; assumption|]. intros [y [m [Hy Hz]]].
      assert (Y : existsb (fun x => existsb (fun e => Nat.eqb c (snd e)) (f_cur (obj s x))) (hierarchy s o) = true); [|congruence].
      apply existsb_exists. exists y. split; [exact Hy|]. apply existsb_exists. exists (m, c). split; [exact Hz | apply Nat.eqb_refl].
  - destruct (switch_all true (hierarchy s o) s) as [[_ [N [_ A4]]] [B [_ D]]]. cbn [st]. intros c Lc Et x v Hi. rewrite N in Lc. destruct (A4 c) as [E1 E2]. rewrite E2, B. rewrite E1 in Et.
    assert (Hr : c_res (cch (fold_left (switch true) (hierarchy s o) s) c) = c_res (cch s c)).
    { destruct (D c) as [D1 D2]. destruct (existsb (fun x => existsb (fun e => Nat.eqb c (snd e)) (f_cur (obj s x))) (hierarchy s o)) eqn:X.
      + rewrite D1; [reflexivity|]. apply existsb_exists in X. destruct X as [y [Hy X]]. apply existsb_exists in X. destruct X as [[m c'] [Hz X]].
        apply Nat.eqb_eq in X. cbn in X. subst c'. exists y, m. split; assumption.
      + rewrite D2; [reflexivity|]. intros [y [m [Hy Hz]]].
        assert (Y : existsb (fun x => existsb (fun e => Nat.eqb c (snd e)) (f_cur (obj s x))) (hierarchy s o) = true); [|congruence].
        apply existsb_exists. exists y. split; [exact Hy|]. apply existsb_exists. exists (m, c). split; [exact Hz | apply Nat.eqb_refl]. }
    rewrite Hr in Hi. apply R; assumption.
  - destruct (get j (attrs (obj s o))) as [c|]; [|exact R]. intros e Le Et y v Hi. cbn [st cch nc obj set_cch] in *. unfold upd in Et, Hi |- *.
    destruct (Nat.eqb_spec e c) as [E1|N]; [|apply R; assumption]. subst e. destruct b; cbn in Et, Hi |- *; [apply (R c Le Et _ _ Hi) | destruct Hi].
  - assert (G := right_ext_tree F t (S o) s o W L (Nat.lt_succ_diag_r o) R). destruct (copy_tree (S o) s o) as [s' o']. exact G.
  - destruct (existsb _ _); exact R.
Qed.
Lemma values_ok : forall F l t, all_legal F start l -> (forall k d, In k l -> k <> SetData t d) ->
  let s := run F start l in
  forall o j c x, o < no s -> is_attr s o j c -> c_obj (cch s c) = t ->
    val (exec F (Invoke o j x) s) = Some (F (c_meth (cch s c)) (data (obj s t)) x).
Proof.
  intros F l t AL T. cbv zeta.
  assert (G : forall l s, wf s -> all_legal F s l -> (forall k d, In k l -> k <> SetData t d) -> right F t s -> right F t (run F s l)).
  { clear l AL T. induction l as [|k r IH]; intros s W L T R; cbn; [exact R|]. destruct L as [L1 L2].
    apply IH; [apply wf_step; assumption | exact L2 | intros q d Hq; apply T; right; exact Hq |].
    apply right_step; [exact W | exact L1 | intros d; apply T; left; reflexivity | exact R]. }
  assert (R : right F t (run F start l)) by (apply G; [apply wf_start | exact AL | exact T | intros c Lc; cbn in Lc; lia]).
  assert (W : wf (run F start l)) by (apply wf_run; [apply wf_start | exact AL]).
  intros o j c x Lo Ha Et. assert (Lc : c < nc (run F start l)) by (apply (w_attr _ W o j); [exact Lo | apply get_in; exact Ha]).
  unfold is_attr in Ha. cbn [exec]. rewrite Ha. destruct (c_on _) eqn:E; [|cbn; rewrite Et; reflexivity].
  destruct (get x (c_res (cch (run F start l) c))) as [v|] eqn:G1; cbn; [|rewrite Et; reflexivity]. f_equal. apply R; [exact Lc | exact Et | apply get_in; exact G1].
Qed.

(** *** Pickling. *)
Lemma under_last : forall s q o, under s q o -> q = o \/ exists z, under s q z /\ In o (kids (obj s z)).
Proof.
  intros s q o U. induction U as [o|o k x Hk U IH]; [left; reflexivity|]. right. destruct IH as [E|[z [Uz Hz]]].
  - subst x. exists o. split; [constructor | exact Hk].
  - exists z. split; [eapply under_kid; eassumption | exact Hz].
Qed.
Lemma root_ok : forall s, wf s -> forall n o, o < no s -> no s <= n + o ->
  root n s o < no s /\ under s (root n s o) o /\ forall q, q < no s -> under s q o -> under s (root n s o) q.
Proof.
  intros s W. induction n as [|n IH]; intros o L Ln; [lia|]. cbn [root]. destruct (par (obj s o)) as [p|] eqn:P.
  - destruct (w_par _ W _ _ L P) as [Lp [Lop Hk]]. destruct (IH p Lp) as [R1 [R2 R3]]; [lia|]. split; [exact R1|]. split.
    + eapply under_trans; [exact R2|]. eapply under_kid; [exact Hk | constructor].
    + intros q Lq U. destruct (under_last _ _ _ U) as [E|[z [Uz Hz]]].
      * subst q. eapply under_trans; [exact R2|]. eapply under_kid; [exact Hk | constructor].
      * assert (Lz := under_le _ _ _ W Uz Lq). assert (Lz' : z < no s) by lia. destruct (w_kids _ W _ _ Lz' Hz) as [_ E]. assert (z = p) by congruence. subst z. apply R3; assumption.
  - split; [exact L|]. split; [constructor|]. intros q Lq U. destruct (under_last _ _ _ U) as [E|[z [Uz Hz]]]; [subst q; constructor|].
    assert (Lz := under_le _ _ _ W Uz Lq). assert (Lz' : z < no s) by lia. destruct (w_kids _ W _ _ Lz' Hz) as [_ E]. congruence.
Qed.
Lemma pickle_effect : forall F s o, reached F s -> o < no s ->
  let r := exec F (Pickle o) s in
  st r = s /\ (exn r = None \/ exn r = Some PickleError) /\ (exn r = Some PickleError <-> exists x j c, related s o x /\ is_attr s x j c).
Proof.
  intros F s o R Lo. assert (W := reached_wf _ _ R). cbv zeta. cbn [exec]. destruct (root_ok s W (no s) o Lo) as [R1 [R2 R3]]; [lia|].
  set (r := root (no s) s o) in *.
  destruct (existsb (fun x => match attrs (obj s x) with [] => false | _ => true end) (hierarchy s r)) eqn:X; cbn [st exn].
  - split; [reflexivity|]. split; [right; reflexivity|]. split; [|reflexivity]. intros _. apply existsb_exists in X. destruct X as [x [Hx Ex]].
    destruct (attrs (obj s x)) as [|[j c] l] eqn:A; [discriminate|]. exists x, j, c. split.
    + exists r. split; [exact R1|]. split; [exact R2|]. apply under_hier in Hx; assumption.
    + unfold is_attr. rewrite A. cbn. rewrite Nat.eqb_refl. reflexivity.
  - split; [reflexivity|]. split; [left; reflexivity|]. split; [discriminate|]. intros [x [j [c [[q [Lq [U1 U2]]] Ha]]]]. exfalso.
    assert (Y : existsb (fun x => match attrs (obj s x) with [] => false | _ => true end) (hierarchy s r) = true); [|congruence].
    apply existsb_exists. exists x. split; [apply under_hier; [exact W | exact R1|]; eapply under_trans; [apply R3; [exact Lq | exact U1] | exact U2]|].
    unfold is_attr in Ha. destruct (attrs (obj s x)); [discriminate | reflexivity].
Qed.
