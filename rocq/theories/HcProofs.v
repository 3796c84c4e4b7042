(** Invariant of the model of HcModel.v. *)
From Coq Require Import List Bool Arith ZArith Lia.
From Verif Require Import HcModel HcSpec.
Import ListNotations.

(** Internal: [c] is the Cacher of method [m] of [x] that was made last. *)
Definition cur (s : state) (x m c : nat) : Prop :=
  c < nc s /\ c_obj (cch s c) = x /\ c_meth (cch s c) = m /\
  forall c', c' < nc s -> c_obj (cch s c') = x -> c_meth (cch s c') = m -> c' <= c.
(** Internal: the invariant. *)
Record wf (s : state) : Prop := mkwf {
  w_kids : forall x k, x < no s -> In k (kids (obj s x)) -> k < x /\ par (obj s k) = Some x;
  w_par : forall x p, x < no s -> par (obj s x) = Some p -> p < no s /\ x < p /\ In x (kids (obj s p));
  w_attr : forall x k c, x < no s -> In (k, c) (attrs (obj s x)) -> c < nc s;
  w_obj : forall c, c < nc s -> c_obj (cch s c) < no s;
  w_nd : forall x, x < no s -> NoDup (map fst (f_cur (obj s x)));
  w_cur : forall x m c, x < no s -> (In (m, c) (f_cur (obj s x)) <-> cur s x m c) }.

Lemma upd_same : forall A (f : nat -> A) x a, upd f x a x = a.
Proof. intros. unfold upd. rewrite Nat.eqb_refl. reflexivity. Qed.
Lemma upd_other : forall A (f : nat -> A) x a y, y <> x -> upd f x a y = f y.
Proof. intros A f x a y N. unfold upd. destruct (Nat.eqb_spec y x); [contradiction | reflexivity]. Qed.
Lemma get_in : forall A k (l : list (nat * A)) a, get k l = Some a -> In (k, a) l.
Proof.
  intros A k l. induction l as [|[j b] r IH]; cbn; [discriminate|]. intros a H. destruct (Nat.eqb_spec j k) as [E|N].
  - injection H as H. subst. left. reflexivity.
  - right. apply IH. exact H.
Qed.
Lemma in_get : forall A k (l : list (nat * A)) a, NoDup (map fst l) -> In (k, a) l -> get k l = Some a.
Proof.
  intros A k l. induction l as [|[j b] r IH]; cbn; [contradiction|]. intros a ND H. inversion ND; subst. destruct H as [E|H].
  - injection E as E1 E2. subst. rewrite Nat.eqb_refl. reflexivity.
  - destruct (Nat.eqb_spec j k) as [E|N]; [|apply IH; assumption]. subst j. exfalso. apply H2. apply in_map_iff. exists (k, a). split; [reflexivity | exact H].
Qed.
Lemma put_keys : forall A k (a : A) l j, In j (map fst (put k a l)) <-> j = k \/ In j (map fst l).
Proof.
  intros A k a l j. induction l as [|[i b] r IH]; cbn; [intuition|]. destruct (Nat.eqb_spec i k) as [E|N]; cbn; [subst i; intuition|]. rewrite IH. intuition.
Qed.
Lemma put_nd : forall A k (a : A) l, NoDup (map fst l) -> NoDup (map fst (put k a l)).
Proof.
  intros A k a l. induction l as [|[i b] r IH]; cbn; intros H; [repeat constructor; intros []|]. inversion H; subst.
  destruct (Nat.eqb_spec i k) as [E|N]; cbn; [subst i; constructor; assumption|]. constructor; [|apply IH; assumption].
  rewrite put_keys. intros [E|E]; [contradiction | contradiction].
Qed.
Lemma put_in : forall A k (a : A) l j b, NoDup (map fst l) -> (In (j, b) (put k a l) <-> (j = k /\ b = a) \/ (j <> k /\ In (j, b) l)).
Proof.
  intros A k a l j b. induction l as [|[i c] r IH]; cbn; intros H.
  - split; [intros [E|[]]; injection E as E1 E2; left; subst; split; reflexivity | intros [[E1 E2]|[_ []]]; left; subst; reflexivity].
  - inversion H; subst. destruct (Nat.eqb_spec i k) as [E|N]; cbn.
    + subst i. split.
      * intros [E|E]; [injection E as E1 E2; left; subst; split; reflexivity|].
        right. split; [|right; exact E]. intros E1. subst j. apply H2. apply in_map_iff. exists (k, b). split; [reflexivity | exact E].
      * intros [[E1 E2]|[E1 [E|E]]]; [left; subst; reflexivity | injection E as E2 E3; subst; contradiction | right; exact E].
    + rewrite (IH H3). split.
      * intros [E|[[E1 E2]|[E1 E]]]; [injection E as E1 E2; subst; right; split; [exact N | left; reflexivity] | left; split; assumption | right; split; [exact E1 | right; exact E]].
      * intros [[E1 E2]|[E1 [E|E]]]; [right; left; split; assumption | left; exact E | right; right; split; assumption].
Qed.
Lemma get_put : forall A k (a : A) l j, get j (put k a l) = if Nat.eqb j k then Some a else get j l.
Proof.
  intros A k a l j. induction l as [|[i b] r IH]; cbn.
  - rewrite Nat.eqb_sym. reflexivity.
  - destruct (Nat.eqb_spec i k) as [E|N]; cbn.
    + subst i. rewrite (Nat.eqb_sym k j). destruct (Nat.eqb j k); reflexivity.
    + rewrite IH. destruct (Nat.eqb_spec i j) as [E|N1]; [|reflexivity]. subst i. destruct (Nat.eqb_spec j k); [contradiction | reflexivity].
Qed.

(** *** Steps that keep what the invariant is about. *)
Definition alike (s s' : state) : Prop :=
  no s' = no s /\ nc s' = nc s /\
  (forall x, kids (obj s' x) = kids (obj s x) /\ par (obj s' x) = par (obj s x) /\ f_cur (obj s' x) = f_cur (obj s x) /\ attrs (obj s' x) = attrs (obj s x)) /\
  (forall c, c_obj (cch s' c) = c_obj (cch s c) /\ c_meth (cch s' c) = c_meth (cch s c)).
Lemma alike_refl : forall s, alike s s.
Proof. intros s. repeat split. Qed.
Lemma alike_trans : forall a b c, alike a b -> alike b c -> alike a c.
Proof.
  intros a b c [A1 [A2 [A3 A4]]] [B1 [B2 [B3 B4]]]. split; [congruence|]. split; [congruence|]. split.
  - intros x. destruct (A3 x) as [P1 [P2 [P3 P4]]]. destruct (B3 x) as [Q1 [Q2 [Q3 Q4]]]. repeat split; congruence.
  - intros x. destruct (A4 x). destruct (B4 x). split; congruence.
Qed.
Lemma alike_cur : forall s s' x m c, alike s s' -> (cur s' x m c <-> cur s x m c).
Proof.
  intros s s' x m c [A1 [A2 [A3 A4]]]. unfold cur. rewrite A2. destruct (A4 c) as [E1 E2]. rewrite E1, E2.
  split; intros [H1 [H2 [H3 H4]]]; (split; [exact H1|]; split; [exact H2|]; split; [exact H3|]); intros c' L1 L2 L3; destruct (A4 c') as [F1 F2]; apply H4; congruence.
Qed.
Lemma wf_alike : forall s s', alike s s' -> wf s -> wf s'.
Proof.
  intros s s' A [K P T O D U]. pose proof A as [A1 [A2 [A3 A4]]].
  constructor; rewrite ?A1, ?A2.
  - intros x k L. destruct (A3 x) as [E1 _]. destruct (A3 k) as [_ [E2 _]]. rewrite E1, E2. apply K. exact L.
  - intros x p L. destruct (A3 x) as [_ [E2 _]]. destruct (A3 p) as [E1 _]. rewrite E1, E2. apply P. exact L.
  - intros x k c L. destruct (A3 x) as [_ [_ [_ E]]]. rewrite E. apply T. exact L.
  - intros c L. destruct (A4 c) as [E _]. rewrite E. apply O. exact L.
  - intros x L. destruct (A3 x) as [_ [_ [E _]]]. rewrite E. apply D. exact L.
  - intros x m c L. destruct (A3 x) as [_ [_ [E _]]]. rewrite E. rewrite (alike_cur _ _ _ _ _ A). apply U. exact L.
Qed.
Lemma alike_cch : forall s c a, c_obj a = c_obj (cch s c) -> c_meth a = c_meth (cch s c) -> alike s (set_cch s c a).
Proof.
  intros s c a E1 E2. split; [reflexivity|]. split; [reflexivity|]. split; [intros x; repeat split|].
  intros d. cbn. unfold upd. destruct (Nat.eqb_spec d c) as [E|N]; [subst d; split; assumption | split; reflexivity].
Qed.
Lemma alike_obj : forall s x a, kids a = kids (obj s x) -> par a = par (obj s x) -> f_cur a = f_cur (obj s x) -> attrs a = attrs (obj s x) -> alike s (set_obj s x a).
Proof.
  intros s x a E1 E2 E3 E4. split; [reflexivity|]. split; [reflexivity|]. split; [|intros; split; reflexivity].
  intros y. cbn. unfold upd. destruct (Nat.eqb_spec y x) as [E|N]; [subst y; repeat split; assumption | repeat split].
Qed.

(** *** Switching. *)
Lemma fold_set : forall (f : cacher -> cacher) (l : list (nat * nat)) s,
  (forall a, f (f a) = f a) ->
  let s' := fold_left (fun s e => set_cch s (snd e) (f (cch s (snd e)))) l s in
  no s' = no s /\ nc s' = nc s /\ (forall x, obj s' x = obj s x) /\
  forall c, cch s' c = if existsb (fun e => Nat.eqb c (snd e)) l then f (cch s c) else cch s c.
Proof.
  intros f l s I2. revert s. induction l as [|e r IH]; intros s; cbn; [repeat split|].
  destruct (IH (set_cch s (snd e) (f (cch s (snd e))))) as [A [B [C D]]]. cbn in D.
  split; [exact A|]. split; [exact B|]. split; [exact C|]. intros c. rewrite D. cbn. unfold upd.
  destruct (Nat.eqb_spec c (snd e)) as [E|N]; cbn; [|reflexivity]. subst c. destruct (existsb _ r); [apply I2 | reflexivity].
Qed.
Lemma off1_idem : forall (b : bool) a, (if b then on1 else off1) ((if b then on1 else off1) a) = (if b then on1 else off1) a.
Proof. intros [] []; reflexivity. Qed.
Definition flip (b : bool) : cacher -> cacher := if b then on1 else off1.
Lemma switch_at : forall b s x, let s' := switch b s x in
  alike s s' /\ (forall y, data (obj s' y) = data (obj s y)) /\
  (forall y, f_on (obj s' y) = if Nat.eqb y x then b else f_on (obj s y)) /\
  forall c, cch s' c = if existsb (fun e => Nat.eqb c (snd e)) (f_cur (obj s x)) then flip b (cch s c) else cch s c.
Proof.
  intros b s x. cbv zeta. unfold switch.
  set (s1 := set_obj s x _). destruct (fold_set (flip b) (f_cur (obj s x)) s1 (off1_idem b)) as [A [B [C D]]].
  set (s2 := fold_left _ _ s1) in *. change (fold_left (fun (s0 : state) (e : nat * nat) => set_cch s0 (snd e) ((if b then on1 else off1) (cch s0 (snd e)))) (f_cur (obj s x)) s1) with s2.
  assert (A1 : alike s s1) by (apply alike_obj; reflexivity).
  split; [|split; [|split]].
  - eapply alike_trans; [exact A1|]. split; [exact A|]. split; [exact B|]. split; [intros y; rewrite C; repeat split|].
    intros c. rewrite D. destruct (existsb _ _); [|split; reflexivity]. unfold flip. destruct b; split; reflexivity.
  - intros y. rewrite C. unfold s1. cbn. unfold upd. destruct (Nat.eqb_spec y x) as [E|N]; [subst y; reflexivity | reflexivity].
  - intros y. rewrite C. unfold s1. cbn. unfold upd. destruct (Nat.eqb y x); reflexivity.
  - intros c. rewrite D. reflexivity.
Qed.
Lemma switch_all : forall b l s, let s' := fold_left (switch b) l s in
  alike s s' /\ (forall y, data (obj s' y) = data (obj s y)) /\
  (forall y, (In y l -> f_on (obj s' y) = b) /\ (~ In y l -> f_on (obj s' y) = f_on (obj s y))) /\
  forall c, ((exists x m, In x l /\ In (m, c) (f_cur (obj s x))) -> cch s' c = flip b (cch s c)) /\
            (~ (exists x m, In x l /\ In (m, c) (f_cur (obj s x))) -> cch s' c = cch s c).
Proof.
  intros b l. induction l as [|x r IH]; intros s; cbv zeta; cbn [fold_left].
  - split; [apply alike_refl|]. split; [reflexivity|]. split; [intros y; split; [intros [] | reflexivity]|].
    intros c. split; [intros [x [m [[] _]]] | reflexivity].
  - destruct (switch_at b s x) as [A [B [C D]]]. destruct (IH (switch b s x)) as [A' [B' [C' D']]].
    set (s1 := switch b s x) in *. set (s2 := fold_left (switch b) r s1) in *.
    split; [eapply alike_trans; eassumption|]. split; [intros y; rewrite B', B; reflexivity|]. split.
    + intros y. destruct (C' y) as [P Q]. destruct (in_dec Nat.eq_dec y r) as [Hi|Hn].
      * split; [intros _; apply P; exact Hi | intros H; exfalso; apply H; right; exact Hi].
      * rewrite (Q Hn), C. destruct (Nat.eqb_spec y x) as [E|N].
        -- split; [intros _; reflexivity | intros H; exfalso; apply H; left; symmetry; exact E].
        -- split; [intros [E|E]; [congruence | contradiction] | reflexivity].
    + destruct A as [_ [_ [A3 _]]].
      assert (FC : forall y, f_cur (obj s1 y) = f_cur (obj s y)) by (intros y; apply A3).
      intros c. destruct (D' c) as [P Q]. split.
      * intros [y [m [[E|Hi] Hc]]].
        -- subst y. assert (H1 : cch s1 c = flip b (cch s c)).
           { rewrite D. assert (X : existsb (fun e : nat * nat => Nat.eqb c (snd e)) (f_cur (obj s x)) = true); [|rewrite X; reflexivity].
             apply existsb_exists. exists (m, c). split; [exact Hc | apply Nat.eqb_refl]. }
           destruct (existsb (fun y => existsb (fun e => Nat.eqb c (snd e)) (f_cur (obj s y))) r) eqn:X.
           ++ rewrite P; [rewrite H1; apply off1_idem|]. apply existsb_exists in X. destruct X as [y [Hy X]]. apply existsb_exists in X. destruct X as [[m' c'] [Hi X]].
              apply Nat.eqb_eq in X. cbn in X. subst c'. exists y, m'. split; [exact Hy|]. rewrite FC. exact Hi.
           ++ rewrite Q; [exact H1|]. intros [y [m' [Hy Hi]]]. rewrite FC in Hi.
              assert (Y : existsb (fun y => existsb (fun e => Nat.eqb c (snd e)) (f_cur (obj s y))) r = true); [|congruence].
              apply existsb_exists. exists y. split; [exact Hy|]. apply existsb_exists. exists (m', c). split; [exact Hi | apply Nat.eqb_refl].
        -- rewrite P; [|exists y, m; rewrite FC; split; assumption]. rewrite D. destruct (existsb _ _); [apply off1_idem | reflexivity].
      * intros H. rewrite Q.
        -- rewrite D. destruct (existsb _ _) eqn:X; [|reflexivity]. exfalso. apply H. apply existsb_exists in X. destruct X as [[m' c'] [Hi X]].
           apply Nat.eqb_eq in X. cbn in X. subst c'. exists x, m'. split; [left; reflexivity | exact Hi].
        -- intros [y [m [Hy Hi]]]. apply H. exists y, m. split; [right; exact Hy|]. rewrite <- FC. exact Hi.
Qed.

(** *** The hierarchy. *)
Lemma traverse_under : forall n s o x, In x (traverse n s o) -> under s o x.
Proof.
  induction n as [|n IH]; intros s o x; cbn; [intros []|]. intros [E|H]; [subst; constructor|].
  apply in_flat_map in H. destruct H as [k [Hk H]]. eapply under_kid; [exact Hk | apply IH; exact H].
Qed.
Lemma under_traverse : forall s o x, wf s -> under s o x -> o < no s -> forall n, o < n -> In x (traverse n s o).
Proof.
  intros s o x W U. induction U as [o|o k x Hk U IH]; intros L n Ln.
  - destruct n as [|n]; [lia|]. left. reflexivity.
  - destruct n as [|n]; [lia|]. cbn. right. apply in_flat_map. exists k. split; [exact Hk|].
    destruct (w_kids _ W _ _ L Hk) as [L1 _]. apply IH; lia.
Qed.
Lemma under_hier : forall s o x, wf s -> o < no s -> (In x (hierarchy s o) <-> under s o x).
Proof. intros s o x W L. split; [apply traverse_under | intros U; apply (under_traverse s o x W U L); lia]. Qed.
Lemma under_le : forall s o x, wf s -> under s o x -> o < no s -> x <= o.
Proof.
  intros s o x W U. induction U as [o|o k x Hk U IH]; intros L; [lia|]. destruct (w_kids _ W _ _ L Hk) as [L1 _].
  assert (k < no s) by lia. specialize (IH H). lia.
Qed.
Lemma under_trans : forall s a b c, under s a b -> under s b c -> under s a c.
Proof. intros s a b c U. induction U; intros V; [exact V|]. eapply under_kid; [eassumption | apply IHU; exact V]. Qed.
Lemma under_alike : forall s s' o x, (forall y, kids (obj s' y) = kids (obj s y)) -> under s o x -> under s' o x.
Proof. intros s s' o x E U. induction U; [constructor|]. eapply under_kid; [rewrite E; eassumption | assumption]. Qed.

(** *** Making. *)
Lemma wf_make : forall s t m lim en, wf s -> t < no s -> wf (make s t m lim en).
Proof.
  intros s t m lim en W L. pose proof W as [K P T O D U]. unfold make. constructor; cbn.
  - intros x k Lx. unfold upd. destruct (Nat.eqb_spec x t) as [E|N]; [subst x|]; cbn; intros H; destruct (K _ _ Lx H) as [H1 H2]; split; try exact H1; destruct (Nat.eqb_spec k t) as [E|N1]; cbn; try exact H2; subst k; exact H2.
  - intros x p Lx. unfold upd. assert (E0 : par (if Nat.eqb x t then enter (obj s t) m (nc s) else obj s x) = par (obj s x)) by (destruct (Nat.eqb_spec x t) as [E|N]; [subst x; reflexivity | reflexivity]).
    rewrite E0. intros H. destruct (P _ _ Lx H) as [H1 [H2 H3]]. split; [exact H1|]. split; [exact H2|]. destruct (Nat.eqb_spec p t) as [E|N]; [subst p; exact H3 | exact H3].
  - intros x k c Lx. unfold upd. destruct (Nat.eqb_spec x t) as [E|N]; [subst x|]; cbn; intros H; specialize (T _ _ _ Lx H); lia.
  - intros c Lc. unfold upd. destruct (Nat.eqb_spec c (nc s)) as [E|N]; cbn; [exact L|]. apply O. lia.
  - intros x Lx. unfold upd. destruct (Nat.eqb_spec x t) as [E|N]; cbn; [apply put_nd; apply D; exact L | apply D; exact Lx].
  - intros x m' c Lx.
    assert (CU : cur (mkS (no s) (upd (obj s) t (enter (obj s t) m (nc s))) (S (nc s)) (upd (cch s) (nc s) (mkC t m lim (en && f_on (obj s t)) []))) x m' c <->
                 (x = t /\ m' = m /\ c = nc s) \/ (~ (x = t /\ m' = m) /\ cur s x m' c)).
    { unfold cur. cbn. split.
      - intros [H1 [H2 [H3 H4]]]. destruct (Nat.eq_dec x t) as [Ex|Nx].
        + destruct (Nat.eq_dec m' m) as [Em|Nm].
          * left. split; [exact Ex|]. split; [exact Em|]. specialize (H4 (nc s)). rewrite upd_same in H4. cbn in H4. specialize (H4 (Nat.lt_succ_diag_r _) (eq_sym Ex) (eq_sym Em)). lia.
          * right. split; [intuition|]. assert (N : c <> nc s) by (intros E; subst c; rewrite upd_same in H3; cbn in H3; congruence).
            rewrite upd_other in H2, H3 by exact N. split; [lia|]. split; [exact H2|]. split; [exact H3|]. intros c' L' E1 E2. apply H4; [lia | |]; rewrite upd_other by lia; assumption.
        + right. split; [intuition|]. assert (N : c <> nc s) by (intros E; subst c; rewrite upd_same in H2; cbn in H2; congruence).
          rewrite upd_other in H2, H3 by exact N. split; [lia|]. split; [exact H2|]. split; [exact H3|]. intros c' L' E1 E2. apply H4; [lia | |]; rewrite upd_other by lia; assumption.
      - intros [[E1 [E2 E3]]|[N [H1 [H2 [H3 H4]]]]].
        + subst. rewrite !upd_same. cbn. split; [lia|]. split; [reflexivity|]. split; [reflexivity|]. intros; lia.
        + rewrite !upd_other by lia. split; [lia|]. split; [exact H2|]. split; [exact H3|]. intros c' L'. unfold upd.
          destruct (Nat.eqb_spec c' (nc s)) as [E|N1]; cbn; [intros E1 E2; exfalso; apply N; split; congruence|]. intros E1 E2. apply H4; [lia | exact E1 | exact E2]. }
    rewrite CU. unfold upd. destruct (Nat.eqb_spec x t) as [E|N]; cbn.
    + subst x. rewrite (put_in _ _ _ _ _ _ (D _ L)). rewrite (U _ _ _ L). split.
      * intros [[E1 E2]|[E1 E2]]; [left; auto | right; split; [intuition | exact E2]].
      * intros [[_ [E1 E2]]|[E1 E2]]; [left; auto|]. right. split; [intros E; apply E1; auto | exact E2].
    + rewrite (U _ _ _ Lx). split; [intros H; right; split; [intuition | exact H] | intros [[E _]|[_ H]]; [contradiction | exact H]].
Qed.
Lemma set_par_at : forall p ks f x, let a := set_par p f ks x in
  data a = data (f x) /\ kids a = kids (f x) /\ f_on a = f_on (f x) /\ f_cur a = f_cur (f x) /\ attrs a = attrs (f x) /\
  (In x ks -> par a = Some p) /\ (~ In x ks -> par a = par (f x)).
Proof.
  intros p ks. unfold set_par. induction ks as [|k r IH]; intros f x; cbv zeta; cbn [fold_left]; [repeat split; intros []|].
  set (f1 := upd f k _). specialize (IH f1 x). cbv zeta in IH. destruct IH as [A [B [C [D [E [G H]]]]]].
  assert (X : data (f1 x) = data (f x) /\ kids (f1 x) = kids (f x) /\ f_on (f1 x) = f_on (f x) /\ f_cur (f1 x) = f_cur (f x) /\ attrs (f1 x) = attrs (f x) /\ par (f1 x) = if Nat.eqb x k then Some p else par (f x)).
  { unfold f1, upd. destruct (Nat.eqb_spec x k) as [E1|N]; [subst x|]; repeat split. }
  destruct X as [X1 [X2 [X3 [X4 [X5 X6]]]]].
  split; [congruence|]. split; [congruence|]. split; [congruence|]. split; [congruence|]. split; [congruence|]. split.
  - intros Hi. destruct (in_dec Nat.eq_dec x r) as [Hr|Hn]; [apply G; exact Hr|]. rewrite (H Hn), X6. destruct Hi as [Hk|Hk]; [|contradiction].
    subst k. rewrite Nat.eqb_refl. reflexivity.
  - intros Hn. rewrite H; [|intros Hr; apply Hn; right; exact Hr]. rewrite X6. destruct (Nat.eqb_spec x k) as [E1|N]; [|reflexivity]. exfalso. apply Hn. left. symmetry. exact E1.
Qed.
(** The state after a new object with the given children and Cachers. *)
Definition born (s : state) (d : Z) (ks : list nat) (ats : list (nat * nat)) : state :=
  mkS (S (no s)) (upd (set_par (no s) (obj s) ks) (no s) (mkO d ks None true [] ats)) (nc s) (cch s).
Lemma wf_born : forall s d ks ats, wf s -> (forall k, In k ks -> k < no s /\ par (obj s k) = None) -> (forall k c, In (k, c) ats -> c < nc s) -> wf (born s d ks ats).
Proof.
  intros s d ks ats W HK HA. pose proof W as [K P T O D U]. unfold born. set (f := set_par (no s) (obj s) ks).
  assert (SP := set_par_at (no s) ks (obj s)). fold f in SP. cbv zeta in SP.
  constructor; cbn.
  - intros x k Lx. unfold upd. destruct (Nat.eqb_spec x (no s)) as [E|N]; cbn.
    + intros H. destruct (HK _ H) as [L _]. split; [lia|]. destruct (Nat.eqb_spec k (no s)); [lia|]. destruct (SP k) as [_ [_ [_ [_ [_ [G _]]]]]]. rewrite E. apply G. exact H.
    + destruct (SP x) as [_ [E1 _]]. rewrite E1. intros H. assert (Lx' : x < no s) by lia. destruct (K _ _ Lx' H) as [L1 L2]. split; [exact L1|].
      destruct (Nat.eqb_spec k (no s)); [lia|]. destruct (SP k) as [_ [_ [_ [_ [_ [_ G]]]]]]. rewrite G; [exact L2|]. intros Hi. destruct (HK _ Hi). congruence.
  - intros x p Lx. unfold upd. destruct (Nat.eqb_spec x (no s)) as [E|N]; cbn; [discriminate|].
    destruct (SP x) as [_ [_ [_ [_ [_ [G H]]]]]]. destruct (in_dec Nat.eq_dec x ks) as [Hi|Hn].
    + rewrite (G Hi). intros E. injection E as E. subst p. rewrite Nat.eqb_refl. cbn. destruct (HK _ Hi). split; [lia|]. split; [lia | exact Hi].
    + rewrite (H Hn). intros E. assert (Lx' : x < no s) by lia. destruct (P _ _ Lx' E) as [P1 [P2 P3]]. split; [lia|]. split; [lia|].
      destruct (Nat.eqb_spec p (no s)); [lia|]. destruct (SP p) as [_ [E1 _]]. rewrite E1. exact P3.
  - intros x k c Lx. unfold upd. destruct (Nat.eqb_spec x (no s)) as [E|N]; cbn; [apply HA|]. destruct (SP x) as [_ [_ [_ [_ [E1 _]]]]]. rewrite E1. apply T. lia.
  - intros c L. specialize (O _ L). lia.
  - intros x Lx. unfold upd. destruct (Nat.eqb_spec x (no s)) as [E|N]; cbn; [constructor|]. destruct (SP x) as [_ [_ [_ [E1 _]]]]. rewrite E1. apply D. lia.
  - intros x m c Lx. change (cur (mkS (S (no s)) (upd f (no s) (mkO d ks None true [] ats)) (nc s) (cch s)) x m c) with (cur s x m c).
    unfold upd. destruct (Nat.eqb_spec x (no s)) as [E|N]; cbn.
    + split; [intros [] | intros [L [E1 _]]]. specialize (O _ L). lia.
    + destruct (SP x) as [_ [_ [_ [E1 _]]]]. rewrite E1. apply U. lia.
Qed.
