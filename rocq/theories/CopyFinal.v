(** Copies and originals go their own ways: the properties of copying, over all histories. *)
From Coq Require Import List ZArith Bool Lia Arith.
From Verif Require Import NpModel NpProofs IndexOpsModel IndexOpsSpec IndexOpsProofs PzModel CopyModel PzSpec PzTree PzStruct PzLink PzWalk PzMem PzIo PzInv PzConn PzFix PzLinkMem PzPres PzUnlink PzTraverse PzNotify PzNew PzCmd PzInit PzCons PzVal PzOpt PzRandom PzGet CopySpec CopyTree CopyDeep CopyJoin CopyConn CopyCall PzHist PzKeep PzOrder PzGrad PzFinal.
Import ListNotations.
Open Scope Z_scope.

Section Final.
Context {V : Type}.
Implicit Types s : @state V.
Variables tinit tf tfinv : nat -> V -> V.

Lemma together_lt : forall s x y, Inv s -> (x < next (st s))%nat -> together (st s) x y -> (y < next (st s))%nat.
Proof.
  intros s x y H Hx (r & [o [n B]] & Ry). pose proof (inv_st _ H) as W. destruct (Nat.lt_ge_cases r (next (st s))) as [Hr|Hr].
  - eapply above_lt'; eauto.
  - destruct (PzTree.wf_new _ W r Hr) as (Hk & _). exfalso. inversion B; subst; [lia|]. rewrite Hk in *. destruct i; discriminate.
Qed.
Lemma same_together : forall (t : struct) y j x k, same_elem t y j x k -> together t x y.
Proof. intros t y j x k (_ & _ & r & oy & ny & ox & nx & A & B & _). exists r. split; eexists; eexists; eauto. Qed.
Lemma chain_together : forall s (n : @ntst V) x u z, Inv s -> up (st s) x u -> In z (chain (st s) n u) -> together (st s) x z.
Proof.
  intros s n x u z H Hu Hz. unfold chain in Hz. apply filter_In in Hz as [Hz _]. apply takewhile_In in Hz. apply (up_below _ _ _ (inv_st _ H) Hu) in Hz.
  exists z. split; auto. exists 0, 0%nat. constructor.
Qed.
Lemma triggered_together : forall s i (n : @ntst V) x l z, Inv s -> triggered (st s) i n x l -> In z l -> together (st s) x z.
Proof.
  intros s i n x l z H (tr & u & fx & Er & R & _ & Hu & _ & ->) Hz. destruct (updates n x && negb (in_init (st s) x)); [|destruct Hz].
  apply in_app_or in Hz as [Hz|Hz]; [|eapply chain_together; eauto]. apply filter_In in Hz as [Hz _]. apply inner_in in Hz.
  apply (koids_below (st s)) in Hz; [|apply rep_krep; auto]. rewrite Er in Hz. exists x. split; auto. exists 0, 0%nat. constructor.
Qed.
Lemma together_not : forall s x y z, Inv s -> ~ together (st s) x z -> together (st s) x y -> ~ together (st s) z y.
Proof. intros s x y z H N A B. apply N. apply (together_trans s x y z H A). apply together_sym; auto. Qed.

(** Calls that leave the objects and links alone. *)
Lemma stays_flat : forall s s' x, st s' = st s -> (forall y q j, together (st s) x y -> (has s' y q j <-> has s y q j)) ->
  (forall y, together (st s) x y -> updates (nt s') y = updates (nt s) y) ->
  (forall y j, together (st s) x y -> ready (st s) y -> 0 <= j < size (st s) y -> value s' y j = value s y j) -> stays s s' x.
Proof. intros s s' x E A B C y Hy. rewrite E. split; [constructor; rewrite ?E; auto|]. tauto. Qed.
Lemma ran_upd : forall n l n', @ran V n l n' -> forall y, updates n' y = updates n y.
Proof. intros n l n' ((_ & Q & _) & _) y. rewrite Q. auto. Qed.
Lemma unheard_same : forall s s' x, trace (nt s') = trace (nt s) -> unheard s s' x.
Proof. intros s s' x E. exists (@nil oid). split; [exact E|]. intros z Hz. destruct Hz. Qed.
Lemma unheard_ran : forall s s' x z l, Inv s -> ~ together (st s) x z -> st s' = st s -> trace (nt s') = rev l ++ trace (nt s) -> (forall y, In y l -> together (st s) z y) -> unheard s s' x.
Proof.
  intros s s' x z l H N E T Q. exists (rev l). split; auto. intros y Hy Ty. apply in_rev in Hy. rewrite E in Ty. apply N. apply (together_trans s x y z H Ty). apply together_sym; auto.
Qed.
Lemma has_eq : forall s s', ios s' = ios s -> forall y q j, has s' y q j <-> has s y q j.
Proof. intros s s' E y q j. unfold has. rewrite E. tauto. Qed.
Lemma changed_far : forall s s' x z F, Inv s -> apart s -> (x < next (st s))%nat -> ~ together (st s) x z -> changed s s' z F ->
  forall y j, together (st s) x y -> ready (st s) y -> 0 <= j < size (st s) y -> value s' y j = value s y j.
Proof.
  intros s s' x z F H Ap Hx N [_ C] y j Ty Ry Hj. apply C; auto; [eapply together_lt; eauto|].
  intros k Se. apply same_together in Se. apply (together_not s x y z H N Ty Se).
Qed.
Lemma mem_val : forall s s', mem s' = mem s -> forall y j, value s' y j = value s y j.
Proof. intros s s' E y j. unfold value. rewrite E. auto. Qed.

Lemma grown_stays : forall s s' x, Inv s -> Inv s' -> (x < next (st s))%nat -> grown s s' -> (forall y, (y < next (st s))%nat -> updates (nt s') y = updates (nt s) y) -> stays s s' x.
Proof.
  intros s s' x H H' Hx G U y Ty. pose proof (together_lt s x y H Hx Ty) as Hy. pose proof (inv_st _ H) as W.
  destruct (gr_old _ _ G y) as (q1 & q2 & q3 & q4 & q5 & q6); [lia|].
  assert (Rd : ready (st s) y <-> ready (st s') y) by (unfold ready, is_leaf; rewrite q1, q6; tauto).
  split; [|tauto]. constructor; auto; [intros; apply (gr_has _ _ G); auto|].
  intros Ry j Hj. destruct (cover (st s) y j W Hj) as (c & o & n & Lc & B & Hr). assert (Hc : (c < next (st s))%nat) by (eapply below_lt; eauto).
  destruct (gr_old _ _ G c) as (c1 & c2 & c3 & c4 & c5 & c6); [lia|].
  rewrite (value_leaf s y j c o n); auto. rewrite (value_leaf s' y j c o n); auto.
  - apply kept_value; auto; [apply (gr_kept _ _ G) | lia].
  - rewrite (gr_next _ _ G). lia.
  - apply Rd; auto.
  - unfold is_leaf in *. rewrite c1. auto.
  - apply (gr_below _ _ G); auto.
  - rewrite c4. auto.
Qed.
Lemma untouched_together : forall s s' x z y, Inv s -> Inv s' -> (x < next (st s))%nat -> copied_ok s s' z (next (st s)) -> (together (st s') x y <-> together (st s) x y).
Proof.
  intros s s' x z y H H' Hx (Co & Un & _).
  assert (Fo : forall path r a, (r < next (st s))%nat -> (follow (st s') r path = Some a <-> follow (st s) r path = Some a)).
  { induction path as [|i path IH]; intros r a Hr; cbn [follow]; [tauto|]. destruct (Un r Hr) as (_ & _ & Ek & _). rewrite Ek.
    destruct (nth_error (kids (st s) r) i) as [c|] eqn:Ei; [|tauto]. apply IH. eapply above_lt'; eauto. exists (sum_sizes (st s) (firstn i (kids (st s) r)) + 0), 1%nat.
    econstructor; eauto. constructor. }
  assert (Pa : forall r a, (r < next (st s))%nat -> (part (st s') r a <-> part (st s) r a)).
  { intros r a Hr. split; intros (o & n & B); destruct (below_follow _ _ _ _ _ B) as [path E]; apply Fo in E; auto; apply follow_below in E; auto. }
  pose proof (co_new _ _ _ _ Co) as Hn.
  split; intros (r & A & B).
  - assert (Hr : (r < next (st s))%nat).
    { destruct (Nat.lt_ge_cases r (next (st s))) as [Q|Q]; auto. exfalso.
      assert (Hr' : (r < next (st s'))%nat).
      { destruct (Nat.lt_ge_cases r (next (st s'))) as [Q'|Q']; auto. destruct A as (o & n & A). destruct (PzTree.wf_new _ (inv_st _ H') r Q') as (Hk & _).
        inversion A; subst; [lia|]. rewrite Hk in *. destruct i; discriminate. }
      destruct (co_all _ _ _ _ Co r (conj Q Hr')) as (o1 & n1 & B1). destruct A as (o2 & n2 & B2).
      pose proof (below_trans _ _ _ _ _ _ _ _ B1 B2) as B3. destruct (below_follow _ _ _ _ _ B3) as [path E].
      pose proof (co_paths _ _ _ _ Co path) as P. rewrite E in P. destruct (follow (st s) z path); [|contradiction]. destruct P as [P _]. lia. }
    exists r. split; apply Pa; auto.
  - assert (Hr : (r < next (st s))%nat).
    { destruct (Nat.lt_ge_cases r (next (st s))) as [Q|Q]; auto. exfalso. destruct A as (o & n & A). destruct (PzTree.wf_new _ (inv_st _ H) r Q) as (Hk & _).
      inversion A; subst; [lia|]. rewrite Hk in *. destruct i; discriminate. }
    exists r. split; apply Pa; auto.
Qed.

Lemma elsewhere_step : forall s x c s' e, Inv s -> one s -> apart s -> (x < next (st s))%nat -> legal s c -> elsewhere s x c -> exec tinit tf tfinv c s = (s', e) ->
  stays s s' x /\ unheard s s' x /\ (next (st s) <= next (st s'))%nat /\ forall y, together (st s') x y <-> together (st s) x y.
Proof.
  intros s x c s' e H O Ap Hx L El E.
  assert (Fl : st s' = st s -> (next (st s) <= next (st s'))%nat /\ forall y, together (st s') x y <-> together (st s) x y) by (intros Q; rewrite Q; split; [auto | tauto]).
  destruct c; cbn [exec legal elsewhere] in *; try contradiction.
  - destruct (new_leaf_ok s vals H) as (s2 & R & H' & G & _). rewrite R in E. injection E as <- <-. split; [|split; [|split]].
    + apply grown_stays; auto. intros y Hy. injection R as <-. cbn. apply upd_ne. lia.
    + apply unheard_same. injection R as <-. auto.
    + rewrite (gr_next _ _ G). lia.
    + intros y. unfold together, part. split; intros (r & (o & n & A) & (o' & n' & B)); exists r; split; eexists; eexists; apply (gr_below _ _ G); eauto.
  - destruct (bare_node_ok s H) as (s2 & R & H' & G & _). rewrite R in E. injection E as <- <-. split; [|split; [|split]].
    + apply grown_stays; auto. intros y Hy. injection R as <-. cbn. apply upd_ne. lia.
    + apply unheard_same. injection R as <-. auto.
    + rewrite (gr_next _ _ G). lia.
    + intros y. unfold together, part. split; intros (r & (o & n & A) & (o' & n' & B)); exists r; split; eexists; eexists; apply (gr_below _ _ G); eauto.
  - destruct L as (Hz & Ls & Rz). destruct (constrain_ok tinit s x0 sel n H Hz Rz Ls) as (s2 & l & R & H' & Ch & _ & Es & Rn & (u & l5 & Hu & T & Eq) & Hh).
    rewrite R in E. injection E as <- <-. split; [|split; [|apply Fl; auto]].
    + apply stays_flat; auto.
      * intros y q j Ty. assert (N : ~ exists k, selected (st s) x0 sel k /\ same_elem (st s) y j x0 k).
        { intros (k & _ & Se). apply same_together in Se. apply (together_not s x y x0 H El Ty Se). }
        rewrite (Hh y q j) by (apply (together_lt s x y); auto). tauto.
      * intros y _. apply (ran_upd _ _ _ Rn).
      * eapply changed_far; eauto.
    + apply (unheard_ran s s2 x x0 l); auto; [apply Rn|]. intros y Hy. subst l. apply in_app_or in Hy as [Hy|Hy].
      * destruct (is_leaf (st s) x0); [eapply chain_together; eauto | destruct Hy].
      * eapply triggered_together; eauto.
  - destruct L as (Hz & Ls). destruct (unconstrain_ok s x0 sel ts H Hz Ls) as (s2 & R & H' & (Es & Em & En) & Hh). rewrite R in E. injection E as <- <-.
    split; [|split; [|apply Fl; auto]].
    + apply stays_flat; auto; [| rewrite En; auto | intros; apply mem_val; auto].
      intros y q j Ty. assert (N : ~ exists k, selected (st s) x0 sel k /\ same_elem (st s) y j x0 k).
      { intros (k & _ & Se). apply same_together in Se. apply (together_not s x y x0 H El Ty Se). }
      rewrite (Hh y q j) by (apply (together_lt s x y); auto). tauto.
    + apply unheard_same. rewrite En. auto.
  - destruct L as (Hz & Ls). destruct (fix_ok s x0 sel H Hz Ls) as (s2 & u & R & H' & Es & Em & Hu & Rn & Hh). rewrite R in E. injection E as <- <-.
    split; [|split; [|apply Fl; auto]].
    + apply stays_flat; auto; [| intros y _; apply (ran_upd _ _ _ Rn) | intros; apply mem_val; auto].
      intros y q j Ty. assert (N : ~ exists k, selected (st s) x0 sel k /\ same_elem (st s) y j x0 k).
      { intros (k & _ & Se). apply same_together in Se. apply (together_not s x y x0 H El Ty Se). }
      rewrite (Hh y q j) by (apply (together_lt s x y); auto). tauto.
    + apply (unheard_ran s s2 x x0 (chain (st s) (nt s) u)); auto; [apply Rn|]. intros y Hy. eapply chain_together; eauto.
  - destruct L as (Hz & Ls). destruct (unfix_ok s x0 sel H Hz Ls) as (s2 & R & H' & (Es & Em & En) & Hh). rewrite R in E. injection E as <- <-.
    split; [|split; [|apply Fl; auto]].
    + apply stays_flat; auto; [| rewrite En; auto | intros; apply mem_val; auto].
      intros y q j Ty. assert (N : ~ exists k, selected (st s) x0 sel k /\ same_elem (st s) y j x0 k).
      { intros (k & _ & Se). apply same_together in Se. apply (together_not s x y x0 H El Ty Se). }
      rewrite (Hh y q j) by (apply (together_lt s x y); auto). tauto.
    + apply unheard_same. rewrite En. auto.
  - destruct L as (Hz & Rz). destruct (assign_ok s x0 g H Hz Rz) as (s2 & l & R & H' & Ch & _ & Es & Ei & _ & Rn & T). rewrite R in E. injection E as <- <-.
    split; [|split; [|apply Fl; auto]].
    + apply stays_flat; auto; [intros; apply has_eq; auto | intros y _; apply (ran_upd _ _ _ Rn) | eapply changed_far; eauto].
    + apply (unheard_ran s s2 x x0 l); auto; [apply Rn|]. intros y Hy. destruct (is_leaf (st s) x0).
      * destruct T as (u & Hu & ->). eapply chain_together; eauto.
      * eapply triggered_together; eauto.
  - destruct L as (Hz & Rz). destruct (free_exists s x0 H Hz) as [ks Hks].
    destruct (set_opt_ok tf s x0 p ks H Hz Rz (O x0 Hz) Hks) as (s2 & l & F & R & H' & Ch & _ & _ & Es & Ei & _ & Rn & T). rewrite R in E. injection E as <- <-.
    split; [|split; [|apply Fl; auto]].
    + apply stays_flat; auto; [intros; apply has_eq; auto | intros y _; apply (ran_upd _ _ _ Rn) | eapply changed_far; eauto].
    + apply (unheard_ran s s2 x x0 l); auto; [apply Rn|]. intros y Hy. eapply triggered_together; eauto.
  - destruct L as (Hz & Rz). destruct (get_any_ok tfinv s x0 H Hz Rz) as (l & s2 & R & H' & Ro). rewrite R in E. injection E as <- <-.
    destruct Ro as (Es & Ei & _ & Hv & _ & Eu & _ & Et & _). split; [|split; [|apply Fl; auto]].
    + apply stays_flat; auto; [intros; apply has_eq; auto | intros; rewrite Eu; auto |]. intros y j Ty Ry Hj. apply Hv; auto. apply (together_lt s x y); auto.
    + apply unheard_same; auto.
  - destruct (update_model_ok s x0 on H L) as (s2 & l & r & R & H' & Ar & Hr & Es & Ei & _ & Em & U & Hl & _ & n1 & l' & U1 & Nr & Rn & T). rewrite R in E. injection E as <- <-.
    split; [|split; [|apply Fl; auto]].
    + apply stays_flat; auto; [intros; apply has_eq; auto | | intros; apply mem_val; auto].
      intros y Ty. rewrite U. destruct (omem y l) eqn:Q; auto. exfalso. apply omem_In, Hl in Q. apply (together_not s x y x0 H El Ty). exists r. split; auto.
    + apply (unheard_ran s s2 x x0 l'); auto.
      * destruct Rn as (_ & -> & _). f_equal. apply Nr.
      * intros y Hy. eapply triggered_together; eauto.
  - destruct (trigger_full s x0 H L) as (s2 & l & R & (Es & Ei & _ & Em & Rn) & T). rewrite R in E. injection E as <- <-. split; [|split; [|apply Fl; auto]].
    + apply stays_flat; auto; [intros; apply has_eq; auto | intros y _; apply (ran_upd _ _ _ Rn) | intros; apply mem_val; auto].
    + apply (unheard_ran s s2 x x0 l); auto; [apply Rn|]. intros y Hy. eapply triggered_together; eauto.
  - destruct L as (Hz & Rz). destruct (free_exists s x0 H Hz) as [ks Hks].
    destruct (randomize_ok tf s x0 draw ks H Hz Rz (O x0 Hz) Hks) as (s2 & l & F & R & H' & Ch & _ & _ & Es & Ei & _ & _ & U2 & Tr & T & _). rewrite R in E. injection E as <- <-.
    split; [|split; [|apply Fl; auto]].
    + apply stays_flat; auto; [intros; apply has_eq; auto | | eapply changed_far; eauto]. intros y Ty. apply U2. eapply together_not; eauto.
    + apply (unheard_ran s s2 x x0 l); auto. intros y Hy. eapply triggered_together; eauto.
  - destruct L as (Hz & Rz & Iz & Fz). destruct (copy_object_ok tfinv s x0 H Hz Rz Iz Fz) as (s2 & R & H' & Ck & (l & Et & Hl & _)). rewrite R in E. injection E as <- <-.
    pose proof Ck as (Co & Un & _). pose proof (co_new _ _ _ _ Co) as Hn.
    assert (Tg : forall y, together (st s2) x y <-> together (st s) x y) by (intros y; eapply untouched_together; eauto).
    split; [|split; [|split; [lia|auto]]].
    + intros y Ty. pose proof (together_lt s x y H Hx Ty) as Hy. apply (Un y Hy).
    + exists l. split; auto. intros z Hz' Tz. apply Tg in Tz. apply (together_lt s x z H Hx) in Tz. apply Hl in Hz'. lia.
Qed.

Lemma stays_trans : forall s1 s2 s3 x, stays s1 s2 x -> stays s2 s3 x -> (forall y, together (st s2) x y <-> together (st s1) x y) -> stays s1 s3 x.
Proof.
  intros s1 s2 s3 x A B T y Hy. destruct (A y Hy) as (a1 & a2 & a3 & a4). destruct (B y) as (b1 & b2 & b3 & b4); [apply T; auto|].
  split; [apply (was_trans s1 s2 s3 y y y); auto; apply a4|]. split; [congruence|]. split; [congruence | tauto].
Qed.
Lemma unheard_trans : forall s1 s2 s3 x, unheard s1 s2 x -> unheard s2 s3 x -> (forall y, together (st s3) x y <-> together (st s2) x y) -> unheard s1 s3 x.
Proof.
  intros s1 s2 s3 x (l1 & E1 & H1) (l2 & E2 & H2) T. exists (l2 ++ l1). split; [rewrite E2, E1, app_assoc; auto|].
  intros z Hz. apply in_app_or in Hz as [Hz|Hz]; auto. rewrite T. auto.
Qed.
Lemma elsewhere_hist : forall s s2 x, Inv s -> one s -> apart s -> (x < next (st s))%nat -> hist tinit tf tfinv (fun s c => legal s c /\ elsewhere s x c) s s2 ->
  Inv s2 /\ one s2 /\ apart s2 /\ stays s s2 x /\ unheard s s2 x /\ forall y, together (st s2) x y <-> together (st s) x y.
Proof.
  intros s s2 x H O Ap Hx Hh. revert H O Ap Hx. induction Hh as [s|s c s1 e s2 [L El] E Hh IH]; intros H O Ap Hx.
  - split; auto. split; auto. split; auto. split; [apply stays_flat; auto; tauto|]. split; [apply unheard_same; auto | tauto].
  - destruct (elsewhere_step s x c s1 e H O Ap Hx L El E) as (A1 & A2 & A3 & A4).
    destruct (exec_ok tinit tf tfinv s c H O L) as (s1' & e' & E' & H1 & O1 & _). rewrite E in E'. injection E' as <- <-.
    assert (Cf : careful s c) by (split; auto; destruct c; auto; contradiction).
    pose proof (exec_apart tinit tf tfinv s c s1 e H O Cf E Ap) as Ap1.
    destruct IH as (B1 & B2 & B3 & B4 & B5 & B6); auto; [lia|].
    split; auto. split; auto. split; auto. split; [eapply stays_trans; eauto|]. split; [eapply unheard_trans; eauto|]. intros y. rewrite B6. apply A4.
Qed.

Variable junk : nat -> Z -> V.
Lemma copy_final : forall s x, reach tinit tf tfinv legal junk s -> (x < next (st s))%nat -> ready (st s) x -> in_init (st s) x = false ->
  (is_leaf (st s) x = true -> forall j, ~ has s x Fixed j) ->
  exists s', copy_object tfinv x s = (s', None) /\ reach tinit tf tfinv legal junk s' /\ copy_of s s' x (next (st s)) /\ untouched s s' /\
    (forall z, (z < next (st s))%nat -> ~ together (st s') z (next (st s))) /\
    exists l, trace (nt s') = l ++ trace (nt s) /\ (forall z, In z l -> (next (st s) <= z)%nat) /\
      forall z, part (st s') (next (st s)) z -> kind (st s') z = KNode -> In z l.
Proof.
  intros s x R Hx Rx Ix Fx. destruct (reach_legal tinit tf tfinv junk s R) as [H O].
  destruct (copy_object_ok tfinv s x H Hx Rx Ix Fx) as (s' & E & H' & Ck & (l & Et & Hl & Al)).
  exists s'. split; auto. split; [apply (reach_call tinit tf tfinv legal junk s (Copy x) s' None); auto; cbn [legal]; auto|].
  split; [apply Ck|]. split; [apply Ck|]. split.
  - intros z Hz T. apply (untouched_together s s' z x (next (st s)) H H' Hz Ck) in T. apply (together_lt s z) in T; auto. lia.
  - exists l. split; auto. split; [intros z Hz; apply Hl in Hz; lia|]. intros z Pz Kz. apply Al; auto.
    destruct Pz as (o & n & B). destruct (below_follow _ _ _ _ _ B) as [path Ep]. pose proof (co_paths _ _ _ _ (proj1 Ck) path) as Q.
    rewrite Ep in Q. destruct (follow (st s) x path); [apply Q | destruct Q].
Qed.
Lemma elsewhere_final : forall s s2 x, reach tinit tf tfinv careful junk s -> (x < next (st s))%nat ->
  hist tinit tf tfinv (fun s c => legal s c /\ elsewhere s x c) s s2 ->
  stays s s2 x /\ unheard s s2 x /\ forall y, together (st s2) x y <-> together (st s) x y.
Proof.
  intros s s2 x R Hx Hh. destruct (reach_inv tinit tf tfinv careful junk s (fun s c Q => proj1 Q) R) as [H O].
  assert (Ap : apart s) by (apply (reach_apart tinit tf tfinv careful junk s); auto).
  destruct (elsewhere_hist s s2 x H O Ap Hx Hh) as (_ & _ & _ & Q). exact Q.
Qed.
(** After a copy, what is done to the original does not show in the copy, and the other way round. *)
Lemma follow_stays : forall s1 s2 y path b, stays s1 s2 y -> together (st s1) y b -> follow (st s2) b path = follow (st s1) b path.
Proof.
  intros s1 s2 y path. induction path as [|i path IH]; intros b Q Tb; cbn [follow]; auto. destruct (Q b Tb) as (_ & _ & -> & _).
  destruct (nth_error (kids (st s1) b) i) as [c|] eqn:Ei; auto. apply IH; auto. destruct Tb as (r & A & B). exists r. split; auto.
  destruct B as (o & n & B). eexists; eexists. eapply below_trans; eauto. econstructor; eauto. constructor.
Qed.
Lemma copy_apart_final : forall s x s1 e, reach tinit tf tfinv careful junk s -> legal s (Copy x) -> exec tinit tf tfinv (Copy x) s = (s1, e) ->
  forall s2,
  (hist tinit tf tfinv (fun s' c => legal s' c /\ elsewhere s' (next (st s)) c) s1 s2 -> unheard s1 s2 (next (st s)) /\
     forall path, match follow (st s) x path, follow (st s2) (next (st s)) path with
     | Some a, Some b => as_was s s2 a b
     | None, None => True
     | _, _ => False
     end) /\
  (hist tinit tf tfinv (fun s' c => legal s' c /\ elsewhere s' x c) s1 s2 -> stays s s2 x /\ unheard s s2 x).
Proof.
  intros s x s1 e R L E s2. assert (R1 : reach tinit tf tfinv careful junk s1) by (eapply (reach_call tinit tf tfinv careful junk s (Copy x)); eauto; split; auto).
  destruct (reach_inv tinit tf tfinv careful junk s (fun s c Q => proj1 Q) R) as [H O].
  pose proof L as (Hx & Rx & Ix & Fx). destruct (copy_object_ok tfinv s x H Hx Rx Ix Fx) as (s1' & E' & H1 & (Co & Un & _) & (l & Et & Hl & _)).
  cbn [exec] in E. rewrite E' in E. injection E as <- <-. pose proof (co_new _ _ _ _ Co) as Hn. split; intros Hh.
  - destruct (elsewhere_final s1' s2 (next (st s)) R1) as (St & Uh & Tg); auto; [lia|]. split; auto. intros path.
    assert (Ty : together (st s1') (next (st s)) (next (st s))) by (exists (next (st s)); split; exists 0, 0%nat; constructor).
    rewrite (follow_stays s1' s2 (next (st s)) path (next (st s)) St Ty).
    pose proof (co_paths _ _ _ _ Co path) as P. destruct (follow (st s) x path) as [a|]; destruct (follow (st s1') (next (st s)) path) as [b|] eqn:Eb; auto.
    destruct P as (P1 & P2 & P3). destruct (St b) as (Q & _).
    { apply follow_below in Eb as (o & n & B). exists (next (st s)). split; [exists 0, 0%nat; constructor | exists o, n; auto]. }
    apply (was_trans s s1' s2 a b b); auto.
  - assert (Cl : legal s (Copy x) /\ elsewhere s x (Copy x)) by (split; cbn; auto).
    destruct (elsewhere_final s s2 x R Hx) as (St & Uh & _); auto. apply (hist_call tinit tf tfinv _ s (Copy x) s1' None s2); auto.
Qed.
End Final.
