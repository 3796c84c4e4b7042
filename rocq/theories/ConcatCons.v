(** Proofs about concatenations of parameters, part 4: constraints, and histories. *)
From Coq Require Import List ZArith Bool Lia Arith.
From Verif Require Import NpModel NpProofs IndexOpsModel IndexOpsSpec IndexOpsProofs PzModel PzSpec PzTree PzStruct PzLink PzWalk PzMem PzIo PzInv PzConn PzFix PzLinkMem PzPres PzUnlink PzTraverse PzNotify PzNew PzCmd PzInit PzCons PzVal PzOpt PzRandom PzHist PzOrder PzGrad PzKeep ConcatModel ConcatSpec ConcatProofs ConcatOps ConcatCalls.
Import ListNotations.
Open Scope Z_scope.

Section Cons.
Context {V : Type}.
Implicit Types s : @state V.
Variable tinit : nat -> V -> V.

Lemma sel_all : forall t p y j, (exists k, selected t p None k /\ same_elem t y j p k) <-> exists k, same_elem t y j p k.
Proof. clear tinit. intros t p y j. split; [intros (k & _ & H); eauto|]. intros (k & H). exists k. split; auto. apply H. Qed.
Lemma covers_cons : forall t p ps y j, covers t (p :: ps) y j <-> (exists k, same_elem t y j p k) \/ covers t ps y j.
Proof. clear tinit.
  intros t p ps y j. unfold covers. split.
  - intros (q & i & [->|Hq] & Se); [left; eauto | right; eauto].
  - intros [(k & Se)|(q & i & Hq & Se)]; [exists p, k; split; [left|]; auto | exists q, i; split; [right|]; auto].
Qed.
Lemma chain_settled : forall s x u, Inv s -> up (st s) x u -> (forall y, part (st s) y x -> updates (nt s) y = true) ->
  settled (st s) (chain (st s) (nt s) u) /\ forall q, part (st s) q x -> q <> x -> In q (chain (st s) (nt s) u).
Proof. clear tinit.
  intros s x u H Hu Hon. pose proof (inv_st _ H) as W. destruct (chain_order s (nt s) x u H Hu Hon) as (Nd & Hin & Ord).
  assert (K : forall q z, part (st s) q z -> q <> z -> kind (st s) q = KNode).
  { intros q z Hq Hne. destruct (above_step (st s) q z Hq Hne) as (c & Hc & _). apply node_not_leaf. eapply kid_not_leaf; eauto. }
  split.
  - intros l1 a l2 b E Hb Hne. assert (Ha : In a (chain (st s) (nt s) u)) by (rewrite E; apply in_elt).
    assert (Hb' : In b (chain (st s) (nt s) u)). { apply Hin. split; [eapply K; eauto|]. apply Hin in Ha as [_ Ha]. eapply above_trans; eauto. }
    exact (before_after _ a b l1 l2 Nd (Ord a b Ha Hb' Hb Hne) E).
  - intros q Hq Hne. apply Hin. split; auto. eapply K; eauto.
Qed.
Lemma settled_app : forall t l l', settled t l -> settled t l' -> settled t (l ++ l').
Proof. clear tinit.
  intros t l l' H H' l1 a l2 b E Hb Hne. revert l1 E. induction l as [|x l IH]; intros l1 E; [cbn in E; eapply H'; eauto|].
  destruct l1 as [|y l1]; cbn in E; injection E as -> E.
  - apply (f_equal (fun m => m)) in E. subst l2. apply in_or_app. left. apply (H [] a l b eq_refl Hb Hne).
  - apply (IH (fun m1 c m2 d Em => H (y :: m1) c m2 d (f_equal (cons y) Em)) l1 E).
Qed.
Lemma settled_nil : forall t, settled t [].
Proof. clear tinit. intros t [|? ?]; discriminate. Qed.

(** [constrain] of one Param without the second notification of those above. *)
Lemma constrain_below_ok : forall s x n, Inv s -> (x < next (st s))%nat -> is_leaf (st s) x = true ->
  exists s' l, constrain_below tinit n x s = (s', None) /\ Inv s' /\ changed s s' x (fun _ => tinit n) /\ (apart s -> apart s') /\
    st s' = st s /\ ran (nt s) l (nt s') /\
    ((forall y, part (st s) y x -> updates (nt s) y = true) -> settled (st s) l /\ forall q, part (st s) q x -> q <> x -> In q l) /\
    forall y q j, (y < next (st s))%nat -> (has s' y q j <-> (has s y q j /\ ~ (exists k, same_elem (st s) y j x k)) \/ (q = Tr n /\ exists k, same_elem (st s) y j x k)).
Proof.
  intros s x n H Hx Hl. destruct (set_values_ok s x None (tinit n) H Hx (or_introl Hl)) as (s1 & R1 & H1 & C1 & D1 & E1 & E2 & E3 & E4).
  unfold constrain_below. rewrite (andthen_ok _ _ _ _ R1).
  destruct (notify_cmd s1 x H1) as (s2 & u & R2 & U & O2). rewrite (andthen_ok _ _ _ _ R2).
  pose proof (only_ran_inv _ _ _ O2 H1) as H2. pose proof O2 as (F1 & F2 & F3 & F4 & F5).
  destruct (unconstrain_ok s2 x None [] H2) as (s3 & R3 & H3 & O3 & Q3); try (rewrite F1, E1; auto); [exact Logic.I|].
  rewrite (andthen_ok _ _ _ _ R3). pose proof O3 as (G1 & G2 & G3).
  destruct (add_cons_ok s3 x None n H3) as (s4 & R4 & H4 & O4 & Q4); try (rewrite G1, F1, E1; auto); [exact Logic.I|].
  rewrite (andthen_ok _ _ _ _ R4). pose proof O4 as (K1 & K2 & K3).
  assert (Es4 : st s4 = st s) by congruence. assert (Hx4 : (x < next (st s4))%nat) by (rewrite Es4; auto).
  assert (exists s5, c_trigger x false s4 = (s5, None) /\ only_ran s4 [] s5) as (s5 & R5 & O5).
  { (* a Param has no children and is not itself updated *)
    unfold c_trigger, lift, trigger_update. destruct (updates (nt s4) x && negb (in_init (st s4) x)); [|exists (with_nt s4 (nt s4)); split; [auto | repeat (split; auto)]].
    pose proof H4 as [W4 I4 F4' M4 N4 J4]. destruct (fixed_fun (st s4) (ios s4) W4 I4) as [fx [Fx1 Fx2]]. destruct (tree_exists (st s4) W4 x) as [tr [E [R Nd]]].
    destruct (trigger_spec fx (fuel (st s4)) (st s4) (ios s4) tr (nt s4) W4 I4) as [[n1 [E5 R5]] _]; auto.
    { intros y Hy. exists (fx y). auto. } { apply rep_krep; auto. } { apply rep_new_height; auto. } { congruence. }
    rewrite E in E5. rewrite E5. exists (with_nt s4 n1). split; auto. do 4 (split; [reflexivity|]).
    assert (Ep : filter (active (st s4) (nt s4)) (post fx tr) = []).
    { destruct tr as [x' ts]. cbn in E. subst x'. assert (Hk : kids (st s4) x = []).
      { rewrite Es4. unfold is_leaf in Hl. destruct (kind (st s) x) as [m|] eqn:Ekd; [|discriminate]. apply (wf_leaf _ (inv_st _ H) x m Ekd). }
      rewrite (krep_kids _ _ _ (rep_krep _ _ R)) in Hk. destruct ts; [|discriminate]. cbn. unfold active. rewrite Es4, Hl. rewrite andb_false_r. auto. }
    rewrite Ep in R5. exact R5. }
  pose proof O5 as (L1 & L2 & L3 & L4 & L5).
  assert (Est : st s5 = st s) by congruence. assert (Em : mem s5 = mem s1) by congruence.
  exists s5, (chain (st s) (nt s) u). split; auto. split; [eapply only_ran_inv; eauto|].
  split. { destruct C1 as [C1 C1']. split; intros; unfold value in *; rewrite Em; [rewrite (C1 y j k); auto | apply C1'; auto]. }
  split. { intros Ap. apply D1 in Ap. eapply apart_ext; [| |exact Ap]; congruence. }
  split; auto. split. { rewrite E1, E4 in F5. rewrite <- (app_nil_r (chain _ _ _)). eapply ran_app; [exact F5|]. rewrite <- G3, <- K3. exact L5. }
  split. { intros Hon. rewrite E1 in U. apply chain_settled; auto. }
  intros y q j Hy. rewrite (only_ran_has _ _ _ O5). rewrite Q4 by (rewrite G1, F1, E1; auto). rewrite Q3 by (rewrite F1, E1; auto).
  rewrite (only_ran_has _ _ _ O2). assert (Hh : has s1 y q j <-> has s y q j) by (apply has_ext; auto). rewrite Hh, G1, F1, E1.
  pose proof (sel_all (st s) x y j) as Sa. rewrite Sa. tauto.
Qed.

Definition each (k : oid -> @cmd V) (ps : list oid) : @cmd V := fold_right (fun p r => andthen (k p) r) done ps.

Lemma params_cons : forall s p ps, params s (p :: ps) -> (p < next (st s))%nat /\ is_leaf (st s) p = true /\ ~ In p ps /\ params s ps.
Proof. clear tinit. intros s p ps [Nd Hp]. inversion Nd; subst. destruct (Hp p) as [A B]; [left; auto|]. split; auto. split; auto. split; auto. split; auto. intros q Hq; apply Hp; right; auto. Qed.
Lemma params_ext : forall s s' ps, st s' = st s -> params s ps -> params s' ps.
Proof. clear tinit. intros s s' ps E [A B]. split; auto. rewrite E. auto. Qed.

Lemma each_constrain : forall n ps s, Inv s -> apart s -> params s ps ->
  exists s' l, each (constrain_below tinit n) ps s = (s', None) /\ Inv s' /\ apart s' /\ st s' = st s /\ ran (nt s) l (nt s') /\
    (on s ps -> settled (st s) l /\ forall q, over (st s) ps q -> In q l) /\
    (forall y j, (y < next (st s))%nat -> ready (st s) y -> 0 <= j < size (st s) y -> (covers (st s) ps y j -> value s' y j = option_map (tinit n) (value s y j)) /\ (~ covers (st s) ps y j -> value s' y j = value s y j)) /\
    forall y q j, (y < next (st s))%nat -> (has s' y q j <-> (has s y q j /\ ~ covers (st s) ps y j) \/ (q = Tr n /\ covers (st s) ps y j)).
Proof.
  intros n. induction ps as [|p ps IH]; intros s H Ap P.
  - exists s, []. split; auto. split; auto. split; auto. split; auto. split; [apply ran_nil|].
    assert (Nc : forall y j, ~ covers (st s) [] y j) by (intros y j (p & i & [] & _)).
    split; [intros _; split; [apply settled_nil | intros q (p & [] & _)]|]. split.
    + intros y j _ _ _. split; auto. intros Q. destruct (Nc _ _ Q).
    + intros y q j _. specialize (Nc y j). tauto.
  - pose proof (inv_st _ H) as W. apply params_cons in P as (Hp & Hl & Hn & P).
    destruct (constrain_below_ok s p n H Hp Hl) as (s1 & l1 & R1 & H1 & [C1 C2] & A1 & E1 & N1 & S1 & Q1). specialize (A1 Ap). specialize (C2 Ap).
    destruct (IH s1 H1 A1 (params_ext s s1 ps E1 P)) as (s2 & l2 & R2 & H2 & A2 & E2 & N2 & S2 & C3 & Q2).
    exists s2, (l1 ++ l2). split; [cbn [each fold_right]; rewrite (andthen_ok _ _ _ _ R1); exact R2|]. split; auto. split; auto. split; [congruence|]. split; [eapply ran_app; eauto|].
    rewrite E1 in *. split; [|split].
    + intros On. destruct S1 as [S1 S1']. { intros y Hy. apply (On p y); [left; auto | apply part_together'; auto]. }
      destruct S2 as [S2 S2']. { intros q y Hq. rewrite E1. rewrite (ran_upd _ _ _ N1). apply On. right; auto. }
      split; [apply settled_app; auto|]. intros q (p' & [<-|Hp'] & Hq & Hne); apply in_or_app; [left; auto|right]. apply S2'. exists p'. auto.
    + intros y j Hy Ry Hj. destruct (C3 y j Hy Ry Hj) as [D1 D2].
      assert (Hex : forall k, same_elem (st s) y j p k -> ~ covers (st s) ps y j).
      { intros k Se (q & i & Hq & Se'). apply Hn. assert (X : same_elem (st s) p k q i) by (eapply same_elem_trans; [auto | apply same_elem_sym; eauto | auto]).
        apply same_elem_leaf in X as [-> _]; auto. apply P; auto. }
      destruct (same_elem_dec (st s) y j p W Hj) as [[k Hk]|Hk].
      * split; [|intros Q; exfalso; apply Q; apply covers_cons; left; eauto]. intros _. rewrite (D2 (Hex k Hk)). rewrite (C1 y j k Hy Ry Hk). auto.
      * rewrite covers_cons. pose proof (C2 y j Hy Ry Hj Hk) as Ev. rewrite Ev in *. split; [intros [[k Q]|Q]; [destruct (Hk k Q) | auto] | intros Q; apply D2; tauto].
    + intros y q j Hy. rewrite Q2, Q1 by auto. rewrite covers_cons. split.
      * intros [[[[A B]|[A B]] C]|[A B]]; [left; split; auto; tauto | right; auto | right; auto].
      * intros [[A B]|[A [B|B]]]; [left; split; [left; split; [auto|tauto] | tauto] | | right; auto].
        assert (D : covers (st s) ps y j \/ ~ covers (st s) ps y j).
        { assert (Hj : 0 <= j < size (st s) y) by (destruct B as [k B]; apply B).
          clear - W Hj. unfold covers. induction ps as [|p' l IHl]; [right; intros (p & i & [] & _)|]. destruct (same_elem_dec (st s) y j p' W Hj) as [[i Hi]|Hi].
          - left. exists p', i. split; [left|]; auto.
          - destruct IHl as [(r & i & Hq & Se)|Hno]; [left; exists r, i; split; [right|]; auto|]. right. intros (r & i & [->|Hq] & Se); [exact (Hi i Se)|]. apply Hno. exists r, i. auto. }
        destruct D as [D|D]; [right; auto | left; split; auto].
Qed.
Lemma each_fix : forall ps s, Inv s -> params s ps ->
  exists s' l, each (fun p => fix_param p None) ps s = (s', None) /\ Inv s' /\ mem s' = mem s /\ st s' = st s /\ ran (nt s) l (nt s') /\
    (on s ps -> settled (st s) l /\ forall q, over (st s) ps q -> In q l) /\
    forall y q j, (y < next (st s))%nat -> (has s' y q j <-> has s y q j \/ (q = Fixed /\ covers (st s) ps y j)).
Proof. clear tinit.
  induction ps as [|p ps IH]; intros s H P.
  - exists s, []. split; auto. split; auto. split; auto. split; auto. split; [apply ran_nil|].
    split; [intros _; split; [apply settled_nil | intros q (p & [] & _)]|]. intros y q j _. split; auto. intros [A|[_ (p & i & [] & _)]]; auto.
  - apply params_cons in P as (Hp & Hl & Hn & P).
    destruct (fix_ok s p None H Hp Logic.I) as (s1 & u & R1 & H1 & E1 & M1 & U & N1 & Q1).
    destruct (IH s1 H1 (params_ext s s1 ps E1 P)) as (s2 & l2 & R2 & H2 & M2 & E2 & N2 & S2 & Q2).
    exists s2, (chain (st s) (nt s) u ++ l2). split; [cbn [each fold_right]; rewrite (andthen_ok _ _ _ _ R1); exact R2|]. split; auto. split; [congruence|]. split; [congruence|].
    split; [eapply ran_app; eauto|]. rewrite E1 in *. split.
    + intros On. destruct (chain_settled s p u H U) as [S1 S1']. { intros y Hy. apply (On p y); [left; auto | apply part_together'; auto]. }
      destruct S2 as [S2 S2']. { intros q y Hq. rewrite E1. rewrite (ran_upd _ _ _ N1). apply On. right; auto. }
      split; [apply settled_app; auto|]. intros q (p' & [<-|Hp'] & Hq & Hne); apply in_or_app; [left; auto|right]. apply S2'. exists p'. auto.
    + intros y q j Hy. rewrite Q2, Q1 by auto. rewrite covers_cons, sel_all. tauto.
Qed.
Lemma each_unfix : forall ps s, Inv s -> params s ps ->
  exists s', each (fun p => unfix_param p None) ps s = (s', None) /\ Inv s' /\ io_only s s' /\
    forall y q j, (y < next (st s))%nat -> (has s' y q j <-> has s y q j /\ ~ (q = Fixed /\ covers (st s) ps y j)).
Proof. clear tinit.
  induction ps as [|p ps IH]; intros s H P.
  - exists s. split; auto. split; auto. split; [apply io_only_refl|]. intros y q j _. split; [intros A; split; auto; intros [_ (p & i & [] & _)] | tauto].
  - apply params_cons in P as (Hp & Hl & Hn & P).
    destruct (unfix_ok s p None H Hp Logic.I) as (s1 & R1 & H1 & O1 & Q1). pose proof O1 as (E1 & _).
    destruct (IH s1 H1 (params_ext s s1 ps E1 P)) as (s2 & R2 & H2 & O2 & Q2).
    exists s2. split; [cbn [each fold_right]; rewrite (andthen_ok _ _ _ _ R1); exact R2|]. split; auto. split; [eapply io_only_trans; eauto|].
    rewrite E1 in *. intros y q j Hy. rewrite Q2, Q1 by auto. rewrite covers_cons, sel_all. tauto.
Qed.
Lemma each_unconstrain : forall ts ps s, Inv s -> params s ps ->
  exists s', each (fun p => unconstrain p None ts) ps s = (s', None) /\ Inv s' /\ io_only s s' /\
    forall y q j, (y < next (st s))%nat -> (has s' y q j <-> has s y q j /\ ~ ((ts = [] \/ In q ts) /\ covers (st s) ps y j)).
Proof. clear tinit.
  intros ts. induction ps as [|p ps IH]; intros s H P.
  - exists s. split; auto. split; auto. split; [apply io_only_refl|]. intros y q j _. split; [intros A; split; auto; intros [_ (p & i & [] & _)] | tauto].
  - apply params_cons in P as (Hp & Hl & Hn & P).
    destruct (unconstrain_ok s p None ts H Hp Logic.I) as (s1 & R1 & H1 & O1 & Q1). pose proof O1 as (E1 & _).
    destruct (IH s1 H1 (params_ext s s1 ps E1 P)) as (s2 & R2 & H2 & O2 & Q2).
    exists s2. split; [cbn [each fold_right]; rewrite (andthen_ok _ _ _ _ R1); exact R2|]. split; auto. split; [eapply io_only_trans; eauto|].
    rewrite E1 in *. intros y q j Hy. rewrite Q2, Q1 by auto. rewrite covers_cons, sel_all. tauto.
Qed.

(** ** Histories *)
Variables tf tfinv : nat -> V -> V.
Lemma cexec_ok : forall s c k c' s' e, Inv s -> one s -> apart s -> conc_of (st s) c -> (forall q, In q (cleft c) -> (q < next (st s))%nat) ->
  cexec tinit k c s = (c', s', e) -> Inv s' /\ one s' /\ apart s'.
Proof.
  intros s c k c' s' e H O Ap P Lf E.
  assert (One : forall s1 s2, Inv s2 -> one s1 -> st s2 = st s1 -> (forall y n j, (y < next (st s1))%nat -> has s2 y (Tr n) j -> has s1 y (Tr n) j) -> one s2).
  { intros s1 s2 H2 O1 E1 Hh. apply (one_ext s1); auto. rewrite E1. intros y Hy _ n j Hj. split; auto. }
  destruct k as [sel val|n| | |ts]; cbn [cexec] in E.
  - unfold conc_set in E. destruct (indicator (conc_size s c) sel) as [mask|e1] eqn:E1; [|injection E as <- <- <-; auto].
    destruct (hstacked s c) as [old|e1] eqn:E0; [|cbn [rbind] in E; injection E as <- <- <-; auto]. cbn [rbind] in E.
    assert (Hne : cparams c <> []) by (unfold hstacked in E0; destruct (cparams c); [discriminate E0 | discriminate]).
    destruct (scatter old sel val) as [vals|e1] eqn:E2; [|injection E as <- <- <-; auto].
    assert (Hsel : sel_ok s c sel).
    { unfold indicator in E1. destruct (forallb _ sel) eqn:Eb; [|discriminate]. intros k Hk. rewrite forallb_forall in Eb. apply Eb in Hk. apply andb_prop in Hk as [A B]. apply Z.leb_le in A. apply Z.ltb_lt in B. lia. }
    assert (Hfit : fits sel val).
    { unfold scatter in E2. unfold fits. destruct val as [|v [|v2 val]]; [right | left; auto | right]; destruct (Nat.eqb_spec (length (@nil V)) (length sel)) as [Q|Q]; auto; try discriminate;
      destruct (Nat.eqb_spec (length (v :: v2 :: val)) (length sel)) as [Q'|Q']; auto; discriminate. }
    destruct (set_values_conc s c sel val H Ap P Hne Hsel Hfit) as (s1 & R & H1 & A1 & S1 & I1 & _ & N1 & _).
    destruct (triggers_any (cleft c) s1 H1) as (s2 & l & R2 & O2); [rewrite S1; auto|].
    specialize (R s2 None R2). unfold conc_set in R. rewrite E1, E0 in R. cbn [rbind] in R. rewrite E2 in R. rewrite R in E. injection E as <- <- <-.
    pose proof O2 as (B1 & B2 & _ & B4 & _). split; [eapply only_ran_inv; eauto|]. split; [|apply (apart_ext s1 s2); auto].
    apply (One s); auto; [eapply only_ran_inv; eauto | congruence |]. intros y n j _ Hj. apply (has_ext s s2); auto. congruence.
  - unfold conc_constrain in E. destruct (each_constrain n (cparams c) s H Ap P) as (s1 & l1 & R1 & H1 & A1 & E1 & N1 & _ & _ & Q1).
    assert (R1' : for_params (constrain_below tinit n) c s = (s1, None)) by exact R1. rewrite (andthen_ok _ _ _ _ R1') in E.
    destruct (triggers_any (cleft c) s1 H1) as (s2 & l & R2 & O2); [rewrite E1; auto|].
    assert (R2' : update_all c s1 = (s2, None)) by exact R2. rewrite R2' in E. injection E as <- <- <-.
    pose proof O2 as (B1 & B2 & _ & B4 & _). assert (H2 : Inv s2) by (eapply only_ran_inv; eauto). split; auto. split; [|apply (apart_ext s1 s2); auto].
    apply one_leaf; auto. rewrite B1, E1. intros y Hy Hl k a b Ha Hb. apply (has_ext s1 s2) in Ha; auto. apply (has_ext s1 s2) in Hb; auto.
    apply Q1 in Ha; auto. apply Q1 in Hb; auto. destruct Ha as [[Ha Na]|[Ea Ka]]; destruct Hb as [[Hb Nb]|[Eb Kb]]; try contradiction.
    + apply (O y Hy k); auto.
    + congruence.
  - unfold conc_fix in E. destruct (each_fix (cparams c) s H P) as (s1 & l1 & R1 & H1 & M1 & E1 & _ & _ & Q1).
    assert (R1' : for_params (fun p => fix_param p None) c s = (s1, None)) by exact R1. rewrite R1' in E. injection E as <- <- <-.
    split; auto. split; [|apply (apart_ext s s1); auto]. apply (One s); auto. intros y n j Hy Hj. apply Q1 in Hj; auto. destruct Hj as [Hj|[Q _]]; [auto | discriminate].
  - unfold conc_unfix in E. destruct (each_unfix (cparams c) s H P) as (s1 & R1 & H1 & (E1 & M1 & _) & Q1).
    assert (R1' : for_params (fun p => unfix_param p None) c s = (s1, None)) by exact R1. rewrite R1' in E. injection E as <- <- <-.
    split; auto. split; [|apply (apart_ext s s1); auto]. apply (One s); auto. intros y n j Hy Hj. apply Q1 in Hj; tauto.
  - unfold conc_unconstrain in E. destruct (each_unconstrain ts (cparams c) s H P) as (s1 & R1 & H1 & (E1 & M1 & _) & Q1).
    assert (R1' : for_params (fun p => unconstrain p None ts) c s = (s1, None)) by exact R1. rewrite R1' in E. injection E as <- <- <-.
    split; auto. split; [|apply (apart_ext s s1); auto]. apply (One s); auto. intros y n j Hy Hj. apply Q1 in Hj; tauto.
Qed.
Lemma creach_ok : forall junk s, creach tinit tf tfinv junk s -> Inv s /\ one s /\ apart s.
Proof.
  intros junk s R. induction R as [|s c s' e R (H & O & A) L E|s c k c' s' e R (H & O & A) P Lf E].
  - split; [apply init_inv|]. split; [apply init_one|]. apply (reach_apart tinit tf tfinv careful junk); auto. constructor.
  - destruct (exec_ok tinit tf tfinv s c H O (proj1 L)) as (s2 & e2 & E2 & H2 & O2 & _). rewrite E in E2. injection E2 as <- <-. split; auto. split; auto. exact (exec_apart tinit tf tfinv s c s' e H O L E A).
  - eapply cexec_ok; eauto.
Qed.
Lemma reach_creach : forall junk s, reach tinit tf tfinv careful junk s -> creach tinit tf tfinv junk s.
Proof. intros junk s R. induction R; [constructor | eapply creach_call; eauto]. Qed.
End Cons.
