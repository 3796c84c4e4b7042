(** Proofs about observers of a hierarchy, part 6: who hears of a change, derived quantities over
    histories, displays, and registrations. *)
From Coq Require Import List ZArith Bool Lia Arith Sorted.
From Verif Require Import NpModel NpProofs IndexOpsModel IndexOpsSpec PzModel PzSpec PzTree PzStruct PzLink PzWalk PzMem PzIo PzInv PzConn PzFix PzLinkMem PzPres PzUnlink PzTraverse PzNotify PzNew PzCmd PzInit PzCons PzVal PzOpt PzRandom PzGet PzHist PzKeep PzOrder PzGrad PzFinal CopyModel CopySpec CopyCall CopyTree HkModel HkSpec HkProofs HkInv HkFinal HkCalls HkWatch.
Import ListNotations.
Open Scope Z_scope.

Section Main.
Context {V : Type}.
Variables tinit tf tfinv : nat -> V -> V.
Implicit Types q : @hstate V.
Notation exec := (exec tinit tf tfinv).
Notation hexec := (hexec tinit tf tfinv).

Lemma hlegal_id : forall q c, hlegal q c -> hlegal q c.
Proof. auto. Qed.
Lemma hcareful_legal : forall q c, hcareful q c -> hlegal q c.
Proof. intros q [c| |] H; auto. apply H. Qed.
Lemma hcareful_apart : forall junk q, hreach tinit tf tfinv hcareful junk q -> apart (base q).
Proof. intros junk q R. apply (reach_apart tinit tf tfinv careful junk); auto. apply (hreach_base tinit tf tfinv hcareful careful junk q); auto. Qed.
Lemma finite_le : forall q y o, (registered_finite q y o <= registered q y o)%nat.
Proof.
  intros q y o. unfold registered, registered_finite. induction (regs q y) as [|e l IH]; auto. cbn [filter]. destruct (is_reg o e); cbn [andb]; auto.
  destruct (is_finite e); cbn [length]; lia.
Qed.
Lemma exec_hexec : forall q q' c ev, hexec (Base c) q = (q', Ok ev) -> exec c (base q) = (base q', None).
Proof.
  intros q q' c ev E. cbn [HkModel.hexec] in E. destruct (exec c (base q)) as [s' [e|]]; inversion E; subst; auto.
Qed.

(** ** Who hears of a change of values *)
Definition announces q q' (x : oid) (ev : list event) : Prop :=
  (forall y o, part (st (base q)) y x \/ woken (base q') x y -> (registered_finite q y o <= times y o ev)%nat) /\
  (forall y, kind (st (base q)) y = KNode -> part (st (base q)) y x \/ woken (base q') x y -> In y (runs ev)).
Lemma trigger_announces : forall q c x, hinv q -> hlegal q (Base c) -> trigger_call (base q) x c -> in_init (st (base q)) x = false ->
  exists q' ev, hexec (Base c) q = (q', Ok ev) /\ announces q q' x ev.
Proof.
  intros q c x H L T Ii. destruct (trigger_call_ok tinit tf tfinv q c x H L T Ii) as (q' & ev & E & Tl & _ & _ & Rn). exists q', ev. split; auto. split.
  - intros y o Q. destruct (Tl y o) as (T1 & T2 & _). destruct Q as [Q|Q]; [rewrite T1 by auto; apply finite_le | rewrite T2; auto].
  - intros y K Q. apply Rn. split; auto. tauto.
Qed.
Lemma value_announced : forall q c x, hinv q -> hlegal q (Base c) -> value_call (base q) x c -> all_on (base q) x -> in_init (st (base q)) x = false ->
  exists q' ev, hexec (Base c) q = (q', Ok ev) /\ announces q q' x ev.
Proof.
  intros q c x H L Q A Ii. pose proof (inv_st _ (hi_base _ H)) as W.
  assert (Lf : forall q' y, Inv (base q') -> st (base q') = st (base q) -> is_leaf (st (base q)) x = true -> ~ woken (base q') x y).
  { intros q' y H' Es El N. apply woken_part in N as [N1 N2]; auto. apply N2. rewrite Es in N1. apply (leaf_above _ _ _ W El N1). }
  destruct Q as [x g El|x p|x draw|x sel n].
  - destruct (notify_call_ok tinit tf tfinv q (Assign x g) x H L) as (q' & ev & E & Tl & _ & _ & Rn); [constructor; auto | intros z Hz; apply A, part_together'; auto|].
    exists q', ev. split; auto.
    assert (Hq : hinv q' /\ st (base q') = st (base q)).
    { destruct L as [Hx Rx]. destruct (assign_ok (base q) x g (hi_base _ H) Hx Rx) as (s' & l & E2 & _ & _ & _ & Es & _).
      split; [pose proof (hexec_inv tinit tf tfinv q (Base (Assign x g)) H (conj Hx Rx)) as Q; rewrite E in Q; auto|].
      apply exec_hexec in E. cbn [PzSpec.exec] in E. rewrite E in E2. inversion E2; subst; auto. }
    destruct Hq as [Hq Es]. split.
    + intros y o [Q|Q]; [|exfalso; apply (Lf q' y (hi_base _ Hq) Es El Q)]. rewrite (proj1 (Tl y o)) by auto. apply finite_le.
    + intros y K [Q|Q]; [|exfalso; apply (Lf q' y (hi_base _ Hq) Es El Q)]. apply Rn. auto.
  - apply trigger_announces; auto. constructor; auto.
  - apply trigger_announces; auto. constructor; auto.
  - destruct (is_leaf (st (base q)) x) eqn:El; [|apply trigger_announces; auto; constructor; auto].
    destruct (constrain_leaf_ok tinit tf tfinv q x sel n H L El A) as (q' & ev1 & ev2 & E & T1 & T2 & _ & _ & _ & Rn). exists q', (ev1 ++ ev2). split; auto.
    assert (Hq : hinv q' /\ st (base q') = st (base q)).
    { split; [pose proof (hexec_inv tinit tf tfinv q _ H L) as Q; rewrite E in Q; auto|]. destruct L as (Hx & Ls & Rx).
      destruct (constrain_ok tinit (base q) x sel n (hi_base _ H) Hx Rx Ls) as (s' & l & E2 & _ & _ & _ & Es & _).
      apply exec_hexec in E. cbn [PzSpec.exec] in E. rewrite E in E2. inversion E2; subst; auto. }
    destruct Hq as [Hq Es]. split.
    + intros y o [Q|Q]; [|exfalso; apply (Lf q' y (hi_base _ Hq) Es eq_refl Q)]. rewrite times_app, (proj1 (T1 y o)) by auto. pose proof (finite_le q y o). lia.
    + intros y K [Q|Q]; [|exfalso; apply (Lf q' y (hi_base _ Hq) Es eq_refl Q)]. rewrite runs_app. apply in_or_app. left. apply Rn. auto.
Qed.
Lemma heard : forall q c x, hinv q -> apart (base q) -> hlegal q (Base c) -> value_call (base q) x c -> all_on (base q) x -> in_init (st (base q)) x = false ->
  exists q' ev, hexec (Base c) q = (q', Ok ev) /\
    (forall y o, (y < next (st (base q)))%nat -> ready (st (base q)) y -> ~ same_values (base q) (base q') y -> (registered_finite q y o <= times y o ev)%nat) /\
    forall y, (y < next (st (base q)))%nat -> ready (st (base q)) y -> kind (st (base q)) y = KNode -> ~ same_values (base q) (base q') y -> In y (runs ev).
Proof.
  intros q c x H A L Q On Ii. destruct (value_announced q c x H L Q On Ii) as (q' & ev & E & A1 & A2). exists q', ev. split; auto.
  assert (Hit : forall y, (y < next (st (base q)))%nat -> ready (st (base q)) y -> ~ same_values (base q) (base q') y -> part (st (base q)) y x \/ woken (base q') x y).
  { intros y Hy Ry N. destruct (value_hit tinit tf tfinv (base q) c x (base q') (hi_base _ H) (hi_one _ H) A L Q (exec_hexec _ _ _ _ E) y Hy Ry) as [P|[P|P]]; auto. contradiction. }
  split; eauto.
Qed.
Lemma heard_assign : forall q x g, hinv q -> apart (base q) -> hlegal q (Base (Assign x g)) -> all_on (base q) x -> in_init (st (base q)) x = false ->
  exists q' ev, hexec (Base (Assign x g)) q = (q', Ok ev) /\
    (forall y o, (y < next (st (base q)))%nat -> ready (st (base q)) y -> ~ fixed (base q) y -> ~ same_values (base q) (base q') y -> (registered_finite q y o <= times y o ev)%nat) /\
    forall y, (y < next (st (base q)))%nat -> ready (st (base q)) y -> kind (st (base q)) y = KNode -> ~ fixed (base q) y -> ~ same_values (base q) (base q') y -> In y (runs ev).
Proof.
  intros q x g H A L On Ii. assert (Q : exists q' ev, hexec (Base (Assign x g)) q = (q', Ok ev) /\ announces q q' x ev).
  { destruct (is_leaf (st (base q)) x) eqn:El; [apply value_announced; auto; constructor; auto | apply trigger_announces; auto; constructor; auto]. }
  destruct Q as (q' & ev & E & A1 & A2). exists q', ev. split; auto.
  assert (Hit : forall y, (y < next (st (base q)))%nat -> ready (st (base q)) y -> ~ fixed (base q) y -> ~ same_values (base q) (base q') y -> part (st (base q)) y x \/ woken (base q') x y).
  { intros y Hy Ry Nf N. destruct (assign_hit tinit tf tfinv (base q) x g (base q') (hi_base _ H) A L (exec_hexec _ _ _ _ E) y Hy Ry) as [P|[P|[P|P]]]; auto; contradiction. }
  split; eauto.
Qed.

(** ** Derived quantities *)
Lemma values_same : forall (s s' : @state V) y, size (st s') y = size (st s) y -> same_values s s' y -> values s' y = values s y.
Proof. intros s s' y Es E. unfold values. rewrite Es. apply map_ext_in. intros j Hj. apply arange_In in Hj. auto. Qed.
Lemma same_values_dec : forall (s s' : @state V) y, (forall a b : V, a = b \/ a <> b) -> same_values s s' y \/ ~ same_values s s' y.
Proof.
  intros s s' y D. assert (Q : forall l, (forall j, In j l -> value s' y j = value s y j) \/ ~ (forall j, In j l -> value s' y j = value s y j)).
  { induction l as [|j l [IH|IH]]; [left; intros ? []| |right; intros Q; apply IH; intros; apply Q; right; auto].
    assert (Dj : value s' y j = value s y j \/ value s' y j <> value s y j).
    { destruct (value s' y j) as [a|], (value s y j) as [b|]; try (right; discriminate); [|left; auto]. destruct (D a b) as [->|N]; [left; auto | right; congruence]. }
    destruct Dj as [E|E]; [left; intros k [<-|Hk]; auto | right; intros Q; apply E, Q; left; auto]. }
  destruct (Q (arange (size (st s) y))) as [E|E]; [left | right]; [intros j Hj; apply E, arange_In; auto | intros N; apply E; intros j Hj; apply N, arange_In; auto].
Qed.
Lemma call_keeps : forall q c x q' ev, hinv q -> hlegal q (Base c) -> value_call (base q) x c -> hexec (Base c) q = (q', Ok ev) -> st (base q') = st (base q).
Proof.
  intros q c x q' ev H L Q E. apply exec_hexec in E. destruct (value_effect tinit tf tfinv (base q) c x (hi_base _ H) (hi_one _ H) L Q) as (_ & s' & F & E2 & _ & Es & _).
  rewrite E in E2. injection E2 as <-. auto.
Qed.
Lemma kept_current : forall q c x stored, hinv q -> apart (base q) -> hlegal q (Base c) -> value_call (base q) x c -> all_on (base q) x -> in_init (st (base q)) x = false ->
  current q stored -> exists q' ev, hexec (Base c) q = (q', Ok ev) /\ current q' (fst (observe (values (base q')) ev stored)).
Proof.
  intros q c x stored H A L Q On Ii C. destruct (value_announced q c x H L Q On Ii) as (q' & ev & E & A1 & A2). exists q', ev. split; auto.
  pose proof (call_keeps q c x q' ev H L Q E) as Es. intros y Hy Ry K. rewrite Es in Hy, Ry, K. rewrite observe_stored.
  destruct (omem y (runs ev)) eqn:O; auto.
  destruct (value_hit tinit tf tfinv (base q) c x (base q') (hi_base _ H) (hi_one _ H) A L Q (exec_hexec _ _ _ _ E) y Hy Ry) as [P|[P|P]].
  - rewrite (proj2 (omem_In _ _)) in O; [discriminate|]. apply A2; auto.
  - rewrite (proj2 (omem_In _ _)) in O; [discriminate|]. apply A2; auto.
  - rewrite C by auto. symmetry. apply values_same; auto. rewrite Es. auto.
Qed.
Lemma kept_current_assign : forall q x g stored, hinv q -> apart (base q) -> hlegal q (Base (Assign x g)) -> all_on (base q) x -> in_init (st (base q)) x = false ->
  current q stored -> exists q' ev, hexec (Base (Assign x g)) q = (q', Ok ev) /\
  forall y, (y < next (st (base q)))%nat -> ready (st (base q)) y -> kind (st (base q)) y = KNode -> ~ fixed (base q) y -> fst (observe (values (base q')) ev stored) y = values (base q') y.
Proof.
  intros q x g stored H A L On Ii C. assert (Q : exists q' ev, hexec (Base (Assign x g)) q = (q', Ok ev) /\ announces q q' x ev).
  { destruct (is_leaf (st (base q)) x) eqn:El; [apply value_announced; auto; constructor; auto | apply trigger_announces; auto; constructor; auto]. }
  destruct Q as (q' & ev & E & A1 & A2). exists q', ev. split; auto. intros y Hy Ry K Nf.
  assert (Es : st (base q') = st (base q)).
  { destruct L as [Hx Rx]. destruct (assign_ok (base q) x g (hi_base _ H) Hx Rx) as (s' & l & E2 & _ & _ & _ & Es & _). apply exec_hexec in E. cbn [PzSpec.exec] in E. rewrite E in E2.
    injection E2 as <-. auto. }
  rewrite observe_stored. destruct (omem y (runs ev)) eqn:O; auto.
  destruct (assign_hit tinit tf tfinv (base q) x g (base q') (hi_base _ H) A L (exec_hexec _ _ _ _ E) y Hy Ry) as [P|[P|[P|P]]].
  - rewrite (proj2 (omem_In _ _)) in O; [discriminate|]. apply A2; auto.
  - rewrite (proj2 (omem_In _ _)) in O; [discriminate|]. apply A2; auto.
  - contradiction.
  - rewrite C by auto. symmetry. apply values_same; auto. rewrite Es. auto.
Qed.
Lemma hcareful_step : forall q c, hinv q -> apart (base q) -> hcareful q c -> apart (base (fst (hexec c q))).
Proof.
  intros q c H A L. destruct c as [c|x p o|x o]; auto. cbn [HkModel.hexec]. destruct (exec c (base q)) as [s' e] eqn:E. cbn [fst base].
  apply (exec_apart tinit tf tfinv (base q) c s' e (hi_base _ H) (hi_one _ H) L E A).
Qed.
Lemma settled : forall cs q stored, hinv q -> apart (base q) -> each tinit tf tfinv settling cs q -> current q stored ->
  current (fst (fst (watch tinit tf tfinv cs q stored))) (snd (fst (watch tinit tf tfinv cs q stored))).
Proof.
  induction cs as [|c cs IH]; intros q stored H A Ea C; auto. cbn [each] in Ea. destruct Ea as [[Cf S1] Ea]. pose proof (hcareful_legal _ _ Cf) as L.
  pose proof (hexec_inv tinit tf tfinv q c H L) as H'. pose proof (hcareful_step q c H A Cf) as A'.
  assert (Q : exists q' ev, hexec c q = (q', Ok ev) /\ current q' (fst (observe (values (base q')) ev stored))).
  { destruct c as [c|x p o|x o].
    - destruct S1 as (x & Q & On & Ii). apply (kept_current q c x stored); auto.
    - eexists _, []. split; [reflexivity|]. exact C.
    - eexists _, []. split; [reflexivity|]. exact C. }
  destruct Q as (q' & ev & E & C'). cbn [watch]. rewrite E in *. cbn [fst] in *. destruct (observe (values (base q')) ev stored) as [stored' l] eqn:Eo. cbn [fst] in C'.
  specialize (IH q' stored' H' A' Ea C'). destruct (watch tinit tf tfinv cs q' stored') as [[q2 stored2] l2]. auto.
Qed.

(** ** Displays *)
Lemma display : forall (early : bool) ps q x o stored, hinv q -> (x < next (st (base q)))%nat -> ready (st (base q)) x -> kind (st (base q)) x = KNode -> in_init (st (base q)) x = false ->
  all_on (base q) x -> registered q x o = 1%nat -> at_prio q x o (if early then above_own else below_own) ->
  readings x o (snd (watch tinit tf tfinv (map (fun p => Base (SetOptimizer x p)) ps) q stored)) =
    let now := map (fun q' => values (base q') x) (afters tinit tf tfinv (map (fun p => Base (SetOptimizer x p)) ps) q) in
    if early then removelast (stored x :: now) else now.
Proof.
  intros early ps. induction ps as [|p ps IH]; intros q x o stored H Hx Rx K Ii On Rg Pr; [destruct early; auto|].
  cbn [map watch afters]. cbv zeta in IH. cbv zeta.
  assert (L : hlegal q (Base (SetOptimizer x p))) by (split; auto).
  destruct (trigger_exec tinit tf tfinv (base q) (SetOptimizer x p) x (hi_base _ H) (hi_one _ H) L (tc_opt _ _ _ On)) as (_ & s' & l & E & H' & Es & _ & _ & On').
  destruct (hexec_calls tinit tf tfinv q _ s' H L E H' Es Logic.I) as (q1 & Eq & Eb & Hq & Er). subst s'.
  destruct (trigger_call_ok tinit tf tfinv q (SetOptimizer x p) x H L (tc_opt _ _ _ On) Ii) as (q' & ev & E' & Tl & Od & _ & Rn).
  rewrite Eq in E'. assert (q' = q1) by congruence. subst q'. assert (Ec : calls (SetOptimizer x p) (base q) (base q1) (regs q1) = Ok ev) by congruence.
  rewrite Eq, Ec. cbn [fst]. clear E' Ec Eq. destruct (observe (values (base q1)) ev stored) as [stored' lr] eqn:Eo.
  specialize (IH q1 x o stored' Hq). rewrite Es in IH. specialize (IH Hx Rx K Ii On').
  assert (Rg' : registered q1 x o = 1%nat) by (unfold registered; rewrite Er by auto; auto).
  assert (Pr' : at_prio q1 x o (if early then above_own else below_own)) by (unfold at_prio; rewrite Er by auto; auto).
  specialize (IH Rg' Pr'). destruct (watch tinit tf tfinv (map (fun p0 => Base (SetOptimizer x p0)) ps) q1 stored') as [[q2 stored2] l2] eqn:Ew. cbn [snd] in *.
  rewrite readings_app, IH. assert (Tm : times x o ev = 1%nat) by (rewrite (proj1 (Tl x o)) by apply above_refl; auto).
  assert (Rr : In x (runs ev)) by (apply Rn; split; auto; right; apply above_refl).
  assert (Er1 : readings x o lr = [if early then stored x else values (base q1) x]).
  { replace lr with (snd (observe (values (base q1)) ev stored)) by (rewrite Eo; auto). destruct early.
    - rewrite read_before by (apply (od_before _ _ Od); auto). rewrite Tm. auto.
    - rewrite read_after; [rewrite Tm; auto | apply (od_after _ _ Od); auto | apply (@in_runs V); auto]. }
  assert (Es1 : stored' x = values (base q1) x).
  { replace stored' with (fst (observe (values (base q1)) ev stored)) by (rewrite Eo; auto). rewrite observe_stored, (proj2 (omem_In _ _) Rr). auto. }
  rewrite Er1. destruct early; auto. rewrite Es1. auto.
Qed.

(** ** Registrations *)
Lemma users_app : forall l l' : list reg, flat_map (fun e : reg => match snd e with User o => [(fst e, o)] | _ => [] end) (l ++ l') =
  flat_map (fun e : reg => match snd e with User o => [(fst e, o)] | _ => [] end) l ++ flat_map (fun e : reg => match snd e with User o => [(fst e, o)] | _ => [] end) l'.
Proof. intros. apply flat_map_app. Qed.
Lemma users_fold : forall ps (l : list reg), flat_map (fun e : reg => match snd e with User o => [(fst e, o)] | _ => [] end)
   (fold_left (fun l0 r => if existsb (fun e : reg => match snd e with Up z => Nat.eqb z r | _ => false end) l0 then l0 else insert (NegInf, Up r) l0) ps l) =
  flat_map (fun e : reg => match snd e with User o => [(fst e, o)] | _ => [] end) l.
Proof.
  induction ps as [|p ps IH]; intros l; auto. cbn [fold_left]. rewrite IH. destruct (existsb _ l); auto. rewrite insert_bottom, users_app. cbn. apply app_nil_r.
Qed.
Lemma users_filter : forall f (l : list reg), (forall p o, f (p, User o) = true) ->
  flat_map (fun e : reg => match snd e with User o => [(fst e, o)] | _ => [] end) (filter f l) = flat_map (fun e : reg => match snd e with User o => [(fst e, o)] | _ => [] end) l.
Proof.
  intros f l Hf. induction l as [|[p [|z|o]] l IH]; auto; cbn [filter].
  - destruct (f (p, Own)); cbn [flat_map snd app]; auto.
  - destruct (f (p, Up z)); cbn [flat_map snd app]; auto.
  - rewrite Hf. cbn [flat_map snd app]. f_equal. auto.
Qed.
Lemma users_kept : forall q c y, users (fst (hexec (Base c) q)) y = if Nat.ltb y (next (st (base q))) then users q y else [].
Proof.
  intros q c y. cbn [HkModel.hexec]. destruct (exec c (base q)) as [s' e]. cbn [fst]. unfold users. cbn [regs]. unfold sync. rewrite users_fold, users_filter by auto.
  destruct (Nat.ltb y (next (st (base q)))); auto. destruct (is_leaf (st s') y); auto.
Qed.
Lemma users_insert : forall p o (l : list reg), desc l -> exists a b,
  flat_map (fun e : reg => match snd e with User o => [(fst e, o)] | _ => [] end) l = a ++ b /\
  flat_map (fun e : reg => match snd e with User o => [(fst e, o)] | _ => [] end) (insert (p, User o) l) = a ++ (p, o) :: b /\
  (forall e, In e a -> ~ higher p (fst e)) /\ (forall e, In e b -> higher p (fst e)).
Proof.
  intros p o l D. induction D as [|a l D IH F]; cbn [insert].
  - exists [], []. cbn. split; auto. split; auto. split; intros ? [].
  - destruct (pgtb (fst (p, User o)) (fst a)) eqn:G.
    + exists [], (flat_map (fun e : reg => match snd e with User o => [(fst e, o)] | _ => [] end) (a :: l)). split; auto. split; auto. split; [intros ? []|].
      apply higher_gtb in G. cbn [fst] in G. intros e He. apply in_flat_map in He as (e' & He' & Q). assert (fst e = fst e') as -> by (destruct e' as [? []]; cbn in Q; destruct Q as [<-|[]] || destruct Q; auto).
      destruct He' as [<-|He']; auto. rewrite Forall_forall in F. specialize (F e' He'). destruct p as [|pz], (fst a) as [|az], (fst e') as [|ez]; cbn in *; auto; try lia; try tauto.
    + destruct IH as (a' & b' & E1 & E2 & Ha & Hb). exists ((match snd a with User o => [(fst a, o)] | _ => [] end) ++ a'), b'. cbn [flat_map]. rewrite E1, E2, !app_assoc. split; auto. split; auto. split; auto.
      intros e He. apply in_app_or in He as [He|He]; auto. assert (fst e = fst a) as -> by (destruct a as [? []]; cbn in He; destruct He as [<-|[]] || destruct He; auto).
      intros Q. apply higher_gtb in Q. cbn [fst] in G. rewrite Q in G. discriminate.
Qed.
Lemma users_withdraw : forall o (l : list reg), flat_map (fun e : reg => match snd e with User o => [(fst e, o)] | _ => [] end) (withdraw o l) =
  filter (fun e => negb (Nat.eqb (snd e) o)) (flat_map (fun e : reg => match snd e with User o => [(fst e, o)] | _ => [] end) l).
Proof.
  intros o l. unfold withdraw. induction l as [|[p [|z|r]] l IH]; auto; cbn [filter flat_map snd app]; auto.
  destruct (negb (r =? o)%nat); cbn [flat_map snd app]; rewrite IH; auto.
Qed.
End Main.
