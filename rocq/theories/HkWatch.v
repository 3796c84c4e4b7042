(** Proofs about observers of a hierarchy, part 5: the calls, values and derived quantities. *)
From Coq Require Import List ZArith Bool Lia Arith Sorted.
From Verif Require Import NpModel NpProofs IndexOpsModel IndexOpsSpec PzModel PzSpec PzTree PzStruct PzLink PzWalk PzMem PzIo PzInv PzConn PzFix PzLinkMem PzPres PzUnlink PzTraverse PzNotify PzNew PzCmd PzInit PzCons PzVal PzOpt PzRandom PzGet PzHist PzKeep PzOrder PzGrad PzFinal CopyModel CopySpec CopyCall CopyTree HkModel HkSpec HkProofs HkInv HkFinal HkCalls.
Import ListNotations.
Open Scope Z_scope.

Section Watch.
Context {V : Type}.
Variables tinit tf tfinv : nat -> V -> V.
Implicit Types q : @hstate V.
Notation exec := (exec tinit tf tfinv).
Notation hexec := (hexec tinit tf tfinv).

(** ** What the calls do to the hierarchy *)
Lemma leaf_in_init : forall (s : @state V) x, Inv s -> is_leaf (st s) x = true -> in_init (st s) x = false.
Proof. intros s x H. apply (ii_leaf _ (inv_init _ H)). Qed.
Lemma on_ext : forall (s s' : @state V) x, st s' = st s -> (forall y, together (st s) x y -> updates (nt s') y = updates (nt s) y) -> all_on s x -> all_on s' x.
Proof. intros s s' x Es Eu A y Hy. rewrite Es in Hy. rewrite Eu by auto. auto. Qed.
Lemma trigger_exec : forall (s : @state V) c x, Inv s -> one s -> legal s c -> trigger_call s x c ->
  (x < next (st s))%nat /\ exists s' l, exec c s = (s', None) /\ Inv s' /\ st s' = st s /\ trace (nt s') = rev l ++ trace (nt s) /\ triggered (st s) (ios s') (nt s') x l /\ all_on s' x.
Proof.
  intros s c x H O L T. destruct T as [x g El A|x p A|x A|x draw A|x sel n El A|x]; cbn [legal PzSpec.exec] in *.
  - destruct L as [Hx Rx]. split; auto. destruct (assign_ok s x g H Hx Rx) as (s' & l & R & H' & _ & _ & Es & Ei & _ & Rn & Tr). rewrite El in Tr.
    exists s', l. split; auto. split; auto. split; auto. split; [apply Rn|]. split.
    + rewrite Ei. eapply triggered_ext; [|exact Tr]. apply (ran_upd _ _ _ Rn).
    + apply (on_ext s); auto. intros. rewrite (ran_upd _ _ _ Rn). auto.
  - destruct L as [Hx Rx]. split; auto. destruct (free_exists s x H Hx) as [ks Hks].
    destruct (set_opt_ok tf s x p ks H Hx Rx (O x Hx) Hks) as (s' & l & F & R & H' & _ & _ & _ & Es & Ei & _ & Rn & Tr).
    exists s', l. split; auto. split; auto. split; auto. split; [apply Rn|]. split.
    + rewrite Ei. eapply triggered_ext; [|exact Tr]. apply (ran_upd _ _ _ Rn).
    + apply (on_ext s); auto. intros. rewrite (ran_upd _ _ _ Rn). auto.
  - split; auto. destruct (trigger_full s x H L) as (s' & l & R & Or & Tr). pose proof Or as (Es & Ei & _ & _ & Rn). exists s', l. split; auto.
    split; [eapply only_ran_inv; eauto|]. split; auto. split; [apply Rn|]. split.
    + rewrite Ei. eapply triggered_ext; [|exact Tr]. apply (ran_upd _ _ _ Rn).
    + apply (on_ext s); auto. intros. rewrite (ran_upd _ _ _ Rn). auto.
  - destruct L as [Hx Rx]. split; auto. destruct (free_exists s x H Hx) as [ks Hks].
    destruct (randomize_ok tf s x draw ks H Hx Rx (O x Hx) Hks) as (s' & l & F & R & H' & _ & _ & _ & Es & Ei & _ & U & _ & Rn & Tr & _).
    exists s', l. split; auto. split; auto. split; auto. split; auto. split; [rewrite Ei; auto|].
    intros y Hy. rewrite Es in Hy. rewrite U by auto. apply A. apply part_together, above_refl.
  - destruct L as (Hx & Ls & Rx). split; auto. destruct (constrain_ok tinit s x sel n H Hx Rx Ls) as (s' & l & R & H' & _ & _ & Es & Rn & (u & l5 & Hu & Tr & El5) & _).
    rewrite El in El5. cbn [app] in El5. subst l5. exists s', l. split; auto. split; auto. split; auto. split; [apply Rn|]. split.
    + eapply triggered_ext; [|exact Tr]. apply (ran_upd _ _ _ Rn).
    + apply (on_ext s); auto. intros. rewrite (ran_upd _ _ _ Rn). auto.
  - split; auto. destruct (update_model_ok s x true H L) as (s' & l & r & R & H' & Ar & Pr & Es & Ei & _ & _ & U & Ul & _ & n1 & l' & _ & Nr & Rn & Tr).
    exists s', l'. split; auto. split; auto. split; auto. split; [destruct Rn as (_ & -> & _); destruct Nr as (_ & _ & _ & _ & Nr); cbn in Nr; rewrite Nr; auto|].
    split; [rewrite Ei; auto|]. intros y Hy. rewrite Es in Hy. rewrite U. rewrite (proj2 (omem_In _ _)); auto. apply Ul. apply (together_top s x y r); auto. split; auto.
Qed.
Lemma notify_exec : forall (s : @state V) c x, Inv s -> legal s c -> notify_call s x c -> awake s x ->
  (x < next (st s))%nat /\ exists s' u, exec c s = (s', None) /\ Inv s' /\ st s' = st s /\ up (st s) x u /\ trace (nt s') = rev (chain (st s) (nt s) u) ++ trace (nt s) /\ updates (nt s') = updates (nt s).
Proof.
  intros s c x H L N A. destruct N as [x g El|x sel]; cbn [legal PzSpec.exec] in *.
  - destruct L as [Hx Rx]. split; auto. destruct (assign_ok s x g H Hx Rx) as (s' & l & R & H' & _ & _ & Es & Ei & _ & Rn & Tr). rewrite El in Tr. destruct Tr as (u & Hu & ->).
    exists s', u. split; auto. split; auto. split; auto. split; auto. split; [apply Rn | apply (ran_upd _ _ _ Rn)].
  - destruct L as [Hx Ls]. split; auto. destruct (fix_ok s x sel H Hx Ls) as (s' & u & R & H' & Es & _ & Hu & Rn & _).
    exists s', u. split; auto. split; auto. split; auto. split; auto. split; [apply Rn | apply (ran_upd _ _ _ Rn)].
Qed.

(** ** What they announce *)
Lemma hexec_calls : forall q c s', hinv q -> hlegal q (Base c) -> exec c (base q) = (s', None) -> Inv s' -> st s' = st (base q) ->
  match c with Link _ _ _ => False | _ => True end ->
  exists q', hexec (Base c) q = (q', calls c (base q) s' (regs q')) /\ base q' = s' /\ hinv q' /\ forall y, (y < next (st (base q)))%nat -> regs q' y = regs q y.
Proof.
  intros q c s' H L E H' Es Hc. destruct (hexec_quiet tinit tf tfinv q c s' H E H' Es Hc) as (r & R & Er). exists (mkH s' r). split; auto. split; auto. split; auto.
  pose proof (hexec_inv tinit tf tfinv q (Base c) H L) as Q. rewrite R in Q. auto.
Qed.
Lemma bottom_up_ext : forall (s s' : @state V) l, Inv s' -> st s' = st s -> trace (nt s') = rev l ++ trace (nt s) -> NoDup l ->
  (forall a b, In a l -> In b l -> part (st s') b a -> a <> b -> before l a b) -> bottom_up s s' l.
Proof. intros s s' l H Es Et Nd Q. split; auto. split; auto. rewrite <- Es. auto. Qed.

Lemma trigger_call_ok : forall q c x, hinv q -> hlegal q (Base c) -> trigger_call (base q) x c -> in_init (st (base q)) x = false ->
  exists q' ev, hexec (Base c) q = (q', Ok ev) /\ told q q' x ev /\ ordered q ev /\ bottom_up (base q) (base q') (runs ev) /\
    (forall y, In y (runs ev) <-> kind (st (base q)) y = KNode /\ (woken (base q') x y \/ part (st (base q)) y x)).
Proof.
  intros q c x H L T Ii. destruct (trigger_exec (base q) c x (hi_base _ H) (hi_one _ H) L T) as (Hx & s' & l & E & H' & Es & Et & Tr & A).
  destruct (hexec_calls q c s' H L E H' Es) as (q' & Eq & Eb & Hq & Er); [destruct T; auto|]. subst s'.
  destruct (triggered_round q q' x H Hq Hx Es Ii Er A) as (ev & Eh & Tl & Od & Tr').
  assert (l = runs ev) by (eapply triggered_fun; eauto; apply (inv_st _ (hi_base _ H))). subst l.
  exists q', ev. split.
  - rewrite Eq. f_equal. destruct T as [x g El _|x p _|x _|x draw _|x sel n El _|x]; cbn [calls]; auto; rewrite Es, El; rewrite Es in Eh; auto.
    cbn [rbind]. rewrite Eh. auto.
  - split; auto. split; auto.
    destruct (triggered_order (base q') (nt (base q')) x (runs ev)) as (Nd & Hr & Or); auto.
    + rewrite Es; auto. + rewrite Es; auto. + rewrite Es; auto.
    + split; [apply bottom_up_ext; auto|]. intros y. rewrite Hr, Es. tauto.
Qed.
Lemma notify_call_ok : forall q c x, hinv q -> hlegal q (Base c) -> notify_call (base q) x c -> awake (base q) x ->
  exists q' ev, hexec (Base c) q = (q', Ok ev) /\ told_above q x ev /\ ordered q ev /\ bottom_up (base q) (base q') (runs ev) /\
    forall y, In y (runs ev) <-> kind (st (base q)) y = KNode /\ part (st (base q)) y x.
Proof.
  intros q c x H L N A. destruct (notify_exec (base q) c x (hi_base _ H) L N A) as (Hx & s' & u & E & H' & Es & Hu & Et & Eu).
  destruct (hexec_calls q c s' H L E H' Es) as (q' & Eq & Eb & Hq & Er); [destruct N; auto|]. subst s'.
  assert (A' : awake (base q') x) by (intros z Hz; rewrite Eu; apply A; rewrite <- Es; auto).
  destruct (notified q q' x H Hq Hx Es Er A') as (ev & u' & Eh & Hu' & Tl & Od & Rn). rewrite <- (up_fun _ _ _ _ Hu Hu') in *.
  exists q', ev. split.
  - rewrite Eq. f_equal. destruct N as [x g El|x sel]; cbn [calls]; auto. rewrite Es, El. rewrite Es in Eh. auto.
  - split; auto. split; auto. destruct (chain_order (base q') (nt (base q')) x u H') as (Nd & Hr & Or); auto; [rewrite Es; auto|].
    rewrite <- Es in Rn. rewrite Rn. split; [apply bottom_up_ext; auto; rewrite Et, Es; rewrite (chain_ext _ _ _ _ Eu); auto|]. intros y. rewrite Hr, Es. tauto.
Qed.
Lemma times_app : forall y o a b, times y o (a ++ b) = (times y o a + times y o b)%nat.
Proof. intros. unfold times. rewrite filter_app, app_length. auto. Qed.
Lemma runs_app : forall a b, runs (a ++ b) = runs a ++ runs b.
Proof. induction a as [|[x|x o] a IH]; intros b; cbn [app runs]; auto. rewrite IH. auto. Qed.
(** Constraining a Param. *)
Lemma told_leaf : forall q q' x ev, Inv (base q') -> is_leaf (st (base q')) x = true -> told q q' x ev -> told_above q x ev.
Proof.
  intros q q' x ev H El T y o. destruct (T y o) as (T1 & _ & T3). split; auto. intros P. apply T3; auto. intros Q.
  apply woken_part in Q as [Q1 Q2]; auto. apply Q2. apply (leaf_above _ _ _ (inv_st _ H) El Q1).
Qed.
Lemma constrain_leaf_ok : forall q x sel n, hinv q -> hlegal q (Base (Constrain x sel n)) -> is_leaf (st (base q)) x = true -> all_on (base q) x ->
  exists q' ev1 ev2, hexec (Base (Constrain x sel n)) q = (q', Ok (ev1 ++ ev2)) /\ told_above q x ev1 /\ told_above q x ev2 /\ ordered q ev1 /\ ordered q ev2 /\
    trace (nt (base q')) = rev (runs (ev1 ++ ev2)) ++ trace (nt (base q)) /\
    forall y, In y (runs ev1) <-> kind (st (base q)) y = KNode /\ part (st (base q)) y x.
Proof.
  intros q x sel n H (Hx & Ls & Rx) El A. destruct (constrain_ok tinit (base q) x sel n (hi_base _ H) Hx Rx Ls) as (s' & l & E & H' & _ & _ & Es & Rn & (u & l5 & Hu & Tr & El5) & _).
  rewrite El in El5. destruct (hexec_calls q (Constrain x sel n) s' H (conj Hx (conj Ls Rx)) E H' Es Logic.I) as (q' & Eq & Eb & Hq & Er). subst s'.
  assert (A2 : all_on (base q') x) by (apply (on_ext (base q)); auto; intros; rewrite (ran_upd _ _ _ Rn); auto).
  assert (A1 : awake (base q') x) by (intros z Hz; apply A2, part_together'; auto).
  destruct (notified q q' x H Hq Hx Es Er A1) as (ev1 & u' & Eh1 & Hu' & Tl1 & Od1 & Rn1). rewrite <- (up_fun _ _ _ _ Hu Hu') in *.
  destruct (triggered_round q q' x H Hq Hx Es (leaf_in_init _ _ (hi_base _ H) El) Er A2) as (ev2 & Eh2 & Tl2 & Od2 & Tr2).
  exists q', ev1, ev2. split; [|split; [auto|split; [|split; [auto|split; [auto|split]]]]].
  - rewrite Eq. f_equal. cbn [calls]. rewrite Es, El. rewrite <- Es, Eh1. cbn [rbind]. rewrite Eh2. auto.
  - apply (told_leaf q q'); auto. rewrite Es. auto.
  - rewrite runs_app. assert (l5 = runs ev2) as ->.
    { eapply triggered_fun; [apply (inv_st _ (hi_base _ H))|exact Hx| |exact Tr2]. eapply triggered_ext; [|exact Tr]. apply (ran_upd _ _ _ Rn). }
    rewrite Rn1, (chain_ext _ _ _ _ (ran_upd _ _ _ Rn)), <- El5. apply Rn.
  - destruct (chain_order (base q') (nt (base q')) x u H') as (Nd & Hr & Or); auto; [rewrite Es; auto|]. rewrite Es in Hr. intros y. rewrite Rn1, Hr. tauto.
Qed.

(** ** Values *)
Lemma elem_comparable : forall t y j x k, swf t -> same_elem t y j x k -> part t x y \/ part t y x.
Proof.
  intros t y j x k W Se. pose proof Se as (Hj & Hk & _).
  destruct (cover_elem t y j W Hj) as (z & i & Lz & Az & Sz). destruct (cover_elem t x k W Hk) as (z' & i' & Lz' & Az' & Sz').
  assert (Q : same_elem t z i z' i'). { eapply same_elem_trans; [auto|exact Sz|]. eapply same_elem_trans; [auto|exact Se|]. apply same_elem_sym. auto. }
  apply same_elem_leaf in Q as [<- <-]; auto. destruct Az as (o1 & n1 & B1). destruct Az' as (o2 & n2 & B2).
  destruct (le_ge_dec n1 n2) as [L|L].
  - destruct (below_comparable _ _ _ _ _ _ _ _ W B1 B2 L) as (k' & B & _). left. eexists; eauto.
  - destruct (below_comparable _ _ _ _ _ _ _ _ W B2 B1 L) as (k' & B & _). right. eexists; eauto.
Qed.
Lemma part_elem : forall t x y j, swf t -> part t x y -> 0 <= j < size t y -> exists k, same_elem t y j x k.
Proof. intros t x y j W (o & n & B) Hj. exists (j + o). eapply below_elem; eauto. Qed.
Lemma fixed_down : forall (s : @state V) x y, Inv s -> (x < next (st s))%nat -> part (st s) x y -> fixed s x -> fixed s y.
Proof.
  intros s x y H Hx P F j Hj. destruct (part_elem _ _ _ j (inv_st _ H) P Hj) as [k Se]. apply (same_has s x k y j Fixed H Hx Se). apply F. apply Se.
Qed.
Lemma fixed_dec : forall (s : @state V) y, Inv s -> (y < next (st s))%nat -> fixed s y \/ ~ fixed s y.
Proof.
  intros s y H Hy. destruct (fixed_fun (st s) (ios s) (inv_st _ H) (inv_io _ H)) as [fx [_ F2]]. specialize (F2 y Hy).
  change (all_fixed (st s) (ios s) y) with (fixed s y) in F2. destruct (fx y); [left; apply F2; auto | right; intros Q; apply F2 in Q; discriminate].
Qed.
Lemma woken_or_fixed : forall (s : @state V) x y, Inv s -> (x < next (st s))%nat -> part (st s) x y -> x <> y -> woken s x y \/ fixed s y.
Proof.
  intros s x y H Hx (o & n & B). revert y o B. induction n as [|n IH]; intros y o B Hne; apply below_last in B as [(-> & _)|(p & i & o' & n' & Bp & Hk & _ & En)]; try congruence.
  injection En as <-. assert (Ky : In y (kids (st s) p)) by (eapply nth_error_In; eauto).
  assert (Lp : (p < next (st s))%nat) by (apply (above_lt' s x p H Hx); eexists; eauto).
  assert (Py : part (st s) p y) by (eexists; eexists; eapply below_one; eauto).
  destruct (fixed_dec s y H) as [F|F]; [apply (above_lt' s p y H Lp Py)| |]; auto. left. destruct (Nat.eq_dec x p) as [->|Hp]; [apply woken_kid; auto|].
  destruct (IH p o' Bp Hp) as [Q|Q]; [eapply woken_deep; eauto|]. exfalso. apply F. apply (fixed_down s p); auto.
Qed.
(** What a call that sets values of [x] leaves alone. *)
Lemma value_effect : forall (s : @state V) c x, Inv s -> one s -> legal s c -> value_call s x c -> (x < next (st s))%nat /\
  exists s' F, exec c s = (s', None) /\ Inv s' /\ st s' = st s /\ changed s s' x F /\
    forall y, part (st s) x y -> x <> y -> fixed s' y -> forall j k v, same_elem (st s) y j x k -> F k v = v.
Proof.
  intros s c x H O L Q. destruct Q as [x g El|x p|x draw|x sel n]; cbn [legal PzSpec.exec] in *.
  - destruct L as [Hx Rx]. split; auto. destruct (assign_ok s x g H Hx Rx) as (s' & l & R & H' & C & _ & Es & _). exists s', g. split; auto. split; auto. split; auto. split; auto.
    intros y P Hne. exfalso. apply Hne. apply (leaf_above _ _ _ (inv_st _ H) El P).
  - destruct L as [Hx Rx]. split; auto. destruct (free_exists s x H Hx) as [ks Hks].
    destruct (set_opt_ok tf s x p ks H Hx Rx (O x Hx) Hks) as (s' & l & F & R & H' & C & [Se _] & _ & Es & Ei & _). exists s', F. split; auto. split; auto. split; auto. split; auto.
    intros y P Hne Fy j k v E. apply Se. apply (same_has s x k y j Fixed H Hx E). apply (has_ext s s'); auto. apply Fy. rewrite Es. apply E.
  - destruct L as [Hx Rx]. split; auto. destruct (free_exists s x H Hx) as [ks Hks].
    destruct (randomize_ok tf s x draw ks H Hx Rx (O x Hx) Hks) as (s' & l & F & R & H' & C & [Se _] & _ & Es & Ei & _). exists s', F. split; auto. split; auto. split; auto. split; auto.
    intros y P Hne Fy j k v E. apply Se. apply (same_has s x k y j Fixed H Hx E). apply (has_ext s s'); auto. apply Fy. rewrite Es. apply E.
  - destruct L as (Hx & Ls & Rx). split; auto. destruct (constrain_ok tinit s x sel n H Hx Rx Ls) as (s' & l & R & H' & C & _ & Es & _ & _ & Hh). eexists s', _. split; [exact R|]. split; auto. split; auto. split; [exact C|].
    intros y P Hne Fy j k v E. exfalso. destruct sel as [l0|].
    + destruct Ls as [El _]. apply Hne. apply (leaf_above _ _ _ (inv_st _ H) El P).
    + assert (Hj : 0 <= j < size (st s') y) by (rewrite Es; apply E). apply Fy in Hj. apply Hh in Hj; [|apply (above_lt' s x y H Hx P)].
      destruct Hj as [[_ N]|[N _]]; [|discriminate]. apply N. exists k. split; auto. apply E.
Qed.
Lemma value_hit : forall (s : @state V) c x s', Inv s -> one s -> apart s -> legal s c -> value_call s x c -> exec c s = (s', None) ->
  forall y, (y < next (st s))%nat -> ready (st s) y -> part (st s) y x \/ woken s' x y \/ same_values s s' y.
Proof.
  intros s c x s' H O A L Q E y Hy Ry. destruct (value_effect s c x H O L Q) as (Hx & s2 & F & E2 & H' & Es & [C1 C2] & Fx). rewrite E in E2. injection E2 as <-.
  destruct (above_dec (st s) y x (inv_st _ H)) as [P|P]; [left; auto|].
  destruct (above_dec (st s) x y (inv_st _ H)) as [P'|P'].
  - assert (Hne : x <> y) by (intros <-; auto). right. destruct (woken_or_fixed s' x y H') as [W|W]; try rewrite Es; auto. right. intros j Hj.
    destruct (part_elem _ _ _ j (inv_st _ H) P' Hj) as [k Se]. rewrite (C1 y j k Hy Ry Se). destruct (value s y j) as [v|]; auto. cbn. f_equal. apply (Fx y P' Hne W j k v Se).
  - right. right. intros j Hj. apply C2; auto. intros k Se. destruct (elem_comparable _ _ _ _ _ (inv_st _ H) Se); auto.
Qed.
(** Writing to a Parameterized also changes what is fixed. *)
Lemma assign_hit : forall (s : @state V) x g s', Inv s -> apart s -> legal s (Assign x g) -> exec (Assign x g) s = (s', None) ->
  forall y, (y < next (st s))%nat -> ready (st s) y -> part (st s) y x \/ woken s' x y \/ fixed s y \/ same_values s s' y.
Proof.
  intros s x g s' H A [Hx Rx] E y Hy Ry. destruct (assign_ok s x g H Hx Rx) as (s2 & l & E2 & H' & [C1 C2] & _ & Es & Ei & _). cbn [PzSpec.exec] in E. rewrite E in E2. injection E2 as <-.
  destruct (above_dec (st s) y x (inv_st _ H)) as [P|P]; [left; auto|].
  destruct (above_dec (st s) x y (inv_st _ H)) as [P'|P'].
  - assert (Hne : x <> y) by (intros <-; auto). right. destruct (woken_or_fixed s' x y H') as [W|W]; try rewrite Es; auto. right. left. intros j Hj. rewrite <- Es in Hj.
    apply (has_ext s s'); auto.
  - right. right. right. intros j Hj. apply C2; auto. intros k Se. destruct (elem_comparable _ _ _ _ _ (inv_st _ H) Se); auto.
Qed.

(** ** Derived quantities *)
Lemma in_runs : forall y ev, In y (runs ev) <-> In (Ran y) ev.
Proof.
  intros y ev. induction ev as [|[x|x o] ev IH]; cbn [runs In]; [tauto| |]; rewrite IH.
  - split; (intros [Q|Q]; [left; congruence | right; auto]).
  - split; intros Q; auto. destruct Q as [Q|Q]; [discriminate | auto].
Qed.
Lemma observe_stored : forall (now stored : oid -> list (option V)) ev y, fst (observe now ev stored) y = if omem y (runs ev) then now y else stored y.
Proof.
  intros now stored ev. revert stored. induction ev as [|[x|x o] ev IH]; intros stored y; cbn [observe runs]; auto.
  - rewrite IH. cbn [omem existsb]. destruct (Nat.eqb_spec y x) as [->|Hne].
    + cbn. destruct (omem x (runs ev)); auto.
    + auto.
  - specialize (IH stored y). destruct (observe now ev stored). auto.
Qed.
Lemma readings_app : forall x o (a b : list (@report V)), readings x o (a ++ b) = readings x o a ++ readings x o b.
Proof. intros. unfold readings. rewrite filter_app, map_app. auto. Qed.
Lemma readings_cons : forall x o z p v (l : list (@report V)), readings x o ((z, p, v) :: l) = (if Nat.eqb z x && Nat.eqb p o then [v] else []) ++ readings x o l.
Proof. intros. unfold readings. cbn [filter fst snd]. destruct (_ && _); auto. Qed.
Lemma times_cons : forall x o e ev, times x o (e :: ev) = ((if is_heard x o e then 1 else 0) + times x o ev)%nat.
Proof. intros. unfold times. cbn [filter]. destruct (is_heard x o e); auto. Qed.
Lemma precedes_tl : forall ev e a b, precedes (e :: ev) a b -> precedes ev a b.
Proof. intros ev e a b H l1 l2 E. apply (H (e :: l1) l2). rewrite E. auto. Qed.
Lemma observe_cons : forall (now stored : oid -> list (option V)) x o ev, snd (observe now (Heard x o :: ev) stored) = (x, o, stored x) :: snd (observe now ev stored).
Proof. intros. cbn [observe]. destruct (observe now ev stored). auto. Qed.
(** Read before the object's own update: what was stored before the call. *)
Lemma read_before : forall (now : oid -> list (option V)) x o ev stored, precedes ev (Heard x o) (Ran x) ->
  readings x o (snd (observe now ev stored)) = repeat (stored x) (times x o ev).
Proof.
  intros now x o ev. induction ev as [|[z|z p] ev IH]; intros stored P; auto; rewrite times_cons; cbn [is_heard].
  - cbn [observe]. destruct (Nat.eq_dec z x) as [->|Hne].
    + assert (N : times x o ev = 0%nat).
      { unfold times. destruct (filter (is_heard x o) ev) as [|e l] eqn:E; auto. exfalso. assert (Q : In e (filter (is_heard x o) ev)) by (rewrite E; left; auto).
        apply filter_In in Q as [Q1 Q2]. destruct e as [w|w p]; [discriminate|]. cbn in Q2. apply andb_true_iff in Q2 as [A B]. apply Nat.eqb_eq in A, B. subst.
        apply (P [] ev); auto. }
      rewrite N. cbn [Nat.add repeat]. rewrite IH by (eapply precedes_tl; eauto). rewrite N. auto.
    + rewrite IH by (eapply precedes_tl; eauto). cbn [Nat.add]. destruct (Nat.eqb_spec x z); [congruence|]. auto.
  - rewrite observe_cons, readings_cons, IH by (eapply precedes_tl; eauto). cbn [is_heard]. destruct (Nat.eqb_spec z x) as [->|Hne]; cbn [andb]; auto.
    destruct (Nat.eqb p o); auto.
Qed.
Lemma read_stored : forall (now : oid -> list (option V)) x o ev stored, stored x = now x -> readings x o (snd (observe now ev stored)) = repeat (now x) (times x o ev).
Proof.
  intros now x o ev. induction ev as [|[z|z p] ev IH]; intros stored E; auto; rewrite times_cons; cbn [is_heard].
  - cbn [observe Nat.add]. apply IH. destruct (Nat.eqb_spec x z) as [->|]; auto.
  - rewrite observe_cons, readings_cons, IH by auto. destruct (Nat.eqb_spec z x) as [->|Hne]; cbn [andb]; auto. destruct (Nat.eqb p o); auto. rewrite E. auto.
Qed.
(** Read after it: the current values. *)
Lemma read_after : forall (now : oid -> list (option V)) x o ev stored, precedes ev (Ran x) (Heard x o) -> In (Ran x) ev ->
  readings x o (snd (observe now ev stored)) = repeat (now x) (times x o ev).
Proof.
  intros now x o ev. induction ev as [|[z|z p] ev IH]; intros stored P I0; [destruct I0| |]; rewrite times_cons; cbn [is_heard].
  - cbn [observe Nat.add]. destruct (Nat.eq_dec z x) as [->|Hne].
    + apply read_stored. rewrite Nat.eqb_refl. auto.
    + apply IH; [eapply precedes_tl; eauto|]. destruct I0 as [Q|Q]; auto. congruence.
  - destruct I0 as [Q|Q]; [discriminate|]. rewrite observe_cons, readings_cons, IH by (eauto using precedes_tl). destruct (Nat.eqb_spec z x) as [->|Hne]; cbn [andb]; auto.
    destruct (Nat.eqb_spec p o) as [->|]; auto. exfalso. apply (P [] ev); auto.
Qed.
End Watch.
