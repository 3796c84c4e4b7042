(** Proofs about observers of a hierarchy, part 7: the updates among the events of any call are those
    the model of the hierarchy runs. *)
From Coq Require Import List ZArith Bool Lia Arith Sorted.
From Verif Require Import NpModel NpProofs IndexOpsModel IndexOpsSpec PzModel PzSpec PzTree PzStruct PzLink PzWalk PzMem PzIo PzInv PzConn PzFix PzLinkMem PzPres PzUnlink PzTraverse PzNotify PzNew PzCmd PzInit PzCons PzVal PzOpt PzRandom PzGet PzHist PzKeep PzOrder PzGrad PzFinal CopyModel CopySpec CopyCall CopyTree CopyDeep CopyJoin HkModel HkSpec HkProofs HkInv HkFinal HkCalls HkWatch HkMain.
Import ListNotations.
Open Scope Z_scope.

Section Runs.
Context {V : Type}.
Variables tinit tf tfinv : nat -> V -> V.
Implicit Types q : @hstate V.
Notation exec := (exec tinit tf tfinv).
Notation hexec := (hexec tinit tf tfinv).

(** ** Commands that run nothing *)
Definition still (c : @cmd V) : Prop := forall s, trace (nt (fst (c s))) = trace (nt s).
Lemma still_then : forall a b : @cmd V, still a -> still b -> still (andthen a b).
Proof.
  intros a b A B s. unfold andthen. specialize (A s). destruct (a s) as [s1 [e|]]; cbn [fst] in *; auto. rewrite B. auto.
Qed.
Lemma still_done : still done.
Proof. intros s. auto. Qed.
Lemma still_st : forall g, still (upd_st g).
Proof. intros g s. auto. Qed.
Lemma still_ios : forall g, still (c_ios g).
Proof. intros g s. auto. Qed.
Lemma still_lift : forall (A : Type) (g : state -> res A) put, (forall s a, nt (put s a) = nt s) -> still (lift g put).
Proof. intros A g put H s. unfold lift. destruct (g s); cbn [fst]; auto. rewrite H. auto. Qed.
Lemma still_get : forall (A : Type) (g : state -> res A) k, (forall a, still (k a)) -> still (get g k).
Proof. intros A g k H s. unfold get. destruct (g s); auto. apply H. Qed.
Lemma still_high : forall x k, (forall a, still (k a)) -> still (c_highest x k).
Proof. intros. apply still_get. auto. Qed.
Lemma still_parent : forall x, still (c_notify_parent x).
Proof. intros. apply still_lift. auto. Qed.
Lemma still_fixes : forall x, still (c_connect_fixes x).
Proof. intros. apply still_lift. auto. Qed.
Lemma still_connect : forall x, still (c_connect x).
Proof. intros. apply still_then; [apply still_st | apply still_lift; auto]. Qed.
Lemma still_nt : forall g, (forall n : @ntst V, trace (g n) = trace n) -> still (c_nt g).
Proof. intros g H s. cbn. auto. Qed.
Ltac still := repeat (apply still_then || apply still_done || apply still_st || apply still_ios || apply still_parent || apply still_fixes || apply still_connect ||
  (apply still_high; intros) || (apply still_lift; intros; reflexivity) || (apply still_nt; intros; reflexivity)).
Lemma still_disconnect : forall x, still (disconnect_parent x).
Proof. intros. unfold disconnect_parent. still. Qed.
Lemma still_unlink : forall a b, still (unlink a b).
Proof.
  intros a b s. unfold unlink. destruct (negb _); auto. destruct (pidx (st s) b); auto. match goal with |- trace (nt (fst (?c s))) = _ => assert (Q : still c); [|apply Q] end.
  still; try apply still_disconnect; still.
Qed.
Lemma still_attach : forall a b i, still (attach a b i).
Proof.
  intros a b i s. unfold attach. destruct i as [i|]; match goal with |- trace (nt (fst (?c s))) = _ => assert (Q : still c); [|apply Q] end; still;
  (intros s0; destruct (in_init (st s0) a); auto; match goal with |- trace (nt (fst (?c s0))) = _ => assert (Q : still c); [|apply Q] end; apply still_high; intros h s1;
   destruct (inited (st s1) h) as [[|]|]; auto; match goal with |- trace (nt (fst (?c s1))) = _ => assert (Q : still c); [|apply Q] end; still).
Qed.
Lemma traverse_trace : forall f t stop x (s : @ntst V * list oid), trace (fst (fst (traverse f t stop x s))) = trace (fst s).
Proof.
  induction f as [|f IH]; intros t stop x [n seen]; cbn [traverse fst]; auto. destruct (visited n x); auto. destruct (stop x); auto.
  assert (Q : forall ks (a : @ntst V * list oid * option exn), trace (fst (fst (fold_left (fun a c => match a with (s', None) => traverse f t stop c s' | _ => a end) ks a))) = trace (fst (fst a))).
  { induction ks as [|k ks IHk]; intros a; auto. cbn [fold_left]. rewrite IHk. destruct a as [s' [e|]]; auto. }
  specialize (Q (kids t x) ((set_visited n x true, x :: seen), None)). destruct (fold_left _ _ _) as [[n2 seen2] [e|]]; cbn [fst] in *; auto.
Qed.
Lemma traverse_parents_trace : forall f t stop x (s : @ntst V * list oid), trace (fst (fst (traverse_parents f t stop x s))) = trace (fst s).
Proof.
  induction f as [|f IH]; intros t stop x [n seen]; cbn [traverse_parents fst]; auto. destruct (par t x) as [p|]; auto.
  specialize (IH t stop p (set_visited n x true, seen)). destruct (traverse_parents f t stop p (set_visited n x true, seen)) as [s1 [e|]]; cbn [fst] in *; auto.
  pose proof (traverse_trace (fuel t) t stop p s1) as Q. destruct (traverse (fuel t) t stop p s1) as [[n2 seen2] [e|]]; cbn [fst set_visited trace] in *; congruence.
Qed.
Lemma still_link_new : forall a b i, still (link_new a b i).
Proof.
  intros a b i s. unfold link_new. destruct (par (st s) b) as [pp|]; [|apply still_attach].
  pose proof (traverse_parents_trace (fuel (st s)) (st s) (Nat.eqb a) b (nt s, [])) as Q. destruct (traverse_parents _ _ _ _ _) as [[n seen] [e|]]; cbn [fst] in Q; auto.
  rewrite <- Q. apply (still_then _ _ (still_unlink pp b) (still_attach a b i) (with_nt s n)).
Qed.
Lemma still_link : forall a b i, still (link a b i).
Proof.
  intros a b i s. unfold link. destruct (omem b (kids (st s) a)); [|apply still_link_new]. destruct i as [i|]; auto.
  apply (still_then _ _ (still_unlink a b) (still_link_new a b (Some i)) s).
Qed.
Lemma still_links : forall x ps, still (fold_right (fun p c => andthen (link x p None) c) done ps).
Proof. intros x ps. induction ps; cbn [fold_right]; [apply still_done | apply still_then; auto; apply still_link]. Qed.
Lemma still_mask : forall x sel l b, still (c_mask x sel l b).
Proof.
  intros x sel l b s. unfold c_mask. assert (Q : still (c_highest x (fun h : oid => lift (fun s0 : @state V => set_mask (st s0) (ios s0) (fix_ s0) h x l b) with_fix))) by still.
  destruct sel; [destruct (par (st s) x)|]; auto; apply Q.
Qed.
Lemma still_remove : forall x sel t, still (remove_one x sel t).
Proof.
  intros x sel t s. unfold remove_one. destruct (remove _ _ _ _) as [removed d].
  match goal with |- trace (nt (fst (?c s))) = _ => assert (Q : still c); [|apply Q] end. destruct t; still. apply still_mask.
Qed.
Lemma still_unconstrain : forall x sel ts, still (unconstrain x sel ts).
Proof.
  intros x sel ts s. unfold unconstrain. generalize (match ts with [] => map fst (cons_items (ios s) x) | _ => ts end). intros l. revert s.
  assert (Q : still (fold_right (fun t c => andthen (remove_one x sel t) c) done l)); [|apply Q].
  induction l; cbn [fold_right]; [apply still_done | apply still_then; auto; apply still_remove].
Qed.
Lemma still_unfix : forall x sel, still (unfix_param x sel).
Proof. intros x sel s. unfold unfix_param. destruct (remove _ _ _ _) as [removed d]. apply (still_then _ _ (still_unconstrain x sel [Fixed]) (still_mask x sel removed true) s). Qed.

(** ** Triggering and notifying *)
Lemma then_inv : forall (a b : @cmd V) s s', andthen a b s = (s', None) -> exists s1, a s = (s1, None) /\ b s1 = (s', None).
Proof. intros a b s s' E. unfold andthen in E. destruct (a s) as [s1 [e|]]; [discriminate|]. eauto. Qed.
Definition keepn (n n' : @ntst V) : Prop := passes n' = passes n /\ visited n' = visited n.
Lemma keepn_fold : forall (A : Type) (g : A -> @ntst V -> res ntst) l n n', (forall a n n', g a n = Ok n' -> keepn n n') -> rfold g l n = Ok n' -> keepn n n'.
Proof.
  intros A g l. induction l as [|a l IH]; intros n n' H E; cbn [rfold] in E; [inversion E; split; auto|]. destruct (g a n) as [n1|] eqn:G; cbn [rbind] in E; [|discriminate].
  destruct (H _ _ _ G) as [A1 A2]. destruct (IH n1 n' H E) as [B1 B2]. split; congruence.
Qed.
Lemma notify_keepn : forall f t x up (n n' : @ntst V), notify f t x up n = Ok n' -> keepn n n'.
Proof.
  induction f as [|f IH]; intros t x up n n' E; cbn [notify] in E; [discriminate|]. destruct (updates n x); [|inversion E; split; auto].
  set (n1 := if is_leaf t x then n else add_trace (set_fresh n x false) x) in *. assert (K : keepn n n1) by (unfold n1; destruct (is_leaf t x); split; auto).
  destruct up; [|inversion E; subst; auto]. apply keepn_fold in E; [|intros; eapply IH; eauto]. destruct K, E. split; congruence.
Qed.
Lemma trigger_keepn : forall f t i x up (n n' : @ntst V), trigger_params f t i x up n = Ok n' -> keepn n n'.
Proof.
  induction f as [|f IH]; intros t i x up n n' E; cbn [trigger_params] in E; [discriminate|].
  destruct (rfold _ (kids t x) n) as [n1|] eqn:G; cbn [rbind] in E; [|discriminate].
  apply keepn_fold in G; [|intros a m m' Q; destruct (is_fixed (fuel t) t i a) as [[|]|]; cbn [rbind] in Q; [inversion Q; split; auto | eapply IH; eauto | discriminate]].
  apply notify_keepn in E. destruct G, E. split; congruence.
Qed.
Lemma trigger_back : forall (s s' : @state V) x, c_trigger x true s = (s', None) -> Inv s' -> (x < next (st s'))%nat ->
  st s' = st s /\ exists l, trace (nt s') = rev l ++ trace (nt s) /\ triggered (st s') (ios s') (nt s') x l.
Proof.
  intros s s' x E H Hx. assert (Q : exists n, trigger_update (st s) (ios s) x true (nt s) = Ok n /\ s' = with_nt s n).
  { unfold c_trigger, lift in E. destruct (trigger_update _ _ _ _ _) as [n|]; inversion E; eauto. }
  destruct Q as (n & G & ->). assert (K : keepn (nt s) n).
  { unfold trigger_update in G. destruct (_ && _); [eapply trigger_keepn; eauto | inversion G; split; auto]. }
  assert (Hs : Inv s). { destruct H as [W I F M [N1 N2] J]. constructor; auto. destruct K as [K1 K2]. cbn [with_nt nt st] in *. split; intros y; [rewrite <- K1; auto | rewrite <- K2; auto]. }
  split; auto. destruct (trigger_full s x Hs Hx) as (s2 & l & R & Or & Tr). rewrite E in R. injection R as <-. exists l. destruct Or as (_ & _ & _ & _ & Rn). split; [apply Rn|].
  eapply triggered_ext; [|exact Tr]. apply (ran_upd _ _ _ Rn).
Qed.
Lemma trig_runs : forall q x l, hinv q -> (x < next (st (base q)))%nat -> triggered (st (base q)) (ios (base q)) (nt (base q)) x l ->
  exists ev, htrigger (updates (nt (base q))) (regs q) (st (base q)) (ios (base q)) x = Ok ev /\ runs ev = l.
Proof.
  intros q x l H Hx Tr. destruct (trigger_round q H x Hx) as (tr & u & fx & E & R & Nd & Hu & Hf & Eh). eexists. split; [exact Eh|].
  eapply triggered_fun; [apply (inv_st _ (hi_base _ H))|exact Hx| |exact Tr]. exists tr, u, fx. split; auto. split; auto. split; auto. split; auto. split; auto.
  destruct (updates (nt (base q)) x && negb (in_init (st (base q)) x)); auto. apply (runs_trigger q H x); auto.
Qed.
Lemma notify_runs : forall q x u, hinv q -> (x < next (st (base q)))%nat -> up (st (base q)) x u ->
  exists ev, hnotify (updates (nt (base q))) (regs q) (fuel (st (base q))) x true = Ok ev /\ runs ev = chain (st (base q)) (nt (base q)) u.
Proof.
  intros q x u H Hx Hu. destruct (notify_round q H x Hx) as (u' & Hu' & Eh). rewrite <- (up_fun _ _ _ _ Hu Hu') in Eh. eexists. split; [exact Eh|].
  apply (runs_climb q H x); auto.
Qed.
Lemma init_back : forall (s s' : @state V) x, initialize_parameter x s = (s', None) -> Inv s' -> (x < next (st s'))%nat ->
  exists l, trace (nt s') = rev l ++ trace (nt s) /\ triggered (st s') (ios s') (nt s') x l.
Proof.
  intros s s' x E H Hx. unfold initialize_parameter in E. apply then_inv in E as (s1 & E1 & E). apply then_inv in E as (s2 & E2 & E). apply then_inv in E as (s3 & E3 & E).
  assert (Q1 : still (c_highest x (fun h => c_notify_parent h))) by still. assert (Q2 : still (c_highest x (fun h => c_connect h))) by still.
  assert (Q3 : still (c_highest x (fun h => c_connect_fixes h))) by still.
  specialize (Q1 s). specialize (Q2 s1). specialize (Q3 s2). rewrite E1 in Q1. rewrite E2 in Q2. rewrite E3 in Q3. cbn [fst] in *.
  destruct (trigger_back s3 s' x E H Hx) as (_ & l & T & Tr). exists l. split; auto. rewrite T, Q3, Q2, Q1. auto.
Qed.

Lemma runs_ran : forall l, runs (map Ran l) = l.
Proof. induction l; cbn [map runs]; auto. f_equal. auto. Qed.
(** ** Every call *)
Lemma hexec_runs : forall q c, hinv q -> hlegal q (Base c) ->
  match hexec (Base c) q with
  | (q', Ok ev) => trace (nt (base q')) = rev (runs ev) ++ trace (nt (base q)) /\ exec c (base q) = (base q', None)
  | (q', Er e) => exec c (base q) = (base q', Some e)
  end.
Proof.
  intros q c H L. pose proof (hexec_inv tinit tf tfinv q (Base c) H L) as Hq'. cbn [hlegal] in L.
  destruct (exec_ok tinit tf tfinv (base q) c (hi_base _ H) (hi_one _ H) L) as (s' & e & E & H' & _ & _).
  cbn [HkModel.hexec] in *. rewrite E in *. set (r := sync _ _ _ _) in *. cbn [fst] in Hq'. destruct e as [e|]; [cbn [base]; auto|].
  set (q' := mkH s' r) in *. change s' with (base q') in E, H' |- *. change r with (regs q').
  assert (Nil : trace (nt (base q')) = trace (nt (base q)) -> calls c (base q) (base q') (regs q') = Ok [] ->
    match calls c (base q) (base q') (regs q') with Ok ev => trace (nt (base q')) = rev (runs ev) ++ trace (nt (base q)) /\ (base q', @None exn) = (base q', None) | Er e => (base q', @None exn) = (base q', Some e) end).
  { intros T ->. auto. }
  assert (Trg : forall x l, (x < next (st (base q')))%nat -> calls c (base q) (base q') (regs q') = htrigger (updates (nt (base q'))) (regs q') (st (base q')) (ios (base q')) x ->
    trace (nt (base q')) = rev l ++ trace (nt (base q)) -> triggered (st (base q')) (ios (base q')) (nt (base q')) x l ->
    match calls c (base q) (base q') (regs q') with Ok ev => trace (nt (base q')) = rev (runs ev) ++ trace (nt (base q)) /\ (base q', @None exn) = (base q', None) | Er e => (base q', @None exn) = (base q', Some e) end).
  { intros x l Hx Ec T Tr. destruct (trig_runs q' x l Hq' Hx Tr) as (ev & Ev & <-). rewrite Ec, Ev. auto. }
  assert (Ntf : forall x u, (x < next (st (base q')))%nat -> calls c (base q) (base q') (regs q') = hnotify (updates (nt (base q'))) (regs q') (fuel (st (base q'))) x true ->
    up (st (base q')) x u -> trace (nt (base q')) = rev (chain (st (base q')) (nt (base q')) u) ++ trace (nt (base q)) ->
    match calls c (base q) (base q') (regs q') with Ok ev => trace (nt (base q')) = rev (runs ev) ++ trace (nt (base q)) /\ (base q', @None exn) = (base q', None) | Er e => (base q', @None exn) = (base q', Some e) end).
  { intros x u Hx Ec Hu T. destruct (notify_runs q' x u Hq' Hx Hu) as (ev & Ev & Er). rewrite Ec, Ev, Er. auto. }
  clearbody q'. clear r s'. destruct c as [vals|ps b| |x b|x y i|x y|x|x sel n|x sel ts|x sel|x sel|x g|x p|x|x on|x|x draw|x]; cbn [PzSpec.exec legal] in E, L; cbn [HkModel.calls] in Nil, Trg, Ntf |- *.
  - apply Nil; auto. unfold new_leaf in E. injection E as <-. auto.
  - unfold new_node in E. apply then_inv in E as (s1 & E1 & E). apply then_inv in E as (s2 & E2 & E). apply then_inv in E as (s3 & E3 & E).
    assert (T1 : trace (nt s1) = trace (nt (base q)) /\ next (st s1) = S (next (st (base q)))) by (unfold bare_node in E1; injection E1 as <-; auto). destruct T1 as [T1 N1].
    pose proof (still_links (next (st (base q))) ps s1) as T2. rewrite E2 in T2. injection E3 as <-. cbn [fst] in T2.
    destruct b; [|apply Nil; auto; injection E as <-; cbn [with_st nt]; congruence].
    assert (Hx : (next (st (base q)) < next (st (base q')))%nat).
    { destruct (new_node_ok (base q) ps true (hi_base _ H) L) as (s' & E' & _ & B). unfold new_node in E'. rewrite (andthen_ok _ _ _ _ E1), (andthen_ok _ _ _ _ E2) in E'.
      unfold andthen at 1 in E'. unfold upd_st at 1 in E'. rewrite E in E'. injection E' as <-. rewrite (bu_next _ _ _ _ _ B). lia. }
    destruct (init_back _ _ _ E H' Hx) as (l & T & Tr). apply (Trg (next (st (base q))) l); auto. rewrite T. cbn [with_st nt]. congruence.
  - apply Nil; auto. unfold bare_node in E. injection E as <-. auto.
  - unfold end_init in E. apply then_inv in E as (s1 & E1 & E). injection E1 as <-. destruct b; [|apply Nil; auto; injection E as <-; auto].
    assert (Hx : (x < next (st (base q')))%nat).
    { pose proof (exec_kinds tinit tf tfinv (base q) (End x true) (base q') None (hi_base _ H) (hi_one _ H) L) as Q.
      destruct Q as [Q _]; [cbn [PzSpec.exec]; unfold end_init, andthen, upd_st; auto|]. destruct L as [L _]. lia. }
    destruct (init_back _ _ _ E H' Hx) as (l & T & Tr). apply (Trg x l); auto.
  - apply Nil; auto. pose proof (still_link x y i (base q)) as T. rewrite E in T. auto.
  - apply Nil; auto. pose proof (still_unlink x y (base q)) as T. rewrite E in T. auto.
  - assert (Hx : (x < next (st (base q')))%nat).
    { pose proof (exec_kinds tinit tf tfinv (base q) (Initialize x) (base q') None (hi_base _ H) (hi_one _ H) L E) as [Q _]. destruct L as [L _]. lia. }
    destruct (init_back _ _ _ E H' Hx) as (l & T & Tr). apply (Trg x l); auto.
  - destruct L as (Hx & Ls & Rx). destruct (constrain_ok tinit (base q) x sel n (hi_base _ H) Hx Rx Ls) as (s' & l & E2 & _ & _ & _ & Es & Rn & (u & l5 & Hu & Tr & El5) & _).
    rewrite E in E2. injection E2 as <-.
    assert (Tr' : triggered (st (base q')) (ios (base q')) (nt (base q')) x l5) by (rewrite Es; eapply triggered_ext; [|exact Tr]; apply (ran_upd _ _ _ Rn)).
    assert (Hx' : (x < next (st (base q')))%nat) by (rewrite Es; auto).
    destruct (trig_runs q' x l5 Hq' Hx' Tr') as (ev2 & E2 & R2).
    destruct (notify_runs q' x u Hq' Hx') as (ev1 & E1 & R1); [rewrite Es; auto|].
    assert (T : trace (nt (base q')) = rev l ++ trace (nt (base q))) by apply Rn.
    replace (is_leaf (st (base q)) x) with (is_leaf (st (base q')) x) in El5 by (rewrite Es; auto). destruct (is_leaf (st (base q')) x); cbn [rbind].
    + rewrite E1. cbn [rbind]. rewrite E2. cbn [rbind]. split; auto. rewrite runs_app, R1, R2, T, El5, Es, (chain_ext _ _ _ _ (ran_upd _ _ _ Rn)). auto.
    + rewrite E2. cbn [rbind]. split; auto. cbn [app]. rewrite R2, T, El5. auto.
  - apply Nil; auto. pose proof (still_unconstrain x sel ts (base q)) as T. rewrite E in T. auto.
  - destruct L as [Hx Ls]. destruct (fix_ok (base q) x sel (hi_base _ H) Hx Ls) as (s' & u & E2 & _ & Es & _ & Hu & Rn & _). rewrite E in E2. injection E2 as <-.
    apply (Ntf x u); auto; try rewrite Es; auto. rewrite (chain_ext _ _ _ _ (ran_upd _ _ _ Rn)). apply Rn.
  - apply Nil; auto. pose proof (still_unfix x sel (base q)) as T. rewrite E in T. auto.
  - destruct L as [Hx Rx]. destruct (assign_ok (base q) x g (hi_base _ H) Hx Rx) as (s' & l & E2 & _ & _ & _ & Es & Ei & _ & Rn & Tr). rewrite E in E2. injection E2 as <-.
    assert (T : trace (nt (base q')) = rev l ++ trace (nt (base q))) by apply Rn.
    rewrite <- Es in Tr. destruct (is_leaf (st (base q')) x).
    + destruct Tr as (u & Hu & El). apply (Ntf x u); auto; [rewrite Es; auto|]. rewrite (chain_ext _ _ _ _ (ran_upd _ _ _ Rn)), <- El. auto.
    + apply (Trg x l); auto; [rewrite Es; auto|]. rewrite Ei. eapply triggered_ext; [|exact Tr]. apply (ran_upd _ _ _ Rn).
  - destruct L as [Hx Rx]. destruct (free_exists (base q) x (hi_base _ H) Hx) as [ks Hks].
    destruct (set_opt_ok tf (base q) x p ks (hi_base _ H) Hx Rx (hi_one _ H x Hx) Hks) as (s' & l & F & E2 & _ & _ & _ & _ & Es & Ei & _ & Rn & Tr). rewrite E in E2. injection E2 as <-.
    apply (Trg x l); auto; [rewrite Es; auto|apply Rn|]. rewrite Es, Ei. eapply triggered_ext; [|exact Tr]. apply (ran_upd _ _ _ Rn).
  - apply Nil; auto. destruct (get_optimizer_array tfinv x (base q)) as [[l s2]|] eqn:G; [|discriminate]. injection E as ->. unfold get_optimizer_array in G.
    destruct (param_array (st (base q)) (mem (base q)) x) as [m1 a]. destruct (nonempty (cons_get (ios (base q)) x Fixed)).
    + destruct (ensure_fixes _ _ _ _); [|discriminate]. injection G as _ <-. auto.
    + injection G as _ <-. auto.
  - destruct (update_model_ok (base q) x on (hi_base _ H) L) as (s' & l & rr & E2 & _ & Ar & Pr & Es & Ei & _ & _ & U & Ul & _ & n1 & l' & _ & Nr & Rn & Tr). rewrite E in E2. injection E2 as <-.
    apply (Trg x l'); auto; [rewrite Es; auto| |rewrite Es, Ei; auto]. destruct Rn as (_ & -> & _). destruct Nr as (_ & _ & _ & _ & Nr). cbn in Nr. rewrite Nr. auto.
  - destruct (trigger_back _ _ _ E H') as (Es & l & T & Tr); [|apply (Trg x l); auto].
    + destruct (trigger_full (base q) x (hi_base _ H) L) as (s' & l & E2 & Or & _). rewrite E in E2. injection E2 as <-. rewrite (proj1 Or). auto.
    + rewrite Es. auto.
  - destruct L as [Hx Rx]. destruct (free_exists (base q) x (hi_base _ H) Hx) as [ks Hks].
    destruct (randomize_ok tf (base q) x draw ks (hi_base _ H) Hx Rx (hi_one _ H x Hx) Hks) as (s' & l & F & E2 & _ & _ & _ & _ & Es & Ei & _ & U & _ & Rn & Tr & _). rewrite E in E2. injection E2 as <-.
    apply (Trg x l); auto; [rewrite Es; auto|]. rewrite Es, Ei. auto.
  - split; auto. rewrite runs_ran, rev_involutive. destruct L as (Hx & Rx & Hin & Hf).
    destruct (copy_object_ok tfinv (base q) x (hi_base _ H) Hx Rx Hin Hf) as (s' & E2 & _ & _ & l & T & _). rewrite E in E2. injection E2 as <-. rewrite T, app_length.
    replace (length l + length (trace (nt (base q))) - length (trace (nt (base q))))%nat with (length l + 0)%nat by lia. rewrite firstn_app_2. cbn [firstn]. rewrite app_nil_r. auto.
Qed.
End Runs.
