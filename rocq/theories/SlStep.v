(** Parts of Params: every call keeps what holds of parts and of the hierarchy. *)
From Coq Require Import List ZArith Bool Lia Arith.
From Verif Require Import NpModel NpProofs IndexOpsModel IndexOpsSpec IndexOpsProofs PzModel PzSpec PzTree PzStruct PzLink PzWalk PzMem PzIo PzInv PzConn PzFix PzLinkMem PzPres PzUnlink PzTraverse PzNotify PzNew PzCmd PzInit PzCons PzVal PzOpt PzRandom PzGet PzKeep PzHist PzFinal CopyModel SlModel SlSpec SlProofs SlHist.
Import ListNotations.
Open Scope Z_scope.

Section Step.
Context {V : Type}.
Implicit Types s : @state V.
Implicit Types z : @sstate V.
Variables tinit tf tfinv : nat -> V -> V.

Lemma pgood_parts : forall z z', parts z' = parts z -> pgood z -> pgood z'.
Proof. intros z z' E G k q. rewrite E. apply G. Qed.
Lemma pgood_add : forall z z' r, parts z' = parts z ++ [r] -> pgood z ->
  (forall q, r = Some q -> good (cur q) /\ (shared q = true -> exists lo hi step, cur q = Slice lo hi step)) -> pgood z'.
Proof.
  intros z z' r E G H k q Eq. rewrite E in Eq. destruct (Nat.lt_ge_cases k (length (parts z))) as [Hk|Hk].
  - rewrite nth_error_app1 in Eq by auto. apply (G k q Eq).
  - rewrite nth_error_app2 in Eq by auto. destruct (k - length (parts z))%nat as [|m]; cbn in Eq; [injection Eq as ->; auto | destruct m; discriminate].
Qed.
(** Indexing changes nothing of the hierarchy. *)
Lemma index_part_ok : forall q ix z z' e, good ix -> index_part q ix z = (z', e) -> pgood z -> base z' = base z /\ pgood z' /\ (z' = z \/ exists r, parts z' = parts z ++ [r]).
Proof.
  intros q ix z z' e Hg E G. unfold index_part in E. destruct (positions ix _) as [l|x]; [|inversion E; subst; auto].
  destruct ix as [lo hi step|is|i]; injection E as <- <-; cbn [base parts]; (split; [reflexivity|]); (split; [|right; eexists; reflexivity]).
  - eapply pgood_add; [reflexivity | auto |]. intros q' Eq. injection Eq as <-. cbn [view_of cur shared]. split; auto. intros _. eauto.
  - eapply pgood_add; [reflexivity | auto |]. intros q' Eq. injection Eq as <-. cbn [cur shared]. split; auto. discriminate.
  - eapply pgood_add; [reflexivity | auto |]. discriminate.
Qed.

Lemma effect_apart : forall s s', st s' = st s -> arr (mem s') = arr (mem s) -> apart s -> apart s'.
Proof. intros s s' E1 E2 Ap. unfold apart in *. rewrite E1, E2. auto. Qed.

Lemma sexec_ok : forall z c z' e, SInv z -> slegal z c -> sexec tinit tf tfinv c z = (z', e) ->
  SInv z' /\ (scareful z c -> apart (base z) -> apart (base z')) /\ (forall k r, nth_error (parts z) k = Some r -> nth_error (parts z') k = Some r).
Proof.
  intros z c z' e S L E. pose proof S as (H & O & G). destruct c as [c|x ix|k ix|k g|k v|k|k n|k ts]; cbn [slegal] in L.
  - cbn [sexec] in E. unfold on_base in E. destruct (exec tinit tf tfinv c (base z)) as [s1 e1] eqn:E1. injection E as <- <-.
    destruct (exec_ok tinit tf tfinv (base z) c H O L) as (s2 & e2 & E2 & H2 & O2 & _). rewrite E1 in E2. injection E2 as <- <-.
    split; [split; [|split]; auto|]. split; auto. cbn [with_base base]. intros [_ Cf] Ap. eapply exec_apart; [exact H | exact O | exact Cf | exact E1 | auto].
  - destruct L as (Hx & Hl & Hg). cbn [sexec] in E. unfold index_param in E. destruct (index_part_ok _ _ _ _ _ Hg E G) as (Eb & G' & P).
    split; [split; [|split]; try rewrite Eb; auto|]. split; [rewrite Eb; auto|]. intros k r Ek. destruct P as [->|[r' ->]]; auto.
    rewrite nth_error_app1; auto. apply nth_error_Some. congruence.
  - cbn [sexec] in E. unfold on_part in E. destruct (nth_error (parts z) k) as [[q|]|] eqn:Ek; try (injection E as <- <-; auto; fail).
    destruct (index_part_ok _ _ _ _ _ L E G) as (Eb & G' & P).
    split; [split; [|split]; try rewrite Eb; auto|]. split; [rewrite Eb; auto|]. intros k' r Ek'. destruct P as [->|[r' ->]]; auto.
    rewrite nth_error_app1; auto. apply nth_error_Some. congruence.
  - destruct L as (q & l & P). destruct (assign_sl tinit tf tfinv z k q l g S P) as (z2 & u & E2 & P2 & H2 & (_ & _ & Ea) & Es & Ei & _).
    rewrite E in E2. injection E2 as <- ->. split; [|split; [intros _; apply effect_apart; auto | rewrite P2; auto]].
    split; auto. split; [|eapply pgood_parts; eauto]. apply (one_ext (base z)); auto. rewrite Es. intros y Hy Hl n j Hj. split; auto. apply (has_ext (base z) (base z')); auto.
  - destruct L as (q & l & P & M). destruct (fix_sl tinit tf tfinv z k q l v S P M) as (z2 & u & E2 & P2 & H2 & Ef & Es & _ & _ & Hh).
    rewrite E in E2. injection E2 as <- ->.
    assert (Ea : arr (mem (base z')) = arr (mem (base z))) by (destruct v; cbn [eff] in Ef; [destruct Ef as (_ & _ & Ef) | rewrite Ef]; auto).
    split; [|split; [intros _; apply effect_apart; auto | rewrite P2; auto]].
    split; auto. split; [|eapply pgood_parts; eauto]. apply (one_ext (base z)); auto. rewrite Es. intros y Hy Hl n j Hj. split; auto. apply Hh in Hj; auto. destruct Hj as [Hj|[Q _]]; [auto|discriminate].
  - destruct L as (q & l & P & M). destruct (unfix_sl tinit tf tfinv z k q l S P M) as (z2 & E2 & P2 & H2 & (Es & Em & En) & Hh).
    rewrite E in E2. injection E2 as <- ->. split; [|split; [intros _; apply effect_apart; congruence | rewrite P2; auto]].
    split; auto. split; [|eapply pgood_parts; eauto]. apply (one_ext (base z)); auto. rewrite Es. intros y Hy Hl n j Hj. split; auto. apply Hh in Hj; tauto.
  - destruct L as (q & l & P & M). destruct (constrain_sl tinit tf tfinv z k q l n S P M) as (z2 & u & E2 & P2 & H2 & (_ & _ & Ea) & Es & _ & _ & Hh).
    rewrite E in E2. injection E2 as <- ->. split; [|split; [intros _; apply effect_apart; auto | rewrite P2; auto]].
    split; auto. split; [|eapply pgood_parts; eauto]. apply one_leaf; auto. rewrite Es. intros y Hy Hl j a b Ha Hb.
    apply Hh in Ha; auto. apply Hh in Hb; auto. destruct Ha as [[Ha Na]|[Ea' Ka]]; destruct Hb as [[Hb Nb]|[Eb Kb]]; try contradiction.
    + apply (O y Hy j); auto.
    + congruence.
  - destruct L as (q & l & P & M). destruct (unconstrain_sl tinit tf tfinv z k q l ts S P M) as (z2 & E2 & P2 & H2 & (Es & Em & En) & Hh).
    rewrite E in E2. injection E2 as <- ->. split; [|split; [intros _; apply effect_apart; congruence | rewrite P2; auto]].
    split; auto. split; [|eapply pgood_parts; eauto]. apply (one_ext (base z)); auto. rewrite Es. intros y Hy Hl n j Hj. split; auto. apply Hh in Hj; tauto.
Qed.

Lemma reach_sinv : forall (ok : sstate -> scall -> Prop) junk junk' z, (forall z c, ok z c -> slegal z c) -> sreach tinit tf tfinv ok junk junk' z -> SInv z.
Proof.
  intros ok junk junk' z Hok R. induction R as [|z c z' e R IH L E].
  - split; [apply init_inv|]. split; [apply init_one|]. intros k q Eq. destruct k; discriminate.
  - eapply sexec_ok; eauto.
Qed.
Lemma reach_apart : forall junk junk' z, sreach tinit tf tfinv scareful junk junk' z -> apart (base z).
Proof.
  intros junk junk' z R. assert (SInv z /\ apart (base z)) as [_ A]; auto. induction R as [|z c z' e R [IH A] L E].
  - split; [apply (reach_sinv slegal junk junk'); [auto | constructor]|]. intros x y b ox oy _ _ _ Ex. cbn in Ex. discriminate.
  - destruct (sexec_ok z c z' e IH (proj1 L) E) as (S' & A' & _). auto.
Qed.

(** ** Parts stay up to date *)
Definition keeps (x : oid) (c : @cmd V) : Prop := forall s s' e, c s = (s', e) -> is_leaf (st s) x = true -> arr (mem s) x <> None ->
  st s' = st s /\ arr (mem s') x = arr (mem s) x.
Lemma keeps_then : forall x a b, keeps x a -> keeps x b -> keeps x (andthen a b).
Proof.
  intros x a b Ha Hb s s' e E Hl Hn. unfold andthen in E. destruct (a s) as [s1 [e1|]] eqn:E1; destruct (Ha s s1 _ E1 Hl Hn) as [A1 A2].
  - injection E as <- <-. auto.
  - destruct (Hb s1 s' e E) as [B1 B2]; [rewrite A1; auto | rewrite A2; auto|]. split; congruence.
Qed.
Lemma keeps_framed : forall x c, (forall s s' e, c s = (s', e) -> framed s s') -> keeps x c.
Proof. intros x c H s s' e E _ _. destruct (H s s' e E) as (A & B & _). split; congruence. Qed.
Lemma keeps_nt : forall x (f : state -> res (@ntst V)), keeps x (lift f with_nt).
Proof. intros x f s s' e E _ _. unfold lift in E. destruct (f s); injection E as <- <-; auto. Qed.
Lemma keeps_done : forall x, keeps x done.
Proof. intros x s s' e E _ _. injection E as <- <-. auto. Qed.
Lemma keeps_if : forall x (b : bool) c d, keeps x c -> keeps x d -> keeps x (if b then c else d).
Proof. intros x [] c d H1 H2; auto. Qed.
Lemma pa_arr : forall t (m : @memst V) y m1 a x, param_array t m y = (m1, a) -> is_leaf t x = true -> arr m x <> None -> arr m1 x = arr m x.
Proof.
  intros t m y m1 a x E Hl Hn. unfold param_array in E. destruct (Nat.eq_dec x y) as [->|Hne].
  - destruct (arr m y) as [[[b o] n]|] eqn:Ea; [|contradiction]. rewrite Hl in E. cbn [orb] in E. injection E as <- <-. auto.
  - destruct (arr m y) as [[[b o] n]|]; [destruct (is_leaf t y || (n =? size t y))|]; injection E as <- <-; auto; cbn [set_arr arr]; apply upd_ne; auto.
Qed.
Lemma write_arr_arr : forall (m : @memst V) a vals, arr (write_arr m a vals) = arr m.
Proof. intros m [[b o] n] vals. auto. Qed.
Lemma keeps_trigger : forall x y b, keeps x (c_trigger y b).
Proof. intros. apply keeps_nt. Qed.
Lemma keeps_notify : forall x y b, keeps x (c_notify y b).
Proof. intros. apply keeps_nt. Qed.
Lemma keeps_set_values : forall x y sel g, keeps x (set_values y sel g).
Proof.
  intros x y sel g s s' e E Hl Hn. unfold set_values in E. destruct (param_array (st s) (mem s) y) as [m1 a] eqn:Ep. injection E as <- <-.
  split; auto. cbn [with_mem mem]. rewrite write_arr_arr. eapply pa_arr; eauto.
Qed.
Lemma keeps_unconstrain : forall x y sel ts, keeps x (unconstrain y sel ts).
Proof. intros. apply keeps_framed. intros. eapply unconstrain_framed; eauto. Qed.
Lemma keeps_add : forall x y sel t, keeps x (add_cons y sel t).
Proof. intros. apply keeps_framed. intros s s' e E. injection E as <- <-. repeat split; auto. Qed.
Lemma keeps_mask : forall x y sel idx v, keeps x (c_mask y sel idx v).
Proof. intros. apply keeps_framed. intros. eapply c_mask_framed; eauto. Qed.
Lemma keeps_constrain : forall x y sel n, keeps x (constrain tinit y sel n).
Proof.
  intros x y sel n s s' e E. unfold constrain in E. revert E. apply (keeps_then x); [apply keeps_set_values|]. apply keeps_then; [apply keeps_if; [apply keeps_notify | apply keeps_done]|].
  apply keeps_then; [apply keeps_unconstrain|]. apply keeps_then; [apply keeps_add | apply keeps_trigger].
Qed.
Lemma keeps_fix : forall x y sel, keeps x (fix_param y sel).
Proof. intros x y sel s s' e E. unfold fix_param in E. revert E. apply (keeps_then x); [apply keeps_add|]. apply keeps_then; [apply keeps_mask | apply keeps_notify]. Qed.
Lemma keeps_unfix : forall x y sel, keeps x (unfix_param y sel).
Proof.
  intros x y sel s s' e E. unfold unfix_param in E. destruct (remove _ _ _ _) as [rm d]. revert E. apply (keeps_then x); [apply keeps_unconstrain | apply keeps_mask].
Qed.
Lemma keeps_assign : forall x y g, keeps x (assign y g).
Proof.
  intros x y g s s' e E Hl Hn. unfold assign in E. destruct (param_array (st s) (mem s) y) as [m1 a] eqn:Ep.
  set (vals := map _ _) in E. unfold andthen in E. set (s1 := with_mem s (write_arr m1 a vals)) in E.
  assert (A : arr (mem s1) x = arr (mem s) x). { cbn [s1 with_mem mem]. rewrite write_arr_arr. eapply pa_arr; eauto. }
  assert (K : keeps x (if is_leaf (st s) y then c_notify y true else c_trigger y true)) by (apply keeps_if; [apply keeps_notify | apply keeps_trigger]).
  destruct (K s1 s' e E) as [B1 B2]; [exact Hl | rewrite A; auto|]. split; [exact B1 | congruence].
Qed.
Lemma keeps_setopt : forall x y p, keeps x (set_optimizer_array tf y p).
Proof.
  intros x y p s s' e E Hl Hn. unfold set_optimizer_array in E. destruct (param_array (st s) (mem s) y) as [m1 a] eqn:Ep.
  assert (K : forall vals, (andthen (fun s => (with_nt (with_mem s (write_arr m1 a vals)) (set_fresh (nt s) y false), None)) (c_trigger y true)) s = (s', e) -> st s' = st s /\ arr (mem s') x = arr (mem s) x).
  { intros vals E0. unfold andthen in E0. set (s1 := with_nt _ _) in E0.
    assert (A : arr (mem s1) x = arr (mem s) x). { cbn [s1 with_nt with_mem mem]. rewrite write_arr_arr. eapply pa_arr; eauto. }
    destruct (keeps_trigger x y true s1 s' e E0) as [B1 B2]; [exact Hl | rewrite A; auto|]. split; [exact B1 | congruence]. }
  destruct (if _ && _ then _ else _) as [[mk|]|]; [destruct (Nat.eqb _ _)| |]; try (eapply K; exact E); injection E as <- <-; auto.
Qed.
Lemma keeps_getopt : forall x y, keeps x (fun s => match get_optimizer_array tfinv y s with Ok (_, s') => (s', None) | Er e => (s, Some e) end).
Proof.
  intros x y s s' e E Hl Hn. destruct (get_optimizer_array tfinv y s) as [[v s1]|] eqn:Eg; injection E as <- <-; auto.
  unfold get_optimizer_array in Eg. destruct (param_array (st s) (mem s) y) as [m1 a] eqn:Ep. pose proof (pa_arr _ _ _ _ _ x Ep Hl Hn) as A.
  set (keep := match copied (nt s) y with Some _ => _ | None => false end) in Eg.
  assert (B : arr (if keep then m1 else mkM (cell m1) (S (nbuf m1)) (arr m1)) x = arr (mem s) x) by (destruct keep; auto).
  destruct (nonempty _); [destruct (ensure_fixes _ _ _ _); [|discriminate]|]; injection Eg as _ <-; split; auto.
Qed.
Lemma keeps_updates : forall x y b, keeps x (update_model y b).
Proof.
  intros x y b. apply keeps_then; [|apply keeps_trigger]. intros s s' e E Hl Hn. unfold c_highest, get in E. destruct (highest _ _ _) as [h|]; [|injection E as <- <-; auto].
  unfold set_all_updates in E. destruct (traverse _ _ _ _ _) as [[n seen] [e'|]]; injection E as <- <-; auto.
Qed.
Lemma keeps_randomize : forall x y d, keeps x (randomize tf y d).
Proof.
  intros x y d s s' e E. unfold randomize in E. revert E. apply (keeps_then x); [apply keeps_updates|]. apply keeps_then; [apply keeps_setopt|]. apply keeps_then; [|apply keeps_updates].
  intros s0 s1 e1 E Hl Hn. destruct (param_array (st s0) (mem s0) y) as [m1 a] eqn:Ep. destruct (mask_set _ _ _); injection E as <- <-; auto.
  split; auto. cbn [with_mem mem]. rewrite write_arr_arr. eapply pa_arr; eauto.
Qed.

(** What a part depends on. *)
Definition same_for (x : oid) s s' : Prop :=
  (next (st s) <= next (st s'))%nat /\ is_leaf (st s') x = is_leaf (st s) x /\ size (st s') x = size (st s) x /\ par (st s') x = par (st s) x /\
  pidx (st s') x = pidx (st s) x /\ updates (nt s') x = updates (nt s) x /\ arr (mem s') x = arr (mem s) x.
Lemma same_current : forall s s' q l, same_for (of q) s s' -> current s q l -> current s' q l.
Proof.
  intros s s' q l (E1 & E2 & E3 & E4 & E5 & E6 & E7) [A1 A2 A3 A4 A6 A7 A8 A9 A10]. constructor; rewrite ?E2, ?E3, ?E4, ?E5, ?E6, ?E7; auto. lia.
Qed.
Lemma st_same_for : forall x s s', st s' = st s /\ arr (mem s') x = arr (mem s) x -> updates (nt s') x = updates (nt s) x -> same_for x s s'.
Proof. intros x s s' [E1 E2] E3. unfold same_for. rewrite E1. repeat split; auto. Qed.

Lemma together_dec : forall s x y, Inv s -> together (st s) x y \/ ~ together (st s) x y.
Proof.
  intros s x y H. destruct (root_out s x H) as (r & o & n & B & Hp). assert (T : top (st s) r x) by (split; [exists o, n|]; auto).
  destruct (above_dec (st s) r y (inv_st _ H)) as [Q|Q]; [left; exists r; split; [apply T | auto]|]. right. intros Tg. apply Q. apply (together_top s x y r H T Tg).
Qed.
Lemma settled_base : forall s c s' e x b, Inv s -> one s -> legal s c -> (match c with NewNode _ _ | End _ _ | Link _ _ _ | Unlink _ _ | Initialize _ | Copy _ => False
    | Updates _ b' => b' = b | Randomize y _ => updates (nt s) y = b | _ => True end) ->
  exec tinit tf tfinv c s = (s', e) -> (x < next (st s))%nat -> is_leaf (st s) x = true -> updates (nt s) x = b -> same_for x s s'.
Proof.
  intros s c s' e x b H O L T E Hx Hl Eb. pose proof (mm_leaf _ _ (inv_mem _ H) x Hx Hl) as Ha.
  destruct c; cbn [exec legal] in *; try contradiction.
  - injection E as <- <-. assert (x <> next (st s)) by lia. unfold same_for. cbn [st mem nt next par pidx size updates]. try rewrite write_arr_arr. unfold is_leaf. cbn [kind set_arr arr]. rewrite !upd_ne by auto.
    repeat split; auto.
  - injection E as <- <-. assert (x <> next (st s)) by lia. unfold same_for. cbn [st mem nt next par pidx size updates]. unfold is_leaf. cbn [kind set_arr arr]. rewrite !upd_ne by auto.
    repeat split; auto.
  - destruct L as (Hy & Ls & Rx). destruct (constrain_ok tinit s x0 sel n H Hy Rx Ls) as (s2 & l & R & _ & _ & _ & _ & Rn & _). rewrite R in E. injection E as <- <-.
    apply st_same_for; [apply (keeps_constrain x x0 sel n s s2 None R Hl Ha)|]. rewrite (ran_upd _ _ _ Rn). auto.
  - apply st_same_for; [apply (keeps_unconstrain x x0 sel ts s s' e E Hl Ha)|]. apply unconstrain_framed in E as (_ & _ & ->). auto.
  - destruct L as (Hy & Ls). destruct (fix_ok s x0 sel H Hy Ls) as (s2 & l & R & _ & _ & _ & _ & Rn & _). rewrite R in E. injection E as <- <-.
    apply st_same_for; [apply (keeps_fix x x0 sel s s2 None R Hl Ha)|]. rewrite (ran_upd _ _ _ Rn). auto.
  - destruct L as (Hy & Ls). destruct (unfix_ok s x0 sel H Hy Ls) as (s2 & R & _ & (_ & _ & En) & _). rewrite R in E. injection E as <- <-.
    apply st_same_for; [apply (keeps_unfix x x0 sel s s2 None R Hl Ha)|]. congruence.
  - destruct L as (Hy & Rx). destruct (assign_ok s x0 g H Hy Rx) as (s2 & l & R & _ & _ & _ & _ & _ & _ & Rn & _). rewrite R in E. injection E as <- <-.
    apply st_same_for; [apply (keeps_assign x x0 g s s2 None R Hl Ha)|]. rewrite (ran_upd _ _ _ Rn). auto.
  - destruct L as (Hy & Rx). destruct (free_exists s x0 H Hy) as [ks Hks].
    destruct (set_opt_ok tf s x0 p ks H Hy Rx (O x0 Hy) Hks) as (s2 & l & F & R & _ & _ & _ & _ & _ & _ & _ & Rn & _). rewrite R in E. injection E as <- <-.
    apply st_same_for; [apply (keeps_setopt x x0 p s s2 None R Hl Ha)|]. rewrite (ran_upd _ _ _ Rn). auto.
  - destruct L as (Hy & Rx). destruct (get_any_ok tfinv s x0 H Hy Rx) as (l & s2 & R & _ & Ro).
    apply st_same_for; [apply (keeps_getopt x x0 s s' e E Hl Ha)|]. rewrite R in E. injection E as <- <-. destruct Ro as (_ & _ & _ & _ & _ & -> & _). auto.
  - destruct (update_model_ok s x0 on H L) as (s2 & l & r & R & _ & _ & _ & _ & _ & _ & _ & U & _). rewrite R in E. injection E as <- <-.
    apply st_same_for; [apply (keeps_updates x x0 on s s2 None R Hl Ha)|]. rewrite U. destruct (omem x l); congruence.
  - destruct (trigger_full s x0 H L) as (s2 & l & R & (_ & _ & _ & _ & Rn) & _). rewrite R in E. injection E as <- <-.
    apply st_same_for; [apply (keeps_trigger x x0 true s s2 None R Hl Ha)|]. rewrite (ran_upd _ _ _ Rn). auto.
  - destruct L as (Hy & Rx). destruct (free_exists s x0 H Hy) as [ks Hks].
    destruct (randomize_ok tf s x0 draw ks H Hy Rx (O x0 Hy) Hks) as (s2 & l & F & R & _ & _ & _ & _ & _ & _ & _ & U1 & U2 & _). rewrite R in E. injection E as <- <-.
    apply st_same_for; [apply (keeps_randomize x x0 draw s s2 None R Hl Ha)|].
    destruct (together_dec s x0 x H) as [Q|Q]; [rewrite (U1 x Q); congruence | apply U2; auto].
Qed.
End Step.
