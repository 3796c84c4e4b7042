(** Parts of Params: the properties. *)
From Coq Require Import List ZArith Bool Lia Arith.
From Verif Require Import NpModel NpProofs IndexOpsModel IndexOpsSpec IndexOpsProofs PzModel PzSpec PzTree PzStruct PzLink PzMem PzIo PzInv PzConn PzLinkMem PzPres PzNotify PzNew PzInit PzCons PzVal PzOpt PzOrder PzHist SlModel SlSpec SlProofs SlHist SlStep.
Import ListNotations.
Open Scope Z_scope.

Section Final.
Context {V : Type}.
Implicit Types s : @state V.
Implicit Types z : @sstate V.
Variables tinit tf tfinv : nat -> V -> V.
Variables junk junk' : nat -> Z -> V.
Notation reachable := (sreach tinit tf tfinv slegal junk junk').
Notation run := (sexec tinit tf tfinv).

Lemma reach_S : forall z, reachable z -> SInv z.
Proof. intros z R. eapply reach_sinv; eauto. Qed.
Lemma mem_values : forall s s', mem s' = mem s -> same_values s s'.
Proof. intros s s' E y j. unfold value. rewrite E. auto. Qed.
Lemma effect_elems : forall z k q l s' g, SInv z -> part_at z k q l -> effect (base z) s' q l g ->
  (shared q = true -> exists F, on_part_elems l g F /\ changed (base z) s' (of q) F) /\ (shared q = false -> same_values (base z) s').
Proof.
  intros z k q l s' g S P (F1 & F2 & _). split.
  - intros Sh. exists (moved g l). split; [apply moved_elems; eapply part_nodup; eauto | auto].
  - intros Sh. apply mem_values. auto.
Qed.

(** *** C116 *)
Lemma fix_final : forall z k q l, reachable z -> part_at z k q l -> in_model z q l ->
  exists z', run (PartFix k None) z = (z', None) /\ same_values (base z) (base z') /\
    forall y p j, (y < next (st (base z)))%nat -> (has (base z') y p j <-> has (base z) y p j \/ (p = Fixed /\ hit (base z) (of q) l y j)).
Proof.
  intros z k q l R P M. destruct (fix_sl tinit tf tfinv z k q l None (reach_S z R) P M) as (z' & tr & E & _ & _ & Ef & _ & _ & _ & Hh).
  exists z'. split; auto. split; [apply mem_values; auto|]. exact Hh.
Qed.
Lemma fix_value_final : forall z k q l v, reachable z -> part_at z k q l -> in_model z q l ->
  exists z', run (PartFix k (Some v)) z = (z', None) /\
    (shared q = true -> exists F, on_part_elems l (fun i _ => v i) F /\ changed (base z) (base z') (of q) F) /\
    (shared q = false -> same_values (base z) (base z')) /\
    forall y p j, (y < next (st (base z)))%nat -> (has (base z') y p j <-> has (base z) y p j \/ (p = Fixed /\ hit (base z) (of q) l y j)).
Proof.
  intros z k q l v R P M. pose proof (reach_S z R) as S. destruct (fix_sl tinit tf tfinv z k q l (Some v) S P M) as (z' & tr & E & _ & _ & Ef & _ & _ & _ & Hh).
  exists z'. split; auto. destruct (effect_elems z k q l (base z') _ S P Ef) as [A B]. split; auto.
Qed.
Lemma unfix_final : forall z k q l, reachable z -> part_at z k q l -> in_model z q l ->
  exists z', run (PartUnfix k) z = (z', None) /\ same_values (base z) (base z') /\
    forall y p j, (y < next (st (base z)))%nat -> (has (base z') y p j <-> has (base z) y p j /\ ~ (p = Fixed /\ hit (base z) (of q) l y j)).
Proof.
  intros z k q l R P M. destruct (unfix_sl tinit tf tfinv z k q l (reach_S z R) P M) as (z' & E & _ & _ & (_ & Em & _) & Hh).
  exists z'. split; auto. split; [apply mem_values; auto|]. exact Hh.
Qed.
Lemma unconstrain_final : forall z k q l ts, reachable z -> part_at z k q l -> in_model z q l ->
  exists z', run (PartUnconstrain k ts) z = (z', None) /\ same_values (base z) (base z') /\
    forall y p j, (y < next (st (base z)))%nat -> (has (base z') y p j <-> has (base z) y p j /\ ~ ((ts = [] \/ In p ts) /\ hit (base z) (of q) l y j)).
Proof.
  intros z k q l ts R P M. destruct (unconstrain_sl tinit tf tfinv z k q l ts (reach_S z R) P M) as (z' & E & _ & _ & (_ & Em & _) & Hh).
  exists z'. split; auto. split; [apply mem_values; auto|]. exact Hh.
Qed.
Lemma constrain_final : forall z k q l n, reachable z -> part_at z k q l -> in_model z q l ->
  exists z', run (PartConstrain k n) z = (z', None) /\
    (shared q = true -> changed (base z) (base z') (of q) (fun j v => if zmem j l then tinit n v else v)) /\
    (shared q = false -> same_values (base z) (base z')) /\
    forall y p j, (y < next (st (base z)))%nat -> (has (base z') y p j <->
      (has (base z) y p j /\ ~ hit (base z) (of q) l y j) \/ (p = Tr n /\ hit (base z) (of q) l y j)).
Proof.
  intros z k q l n R P M. pose proof (reach_S z R) as S. destruct (constrain_sl tinit tf tfinv z k q l n S P M) as (z' & tr & E & _ & _ & (F1 & F2 & _) & _ & _ & _ & Hh).
  exists z'. split; auto. split; [|split; [intros Sh; apply mem_values; auto | exact Hh]].
  intros Sh. destruct (F1 Sh) as [A B]. split.
  - intros y j i Hy Ry Se. rewrite (A y j i Hy Ry Se). destruct (value (base z) y j) as [v|]; cbn [option_map]; [|auto]. rewrite moved_const. cbn [on_sel]. auto.
  - exact B.
Qed.
Lemma assign_final : forall z k q l g, reachable z -> part_at z k q l ->
  exists z', run (PartAssign k g) z = (z', None) /\
    (shared q = true -> exists F, on_part_elems l g F /\ changed (base z) (base z') (of q) F) /\
    (shared q = false -> same_values (base z) (base z')) /\
    forall y p j, has (base z') y p j <-> has (base z) y p j.
Proof.
  intros z k q l g R P. pose proof (reach_S z R) as S. destruct (assign_sl tinit tf tfinv z k q l g S P) as (z' & u & E & _ & _ & Ef & _ & Ei & _).
  exists z'. split; auto. destruct (effect_elems z k q l (base z') _ S P Ef) as [A B]. split; auto. split; auto. intros y p j. unfold has. rewrite Ei. tauto.
Qed.
(** Assigning to a part and fixing it update the objects above, once each, parts before wholes. *)
Lemma order_final : forall z k q l c, reachable z -> part_at z k q l -> awake (base z) (of q) ->
  (exists g, c = PartAssign k g) \/ (c = PartFix k None /\ in_model z q l) ->
  exists z' tr, run c z = (z', None) /\ bottom_up (base z) (base z') tr /\ forall y, In y tr <-> kind (st (base z)) y = KNode /\ part (st (base z)) y (of q).
Proof.
  intros z k q l c R P Aw Hc. pose proof (reach_S z R) as S. pose proof S as (H & _).
  assert (exists z' u, run c z = (z', None) /\ up (st (base z)) (of q) u /\ ran (nt (base z)) (chain (st (base z)) (nt (base z)) u) (nt (base z'))) as (z' & u & E & U & Rn).
  { destruct Hc as [[g ->]|[-> M]].
    - destruct (assign_sl tinit tf tfinv z k q l g S P) as (z' & u & E & _ & _ & _ & _ & _ & U & Rn). eauto.
    - destruct (fix_sl tinit tf tfinv z k q l None S P M) as (z' & tr & E & _ & _ & _ & _ & Rn & (u & U & ->) & _). eauto. }
  destruct (chain_order (base z) (nt (base z)) (of q) u H U Aw) as (Nd & Hin & Ho). exists z', (chain (st (base z)) (nt (base z)) u). split; auto. split; auto.
  split; [apply Rn | split; auto].
Qed.

(** *** C117 *)
Lemma slice_sorted : forall lo hi step n l, 0 < step -> positions (Slice lo hi step) n = Ok l -> increasing l.
Proof.
  intros lo hi step n l Hs E. cbn [positions] in E. injection E as <-. generalize (arange_increasing ((bound n hi - bound n lo + (step - 1)) / step)).
  generalize (arange ((bound n hi - bound n lo + (step - 1)) / step)) as a. induction a as [|k a IH]; cbn [map increasing]; auto. intros [A B]. split; auto.
  intros b Hb. apply in_map_iff in Hb as (k' & <- & Hk'). specialize (A k' Hk'). nia.
Qed.
Lemma nth_map_arange : forall (f : Z -> Z) n k, 0 <= k < n -> nth (Z.to_nat k) (map f (arange n)) 0 = f k.
Proof.
  intros f n k Hk. rewrite (nth_indep _ 0 (f 0)) by (rewrite map_length, arange_len; lia). rewrite map_nth, arange_nth by lia. f_equal. lia.
Qed.
Lemma take_final : forall z x ix z' e, reachable z -> (x < next (st (base z)))%nat -> is_leaf (st (base z)) x = true -> good ix ->
  run (Take x ix) z = (z', e) -> let n := size (st (base z)) x in base z' = base z /\
  match e with
  | Some e => z' = z /\ e = IndexError /\
      match ix with Slice _ _ _ => False | Items is => exists i, In i is /\ ~ - n <= i < n | Item i => ~ - n <= i < n end
  | None =>
      match ix with
      | Item _ => parts z' = parts z ++ [None]
      | _ => exists q l, parts z' = parts z ++ [Some q] /\ of q = x /\ (l <> [] -> current (base z') q l) /\
               (forall j, In j l <-> in_index n ix j) /\ match ix with Items is => l = map (from_end n) is | _ => increasing l end /\
               shared q = (match ix with Slice _ _ _ => true | _ => false end) /\ map Some (look z' q) = map (value (base z) x) l
      end
  end.
Proof.
  intros z x ix z' e R Hx Hl Hg E n. pose proof (reach_S z R) as (H & O & G). cbn [sexec] in E. unfold index_param in E.
  destruct (index_part_ok _ _ _ _ _ Hg E G) as (Eb & _ & _). split; auto.
  pose proof (mm_leaf _ _ (inv_mem _ H) x Hx Hl) as Ha. destruct (arr (mem (base z)) x) as [[[b o] m]|] eqn:Ea; [|contradiction]. clear Ha.
  assert (m = n) as ->. { destruct (mm_size _ _ (inv_mem _ H) x b o m Hx Ea) as [Q|[Q _]]; auto. unfold is_leaf in Hl. rewrite Q in Hl. discriminate. }
  assert (Hn : 0 <= n) by (apply size_nonneg; apply H).
  unfold itself in E. rewrite Ea in E. unfold index_part in E. cbn [cells] in E.
  assert (Lc : Z.of_nat (length (map (Z.add o) (arange n))) = n) by (rewrite map_length; apply arange_length; auto). rewrite Lc in E.
  destruct (positions ix n) as [l|er] eqn:Ep.
  2:{ injection E as <- <-. split; auto. apply positions_error. auto. }
  pose proof (positions_range ix n l Hn Hg Ep) as Rg. pose proof (positions_spec ix n l Hn Hg Ep) as Sp.
  assert (Cl : map (fun k => nth (Z.to_nat k) (map (Z.add o) (arange n)) 0) l = map (Z.add o) l).
  { apply map_ext_in. intros k Hk. apply nth_map_arange. auto. }
  assert (Vl : forall j, In j l -> value (base z) x j = Some (cell (mem (base z)) b (o + j))).
  { intros j Hj. specialize (Rg j Hj). unfold value. rewrite Ea. destruct (Z.leb_spec 0 j); [|lia]. destruct (Z.ltb_spec j n); [|lia]. auto. }
  destruct ix as [lo hi step|is|i]; injection E as <- <-; cbn [base parts].
  - eexists. exists l. split; [reflexivity|]. unfold view_of. cbn [of shared buf cells cur ppar ppos pon]. split; auto. rewrite Cl. split.
    { intros Ne. constructor; cbn [of shared buf cells cur ppar ppos pon]; auto. - rewrite map_length; auto. - intros _. exists o, n. auto. }
    split; auto. split; [eapply slice_sorted; eauto|]. split; auto.
    unfold look. cbn [shared buf cells base]. rewrite !map_map. apply map_ext_in. intros j Hj. rewrite Vl by auto. auto.
  - eexists. exists l. split; [reflexivity|]. cbn [of shared buf cells cur ppar ppos pon]. split; auto. split.
    { intros Ne. constructor; cbn [of shared buf cells cur ppar ppos pon]; auto. - rewrite arange_len. lia. - discriminate. }
    split; auto. split.
    { cbn [positions] in Ep. destruct (forallb _ is); [|discriminate]. injection Ep as <-. apply map_ext. intros i. apply wrap_from_end. }
    split; auto. unfold look at 1. cbn [shared buf cells base heap]. rewrite upd_eq.
    set (vals := look z _). assert (Ev : vals = map (fun j => cell (mem (base z)) b (o + j)) l).
    { unfold vals, look, view_of. cbn [shared buf cells]. rewrite Cl, map_map. auto. }
    assert (Lv : length vals = length l) by (rewrite Ev, map_length; auto).
    rewrite map_map. apply nth_ext with (d := None) (d' := None); [rewrite !map_length, arange_len; lia|].
    intros i Hi. rewrite map_length, arange_len in Hi.
    rewrite (nth_indep _ None (Some (nth (Z.to_nat 0) vals (heap z (nheap z) 0)))) by (rewrite map_length, arange_len; auto).
    change (Some (nth (Z.to_nat 0) vals (heap z (nheap z) 0))) with ((fun a => Some (nth (Z.to_nat a) vals (heap z (nheap z) a))) 0) at 1. rewrite map_nth, arange_nth by auto.
    rewrite Nat2Z.id in *. rewrite (nth_indep _ None (value (base z) x 0)) by (rewrite map_length; auto). rewrite map_nth.
    rewrite Vl by (apply nth_In; auto). f_equal. rewrite Ev. rewrite (nth_indep _ _ (cell (mem (base z)) b (o + 0))) by (rewrite map_length; auto).
    change (cell (mem (base z)) b (o + 0)) with ((fun j => cell (mem (base z)) b (o + j)) 0). rewrite map_nth. auto.
  - reflexivity.
Qed.
(** A part reads what the Param holds at its elements. *)
Lemma reads_final : forall z k q l, reachable z -> part_at z k q l -> shared q = true -> map Some (look z q) = map (value (base z) (of q)) l.
Proof.
  intros z k q l R P Sh. pose proof (reach_S z R) as S. pose proof (part_range z k q l S P) as Rg. destruct P as [_ C]. destruct S as (H & _).
  destruct (cu_mem _ _ _ C Sh) as (o & n & Ea & Ec).
  assert (n = size (st (base z)) (of q)) as ->. { destruct (mm_size _ _ (inv_mem _ H) (of q) _ o n (cu_obj _ _ _ C) Ea) as [Q|[Q _]]; auto. pose proof (cu_leaf _ _ _ C) as Hl. unfold is_leaf in Hl. rewrite Q in Hl. discriminate. }
  unfold look. rewrite Ec, !map_map. apply map_ext_in. intros j Hj. specialize (Rg j Hj). rewrite Sh. unfold value. rewrite Ea.
  destruct (Z.leb_spec 0 j); [|lia]. destruct (Z.ltb_spec j (size (st (base z)) (of q))); [|lia]. auto.
Qed.
Lemma stays_step : forall z c z' e k q l, SInv z -> slegal z c -> settled (pon q) z c -> run c z = (z', e) -> part_at z k q l -> part_at z' k q l.
Proof.
  intros z c z' e k q l S L T E P. destruct (sexec_ok tinit tf tfinv z c z' e S L E) as (_ & _ & Pk). pose proof P as [Ek C]. split; [apply Pk; auto|].
  pose proof S as (H & O & G). apply (same_current (base z)); auto. pose proof (cu_obj _ _ _ C) as Hx. pose proof (cu_leaf _ _ _ C) as Hl.
  destruct c as [c|y ix|k' ix|k' g|k' v|k'|k' n|k' ts]; cbn [slegal] in L.
  - cbn [sexec] in E. unfold on_base in E. destruct (exec tinit tf tfinv c (base z)) as [s1 e1] eqn:E1. injection E as <- <-. cbn [with_base base].
    apply (settled_base tinit tf tfinv (base z) c s1 e1 (of q) (pon q) H O L); [exact T | exact E1 | exact Hx | exact Hl | symmetry; apply (cu_on _ _ _ C)].
  - destruct L as (_ & _ & Hg). destruct (index_part_ok _ _ _ _ _ Hg E G) as (-> & _). apply st_same_for; auto.
  - cbn [sexec] in E. unfold on_part in E. destruct (nth_error (parts z) k') as [[q'|]|]; try (injection E as <- <-; apply st_same_for; auto; fail).
    destruct (index_part_ok _ _ _ _ _ L E G) as (-> & _). apply st_same_for; auto.
  - destruct L as (q' & l' & P'). destruct (assign_sl tinit tf tfinv z k' q' l' g S P') as (z2 & u & E2 & _ & _ & (_ & _ & Ea) & Es & _ & _ & Rn).
    rewrite E in E2. injection E2 as <- ->. apply st_same_for; [split; congruence|]. rewrite (ran_upd _ _ _ Rn). auto.
  - destruct L as (q' & l' & P' & M). destruct (fix_sl tinit tf tfinv z k' q' l' v S P' M) as (z2 & u & E2 & _ & _ & Ef & Es & Rn & _).
    rewrite E in E2. injection E2 as <- ->.
    assert (Ea : arr (mem (base z')) = arr (mem (base z))) by (destruct v; cbn [eff] in Ef; [destruct Ef as (_ & _ & Ef) | rewrite Ef]; auto).
    apply st_same_for; [split; congruence|]. rewrite (ran_upd _ _ _ Rn). auto.
  - destruct L as (q' & l' & P' & M). destruct (unfix_sl tinit tf tfinv z k' q' l' S P' M) as (z2 & E2 & _ & _ & (Es & Em & En) & _).
    rewrite E in E2. injection E2 as <- ->. apply st_same_for; [split|]; congruence.
  - destruct L as (q' & l' & P' & M). destruct (constrain_sl tinit tf tfinv z k' q' l' n S P' M) as (z2 & u & E2 & _ & _ & (_ & _ & Ea) & Es & Rn & _).
    rewrite E in E2. injection E2 as <- ->. apply st_same_for; [split; congruence|]. rewrite (ran_upd _ _ _ Rn). auto.
  - destruct L as (q' & l' & P' & M). destruct (unconstrain_sl tinit tf tfinv z k' q' l' ts S P' M) as (z2 & E2 & _ & _ & (Es & Em & En) & _).
    rewrite E in E2. injection E2 as <- ->. apply st_same_for; [split|]; congruence.
Qed.
Lemma stays_final : forall z z' k q l, reachable z -> part_at z k q l ->
  shist tinit tf tfinv (fun z c => slegal z c /\ settled (pon q) z c) z z' -> part_at z' k q l.
Proof.
  intros z z' k q l R P Hi. assert (S : SInv z) by (apply reach_S; auto). clear R. induction Hi as [z|z c z1 e z2 [L T] E Hi IH]; auto. apply IH.
  - eapply stays_step; eauto.
  - eapply sexec_ok; eauto.
Qed.

(** *** C118 *)
Lemma is_fixed_final : forall z k q l, reachable z -> part_at z k q l -> NoDup l -> (forall j, has (base z) (of q) Fixed j -> In j l) ->
  (part_is_fixed (base z) q = true <-> forall j, In j l -> has (base z) (of q) Fixed j).
Proof.
  intros z k q l R P Nd Sub. pose proof (reach_S z R) as S. pose proof (part_range z k q l S P) as Rg. destruct P as [_ C]. destruct S as (H & _).
  unfold part_is_fixed. rewrite (cu_len _ _ _ C). set (fx := cons_get (ios (base z)) (of q) Fixed) in *.
  assert (N1 : NoDup fx) by (apply (cons_get_nodup (st (base z)) (ios (base z)) (of q) Fixed (inv_st _ H) (inv_io _ H) (cu_obj _ _ _ C))).
  assert (HF : forall j, In j fx <-> has (base z) (of q) Fixed j) by (intros j; reflexivity).
  rewrite Z.eqb_eq. split.
  - intros E j Hj. apply HF. apply (NoDup_length_incl (l' := l) N1); [lia| |auto]. intros i Hi. apply Sub, HF. auto.
  - intros A. assert (length fx <= length l)%nat by (apply NoDup_incl_length; auto; intros i Hi; apply Sub, HF; auto).
    assert (length l <= length fx)%nat by (apply NoDup_incl_length; auto; intros i Hi; apply HF; auto). lia.
Qed.

(** *** C119 *)
Lemma number_final : forall z x i c, reachable z -> (x < next (st (base z)))%nat -> is_leaf (st (base z)) x = true ->
  - size (st (base z)) x <= i < size (st (base z)) x ->
  (let k := length (parts z) in In c [PartUnfix k] \/ (exists v, c = PartFix k v) \/ (exists n, c = PartConstrain k n) \/ (exists ts, c = PartUnconstrain k ts)) ->
  exists z', run (Take x (Item i)) z = (z', None) /\ run c z' = (z', Some AttributeError) /\ base z' = base z.
Proof.
  intros z x i c R Hx Hl Hi Hc. destruct (run (Take x (Item i)) z) as [z' e] eqn:E. destruct (take_final z x (Item i) z' e R Hx Hl Logic.I E) as [Eb Q].
  destruct e as [e|]; [destruct Q as (_ & _ & Q); contradiction|]. exists z'. split; auto. split; auto.
  assert (K : nth_error (parts z') (length (parts z)) = Some None) by (rewrite Q, nth_error_app2, Nat.sub_diag by lia; auto).
  cbn zeta in Hc. destruct Hc as [[<-|[]]|[[v ->]|[[n ->]|[ts ->]]]]; cbn [sexec]; unfold on_part; rewrite K; auto.
Qed.
Lemma with_base_same : forall z, with_base z (base z) = z.
Proof. intros []. auto. Qed.
Lemma empty_final : forall z x lo hi step, reachable z -> (x < next (st (base z)))%nat -> is_leaf (st (base z)) x = true -> 0 < step ->
  (forall j, ~ in_slice (size (st (base z)) x) lo hi step j) ->
  exists z', run (Take x (Slice lo hi step)) z = (z', None) /\ base z' = base z /\
    run (PartFix (length (parts z)) None) z' = (z', Some ValueError) /\ run (PartUnfix (length (parts z))) z' = (z', Some ValueError).
Proof.
  intros z x lo hi step R Hx Hl Hs Hno. destruct (run (Take x (Slice lo hi step)) z) as [z' e] eqn:E. pose proof E as E0.
  destruct (take_final z x (Slice lo hi step) z' e R Hx Hl Hs E) as [Eb Q].
  destruct e as [e|]; [destruct Q as (_ & _ & Q); contradiction|]. exists z'. split; auto. split; auto.
  destruct Q as (q & l & Ep & Eo & _ & Sp & _).
  assert (l = []) as ->. { destruct l as [|j l]; auto. exfalso. apply (Hno j). apply Sp. left; auto. }
  assert (K : nth_error (parts z') (length (parts z)) = Some (Some q)) by (rewrite Ep, nth_error_app2, Nat.sub_diag by lia; auto).
  assert (Pi : part_index (base z') q = Er ValueError).
  { pose proof (reach_S z R) as (H & _). unfold part_index. rewrite Eb, Eo.
    assert (Ec : cur q = Slice lo hi step).
    { cbn [sexec] in E0. unfold index_param, index_part in E0. cbn [positions] in E0. injection E0 as <-. cbn [parts] in Ep. apply app_inj_tail in Ep as [_ Ep]. injection Ep as <-. reflexivity. }
    rewrite Ec. destruct (positions (Slice lo hi step) (size (st (base z)) x)) as [l|er] eqn:Epp; [|cbn [positions] in Epp; discriminate].
    destruct l as [|j l]; auto. exfalso. apply (Hno j). apply (positions_spec (Slice lo hi step) _ _ (size_nonneg _ (inv_st _ H) x) Hs Epp). left; auto. }
  cbn [sexec]. unfold on_part. rewrite K. split.
  - unfold part_fix, sthen, on_base, andthen at 1, part_add, get. rewrite Pi. rewrite with_base_same. auto.
  - unfold on_base, part_unfix, get. rewrite Pi. rewrite with_base_same. auto.
Qed.
End Final.
