(** Proofs about gradients, part 2: the invariant. *)
From Coq Require Import List ZArith Bool Lia Arith.
From Verif Require Import NpModel NpProofs IndexOpsModel IndexOpsSpec IndexOpsProofs PzModel PzSpec PzTree PzStruct PzLink PzWalk PzMem PzIo PzInv PzConn PzFix PzLinkMem PzPres PzUnlink PzTraverse PzNotify PzNew PzCmd PzInit PzCons PzVal PzOpt PzRandom PzGet PzHist PzKeep PzOrder PzGrad CopyModel CopySpec CopyTree CopyDeep CopyJoin CopyConn CopyCall GmModel GmSpec GmInd.
Import ListNotations.
Open Scope Z_scope.

Section Proofs.
Context {V : Type}.
Implicit Types q : @gstate V.
Implicit Types s : @state V.
Variables tinit tf tfinv : nat -> V -> V.
Variable tgrad : nat -> V -> V -> V.

Lemma twin_inv : forall s g, Inv s -> meminv (st s) g -> Inv (twin s g).
Proof. intros s g [A B C D E F] M. constructor; auto. Qed.
Lemma twin_one : forall s g, one s -> one (twin s g).
Proof. intros s g O. exact O. Qed.
Lemma twin_legal : forall s g c, legal s c -> legal (twin s g) c.
Proof.
  intros s g c L. destruct c; auto. destruct L as [[A B C D E F G H]|L]; [left; constructor; auto | right; auto].
Qed.

Definition structural (c : @call V) : bool :=
  match c with NewParam _ | NewNode _ _ | Begin | End _ _ | Link _ _ _ | Unlink _ _ | Initialize _ | Copy _ => true | _ => false end.
Lemma ind_exec : forall c, structural c = true -> ind (exec tinit tf tfinv c).
Proof.
  intros c H. destruct c; try discriminate; cbn [exec].
  - intros s t Q. apply ind_new_leaf; auto.
  - apply ind_new_node.
  - apply ind_bare.
  - apply ind_end.
  - apply ind_link.
  - apply ind_unlink.
  - apply ind_init.
  - apply ind_copy.
Qed.
(** Other calls leave the links alone. *)
Lemma value_call_st : forall s c s' e, Inv s -> one s -> legal s c -> structural c = false -> exec tinit tf tfinv c s = (s', e) -> st s' = st s.
Proof.
  intros s c s' e H O L Hs E. destruct c; try discriminate; cbn [exec legal] in *.
  - destruct L as (Hx & Ls & Rx). destruct (constrain_ok tinit s x sel n H Hx Rx Ls) as (s2 & l & R & H' & _ & _ & Es & _). rewrite R in E. injection E as <- <-. auto.
  - destruct L as (Hx & Ls). destruct (unconstrain_ok s x sel ts H Hx Ls) as (s2 & R & H' & (Es & _) & _). rewrite R in E. injection E as <- <-. auto.
  - destruct L as (Hx & Ls). destruct (fix_ok s x sel H Hx Ls) as (s2 & l & R & H' & Es & _). rewrite R in E. injection E as <- <-. auto.
  - destruct L as (Hx & Ls). destruct (unfix_ok s x sel H Hx Ls) as (s2 & R & H' & (Es & _) & _). rewrite R in E. injection E as <- <-. auto.
  - destruct L as (Hx & Rx). destruct (assign_ok s x g H Hx Rx) as (s2 & l & R & H' & _ & _ & Es & _). rewrite R in E. injection E as <- <-. auto.
  - destruct L as (Hx & Rx). destruct (free_exists s x H Hx) as [ks Hks].
    destruct (set_opt_ok tf s x p ks H Hx Rx (O x Hx) Hks) as (s2 & l & F & R & H' & _ & _ & _ & Es & _). rewrite R in E. injection E as <- <-. auto.
  - destruct L as (Hx & Rx). destruct (get_any_ok tfinv s x H Hx Rx) as (l & s2 & R & H' & (Es & _)). rewrite R in E. injection E as <- <-. auto.
  - destruct (update_model_ok s x on H L) as (s2 & l & r & R & H' & _ & _ & Es & _). rewrite R in E. injection E as <- <-. auto.
  - destruct (trigger_full s x H L) as (s2 & l & R & (Es & _) & _). rewrite R in E. injection E as <- <-. auto.
  - destruct L as (Hx & Rx). destruct (free_exists s x H Hx) as [ks Hks].
    destruct (randomize_ok tf s x draw ks H Hx Rx (O x Hx) Hks) as (s2 & l & F & R & H' & _ & _ & _ & Es & _). rewrite R in E. injection E as <- <-. auto.
Qed.

(** The two runs of a call that builds or changes a hierarchy. *)
Lemma twin_run : forall s g c s' e, Inv s -> one s -> meminv (st s) g -> legal s c -> structural c = true -> exec tinit tf tfinv c s = (s', e) ->
  exists t', exec tinit tf tfinv c (twin s g) = (t', e) /\ Inv t' /\ st t' = st s'.
Proof.
  intros s g c s' e H O M L Hs E.
  destruct (exec_ok tinit tf tfinv s c H O L) as (s1 & e1 & E1 & H1 & _ & R1). rewrite E in E1. injection E1 as <- <-.
  destruct (exec_ok tinit tf tfinv (twin s g) c (twin_inv s g H M) (twin_one s g O) (twin_legal s g c L)) as (t1 & e2 & E2 & H2 & _ & R2).
  pose proof (ind_exec c Hs s (twin s g) (sim_twin s g)) as A. rewrite E, E2 in A. destruct R1 as [->|[-> R1]].
  - destruct R2 as [->|[-> R2]].
    + exists t1. split; auto. split; auto. destruct A as [A|[A|(A & _)]]; cbn in *; congruence.
    + rewrite (R2 s eq_refl) in E. injection E as <- ->. exists (twin s g). auto.
  - rewrite (R1 (twin s g) eq_refl) in E2. injection E2 as <- <-. exists (twin s g). split; [apply R1; auto|]. auto.
Qed.
Lemma meminv_cells : forall t (m : @memst V) (c : nat -> Z -> V), meminv t m -> meminv t (mkM c (nbuf m) (arr m)).
Proof. intros t m c [A B C D E]. constructor; auto. Qed.
Lemma grd_after_ok : forall s g c s' e, Inv s -> one s -> meminv (st s) g -> legal s c -> exec tinit tf tfinv c s = (s', e) ->
  meminv (st s') (grd_after tinit tf tfinv c s g).
Proof.
  intros s g c s' e H O M L E. destruct (structural c) eqn:Hs.
  - assert (Q : forall t', exec tinit tf tfinv c (twin s g) = (t', e) -> Inv t' /\ st t' = st s' -> meminv (st s') (mem t')).
    { intros t' _ [I <-]. apply I. }
    destruct (twin_run s g c s' e H O M L Hs E) as (t' & E' & I' & Es'). specialize (Q t' E' (conj I' Es')).
    destruct c; try discriminate; cbn [grd_after]; try (rewrite E'; exact Q).
    + cbn [exec] in *. set (vals' := read_arr g _). assert (Hl : length vals' = length vals).
      { unfold vals', read_arr. rewrite map_length, arange_len. lia. }
      destruct (new_leaf_ok (twin s g) vals' (twin_inv s g H M)) as (t2 & R & I2 & _). rewrite R. cbn [fst].
      pose proof (ind_new_leaf vals vals' s (twin s g) (eq_sym Hl) (sim_twin s g)) as A. rewrite E, R in A.
      destruct A as [A|[A|(A & _)]]; cbn in *; [|congruence|].
      * unfold new_leaf in E. injection E as _ <-. congruence.
      * rewrite A. apply I2.
    + rewrite E'. apply (meminv_cells (st s') (mem t')). exact Q.
  - rewrite (value_call_st s c s' e H O L Hs E). destruct c; try discriminate; exact M.
Qed.

(** ** Writing *)
Lemma write_all_eq : forall (g : @memst V) b o n f, 0 <= n ->
  write_all g (b, o, n) f = write_arr g (b, o, n) (map (fun e => f (fst e) (snd e)) (combine (arange (Z.of_nat (length (read_arr g (b, o, n))))) (read_arr g (b, o, n)))).
Proof. intros. unfold write_all. cbn [snd]. rewrite read_len by auto. auto. Qed.
Lemma twin_gradient : forall q x j, gradient q x j = value (twin (base q) (grd q)) x j.
Proof. reflexivity. Qed.

Lemma edit_ok : forall q x f, Inv (base q) -> meminv (st (base q)) (grd q) -> (x < next (st (base q)))%nat -> ready (st (base q)) x ->
  let q' := mkG (base q) (edit_gradient (st (base q)) x f (grd q)) in
  meminv (st (base q)) (grd q') /\ gchanged q q' x f /\ (gapart q -> gapart q').
Proof.
  intros q x f H M Hx Rx q'. destruct (write_mem (st (base q)) (grd q) x (inv_st _ H) M Hx Rx) as (m0 & b & o & Ep0 & _).
  destruct (store_ok (twin (base q) (grd q)) x (twin_inv _ _ H M) Hx Rx) as (m1 & a & Ep & Hlen & _ & St). cbn [twin st mem] in Ep.
  rewrite Ep in Ep0. injection Ep0 as -> ->. pose proof (size_nonneg (st (base q)) (inv_st _ H) x) as Hnn.
  unfold q', edit_gradient, gradient_array. rewrite Ep, write_all_eq by auto.
  set (vals := map _ _). destruct (St vals f) as (H' & C & D); [apply enum_len | intros k Hk; apply enum_map; auto|].
  split; [apply (inv_mem _ H')|]. split; [exact C | exact D].
Qed.
Lemma set_ok : forall q x f g' e, Inv (base q) -> meminv (st (base q)) (grd q) -> (x < next (st (base q)))%nat -> ready (st (base q)) x ->
  set_gradient (st (base q)) x f (grd q) = (g', e) ->
  meminv (st (base q)) g' /\ (gapart q -> gapart (mkG (base q) g')) /\
  (is_leaf (st (base q)) x = true \/ 0 < size (st (base q)) x -> e = None /\ gchanged q (mkG (base q) g') x f).
Proof.
  intros q x f g' e H M Hx Rx E. pose proof (edit_ok q x f H M Hx Rx) as Ed. cbn zeta in Ed. unfold edit_gradient, gradient_array in Ed.
  unfold set_gradient, gradient_array in E. destruct (is_leaf (st (base q)) x) eqn:El.
  - destruct (param_array (st (base q)) (grd q) x) as [g1 a]. injection E as <- <-. destruct Ed as (A & B & C). repeat (split; auto).
  - destruct (arr (grd q) x) as [[[b o] n]|] eqn:Ea; apply pair_equal_spec in E as [<- <-].
    + split; [apply write_meminv; auto|]. split; [auto|]. intros [|Hp]; [discriminate|]. split; auto.
      destruct (ready_al _ _ x (inv_st _ H) M Hx Rx) as (bx & ox & Ax). pose proof (al_self _ _ _ _ _ Ax Hp) as Ea'. rewrite Ea in Ea'. injection Ea' as -> -> ->.
      rewrite (pa_valid _ _ _ _ _ Ea) in Ed. apply Ed.
    + split; auto. split; auto. intros [|Hp]; [discriminate|]. exfalso.
      destruct (ready_al _ _ x (inv_st _ H) M Hx Rx) as (bx & ox & Ax). pose proof (al_self _ _ _ _ _ Ax Hp) as Ea'. congruence.
Qed.

(** ** What the optimizer takes *)
(** What becomes of the gradient of element [k] of [x]. *)
Definition factor s x (k : Z) (d : V) : V :=
  let (m1, pa) := param_array (st s) (mem s) x in
  through (fun n d => tgrad n (nth (Z.to_nat k) (read_arr m1 pa) d) d) k (cons_items (ios s) x) d.
Lemma factor_ok : forall s x k d, Inv s -> one s -> (x < next (st s))%nat -> ready (st s) x -> 0 <= k < size (st s) x ->
  chain_rule tgrad s x k d (factor s x k d).
Proof.
  intros s x k d H O Hx Rx Hk. destruct (value_some s x k H Hx Rx Hk) as [v Hv]. exists v. split; auto.
  destruct (store_ok s x H Hx Rx) as (m1 & a & Ep & _ & Hval & _). unfold factor. rewrite Ep.
  destruct (through_items s x k H Hx (O x Hx) (fun n d => tgrad n (nth (Z.to_nat k) (read_arr m1 a) d) d) d) as [Q1 Q2]. split; auto.
  intros n Hn. rewrite (Q1 n Hn). rewrite Hval in Hv by auto. rewrite (nth_error_nth _ _ _ Hv). auto.
Qed.
Lemma chain_rule_fun : forall s x k d r r', Inv s -> (x < next (st s))%nat -> chain_rule tgrad s x k d r -> chain_rule tgrad s x k d r' -> r = r'.
Proof.
  intros s x k d r r' H Hx (v & Hv & A & B) (v' & Hv' & A' & B'). assert (v' = v) by congruence. subst v'.
  destruct (tr_dec s x k H Hx) as [[n Hn]|Hn]; [rewrite (A n Hn), (A' n Hn); auto | rewrite (B Hn), (B' Hn); auto].
Qed.

Lemma take_ok : forall q x ks, Inv (base q) -> one (base q) -> meminv (st (base q)) (grd q) -> (x < next (st (base q)))%nat -> ready (st (base q)) x ->
  par (st (base q)) x = None -> free (base q) x ks ->
  exists q' r, take_gradient tgrad x q = Ok (q', r) /\ base q' = base q /\ meminv (st (base q)) (grd q') /\ (gapart q -> gapart q') /\
    gchanged q q' x (factor (base q) x) /\
    length (look q' r) = length ks /\ (forall i k, nth_error ks i = Some k -> nth_error (look q' r) i = option_map (factor (base q) x k) (gradient q x k)) /\
    ((exists j, has (base q) x Fixed j) -> exists l, r = inl l) /\
    ((forall j, ~ has (base q) x Fixed j) -> 0 < size (st (base q)) x -> exists b o, r = inr (b, o, size (st (base q)) x) /\ arr (grd q') x = Some (b, o, size (st (base q)) x)).
Proof.
  intros q x ks H O M Hx Rx Hp Hks. destruct q as [s g]. cbn [base grd] in *.
  destruct (store_ok (twin s g) x (twin_inv _ _ H M) Hx Rx) as (g1 & ga & Eg & Lg & Vg & St). cbn [twin st mem] in Eg, Lg, Vg, St.
  destruct (write_mem (st s) g x (inv_st _ H) M Hx Rx) as (g1' & b & o & Eg' & _). rewrite Eg in Eg'. injection Eg' as <- ->.
  pose proof (size_nonneg (st s) (inv_st _ H) x) as Hnn.
  unfold take_gradient, gradient_array. cbn [base grd]. rewrite Eg. destruct (param_array (st s) (mem s) x) as [m1 pa] eqn:Ep.
  set (G := fun n k d => tgrad n (nth (Z.to_nat k) (read_arr m1 pa) d) d).
  set (all := apply_all (cons_items (ios s) x) G (read_arr g1 (b, o, size (st s) x))).
  assert (Ln : length all = length (read_arr g1 (b, o, size (st s) x))) by apply (apply_all_nth V (cons_items (ios s) x) G _ 0%nat).
  assert (En : forall k, nth_error all k = option_map (factor s x (Z.of_nat k)) (nth_error (read_arr g1 (b, o, size (st s) x)) k)).
  { intros k. unfold all. rewrite (proj1 (apply_all_nth V _ G _ k)). destruct (nth_error _ k); auto. cbn [option_map]. f_equal. unfold factor. rewrite Ep. auto. }
  destruct (St all (factor s x)) as (H' & C & D); [exact Ln | intros k Hk; apply En |].
  set (q' := mkG s (write_arr g1 (b, o, size (st s) x) all)).
  assert (Rd : forall k, 0 <= k < size (st s) x -> nth_error all (Z.to_nat k) = option_map (factor s x k) (gradient (mkG s g) x k)).
  { intros k Hk. rewrite En, twin_gradient. cbn [base grd]. rewrite Vg by auto. rewrite Z2Nat.id by lia. auto. }
  assert (Rb : read_arr (write_arr g1 (b, o, size (st s) x) all) (b, o, size (st s) x) = all).
  { apply nth_ext'; [rewrite Ln; unfold read_arr; rewrite !map_length; auto|]. intros i a Hi.
    assert (Hl : (i < length all)%nat) by (apply nth_error_Some; congruence).
    assert (Hr : 0 <= Z.of_nat i < size (st s) x) by lia.
    rewrite (nth_error_nth' _ a) by (unfold read_arr; rewrite map_length, arange_len; lia). f_equal.
    rewrite <- (Nat2Z.id i), read_nth by lia. rewrite write_in by lia. replace (o + Z.of_nat i - o) with (Z.of_nat i) by lia. rewrite Nat2Z.id. apply nth_error_nth; auto. }
  pose proof (top_mask s x ks H Hx Rx Hp Hks) as Tm.
  assert (Hcom : base q' = s /\ meminv (st s) (grd q') /\ (gapart (mkG s g) -> gapart q') /\ gchanged (mkG s g) q' x (factor s x)).
  { split; auto. split; [apply (inv_mem _ H')|]. split; [exact D | exact C]. }
  destruct Hcom as (Q1 & Q2 & Q3 & Q4).
  destruct (nonempty (cons_get (ios s) x Fixed)) eqn:Ef.
  - destruct Tm as (mk & Em & Lm & Ek & Nm). rewrite Em. assert (Lq : length mk = length all) by lia. rewrite Lq, Nat.eqb_refl.
    exists q', (inl (select mk all)). split; auto. split; auto. split; auto. split; auto. split; auto. cbn [look]. split.
    { rewrite Ek. apply select_length. rewrite arange_len. lia. }
    split.
    { intros i k Hi. destruct (free_in s x ks i k Hks Hi) as [Hk _]. rewrite Ek in Hi. destruct (free_pos mk _ i k Lm Hi) as (_ & En' & Er).
      rewrite <- Er, select_nth by auto. apply Rd; auto. }
    split; [eauto|]. intros Hno. exfalso. apply fixed_nonempty in Ef as [j Hj]. apply (Hno j Hj).
  - destruct Tm as [Ek Nof]. exists q', (inr (b, o, size (st s) x)). split; auto. split; auto. split; auto. split; auto. split; auto. cbn [look grd]. unfold q' at 1 2. cbn [grd]. rewrite Rb. split.
    { rewrite Ek, arange_len. lia. }
    split.
    { intros i k Hi. destruct (free_in s x ks i k Hks Hi) as [Hk _]. rewrite Ek, arange_nth_error in Hi. destruct (Nat.ltb_spec i (Z.to_nat (size (st s) x))); [|discriminate].
      injection Hi as <-. rewrite <- Rd by auto. rewrite Nat2Z.id. auto. }
    split; [intros [j Hj]; exfalso; apply (Nof j Hj)|]. intros _ Hpos. exists b, o. split; auto. unfold q'. cbn [grd].
    destruct (pa_spec (st s) g x) as (g2 & b2 & o2 & E2 & A2 & _). { intros Hl. apply leaf_valid; auto. }
    rewrite Eg in E2. injection E2 as <- <- <-. exact A2.
Qed.

(** ** Histories *)
Record GInv q : Prop := mkGInv { gi_base : Inv (base q); gi_one : one (base q); gi_grd : meminv (st (base q)) (grd q) }.
Lemma apart_mem : forall s s', st s' = st s -> arr (mem s') = arr (mem s) -> apart s -> apart s'.
Proof. intros s s' E1 E2 A x y b ox oy. rewrite E1, E2. apply A. Qed.
Lemma gexec_ok : forall q c q' e, GInv q -> glegal q c -> gexec tinit tf tfinv tgrad c q = (q', e) -> GInv q' /\ (gcareful q c -> gapart q -> gapart q').
Proof.
  intros q c q' e [H O M] L E. destruct c as [c|x f|x f|x]; cbn [gexec glegal] in *.
  - destruct (exec tinit tf tfinv c (base q)) as [s' e'] eqn:E1. injection E as <- <-.
    destruct (exec_ok tinit tf tfinv (base q) c H O L) as (s1 & e1 & E1' & H1 & O1 & _). rewrite E1 in E1'. injection E1' as <- <-.
    split; [constructor; auto; cbn [base grd]; eapply grd_after_ok; eauto|]. intros [_ Cf] Ap.
    destruct (structural c) eqn:Hs.
    + destruct (twin_run (base q) (grd q) c s' e' H O M L Hs E1) as (t' & E' & I' & Es').
      assert (Cft : careful (twin (base q) (grd q)) c).
      { split; [apply twin_legal; auto|]. destruct c; auto. intros Lk. apply Cf. destruct Lk as [A1 A2 A3 A4 A5 A6 A7 A8]. constructor; auto. }
      assert (Ap' : apart t') by (apply (exec_apart tinit tf tfinv (twin (base q) (grd q)) c t' e'); auto; [apply twin_inv; auto]).
      assert (Q : forall m, arr m = arr (mem t') -> gapart (mkG s' m)).
      { intros m Em. unfold gapart. cbn [base grd]. rewrite Em, <- Es'. exact Ap'. }
      destruct c; try discriminate; cbn [grd_after]; try (apply Q; rewrite E'; reflexivity).
      cbn [exec] in *. set (vals' := read_arr (grd q) _). assert (Hl : length vals' = length vals).
      { unfold vals', read_arr. rewrite map_length, arange_len. lia. }
      destruct (new_leaf_ok (twin (base q) (grd q)) vals' (twin_inv _ _ H M)) as (t2 & R & I2 & G2 & _). rewrite R. cbn [fst].
      pose proof (ind_new_leaf vals vals' (base q) (twin (base q) (grd q)) (eq_sym Hl) (sim_twin _ _)) as A. rewrite E1, R in A.
      assert (He : e' = None) by (unfold new_leaf in E1; injection E1 as _ <-; auto). subst e'.
      destruct A as [A|[A|(A & _)]]; cbn in A; try congruence. unfold gapart. cbn [base grd]. rewrite A. apply (gr_disj _ _ G2). exact Ap.
    + pose proof (value_call_st (base q) c s' e' H O L Hs E1) as Es. unfold gapart in *. cbn [base grd] in *. rewrite Es. destruct c; try discriminate; exact Ap.
  - destruct L as [Hx Rx]. destruct (set_gradient (st (base q)) x f (grd q)) as [g' e'] eqn:E1. injection E as <- <-.
    destruct (set_ok q x f g' e' H M Hx Rx E1) as (A & B & _). split; [constructor; auto | auto].
  - destruct L as [Hx Rx]. injection E as <- <-. destruct (edit_ok q x f H M Hx Rx) as (A & _ & B). split; [constructor; auto | auto].
  - destruct L as (Hx & Rx & Hp). destruct (free_exists (base q) x H Hx) as [ks Hks].
    destruct (take_ok q x ks H O M Hx Rx Hp Hks) as (q1 & r & E1 & Eb & A & B & _). rewrite E1 in E. injection E as <- <-.
    split; [constructor; rewrite ?Eb; auto | auto].
Qed.
Lemma ginit_inv : forall junk junk', GInv (ginit junk junk').
Proof.
  intros. constructor; cbn [ginit base grd]; [apply init_inv | apply init_one |]. pose proof (inv_mem _ (@init_inv V junk')) as M. exact M.
Qed.
Lemma greach_inv : forall (ok : gstate -> gcall -> Prop) junk junk' q, (forall q c, ok q c -> glegal q c) -> greach tinit tf tfinv tgrad ok junk junk' q -> GInv q.
Proof. intros ok junk junk' q Hok R. induction R as [|q c q' e R IH L E]; [apply ginit_inv | eapply gexec_ok; eauto]. Qed.
Lemma greach_apart : forall junk junk' q, greach tinit tf tfinv tgrad gcareful junk junk' q -> gapart q.
Proof.
  intros junk junk' q R. induction R as [|q c q' e R IH L E].
  - intros x y b ox oy _ _ _ A. cbn in A. discriminate.
  - assert (G : GInv q) by (apply (greach_inv gcareful junk junk' q); auto; intros ? ? [Q _]; exact Q). apply (gexec_ok q c q' e G (proj1 L) E); auto.
Qed.
End Proofs.
