(** Proofs about in-place arithmetic on the parameters of a hierarchy. *)
From Coq Require Import List ZArith Bool Lia Arith.
From Verif Require Import NpModel NpProofs IndexOpsModel IndexOpsSpec IndexOpsProofs PzModel PzSpec PzTree PzStruct PzLink PzWalk PzMem PzIo PzInv PzConn PzFix PzLinkMem PzPres PzUnlink PzTraverse PzNotify PzNew PzCmd PzInit PzCons PzVal PzOpt PzRandom PzHist PzOrder PzGrad PzKeep PzFinal.
From Verif Require Import ConcatModel ConcatSpec ConcatProofs ConcatOps ConcatCalls ConcatCons ConcatFinal FlatModel FlatSpec FlatProofs FlatFinal FlatFind IpModel IpSpec.
Import ListNotations.
Open Scope Z_scope.

Section Ip.
Context {V : Type}.
Implicit Types s : @state V.
Variable op : V -> V -> V.

Lemma in_place_ok : forall (a v : list V), length v = 1%nat \/ length v = length a ->
  exists l, in_place op a v = Ok l /\ length l = length a /\
    forall k x, nth_error a k = Some x -> exists w, operand v (Z.of_nat k) w /\ nth_error l k = Some (op x w).
Proof.
  intros a v Hv. destruct v as [|y [|y2 v]].
  - destruct Hv as [Hv|Hv]; [discriminate|]. destruct a; [|discriminate]. exists []. split; auto. split; auto. intros [|k] x Hx; discriminate.
  - exists (map (fun x => op x y) a). split; auto. split; [apply map_length|]. intros k x Hx. exists y. split; [left; auto|]. apply (map_nth_error (fun x => op x y)). auto.
  - destruct Hv as [Hv|Hv]; [discriminate|]. set (w := y :: y2 :: v) in *. exists (map (fun e => op (fst e) (snd e)) (combine a w)). split.
    { unfold in_place, w. fold w. rewrite Hv, Nat.eqb_refl. auto. }
    split; [rewrite map_length, combine_length, Hv; apply Nat.min_id|]. intros k x Hx.
    assert (Hk : (k < length a)%nat) by (apply nth_error_Some; congruence). destruct (nth_error w k) as [b|] eqn:Eb; [|apply nth_error_None in Eb; lia].
    exists b. split; [right; split; [discriminate|]; rewrite Nat2Z.id; auto|]. rewrite (map_nth_error (fun e => op (fst e) (snd e)) k (combine a w) (d := (x, b))); auto.
    clear - Hx Eb. generalize dependent w. revert a Hx. induction k as [|k IH]; intros [|a0 a] Hx [|w0 w] Eb; cbn in *; try discriminate; [congruence | auto].
Qed.
Lemma in_place_bad : forall (a v : list V), length v <> 1%nat -> length v <> length a -> in_place op a v = Er ValueError.
Proof. intros a v H1 H2. unfold in_place. destruct v as [|y [|y2 v]]; [|contradiction H1; auto|]; destruct (Nat.eqb_spec (length (@nil V)) (length a)); try contradiction; auto; destruct (Nat.eqb_spec (length (y :: y2 :: v)) (length a)); try contradiction; auto. Qed.
Lemma given_all : forall n (l : list V) k v, length l = Z.to_nat n -> 0 <= k < n -> nth_error l (Z.to_nat k) = Some v -> given (arange n) l k v.
Proof.
  intros n l k v Hl Hk Hv. assert (Hi : In k (arange n)) by (apply arange_In; auto). assert (Nd : NoDup (arange n)) by (apply FinFun.Injective_map_NoDup; [intros a' b'; lia | apply seq_NoDup]).
  exists (arange k), (map Z.of_nat (seq (S (Z.to_nat k)) (Z.to_nat n - S (Z.to_nat k)))).
  assert (E : arange n = arange k ++ k :: map Z.of_nat (seq (S (Z.to_nat k)) (Z.to_nat n - S (Z.to_nat k)))).
  { unfold arange. replace (Z.to_nat n) with (Z.to_nat k + S (Z.to_nat n - S (Z.to_nat k)))%nat at 1 by lia. rewrite seq_app, map_app. cbn [seq map plus]. rewrite Z2Nat.id by lia. auto. }
  split; [exact E|]. split; [rewrite E in Nd; apply NoDup_remove_2 in Nd; intros Q; apply Nd, in_or_app; auto|].
  right. split; [rewrite Hl; symmetry; apply arange_len|]. rewrite arange_len. auto.
Qed.

(** Everything up to the updates. *)
Lemma inplace_base : forall s c v, Inv s -> apart s -> conc_of (st s) c -> cparams c <> [] -> length v = 1%nat \/ Z.of_nat (length v) = conc_size s c ->
  exists s1, (forall s2 e, triggers (cleft c) s1 = (s2, e) -> conc_inplace op v c s = (used c, s2, e)) /\
    Inv s1 /\ apart s1 /\ fix_ s1 = fix_ s /\ nt s1 = nt s /\ operated op v (cparams c) s s1.
Proof.
  intros s c v H Ap P Ne Hv. pose proof (inv_st _ H) as W. pose proof P as [Nd Hps]. pose proof (values_len s _ H Hps) as Hlen. fold (conc_values s c) (conc_size s c) in Hlen.
  destruct (in_place_ok (conc_values s c) v) as (l & El & Ll & Hl); [destruct Hv as [Hv|Hv]; [auto | right; lia]|].
  assert (Hs : sel_ok s c (arange (conc_size s c))) by (intros k Hk; apply arange_In in Hk; auto).
  assert (Hf : fits (arange (conc_size s c)) l) by (right; rewrite Ll, arange_len; lia).
  destruct (set_values_conc s c _ l H Ap P Ne Hs Hf) as (s1 & R1 & H1 & A1 & E1 & E2 & E3 & E4 & C1 & C2).
  exists s1. split.
  { intros s2 e R2. unfold conc_inplace, hstacked. destruct (cparams c) eqn:Ec; [contradiction|]. cbn [rbind]. rewrite El. apply R1. auto. }
  do 4 (split; auto). split; auto. split; auto. split.
  - intros k p i y j Po Hy Ry Se. pose proof (position_in _ _ _ _ _ Po) as [_ Hi]. pose proof (position_range _ _ _ _ _ W Po) as Hr. fold (conc_size s c) in Hr.
    pose proof (values_nth s (cparams c) k p i H Hps Po) as Ev. fold (conc_values s c) in Ev.
    assert (Lp : (p < next (st s))%nat /\ is_leaf (st s) p = true) by (apply Hps; eapply position_in; eauto).
    destruct (value_some s p i H (proj1 Lp) (or_introl (proj2 Lp)) Hi) as [a Ea].
    destruct (Hl (Z.to_nat k) a) as (w & Ow & Nw); [rewrite Ev; auto|]. rewrite Z2Nat.id in Ow by lia.
    exists a, w. split; auto. split.
    + rewrite <- Ea. apply (one_copy (st s) (mem s) p y j i W (inv_mem _ H)); auto; [apply Lp | left; apply Lp].
    + destruct (C2 k p i y j i) as [D _]; auto; [apply arange_In; auto | apply counted_front; [lia|]; intros i' Hi'; apply arange_In; destruct Po as (l1 & l2 & _ & _ & ->); pose proof (ConcatProofs.sum_nonneg (st s) l1 W); lia|].
      apply D. replace (k - i + i) with k by lia. apply given_all; auto. rewrite Ll. lia.
  - intros y j Hy Ry Hj Hc. apply C1; auto. intros (k & p & i & _ & Po & Se). apply Hc. exists p, i. split; auto. eapply position_in; eauto.
Qed.

(** On a Param, and on the result of a regular expression. *)
Lemma param_ok : forall s y w, Inv s -> apart s -> (y < next (st s))%nat -> is_leaf (st s) y = true ->
  exists s' l, param_inplace op [w] y s = (s', None) /\ Inv s' /\ apart s' /\ all_changed (fun a => op a w) s s' (eq y) /\ ran (nt s) l (nt s') /\ updates (nt s') = updates (nt s) /\
    (quiet s y -> forall q z p, y = z -> part (st s) z p -> is_leaf (st s) p = true -> part (st s) q z -> kind (st s) q = KNode -> In q l).
Proof.
  intros s y w H A Hy Ly. destruct (leaf_vals_ok s y H Hy Ly) as [Ll Lv].
  set (g := fun (k : Z) (v : V) => nth (Z.to_nat k) (map (fun x => op x w) (leaf_vals s y)) v).
  destruct (assign_ok s y g H Hy (or_introl Ly)) as (s' & l & E & H' & [C1 C2] & A' & E1 & E2 & E3 & Rn & Q).
  exists s', l. split; [unfold param_inplace, in_place; exact E|]. split; auto. split; auto. split; [|split; [auto|split]].
  - split; auto. split; auto. intros z j Hz Rz Hj. split.
    + intros (y' & k & <- & Se). rewrite (C1 z j k Hz Rz Se). destruct (value_some s z j H Hz Rz Hj) as [a Ea]. exists a. split; auto. rewrite Ea. cbn [option_map]. f_equal. unfold g.
      pose proof Se as (_ & Hk & _). assert (Ek : nth_error (leaf_vals s y) (Z.to_nat k) = Some a).
      { rewrite <- (Lv k Hk), <- Ea. symmetry. apply (one_copy (st s) (mem s) y z j k (inv_st _ H) (inv_mem _ H)); auto. left; auto. }
      apply nth_error_nth. apply (map_nth_error (fun x => op x w)). auto.
    + intros Hn. apply C2; auto. intros k Se. apply Hn. exists y, k. auto.
  - apply Rn.
  - intros [On Fin] q z p <- Pp Hl Pq Kq. rewrite Ly in Q. destruct Q as (u & Hu & ->). destruct (chain_order s (nt s) y u H Hu) as (_ & Hc & _); [intros w' Hw; apply On; exists w'; split; [auto | apply above_refl]|]. apply Hc. auto.
Qed.
Lemma same_ok : forall s y, Inv s -> apart s -> (y < next (st s))%nat -> is_leaf (st s) y = true ->
  exists s' l, assign y (fun _ w => w) s = (s', None) /\ st s' = st s /\ ios s' = ios s /\ ran (nt s) l (nt s') /\
    forall z j, (z < next (st s))%nat -> ready (st s) z -> 0 <= j < size (st s) z -> value s' z j = value s z j.
Proof.
  intros s y H A Hy Ly. destruct (assign_ok s y (fun _ w => w) H Hy (or_introl Ly)) as (s' & l & E & H' & [C1 C2] & A' & E1 & E2 & E3 & Rn & Q).
  exists s', l. do 4 (split; auto). intros z j Hz Rz Hj. destruct (same_elem_dec (st s) z j y (inv_st _ H) Hj) as [[k Se]|Hn].
  - rewrite (C1 z j k Hz Rz Se). destruct (value s z j); auto.
  - apply C2; auto.
Qed.
Lemma conc_many : forall s xs w, Inv s -> apart s -> (forall x, In x xs -> (x < next (st s))%nat) -> let c := concatenation (st s) xs in cparams c <> [] ->
  exists s', conc_inplace op [w] c s = (used c, s', None) /\ all_changed (fun a => op a w) s s' (fun z => In z xs) /\
    ((forall x, In x xs -> quiet s x) -> all_updated s s' (fun z => In z xs)).
Proof.
  intros s xs w H A Hx c Ne. pose proof (inv_st _ H) as W. destruct (conc_params_ok (st s) xs W) as [Nd Hp].
  assert (Pc : conc_of (st s) c). { split; auto. intros p Q. apply Hp in Q as [Hl (x & Hi & Ha)]. split; auto. eapply above_lt'; eauto. }
  destruct (inplace_base s c [w] H A Pc Ne (or_introl eq_refl)) as (s1 & R1 & H1 & A1 & E3 & E4 & (E1 & E2 & C2 & C1)).
  assert (Hit : forall y j, inside (st s) (fun z => In z xs) y j -> exists k p i, position_of (st s) (cparams c) k p i /\ same_elem (st s) y j p i).
  { intros y j (z & k & Hz & Se). pose proof Se as (_ & Hk & _). destruct (cover_elem (st s) z k W Hk) as (p & i & Hl & Hzp & Sp).
    assert (In p (cparams c)) by (apply Hp; split; auto; exists z; auto). apply in_split in H0 as (l1 & l2 & El).
    exists (sum_sizes (st s) l1 + i), p, i. split; [exists l1, l2; split; auto; split; [apply Sp | auto]|]. eapply same_elem_trans; eauto. apply same_elem_sym; auto. }
  assert (Val : forall s2, st s2 = st s1 -> ios s2 = ios s1 -> mem s2 = mem s1 -> all_changed (fun a => op a w) s s2 (fun z => In z xs)).
  { intros s2 B1 B2 B4. assert (Ev : forall y j, value s2 y j = value s1 y j) by (intros; unfold value; rewrite B4; auto).
    split; [congruence|]. split; [congruence|]. intros y j Hy Ry Hj. rewrite Ev. split.
    - intros Hin. destruct (Hit y j Hin) as (k & p & i & Po & Se). destruct (C2 k p i y j Po Hy Ry Se) as (a & w' & Ow & Va & Vb). exists a. split; auto. rewrite Vb.
      destruct Ow as [Ow|[Ow _]]; [congruence | contradiction Ow; auto].
    - intros Hn. apply C1; auto. intros (p & i & Hi & Se). apply Hn. apply Hp in Hi as [Hl (z & Hz & Hzp)].
      destruct Hzp as (o & n & B). exists z, (i + o). split; auto. pose proof Se as (_ & Hi & _).
      eapply same_elem_trans; eauto. apply (below_elem (st s) z p o n i); auto. }
  assert (Rt : triggers (cleft c) s1 = triggers (conc_parents (st s) (cparams c)) s1) by reflexivity.
  destruct (triggers_any (cleft c) s1 H1) as (s2 & l & R2 & (B1 & B2 & B3 & B4 & B5)).
  { rewrite E1. intros q Hq. apply (conc_parents_ok (st s) _ W) in Hq. eapply over_lt; eauto. }
  exists s2. split; [apply R1; auto|]. split; [apply Val; auto|]. intros Qu.
  assert (Ot : forall p y, In p (cparams c) -> together (st s) p y -> updates (nt s) y = true /\ in_init (st s) y = false).
  { intros p y Hi T. apply Hp in Hi as [_ (z & Hz & Hzp)]. destruct (Qu z Hz) as [Q1 Q2]. assert (Tz : together (st s) z y) by (apply (together_trans s z p y); auto; exists z; split; [apply above_refl | auto]). auto. }
  destruct (update_first s1 (cparams c) H1) as (s3 & l3 & R3 & O3 & I3 & _).
  { rewrite E1. intros q (p & Hi & Pq & _). apply (Ot p q Hi). exists q. split; [auto | apply above_refl]. }
  { rewrite E1, E4. intros p y Hi T. apply (Ot p y Hi T). }
  rewrite E1 in R3. rewrite Rt, R3 in R2. injection R2 as <-. exists l3. destruct O3 as (_ & _ & _ & _ & (_ & Tr & _)). rewrite Tr, E4. split; auto.
  intros q z p Hz Hzp Hl Hqz Kq. apply I3. rewrite E1. exists p. split; [apply Hp; split; auto; exists z; auto|]. split; [eapply above_trans; eauto|]. intros ->. unfold is_leaf in Hl. rewrite Kq in Hl. discriminate.
Qed.
Lemma looks_changed : forall s s1 s2 P Q f, looks s s1 -> (forall z, P z <-> Q z) -> all_changed f s1 s2 P -> all_changed f s s2 Q.
Proof.
  intros s s1 s2 P Q f (E1 & E2 & E3 & E4 & E5) Eq (A1 & A2 & A3). split; [congruence|]. split; [congruence|]. rewrite E1 in A3. intros y j Hy Ry Hj. destruct (A3 y j Hy Ry Hj) as [B1 B2].
  assert (Ei : inside (st s) P y j <-> inside (st s) Q y j) by (split; intros (z & k & Hz & Se); exists z, k; split; auto; apply Eq; auto). rewrite Ei in B1, B2.
  assert (Ev : value s1 y j = value s y j) by (unfold value; rewrite E4; auto). rewrite Ev in B1, B2. auto.
Qed.
Variables tinit tf tfinv : nat -> V -> V.
Variable junk : nat -> Z -> V.
Notation creachable := (creach tinit tf tfinv junk).
Lemma item_ok : forall s nm mt w r x, creachable s -> (x < next (st s))%nat -> inited (st s) x = Some true -> named (st s) nm x -> top (st s) r x ->
  (exists p, matches (st s) nm mt r x p /\ is_leaf (st s) p = true) ->
  exists s', item_inplace op nm mt [w] x s = (s', None) /\ all_changed (fun a => op a w) s s' (matches (st s) nm mt r x) /\ (quiet s x -> all_updated s s' (matches (st s) nm mt r x)).
Proof.
  intros s nm mt w r x R Hx Ix Nm Tp (p & Mp & Lp). destruct (creach_ok _ _ _ _ _ R) as (H & _ & A). pose proof (inv_st _ H) as W.
  destruct (grep_ok s nm mt r x H Nm Tp) as (s1 & l & l0 & G & Lk & Po & Nd & Hl0 & K). pose proof (looks_inv _ _ Lk H) as H1. pose proof (looks_apart _ _ Lk A) as A1.
  assert (Hl : forall y, In y l <-> matches (st s) nm mt r x y).
  { intros y. rewrite (kept_in _ _ _ _ K y), Hl0. split; [tauto|]. intros M. split; auto. apply M. }
  assert (Es : st s1 = st s) by apply Lk.
  assert (Lt : forall y, In y l -> (y < next (st s1))%nat) by (intros y Hy; apply Hl in Hy as (Hp & _); rewrite Es; eapply above_lt'; eauto).
  assert (Qx : quiet s x -> forall y, In y l -> quiet s1 y).
  { intros [Q1 Q2] y Hy. apply (looks_quiet _ _ _ Lk). apply Hl in Hy as (Hp & _). assert (T : together (st s) x y) by (exists x; split; [apply above_refl | auto]).
    split; intros z Hz; [apply Q1 | apply Q2]; apply (together_trans s x y z); auto. }
  unfold item_inplace, getitem at 1. rewrite G. destruct l as [|y [|y2 l]].
  - exfalso. apply Hl in Mp. destruct Mp.
  - assert (y = p) as -> by (apply Hl in Mp; destruct Mp as [->|[]]; auto). rewrite Es, Lp.
    assert (Eq : forall z, p = z <-> matches (st s) nm mt r x z) by (intros z; rewrite <- Hl; cbn; tauto).
    destruct (param_ok s1 p w H1 A1 (Lt p (or_introl eq_refl))) as (s2 & l1 & R2 & H2 & A2 & Ch & Rn & Up & Hup); [rewrite Es; auto|].
    rewrite R2. pose proof Ch as (S2 & I2 & _). rewrite S2, Es, Ix.
    destruct (grep_ok s2 nm mt r x H2) as (s3 & l' & l0' & G3 & Lk3 & _ & _ & Hl0' & K3); [rewrite S2, Es; auto | rewrite S2, Es; auto|].
    rewrite S2, Es in Hl0', K3.
    assert (Hl' : forall z, In z l' <-> z = p).
    { intros z. rewrite (kept_in _ _ _ _ K3 z), Hl0', <- Eq. split; [intros [_ ->]; auto|]. intros ->. split; auto. apply Mp. }
    pose proof (looks_inv _ _ Lk3 H2) as H3. pose proof (looks_apart _ _ Lk3 A2) as A3. assert (S3 : st s3 = st s) by (rewrite <- Es, <- S2; apply Lk3).
    assert (Tr3 : trace (nt s3) = trace (nt s2)) by apply Lk3.
    assert (Tr1 : trace (nt s1) = trace (nt s)) by apply Lk.
    assert (Tr2 : trace (nt s2) = rev l1 ++ trace (nt s1)) by apply Rn.
    assert (Fin : forall s4 l2, st s4 = st s3 -> ios s4 = ios s3 -> trace (nt s4) = rev l2 ++ trace (nt s3) ->
      (forall z j, (z < next (st s3))%nat -> ready (st s3) z -> 0 <= j < size (st s3) z -> value s4 z j = value s3 z j) ->
      all_changed (fun a => op a w) s s4 (matches (st s) nm mt r x) /\ (quiet s x -> all_updated s s4 (matches (st s) nm mt r x))).
    { intros s4 l2 S4 I4 T4 V4. rewrite S3 in V4. destruct (looks_changed _ _ _ _ _ _ Lk Eq Ch) as (_ & _ & Ch'). destruct Lk3 as (L1 & L2 & _ & L4 & _). destruct Lk as (M1 & M2 & _).
      split.
      - split; [congruence|]. split; [congruence|]. intros z j Hz Rz Hj. rewrite (V4 z j Hz Rz Hj). assert (value s3 z j = value s2 z j) as -> by (unfold value; rewrite L4; auto). apply Ch'; auto.
      - intros Qs. exists (l1 ++ l2). split; [rewrite T4, Tr3, Tr2, Tr1, rev_app_distr, app_assoc; auto|]. intros q z p' Hz Hp' Lp' Hq Kq. apply in_or_app. left.
        apply (Hup (Qx Qs p (or_introl eq_refl)) q z p'); rewrite ?Es; auto. apply Eq. auto. }
    unfold getitem. rewrite G3. destruct l' as [|z l'']; [exfalso; destruct (proj2 (Hl' p) eq_refl)|]. assert (z = p) as -> by (apply Hl'; left; auto).
    destruct l'' as [|z2 l''].
    + destruct (same_ok s3 p H3 A3) as (s4 & l2 & R4 & S4 & I4 & Rn4 & V4); [rewrite S3, <- Es; apply Lt; left; auto | rewrite S3; auto|].
      exists s4. unfold lift_py. rewrite R4. split; auto. apply (Fin s4 l2); auto. apply Rn4.
    + exists s3. split; auto. apply (Fin s3 []); auto.
  - set (xs := y :: y2 :: l) in *. assert (Ne : cparams (concatenation (st s1) xs) <> []).
    { apply Hl in Mp. destruct (conc_params_ok (st s1) xs (inv_st _ H1)) as [_ Q]. rewrite Es in Q. assert (M : In p (cparams (concatenation (st s) xs))) by (apply Q; split; auto; exists p; split; auto; apply above_refl). rewrite Es. intros E0. rewrite E0 in M. destruct M. }
    destruct (conc_many s1 xs w H1 A1 Lt Ne) as (s2 & R2 & C2 & U2). exists s2. rewrite R2. pose proof C2 as (S2 & _). rewrite S2, Es, Ix. split; auto.
    split; [exact (looks_changed _ _ _ _ _ _ Lk Hl C2)|]. intros Qs. exact (looks_updated _ _ _ _ _ Lk Hl (U2 (Qx Qs))).
Qed.
Lemma item_changes : forall s nm mt w r x, creachable s -> (x < next (st s))%nat -> inited (st s) x = Some true -> named (st s) nm x -> top (st s) r x ->
  (exists p, matches (st s) nm mt r x p /\ is_leaf (st s) p = true) ->
  exists s', item_inplace op nm mt [w] x s = (s', None) /\ all_changed (fun a => op a w) s s' (matches (st s) nm mt r x).
Proof. intros s nm mt w r x R Hx Ix Nm Tp Ex. destruct (item_ok s nm mt w r x R Hx Ix Nm Tp Ex) as (s' & E & C & _). eauto. Qed.
Lemma item_updates : forall s nm mt w r x, creachable s -> (x < next (st s))%nat -> inited (st s) x = Some true -> named (st s) nm x -> top (st s) r x ->
  (exists p, matches (st s) nm mt r x p /\ is_leaf (st s) p = true) -> quiet s x ->
  exists s', item_inplace op nm mt [w] x s = (s', None) /\ all_updated s s' (matches (st s) nm mt r x).
Proof. intros s nm mt w r x R Hx Ix Nm Tp Ex Q. destruct (item_ok s nm mt w r x R Hx Ix Nm Tp Ex) as (s' & E & _ & U). eauto. Qed.
Lemma conc_final : forall s c v, creachable s -> conc_of (st s) c -> cparams c <> [] -> (forall q, In q (cleft c) -> (q < next (st s))%nat) ->
  length v = 1%nat \/ Z.of_nat (length v) = conc_size s c ->
  exists s', conc_inplace op v c s = (used c, s', None) /\ operated op v (cparams c) s s'.
Proof.
  intros s c v R P Ne Lf Hv. destruct (creach_ok _ _ _ _ _ R) as (H & O & A).
  destruct (inplace_base s c v H A P Ne Hv) as (s1 & R1 & H1 & A1 & E3 & E4 & (E1 & E2 & C2 & C1)).
  destruct (triggers_any (cleft c) s1 H1) as (s2 & l & R2 & B1 & B2 & B3 & B4 & _); [rewrite E1; auto|].
  assert (Ev : forall y j, value s2 y j = value s1 y j) by (intros; unfold value; rewrite B4; auto).
  exists s2. split; auto. split; [congruence|]. split; [congruence|]. split; [|intros; rewrite Ev; auto].
  intros k p i y j Po Hy Ry Se. destruct (C2 k p i y j Po Hy Ry Se) as (a & w & Ow & Va & Vb). exists a, w. rewrite Ev. auto.
Qed.
Lemma conc_rejected : forall s c v, creachable s -> conc_of (st s) c -> length v <> 1%nat -> Z.of_nat (length v) <> conc_size s c -> conc_inplace op v c s = (c, s, Some ValueError).
Proof.
  intros s c v R [Nd Hps] H1 H2. destruct (creach_ok _ _ _ _ _ R) as (H & _). pose proof (values_len s _ H Hps) as Hlen. fold (conc_values s c) (conc_size s c) in Hlen.
  unfold conc_inplace, hstacked. destruct (cparams c) eqn:Ec; auto. cbn [rbind]. rewrite in_place_bad; auto. intros E. rewrite E in H2. contradiction.
Qed.
Lemma stmt_ok : forall s c v, creachable s -> conc_of (st s) c -> cparams c <> [] -> (forall q, In q (cleft c) -> (q < next (st s))%nat) ->
  length v = 1%nat \/ Z.of_nat (length v) = conc_size s c ->
  exists s', stmt_inplace op v (BConc c) s = (BNone, s', None) /\ operated op v (cparams c) s s' /\ forall u s2, stmt_inplace op u BNone s2 = (BNone, s2, Some TypeError).
Proof. intros s c v R P Ne Lf Hv. destruct (conc_final s c v R P Ne Lf Hv) as (s' & E & O). exists s'. unfold stmt_inplace. rewrite E. auto. Qed.
(** What is refused, and operands for the elements of a Param. *)
Lemma stmt_rejected : forall s c v, creachable s -> conc_of (st s) c -> length v <> 1%nat -> Z.of_nat (length v) <> conc_size s c -> stmt_inplace op v (BConc c) s = (BConc c, s, Some ValueError).
Proof. intros s c v R P H1 H2. unfold stmt_inplace. rewrite (conc_rejected s c v R P H1 H2). auto. Qed.
Lemma param_rejected : forall s y v, creachable s -> (y < next (st s))%nat -> is_leaf (st s) y = true -> length v <> 1%nat -> Z.of_nat (length v) <> size (st s) y ->
  param_inplace op v y s = (s, Some ValueError).
Proof.
  intros s y v R Hy Ly H1 H2. destruct (creach_ok _ _ _ _ _ R) as (H & _). destruct (leaf_vals_ok s y H Hy Ly) as [Ll _].
  unfold param_inplace. cbv zeta. rewrite in_place_bad; auto. intros E. apply H2. rewrite E. auto.
Qed.
Lemma param_operated : forall s y v, creachable s -> (y < next (st s))%nat -> is_leaf (st s) y = true -> length v = 1%nat \/ Z.of_nat (length v) = size (st s) y ->
  exists s', param_inplace op v y s = (s', None) /\ operated op v [y] s s'.
Proof.
  intros s y v R Hy Ly Hv. destruct (creach_ok _ _ _ _ _ R) as (H & _ & A). pose proof (inv_st _ H) as W. destruct (leaf_vals_ok s y H Hy Ly) as [Ll Lv].
  destruct (in_place_ok (leaf_vals s y) v) as (l & El & Len & Hl); [destruct Hv as [Hv|Hv]; [auto | right; lia]|].
  destruct (assign_ok s y (fun k w => nth (Z.to_nat k) l w) H Hy (or_introl Ly)) as (s' & tr & E & _ & [C1 C2] & _ & E1 & E2 & _).
  exists s'. split; [unfold param_inplace; cbv zeta; rewrite El; exact E|]. split; auto. split; auto. split.
  - intros k p i z j (l1 & l2 & Es & Hi & Ek) Hz Rz Se.
    assert (Hyp : l1 = [] /\ p = y) by (destruct l1 as [|q [|q2 l1]]; cbn in Es; injection Es as <-; try discriminate; auto). destruct Hyp as [-> ->]. cbn in Ek. assert (Eki : k = i) by lia. clear Ek. subst k.
    destruct (value_some s y i H Hy (or_introl Ly) Hi) as [a Ea]. assert (Ev : value s z j = Some a) by (rewrite <- Ea; apply (one_copy (st s) (mem s) y z j i W (inv_mem _ H)); auto; left; auto).
    destruct (Hl (Z.to_nat i) a) as (w & Ow & Nw); [rewrite <- (Lv i Hi); auto|]. rewrite Z2Nat.id in Ow by lia. exists a, w. split; auto. split; auto.
    rewrite (C1 z j i Hz Rz Se), Ev. cbn [option_map]. f_equal. apply nth_error_nth. auto.
  - intros z j Hz Rz Hj Hc. apply C2; auto. intros k Se. apply Hc. exists y, k. split; [left; auto | auto].
Qed.
Lemma item_rejected : forall s nm mt v r x, creachable s -> (x < next (st s))%nat -> named (st s) nm x -> top (st s) r x ->
  (exists p, matches (st s) nm mt r x p /\ is_leaf (st s) p = true) -> length v <> 1%nat ->
  (forall ps, NoDup ps -> (forall p, In p ps <-> is_leaf (st s) p = true /\ exists z, matches (st s) nm mt r x z /\ part (st s) z p) -> Z.of_nat (length v) <> sum_sizes (st s) ps) ->
  exists s', item_inplace op nm mt v x s = (s', Some (Py ValueError)) /\ untouched s s'.
Proof.
  intros s nm mt v r x R Hx Nm Tp (p & Mp & Lp) Hv Hs. destruct (creach_ok _ _ _ _ _ R) as (H & _ & A). pose proof (inv_st _ H) as W.
  destruct (grep_ok s nm mt r x H Nm Tp) as (s1 & l & l0 & G & Lk & Po & Nd & Hl0 & K). pose proof (looks_inv _ _ Lk H) as H1.
  assert (Hl : forall y, In y l <-> matches (st s) nm mt r x y).
  { intros y. rewrite (kept_in _ _ _ _ K y), Hl0. split; [tauto|]. intros M. split; auto. apply M. }
  assert (Es : st s1 = st s) by apply Lk.
  assert (Lt : forall y, In y l -> (y < next (st s1))%nat) by (intros y Hy; apply Hl in Hy as (Hp & _); rewrite Es; eapply above_lt'; eauto).
  exists s1. split; [|apply looks_untouched; auto]. unfold item_inplace, getitem at 1. rewrite G. destruct l as [|y [|y2 l]].
  - exfalso. apply Hl in Mp. destruct Mp.
  - assert (y = p) as -> by (apply Hl in Mp; destruct Mp as [->|[]]; auto). rewrite Es, Lp. destruct (leaf_vals_ok s1 p H1 (Lt p (or_introl eq_refl))) as [Ll _]; [rewrite Es; auto|].
    unfold param_inplace. cbv zeta. rewrite in_place_bad; auto. intros E. apply (Hs [p]).
    + constructor; [intros [] | constructor].
    + intros q. split; [intros [<-|[]]; split; auto; exists p; split; [auto | apply above_refl]|]. intros [Lq (z & Mz & Pz)]. apply Hl in Mz. destruct Mz as [<-|[]]. left. apply (leaf_above (st s)); auto.
    + cbn [sum_sizes]. rewrite E, Es in *. cbn. lia.
  - set (xs := y :: y2 :: l) in *. destruct (conc_params_ok (st s1) xs (inv_st _ H1)) as [Nc Q]. rewrite Es in Q, Nc.
    assert (Hc : forall q, In q (cparams (concatenation (st s1) xs)) -> (q < next (st s1))%nat /\ is_leaf (st s1) q = true).
    { intros q Hq. cbn in Hq. rewrite Es in Hq. apply Q in Hq as [Lq (z & Hz & Pz)]. rewrite Es. split; auto. specialize (Lt z Hz). rewrite Es in Lt. eapply above_lt'; eauto. }
    pose proof (values_len s1 _ H1 Hc) as Hlen. unfold conc_inplace, hstacked. destruct (cparams (concatenation (st s1) xs)) eqn:Ec; auto.
    cbn [rbind]. unfold conc_values. rewrite Ec. rewrite in_place_bad; auto. intros E. rewrite <- E, <- Ec, Es in Hlen. apply (Hs _ Nc); auto.
    intros q. rewrite Q. split; intros [Lq (z & Hz & Pz)]; (split; auto; exists z; split; auto; apply Hl; auto).
Qed.
Lemma all_refused : forall s v, creachable s -> length v <> 1%nat ->
  (forall y, (y < next (st s))%nat -> is_leaf (st s) y = true -> Z.of_nat (length v) <> size (st s) y -> param_inplace op v y s = (s, Some ValueError)) /\
  (forall c, conc_of (st s) c -> Z.of_nat (length v) <> conc_size s c -> stmt_inplace op v (BConc c) s = (BConc c, s, Some ValueError)) /\
  (forall nm mt r x, (x < next (st s))%nat -> named (st s) nm x -> top (st s) r x -> (exists p, matches (st s) nm mt r x p /\ is_leaf (st s) p = true) ->
    (forall ps, NoDup ps -> (forall p, In p ps <-> is_leaf (st s) p = true /\ exists z, matches (st s) nm mt r x z /\ part (st s) z p) -> Z.of_nat (length v) <> sum_sizes (st s) ps) ->
    exists s', item_inplace op nm mt v x s = (s', Some (Py ValueError)) /\ untouched s s').
Proof. intros s v R Hv. split; [intros; apply param_rejected; auto|]. split; [intros; apply stmt_rejected; auto | intros; eapply item_rejected; eauto]. Qed.
Lemma item_none : forall s nm mt v r x, creachable s -> named (st s) nm x -> top (st s) r x -> (forall y, ~ matches (st s) nm mt r x y) ->
  exists s', item_inplace op nm mt v x s = (s', Some (Py AttributeError)) /\ untouched s s'.
Proof.
  intros s nm mt v r x R Nm Tp Hn. destruct (creach_ok _ _ _ _ _ R) as (H & _ & A).
  destruct (grep_ok s nm mt r x H Nm Tp) as (s1 & l & l0 & G & Lk & Po & Nd & Hl0 & K). exists s1. split; [|apply looks_untouched; auto].
  assert (l = []) as ->. { destruct l as [|y l]; auto. exfalso. apply (Hn y). apply (kept_in _ _ _ _ K y). left; auto. }
  unfold item_inplace, getitem. rewrite G. auto.
Qed.
End Ip.
Lemma compare_ok : forall V tinit tf tfinv junk cmp (s : @state V) c v, creach tinit tf tfinv junk s -> conc_of (st s) c -> cparams c <> [] ->
  length v = 1%nat \/ Z.of_nat (length v) = conc_size s c -> exists l, conc_compare cmp v c s = Ok l /\ compares cmp v s (cparams c) l.
Proof.
  intros V tinit tf tfinv junk cmp s c v R P Ne Hv. destruct (creach_ok _ _ _ _ _ R) as (H & _). pose proof P as [Nd Hps]. pose proof (inv_st _ H) as W.
  pose proof (values_len s _ H Hps) as Hlen. fold (conc_values s c) (conc_size s c) in Hlen.
  assert (B : exists l, conc_compare cmp v c s = Ok l /\ length l = length (conc_values s c) /\ forall k x, nth_error (conc_values s c) k = Some x -> exists w, operand v (Z.of_nat k) w /\ nth_error l k = Some (cmp x w)).
  { unfold conc_compare, hstacked. destruct (cparams c) eqn:Ec; [contradiction|]. cbn [rbind]. set (a := conc_values s c) in *. assert (Hv' : length v = 1%nat \/ length v = length a) by (destruct Hv; [auto | right; lia]). clearbody a. clear - Hv'.
    destruct v as [|y [|y2 v]].
    - destruct Hv' as [Hv|Hv]; [discriminate|]. destruct a; [|discriminate]. exists []. split; auto. split; auto. intros [|k] x Hx; discriminate.
    - exists (map (fun x => cmp x y) a). split; auto. split; [apply map_length|]. intros k x Hx. exists y. split; [left; auto|]. apply (map_nth_error (fun x => cmp x y)). auto.
    - destruct Hv' as [Hv|Hv]; [discriminate|]. set (w := y :: y2 :: v) in *. exists (map (fun e => cmp (fst e) (snd e)) (combine a w)). split.
      { rewrite Hv, Nat.eqb_refl. auto. }
      split; [rewrite map_length, combine_length, Hv; apply Nat.min_id|]. intros k x Hx.
      assert (Hk : (k < length a)%nat) by (apply nth_error_Some; congruence). destruct (nth_error w k) as [b|] eqn:Eb; [|apply nth_error_None in Eb; lia].
      exists b. split; [right; split; [discriminate|]; rewrite Nat2Z.id; auto|]. rewrite (map_nth_error (fun e => cmp (fst e) (snd e)) k (combine a w) (d := (x, b))); auto.
      clear - Hx Eb. generalize dependent w. revert a Hx. induction k as [|k IH]; intros [|a0 a] Hx [|w0 w] Eb; cbn in *; try discriminate; [congruence | eauto]. }
  destruct B as (l & E & Ll & Hl). exists l. split; auto. split; [rewrite Ll, Hlen; auto|]. intros k p i Po. pose proof (position_in _ _ _ _ _ Po) as [Hi Hi']. pose proof (position_range _ _ _ _ _ W Po) as Hr.
  pose proof (values_nth s (cparams c) k p i H Hps Po) as Ev. fold (conc_values s c) in Ev. destruct (Hps p Hi) as [A B]. destruct (value_some s p i H A (or_introl B) Hi') as [a Ea].
  destruct (Hl (Z.to_nat k) a) as (w & Ow & Nw); [rewrite Ev; auto|]. rewrite Z2Nat.id in Ow by lia. exists a, w. auto.
Qed.
Lemma stmt_after : forall V (op : V -> V -> V) v c (s : @state V), snd (conc_inplace op v c s) = None -> stmt_inplace op v (BConc c) s = (BNone, snd (fst (conc_inplace op v c s)), None).
Proof. intros V op v c s E. unfold stmt_inplace. destruct (conc_inplace op v c s) as [[a b] e]. cbn [snd fst] in *. subst e. reflexivity. Qed.
Lemma stmt_none : forall V (op : V -> V -> V) v (s : @state V), stmt_inplace op v BNone s = (BNone, s, Some TypeError).
Proof. reflexivity. Qed.
