(** Proofs about concatenations of parameters, part 5: the statements of the properties, and examples. *)
From Coq Require Import List ZArith Bool Lia Arith.
From Verif Require Import NpModel NpProofs IndexOpsModel IndexOpsSpec PzModel PzSpec PzTree PzStruct PzLink PzInv PzNotify PzPres PzTraverse PzCmd PzInit PzCons PzVal PzOpt PzRandom PzHist PzKeep PzOrder PzGrad PzCheck PzFinal PzEx ConcatModel ConcatSpec ConcatProofs ConcatOps ConcatCalls ConcatCons.
Import ListNotations.
Open Scope Z_scope.

Section Final.
Context {V : Type}.
Implicit Types s : @state V.
Variables tinit tf tfinv : nat -> V -> V.
Variable junk : nat -> Z -> V.
Notation reachable := (creach tinit tf tfinv junk).

(** C69 *)
Lemma contents_final : forall s xs, reachable s -> (forall x, In x xs -> (x < next (st s))%nat) ->
  conc_of (st s) (concatenation (st s) xs) /\
  (forall p, In p (cparams (concatenation (st s) xs)) <-> is_leaf (st s) p = true /\ exists x, In x xs /\ part (st s) x p).
Proof.
  intros s xs R Hx. destruct (creach_ok _ _ _ _ _ R) as (H & _). pose proof (inv_st _ H) as W. destruct (conc_params_ok (st s) xs W) as [Nd Hp].
  split; [split; auto|]; auto. intros p Q. apply Hp in Q as [Hl (x & Hi & Ha)]. split; auto. eapply above_lt'; eauto.
Qed.
Lemma parents_lt : forall s xs q, Inv s -> In q (cleft (concatenation (st s) xs)) -> (q < next (st s))%nat.
Proof. intros s xs q H Hq. apply (conc_parents_ok (st s) _ (inv_st _ H)) in Hq. eapply over_lt; eauto. Qed.

(** C55 *)
Lemma set_final : forall s c sel val, reachable s -> conc_of (st s) c -> cparams c <> [] -> (forall q, In q (cleft c) -> (q < next (st s))%nat) -> sel_ok s c sel -> fits sel val ->
  exists s', conc_set sel val c s = (used c, s', None) /\ st s' = st s /\ ios s' = ios s /\
    (forall y j, (y < next (st s))%nat -> ready (st s) y -> 0 <= j < size (st s) y -> ~ hit (st s) (cparams c) sel y j -> value s' y j = value s y j) /\
    (forall k p i y j r, In k sel -> position_of (st s) (cparams c) k p i -> (y < next (st s))%nat -> ready (st s) y ->
      same_elem (st s) y j p i -> counted sel (k - i) k r ->
      (forall v, given sel val (k - i + r) v -> value s' y j = Some v) /\ (~ In (k - i + r) sel -> value s' y j = value s p r)).
Proof.
  intros s c sel val R P Ne Lf Hs Hf. destruct (creach_ok _ _ _ _ _ R) as (H & O & A).
  destruct (set_values_conc s c sel val H A P Ne Hs Hf) as (s1 & R1 & H1 & A1 & E1 & E2 & E3 & E4 & C1 & C2).
  destruct (triggers_any (cleft c) s1 H1) as (s2 & l & R2 & B1 & B2 & B3 & B4 & _); [rewrite E1; auto|].
  assert (Ev : forall y j, value s2 y j = value s1 y j) by (intros; unfold value; rewrite B4; auto).
  exists s2. split; auto. split; [congruence|]. split; [congruence|]. split; [intros; rewrite Ev; auto|].
  intros k p i y j r Hk Hp Hy Ry Se Hr. rewrite !Ev. eapply C2; eauto.
Qed.
Lemma set_others : forall s c sel val, reachable s -> conc_of (st s) c -> cparams c <> [] -> (forall q, In q (cleft c) -> (q < next (st s))%nat) -> sel_ok s c sel -> fits sel val ->
  exists s', conc_set sel val c s = (used c, s', None) /\ st s' = st s /\ ios s' = ios s /\
    forall y j, (y < next (st s))%nat -> ready (st s) y -> 0 <= j < size (st s) y -> ~ hit (st s) (cparams c) sel y j -> value s' y j = value s y j.
Proof.
  intros s c sel val R P Ne Lf Hs Hf. destruct (set_final s c sel val R P Ne Lf Hs Hf) as (s' & A & B & C & D & _). exists s'. auto.
Qed.
Lemma set_values_final : forall s c sel val, reachable s -> conc_of (st s) c -> cparams c <> [] -> (forall q, In q (cleft c) -> (q < next (st s))%nat) -> sel_ok s c sel -> fits sel val ->
  from_front (st s) (cparams c) sel ->
  exists s', conc_set sel val c s = (used c, s', None) /\
    forall k p i y j, In k sel -> position_of (st s) (cparams c) k p i -> (y < next (st s))%nat -> ready (st s) y -> same_elem (st s) y j p i ->
      exists v, given sel val k v /\ value s' y j = Some v.
Proof.
  intros s c sel val R P Ne Lf Hs Hf Fr. destruct (set_final s c sel val R P Ne Lf Hs Hf) as (s' & A & _ & _ & _ & D). exists s'. split; [auto|].
  intros k p i y j Hk Hp Hy Ry Se. destruct (given_exists sel val k Hf Hk) as [v Hg]. exists v. split; auto.
  pose proof (position_in _ _ _ _ _ Hp) as [_ Hi].
  destruct (D k p i y j i Hk Hp Hy Ry Se) as [D1 _]; [apply counted_front; [lia|]; intros i' Hi'; eapply Fr; eauto|]. apply D1. replace (k - i + i) with k by lia. auto.
Qed.
Lemma set_rejected : forall s c sel val, (exists k, In k sel /\ ~ 0 <= k < conc_size s c) -> conc_set sel val c s = (c, s, Some IndexError).
Proof.
  intros s c sel val (k & Hk & Hn). unfold conc_set, indicator. replace (forallb _ sel) with false; auto. symmetry.
  destruct (forallb (fun k0 => (0 <=? k0) && (k0 <? conc_size s c)) sel) eqn:E; auto. exfalso. apply Hn. rewrite forallb_forall in E. apply E in Hk. apply andb_prop in Hk as [A B].
  apply Z.leb_le in A. apply Z.ltb_lt in B. auto.
Qed.
Lemma set_rejected_values : forall s c sel val, sel_ok s c sel -> ~ fits sel val -> conc_set sel val c s = (c, s, Some ValueError).
Proof.
  intros s c sel val Hs Hf. unfold conc_set. assert (E : exists m, indicator (conc_size s c) sel = Ok m).
  { unfold indicator. replace (forallb _ sel) with true; eauto. symmetry. apply forallb_forall. intros k Hk. apply Hs in Hk. apply andb_true_intro. split; [apply Z.leb_le | apply Z.ltb_lt]; lia. }
  destruct E as [m ->]. unfold hstacked. destruct (cparams c); [auto|]. cbn [rbind]. replace (scatter (conc_values s c) sel val) with (@Er (list V) ValueError); auto. unfold fits in Hf. unfold scatter.
  destruct val as [|v [|v2 val]]; [|exfalso; apply Hf; auto|]; destruct (Nat.eqb_spec (length (@nil V)) (length sel)) as [Q|Q]; auto; try (exfalso; apply Hf; auto; fail);
  destruct (Nat.eqb_spec (length (v :: v2 :: val)) (length sel)) as [Q'|Q']; auto; exfalso; apply Hf; auto.
Qed.

Lemma set_empty : forall s c val, cparams c = [] -> conc_set [] val c s = (c, s, Some ValueError).
Proof. intros s c val E. unfold conc_set, hstacked. rewrite E. reflexivity. Qed.

(** C56 *)
Lemma set_updates : forall s xs sel val, let c := concatenation (st s) xs in
  reachable s -> (forall x, In x xs -> (x < next (st s))%nat) -> cparams c <> [] -> sel_ok s c sel -> fits sel val -> on s (cparams c) -> finished (st s) (cparams c) ->
  exists s' l, conc_set sel val c s = (used c, s', None) /\ trace (nt s') = rev l ++ trace (nt s) /\ (forall q, over (st s) (cparams c) q -> In q l) /\ settled (st s) l.
Proof.
  intros s xs sel val c R Hx Ne Hs Hf Hon Hfi. destruct (contents_final s xs R Hx) as [P _]. fold c in P. destruct (creach_ok _ _ _ _ _ R) as (H & O & A).
  destruct (set_values_conc s c sel val H A P Ne Hs Hf) as (s1 & R1 & H1 & A1 & E1 & E2 & E3 & E4 & _).
  destruct (update_first s1 (cparams c) H1) as (s2 & l & R2 & O2 & I2 & S2); [rewrite E1; auto | rewrite E1, E4; auto|].
  rewrite E1 in *. exists s2, l. split; [apply R1; exact R2|]. split; [|auto]. destruct O2 as (_ & _ & _ & _ & _ & Tr & _). rewrite Tr, E4. auto.
Qed.
Lemma constrain_updates : forall s xs n c, c = concatenation (st s) xs \/ c = used (concatenation (st s) xs) ->
  reachable s -> (forall x, In x xs -> (x < next (st s))%nat) -> on s (cparams c) -> finished (st s) (cparams c) ->
  exists s' l, conc_constrain tinit n c s = (used c, s', None) /\ trace (nt s') = rev l ++ trace (nt s) /\ (forall q, over (st s) (cparams c) q -> In q l) /\ settled (st s) l.
Proof.
  intros s xs n c Hc R Hx Hon Hfi. destruct (contents_final s xs R Hx) as [P0 _]. destruct (creach_ok _ _ _ _ _ R) as (H & O & A).
  assert (P : conc_of (st s) c) by (destruct Hc as [->| ->]; exact P0).
  destruct (each_constrain tinit n (cparams c) s H A P) as (s1 & l1 & R1 & H1 & A1 & E1 & N1 & S1 & _ & _). destruct (S1 Hon) as [S1a S1b].
  assert (exists s2 l2, triggers (cleft c) s1 = (s2, None) /\ only_ran s1 l2 s2 /\ settled (st s) l2) as (s2 & l2 & R2 & O2 & S2).
  { destruct Hc as [->| ->].
    - destruct (update_first s1 (cparams (concatenation (st s) xs)) H1) as (s2 & l & R2 & O2 & I2 & S2); [rewrite E1; auto | rewrite E1, (ran_upd _ _ _ N1); exact Hon|].
      rewrite E1 in R2, S2. exists s2, l. auto.
    - exists s1, []. split; [reflexivity|]. split; [apply only_ran_refl | apply settled_nil]. }
  exists s2, (l1 ++ l2). split.
  { unfold conc_constrain. assert (R1' : for_params (constrain_below tinit n) c s = (s1, None)) by exact R1. rewrite (andthen_ok _ _ _ _ R1'). unfold update_all.
    change (fold_right _ done (cleft c)) with (triggers (V := V) (cleft c)). rewrite R2. auto. }
  split. { destruct O2 as (_ & _ & _ & _ & N2). destruct (ran_app _ _ _ _ _ N1 N2) as (_ & Tr & _). exact Tr. }
  split; [intros q Hq; apply in_or_app; auto | apply settled_app; auto].
Qed.
Lemma fix_updates : forall s c, reachable s -> conc_of (st s) c -> on s (cparams c) ->
  exists s' l, conc_fix c s = (c, s', None) /\ trace (nt s') = rev l ++ trace (nt s) /\ (forall q, over (st s) (cparams c) q -> In q l) /\ settled (st s) l.
Proof.
  intros s c R P Hon. destruct (creach_ok _ _ _ _ _ R) as (H & O & A). destruct (each_fix (cparams c) s H P) as (s1 & l1 & R1 & H1 & M1 & E1 & N1 & S1 & _). destruct (S1 Hon) as [S1a S1b].
  exists s1, l1. split; [unfold conc_fix; assert (R1' : for_params (fun p => fix_param p None) c s = (s1, None)) by exact R1; rewrite R1'; auto|]. split; auto. apply N1.
Qed.

(** C57 *)
Lemma get_final : forall nonzero s c sel, reachable s -> conc_of (st s) c -> sel_ok s c sel -> sel <> [] -> no_zeros nonzero s (cparams c) sel ->
  exists ls l ks, conc_get nonzero s c sel = Ok ls /\ shown ls = Ok l /\ increasing ks /\ (forall k, In k ks <-> In k sel) /\ values_at s (cparams c) ks l.
Proof. intros nonzero s c sel R. destruct (creach_ok _ _ _ _ _ R) as (H & _). apply get_ok; auto. Qed.
Lemma values_final : forall s c, reachable s -> conc_of (st s) c -> values_at s (cparams c) (arange (conc_size s c)) (conc_values s c).
Proof.
  intros s c R [Nd Hps]. destruct (creach_ok _ _ _ _ _ R) as (H & _). pose proof (inv_st _ H) as W.
  pose proof (values_len s _ H Hps) as Hl. fold (conc_size s c) (conc_values s c) in Hl.
  assert (G : forall i k v, nth_error (arange (conc_size s c)) i = Some k -> nth_error (conc_values s c) i = Some v -> exists p j, position_of (st s) (cparams c) k p j /\ value s p j = Some v).
  { intros i k v Ek Ev. rewrite arange_nth_error in Ek. destruct (Nat.ltb_spec i (Z.to_nat (conc_size s c))) as [Hi|]; [|discriminate]. injection Ek as <-.
    destruct (position_exists (st s) (cparams c) (Z.of_nat i) W) as (p & j & P); [unfold conc_size in *; lia|]. exists p, j. split; auto.
    rewrite <- (values_nth s (cparams c) (Z.of_nat i) p j H Hps P). rewrite Nat2Z.id. auto. }
  assert (Ll : length (arange (conc_size s c)) = length (conc_values s c)) by (rewrite PzMem.arange_len; lia). clear - G Ll.
  unfold values_at. revert G Ll. generalize (arange (conc_size s c)), (conc_values s c). intros ks. induction ks as [|k ks IH]; intros [|v vs] G Ll; try discriminate; constructor.
  - apply (G 0%nat); auto.
  - apply IH; auto. intros i. apply (G (S i)).
Qed.

(** C68 *)
Lemma constrain_final : forall s c n, reachable s -> conc_of (st s) c -> (forall q, In q (cleft c) -> (q < next (st s))%nat) ->
  exists s', conc_constrain tinit n c s = (used c, s', None) /\ st s' = st s /\
    (forall y q j, (y < next (st s))%nat -> (has s' y q j <-> (has s y q j /\ ~ covers (st s) (cparams c) y j) \/ (q = Tr n /\ covers (st s) (cparams c) y j))) /\
    (forall y j, (y < next (st s))%nat -> ready (st s) y -> 0 <= j < size (st s) y ->
      (covers (st s) (cparams c) y j -> value s' y j = option_map (tinit n) (value s y j)) /\ (~ covers (st s) (cparams c) y j -> value s' y j = value s y j)).
Proof.
  intros s c n R P Lf. destruct (creach_ok _ _ _ _ _ R) as (H & O & A).
  destruct (each_constrain tinit n (cparams c) s H A P) as (s1 & l1 & R1 & H1 & A1 & E1 & N1 & _ & C1 & Q1).
  destruct (triggers_any (cleft c) s1 H1) as (s2 & l & R2 & B1 & B2 & B3 & B4 & _); [rewrite E1; auto|].
  exists s2. split.
  { unfold conc_constrain. assert (R1' : for_params (constrain_below tinit n) c s = (s1, None)) by exact R1. rewrite (andthen_ok _ _ _ _ R1'). unfold update_all.
    change (fold_right _ done (cleft c)) with (triggers (V := V) (cleft c)). rewrite R2. auto. }
  split; [congruence|]. split.
  - intros y q j Hy. rewrite (has_ext s1 s2) by auto. apply Q1; auto.
  - intros y j Hy Ry Hj. assert (Ev : value s2 y j = value s1 y j) by (unfold value; rewrite B4; auto). rewrite Ev. apply C1; auto.
Qed.
Lemma fix_final : forall s c, reachable s -> conc_of (st s) c ->
  exists s', conc_fix c s = (c, s', None) /\ st s' = st s /\ mem s' = mem s /\
    forall y q j, (y < next (st s))%nat -> (has s' y q j <-> has s y q j \/ (q = Fixed /\ covers (st s) (cparams c) y j)).
Proof.
  intros s c R P. destruct (creach_ok _ _ _ _ _ R) as (H & O & A). destruct (each_fix (cparams c) s H P) as (s1 & l1 & R1 & H1 & M1 & E1 & N1 & S1 & Q1).
  exists s1. split; [unfold conc_fix; assert (R1' : for_params (fun p => fix_param p None) c s = (s1, None)) by exact R1; rewrite R1'; auto|]. auto.
Qed.
Lemma unfix_final : forall s c, reachable s -> conc_of (st s) c ->
  exists s', conc_unfix c s = (c, s', None) /\ st s' = st s /\ mem s' = mem s /\
    forall y q j, (y < next (st s))%nat -> (has s' y q j <-> has s y q j /\ ~ (q = Fixed /\ covers (st s) (cparams c) y j)).
Proof.
  intros s c R P. destruct (creach_ok _ _ _ _ _ R) as (H & O & A). destruct (each_unfix (cparams c) s H P) as (s1 & R1 & H1 & (E1 & M1 & _) & Q1).
  exists s1. split; [unfold conc_unfix; assert (R1' : for_params (fun p => unfix_param p None) c s = (s1, None)) by exact R1; rewrite R1'; auto|]. auto.
Qed.
Lemma unconstrain_final : forall s c ts, reachable s -> conc_of (st s) c ->
  exists s', conc_unconstrain ts c s = (c, s', None) /\ st s' = st s /\ mem s' = mem s /\
    forall y q j, (y < next (st s))%nat -> (has s' y q j <-> has s y q j /\ ~ ((ts = [] \/ In q ts) /\ covers (st s) (cparams c) y j)).
Proof.
  intros s c ts R P. destruct (creach_ok _ _ _ _ _ R) as (H & O & A). destruct (each_unconstrain ts (cparams c) s H P) as (s1 & R1 & H1 & (E1 & M1 & _) & Q1).
  exists s1. split; [unfold conc_unconstrain; assert (R1' : for_params (fun p => unconstrain p None ts) c s = (s1, None)) by exact R1; rewrite R1'; auto|]. auto.
Qed.
End Final.
