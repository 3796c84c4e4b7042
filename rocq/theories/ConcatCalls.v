(** Proofs about concatenations of parameters, part 3: the effects of the calls. *)
From Coq Require Import List ZArith Bool Lia Arith.
From Verif Require Import NpModel NpProofs IndexOpsModel IndexOpsSpec IndexOpsProofs PzModel PzSpec PzTree PzStruct PzLink PzWalk PzMem PzIo PzInv PzConn PzFix PzLinkMem PzPres PzUnlink PzTraverse PzNotify PzNew PzCmd PzInit PzCons PzVal PzOpt PzRandom PzHist PzOrder PzGrad PzKeep ConcatModel ConcatSpec ConcatProofs ConcatOps.
Import ListNotations.
Open Scope Z_scope.

Section Calls.
Context {V : Type}.
Implicit Types s : @state V.

(** ** Assignment *)

Lemma rank_counted : forall sel n N o i r, (i <= n)%nat -> Z.of_nat o + Z.of_nat i <= N -> counted sel (Z.of_nat o) (Z.of_nat o + Z.of_nat i) r ->
  Z.of_nat (rank (firstn n (skipn o (map (fun k => zmem k sel) (arange N)))) i) = r.
Proof.
  intros sel n N o i r Hi HN (l & Nd & Hl & ->). unfold rank. rewrite firstn_firstn, (Nat.min_l i n Hi).
  replace (firstn i (skipn o (map (fun k => zmem k sel) (arange N)))) with (map (fun k => zmem k sel) (map Z.of_nat (seq o i))).
  2: { unfold arange. replace (Z.to_nat N) with (o + (i + (Z.to_nat N - o - i)))%nat by lia. rewrite !seq_app, !map_app. cbn [plus].
    rewrite skipn_app, skipn_all2 by (rewrite !map_length, seq_length; lia). rewrite !map_length, seq_length, Nat.sub_diag. cbn [skipn app].
    rewrite firstn_app, firstn_all2 by (rewrite !map_length, seq_length; lia). rewrite !map_length, seq_length, Nat.sub_diag. cbn [firstn]. rewrite app_nil_r. reflexivity. }
  set (L := map Z.of_nat (seq o i)).
  assert (HL : forall x, In x L <-> Z.of_nat o <= x < Z.of_nat o + Z.of_nat i).
  { intros x. unfold L. rewrite in_map_iff. split; [intros (z & <- & Hz); apply in_seq in Hz; lia|]. intros Hx. exists (Z.to_nat x). split; [lia|]. apply in_seq. lia. }
  assert (NL : NoDup L) by (apply FinFun.Injective_map_NoDup; [intros a b; lia | apply seq_NoDup]).
  assert (E : length (filter (fun b : bool => b) (map (fun k => zmem k sel) L)) = length (filter (fun k => zmem k sel) L)).
  { clear. induction L as [|a L IH]; cbn; auto. destruct (zmem a sel); cbn; auto. }
  rewrite E. f_equal. apply Nat.le_antisymm; apply NoDup_incl_length; auto using NoDup_filter.
  - intros x Hx. apply filter_In in Hx as [A B]. apply Hl. split; [apply zmem_In; auto | apply HL; auto].
  - intros x Hx. apply Hl in Hx as [A B]. apply filter_In. split; [apply HL; auto | apply zmem_In; auto].
Qed.

(** Everything up to the updates. *)
Lemma set_values_conc : forall s c sel val, Inv s -> apart s -> conc_of (st s) c -> cparams c <> [] -> sel_ok s c sel -> fits sel val ->
  exists s1, (forall s2 e, triggers (cleft c) s1 = (s2, e) -> conc_set sel val c s = (used c, s2, e)) /\
    Inv s1 /\ apart s1 /\ st s1 = st s /\ ios s1 = ios s /\ fix_ s1 = fix_ s /\ nt s1 = nt s /\
    (forall y j, (y < next (st s))%nat -> ready (st s) y -> 0 <= j < size (st s) y -> ~ hit (st s) (cparams c) sel y j -> value s1 y j = value s y j) /\
    (forall k p i y j r, In k sel -> position_of (st s) (cparams c) k p i -> (y < next (st s))%nat -> ready (st s) y ->
      same_elem (st s) y j p i -> counted sel (k - i) k r ->
      (forall v, given sel val (k - i + r) v -> value s1 y j = Some v) /\ (~ In (k - i + r) sel -> value s1 y j = value s p r)).
Proof.
  intros s c sel val H Ap [Nd Hps] Hne Hsel Hfit. pose proof (inv_st _ H) as W. assert (Hst : hstacked s c = Ok (conc_values s c)) by (unfold hstacked; destruct (cparams c); [contradiction | auto]). set (ps := cparams c) in *. set (n := conc_size s c) in *.
  assert (Hn : 0 <= n) by (apply sum_nonneg; auto).
  assert (Hlen : Z.of_nat (length (conc_values s c)) = n) by (apply values_len; auto).
  set (mask := map (fun k => zmem k sel) (arange n)). assert (Em : indicator n sel = Ok mask) by (apply indicator_ok; auto).
  assert (Lm : length mask = Z.to_nat n) by (unfold mask; rewrite map_length, arange_len; auto).
  destruct (scatter_ok (conc_values s c) sel val) as (vals & Ev & Lv & Vout & Vin); auto.
  { intros k Hk. rewrite Hlen. apply Hsel; auto. }
  destruct (write_each_ok ps s mask vals H Ap (conj Nd Hps)) as (s1 & R1 & H1 & A1 & E1 & E2 & E3 & E4 & C1 & C2).
  { rewrite Lm. unfold n, conc_size. fold ps. rewrite Z2Nat.id; auto. } { lia. }
  exists s1. split.
  { intros s2 e R2. unfold conc_set. fold n. rewrite Em, Hst. cbn [rbind]. rewrite Ev. fold ps. rewrite (andthen_ok _ _ _ _ R1). unfold update_all. change (fold_right _ done (cleft c)) with (triggers (V := V) (cleft c)).
    rewrite R2. auto. }
  do 6 (split; auto).
  assert (Pos : forall l p r i, ps = l ++ p :: r -> 0 <= i < size (st s) p -> position_of (st s) ps (sum_sizes (st s) l + i) p i) by (intros l p r i E Hi; exists l, r; auto).
  split.
  - intros y j Hy Ry Hj Hh.
    assert (Dec : covers (st s) ps y j \/ ~ covers (st s) ps y j).
    { clear - W Hj. unfold covers. induction ps as [|p l IH]; [right; intros (p & i & [] & _)|]. destruct (same_elem_dec (st s) y j p W Hj) as [[i Hi]|Hi].
      - left. exists p, i. split; [left|]; auto.
      - destruct IH as [(q & i & Hq & Se)|IH]; [left; exists q, i; split; [right|]; auto|]. right. intros (q & i & [->|Hq] & Se); [exact (Hi i Se)|]. apply IH. exists q, i. auto. }
    destruct Dec as [(p & i & Hp & Se)|Hc]; [|apply C2; auto]. apply in_split in Hp as (l & r & Hp). rewrite (C1 l p r y j i Hp Hy Ry Se).
    destruct (value_some s y j H Hy Ry Hj) as [v ->]. cbn [option_map]. f_equal. pose proof Se as (_ & Hi & _).
    pose proof (Pos l p r i Hp Hi) as P. pose proof (position_range _ _ _ _ _ W P) as Hr. pose proof (sum_nonneg (st s) l W) as Hsl. pose proof (sum_nonneg (st s) r W) as Hsr.
    assert (Hsz : sum_sizes (st s) ps = sum_sizes (st s) l + (size (st s) p + sum_sizes (st s) r)) by (rewrite Hp, sum_app, sum_cons; auto).
    change (sum_sizes (st s) ps) with n in *.
    rewrite newval_shift; [|lia | rewrite Lv; lia].
    replace (Z.to_nat (sum_sizes (st s) l) + Z.to_nat i)%nat with (Z.to_nat (sum_sizes (st s) l + i)) by lia. unfold mask at 1. rewrite indicator_nth by auto.
    replace (zmem (sum_sizes (st s) l + i) sel) with false; auto. symmetry. apply zmem_false. intros Q. apply Hh. exists (sum_sizes (st s) l + i), p, i. auto.
  - intros k p i y j m Hk P Hy Ry Se Hm. pose proof P as (l & r & Hp & Hi & Ek). pose proof (position_range _ _ _ _ _ W P) as Hr.
    pose proof (sum_nonneg (st s) l W) as Hsl. pose proof (sum_nonneg (st s) r W) as Hsr.
    assert (Hsz : sum_sizes (st s) ps = sum_sizes (st s) l + (size (st s) p + sum_sizes (st s) r)) by (rewrite Hp, sum_app, sum_cons; auto).
    change (sum_sizes (st s) ps) with n in *.
    rewrite (C1 l p r y j i Hp Hy Ry Se). pose proof Se as (Hj & _). destruct (value_some s y j H Hy Ry Hj) as [w ->]. cbn [option_map].
    rewrite newval_shift; [|lia | rewrite Lv; lia].
    replace (Z.to_nat (sum_sizes (st s) l) + Z.to_nat i)%nat with (Z.to_nat k) by lia.
    assert (Hmk : nth (Z.to_nat k) mask false = true) by (unfold mask; rewrite indicator_nth by auto; apply zmem_In, Hk). rewrite Hmk.
    pose proof (rank_le (firstn (Z.to_nat (size (st s) p)) (skipn (Z.to_nat (sum_sizes (st s) l)) mask)) (Z.to_nat i)) as Hle.
    assert (Em' : Z.of_nat (rank (firstn (Z.to_nat (size (st s) p)) (skipn (Z.to_nat (sum_sizes (st s) l)) mask)) (Z.to_nat i)) = m).
    { apply rank_counted; [lia | lia |]. rewrite !Z2Nat.id by lia. replace (k - i) with (sum_sizes (st s) l) in Hm by lia. rewrite <- Ek. exact Hm. }
    set (rk := rank _ _) in *. replace (Z.to_nat (sum_sizes (st s) l) + rk)%nat with (Z.to_nat (k - i + m)) by lia. split.
    + intros v Hg. f_equal. apply nth_error_nth. apply Vin; auto.
    + intros Hns. assert (Q : position_of (st s) ps (k - i + m) p m) by (replace (k - i + m) with (sum_sizes (st s) l + m) by lia; eapply Pos; eauto; lia).
      rewrite <- (values_nth s ps _ p m H Hps Q). assert (Ev' : nth_error vals (Z.to_nat (k - i + m)) = nth_error (conc_values s c) (Z.to_nat (k - i + m))) by (apply Vout; rewrite Z2Nat.id by lia; auto).
      change (flat_map (leaf_vals s) ps) with (conc_values s c). rewrite <- Ev'. symmetry. apply nth_error_nth'. lia.
Qed.
Lemma counted_exists : forall sel o k, exists r, counted sel o k r.
Proof.
  intros sel o k. exists (Z.of_nat (length (filter (fun x => (o <=? x) && (x <? k)) (nodup Z.eq_dec sel)))), (filter (fun x => (o <=? x) && (x <? k)) (nodup Z.eq_dec sel)).
  split; [apply NoDup_filter, NoDup_nodup|]. split; auto. intros x. rewrite filter_In, nodup_In, andb_true_iff, Z.leb_le, Z.ltb_lt. tauto.
Qed.
Lemma counted_front : forall sel k i, 0 <= i -> (forall i', 0 <= i' < i -> In (k - i + i') sel) -> counted sel (k - i) k i.
Proof.
  intros sel k i Hi H. exists (map (fun x => k - i + x) (arange i)). split; [apply FinFun.Injective_map_NoDup; [intros a b; lia | apply FinFun.Injective_map_NoDup; [intros a b; lia | apply seq_NoDup]]|]. split.
  - intros x. rewrite in_map_iff. split.
    + intros (z & <- & Hz). apply arange_In in Hz. split; [apply H|]; lia.
    + intros [_ Hx]. exists (x - (k - i)). split; [lia|]. apply arange_In. lia.
  - rewrite map_length, PzMem.arange_len. lia.
Qed.

(** ** Reading *)
Lemma increasing_filter : forall f l, increasing l -> increasing (filter f l).
Proof.
  intros f l. induction l as [|a l IH]; cbn [filter increasing]; auto. intros [H1 H2]. destruct (f a); cbn [increasing]; auto. split; auto.
  intros b Hb. apply filter_In in Hb as [Hb _]. auto.
Qed.
Lemma select_app : forall (A : Type) m1 m2 (l1 l2 : list A), length m1 = length l1 -> select (m1 ++ m2) (l1 ++ l2) = select m1 l1 ++ select m2 l2.
Proof.
  intros A m1. induction m1 as [|b m1 IH]; intros m2 [|a l1] l2 E; try discriminate; auto. injection E as E. specialize (IH m2 l1 l2 E).
  unfold select in *. destruct b; cbn; rewrite IH; auto.
Qed.
Lemma select_filter : forall (A B : Type) (R : A -> B -> Prop) (f : A -> bool) ks l, Forall2 R ks l -> Forall2 R (filter f ks) (select (map f ks) l).
Proof.
  intros A B R f ks l H. induction H as [|k v ks l H1 H2 IH]; [constructor|]. unfold select in *. cbn [filter map combine]. destruct (f k); cbn; auto.
Qed.
Lemma pieces_concat : forall nonzero ps s mask, Inv s -> (forall p, In p ps -> (p < next (st s))%nat /\ is_leaf (st s) p = true) -> Z.of_nat (length mask) = sum_sizes (st s) ps ->
  (forall l p r, ps = l ++ p :: r -> let m := select (firstn (Z.to_nat (size (st s) p)) (skipn (Z.to_nat (sum_sizes (st s) l)) mask)) (leaf_vals s p) in m = [] \/ existsb nonzero m = true) ->
  concat (pieces nonzero s ps mask) = select mask (flat_map (leaf_vals s) ps) /\
  (pieces nonzero s ps mask = [] -> select mask (flat_map (leaf_vals s) ps) = []).
Proof.
  intros nonzero. induction ps as [|p ps IH]; intros s mask H Hps Hm Hz.
  - cbn in Hm. destruct mask; [auto | cbn in Hm; lia].
  - pose proof (inv_st _ H) as W. cbn [pieces flat_map]. rewrite sum_cons in Hm. set (n := Z.to_nat (size (st s) p)).
    pose proof (size_nonneg _ W p) as Hs. pose proof (sum_nonneg _ ps W) as Hss.
    destruct (Hps p) as [Hp Hl]; [left; auto|]. destruct (leaf_vals_ok s p H Hp Hl) as [Ll _].
    destruct (IH s (skipn n mask) H) as [I1 I2].
    { intros q Hq; apply Hps; right; auto. } { rewrite skipn_length. lia. }
    { intros l q r E. specialize (Hz (p :: l) q r). rewrite sum_cons in Hz. cbn zeta in *.
      replace (Z.to_nat (size (st s) p + sum_sizes (st s) l)) with (Z.to_nat (sum_sizes (st s) l) + n)%nat in Hz by (pose proof (sum_nonneg _ l W); lia).
      rewrite <- skipn_add in Hz. apply Hz. cbn. f_equal. auto. }
    specialize (Hz [] p ps eq_refl). cbn zeta in Hz. change (Z.to_nat (sum_sizes (st s) [])) with 0%nat in Hz. cbn [skipn] in Hz. fold n in Hz.
    assert (Es : select mask (leaf_vals s p ++ flat_map (leaf_vals s) ps) = select (firstn n mask) (leaf_vals s p) ++ select (skipn n mask) (flat_map (leaf_vals s) ps)).
    { rewrite <- (firstn_skipn n mask) at 1. apply select_app. rewrite firstn_length. lia. }
    rewrite Es. destruct Hz as [Hz|Hz].
    + rewrite Hz. cbn [existsb app]. auto.
    + rewrite Hz. cbn [app concat]. rewrite I1. split; auto. discriminate.
Qed.
Lemma get_ok : forall nonzero s c sel, Inv s -> conc_of (st s) c -> sel_ok s c sel -> sel <> [] -> no_zeros nonzero s (cparams c) sel ->
  exists ls l ks, conc_get nonzero s c sel = Ok ls /\ shown ls = Ok l /\ increasing ks /\ (forall k, In k ks <-> In k sel) /\ values_at s (cparams c) ks l.
Proof.
  intros nonzero s c sel H [Nd Hps] Hsel Hne Hz. pose proof (inv_st _ H) as W. set (ps := cparams c) in *. set (n := conc_size s c) in *.
  assert (Hn : 0 <= n) by (apply sum_nonneg; auto).
  set (mask := map (fun k => zmem k sel) (arange n)). assert (Em : indicator n sel = Ok mask) by (apply indicator_ok; auto).
  assert (Lm : length mask = Z.to_nat n) by (unfold mask; rewrite map_length, arange_len; auto).
  assert (Va : Forall2 (fun k v => exists p j, position_of (st s) ps k p j /\ value s p j = Some v) (arange n) (flat_map (leaf_vals s) ps)).
  { pose proof (values_len s ps H Hps) as Hl. change (sum_sizes (st s) ps) with n in Hl.
    assert (G : forall i k v, nth_error (arange n) i = Some k -> nth_error (flat_map (leaf_vals s) ps) i = Some v -> exists p j, position_of (st s) ps k p j /\ value s p j = Some v).
    { intros i k v Ek Ev. rewrite arange_nth_error in Ek. destruct (Nat.ltb_spec i (Z.to_nat n)) as [Hi|]; [|discriminate]. injection Ek as <-.
      destruct (position_exists (st s) ps (Z.of_nat i) W) as (p & j & P); [change (sum_sizes (st s) ps) with n; lia|]. exists p, j. split; auto.
      rewrite <- (values_nth s ps (Z.of_nat i) p j H Hps P). rewrite Nat2Z.id. auto. }
    assert (Ll : length (arange n) = length (flat_map (leaf_vals s) ps)) by (rewrite arange_len; lia). clear - G Ll.
    revert G Ll. generalize (arange n), (flat_map (leaf_vals s) ps). intros ks. induction ks as [|k ks IH]; intros [|v vs] G Ll; try discriminate; constructor.
    - apply (G 0%nat); auto.
    - apply IH; auto. intros i. apply (G (S i)). }
  pose proof (select_filter _ _ _ (fun k => zmem k sel) _ _ Va) as Vs. fold mask in Vs.
  assert (Lz : forall l p r, ps = l ++ p :: r -> let m := select (firstn (Z.to_nat (size (st s) p)) (skipn (Z.to_nat (sum_sizes (st s) l)) mask)) (leaf_vals s p) in m = [] \/ existsb nonzero m = true).
  { intros l p r E m. destruct (Hps p) as [Hp Hl]; [rewrite E; apply in_elt|]. destruct (leaf_vals_ok s p H Hp Hl) as [Ll Lv].
    pose proof (sum_nonneg (st s) l W) as Hsl. pose proof (sum_nonneg (st s) r W) as Hsr.
    assert (Hsz : n = sum_sizes (st s) l + (size (st s) p + sum_sizes (st s) r)) by (unfold n, conc_size; fold ps; rewrite E, sum_app, sum_cons; auto).
    set (o := Z.to_nat (sum_sizes (st s) l)) in *. set (mk := firstn (Z.to_nat (size (st s) p)) (skipn o mask)) in *.
    assert (Lk : length mk = length (leaf_vals s p)) by (unfold mk; rewrite firstn_length, skipn_length; lia).
    assert (En : forall i, 0 <= i < size (st s) p -> nth (Z.to_nat i) mk false = zmem (sum_sizes (st s) l + i) sel).
    { intros i Hi. unfold mk. rewrite <- (indicator_nth n sel) by lia. fold mask. replace (Z.to_nat (sum_sizes (st s) l + i)) with (o + Z.to_nat i)%nat by lia.
      rewrite <- (firstn_skipn o mask) at 2. rewrite app_nth2; rewrite firstn_length_le by lia; [|lia]. replace (o + Z.to_nat i - o)%nat with (Z.to_nat i) by lia.
      rewrite <- (firstn_skipn (Z.to_nat (size (st s) p)) (skipn o mask)) at 2. rewrite app_nth1; auto. rewrite firstn_length, skipn_length. lia. }
    destruct m as [|v m'] eqn:Em'; [left; auto|]. right.
    assert (Hv : nth_error m 0 = Some v) by (rewrite Em'; auto). apply select_In in Hv as (k & K1 & K2 & _); auto.
    assert (Hk : (k < length (leaf_vals s p))%nat) by (apply nth_error_Some; congruence).
    assert (Hin : In (sum_sizes (st s) l + Z.of_nat k) sel).
    { apply zmem_In. rewrite <- En by lia. rewrite Nat2Z.id. auto. }
    destruct (Hz _ p (Z.of_nat k) Hin) as (k' & j' & w & Hk' & (l' & r' & E' & Hj' & Ek') & Hw & Nz).
    { exists l, r. split; auto. split; [lia | auto]. }
    destruct (split_unique _ l r l' r' p) as [<- <-]; [rewrite <- E; auto | rewrite <- E, <- E'; auto |].
    rewrite <- Em'. apply existsb_exists. exists w. split; auto. rewrite Lv in Hw by auto.
    rewrite <- (select_nth V mk (leaf_vals s p) (Z.to_nat j')) in Hw; [eapply nth_error_In; eauto | auto |]. rewrite En by auto. apply zmem_In. rewrite <- Ek'. auto. }
  destruct (pieces_concat nonzero ps s mask H Hps) as [P1 P2]; [rewrite Lm; change (sum_sizes (st s) ps) with n; lia | exact Lz|].
  exists (pieces nonzero s ps mask), (select mask (flat_map (leaf_vals s) ps)), (filter (fun k => zmem k sel) (arange n)).
  assert (Hks : forall k, In k (filter (fun k => zmem k sel) (arange n)) <-> In k sel).
  { intros k. rewrite filter_In, arange_In, zmem_In. split; [tauto|]. intros Hk. split; auto; apply Hsel; auto. }
  split; [unfold conc_get; fold n; rewrite Em; reflexivity|]. split; [|split; [|split; auto]].
  - unfold shown. destruct (pieces nonzero s ps mask) as [|a b] eqn:Ep; [|rewrite P1; auto]. exfalso. specialize (P2 eq_refl). rewrite P2 in Vs. inversion Vs as [E|].
    destruct sel as [|k sel']; [congruence|]. assert (Q : In k (filter (fun k0 => zmem k0 (k :: sel')) (arange n))) by (apply Hks; left; auto). rewrite <- E in Q. destruct Q.
  - apply increasing_filter. apply arange_increasing.
Qed.
End Calls.
