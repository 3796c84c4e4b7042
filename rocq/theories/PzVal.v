(** Proofs about the hierarchy, part 19: values. *)
From Coq Require Import List ZArith Bool Lia Arith.
From Verif Require Import NpModel NpProofs IndexOpsModel IndexOpsSpec IndexOpsProofs PzModel PzSpec PzTree PzStruct PzLink PzWalk PzMem PzIo PzInv PzConn PzFix PzLinkMem PzPres PzUnlink PzTraverse PzNotify PzNew PzCmd PzInit PzCons.
Import ListNotations.
Open Scope Z_scope.

(** ** Every element belongs to a Param *)
Lemma cover : forall t x j, swf t -> 0 <= j < size t x -> exists z o n, is_leaf t z = true /\ below t x z o n /\ o <= j < o + size t z.
Proof.
  intros t x j W. destruct (PzTree.wf_rank t W) as [rk R]. revert j.
  assert (H : forall N x, (rk x < N)%nat -> forall j, 0 <= j < size t x -> exists z o n, is_leaf t z = true /\ below t x z o n /\ o <= j < o + size t z).
  { induction N as [|N IH]; intros q Hq j Hj; [lia|]. destruct (is_leaf t q) eqn:El.
    - exists q, 0, 0%nat. split; auto. split; [constructor | lia].
    - rewrite (PzTree.wf_node t W q) in Hj by (apply node_not_leaf; auto).
      destruct (sum_split t (kids t q) j) as (i & c & Hi & Q); auto; [intros; apply size_nonneg; auto|].
      assert (rk c < rk q)%nat by (apply R; eapply nth_error_In; eauto).
      destruct (IH c ltac:(lia) (j - sum_sizes t (firstn i (kids t q)))) as (z & o & n & Hz & B & Hr); [lia|].
      exists z, (sum_sizes t (firstn i (kids t q)) + o), (S n). split; auto. split; [econstructor; eauto | lia]. }
  apply (H (S (rk x))). lia.
Qed.
Lemma leaf_above : forall t x y, swf t -> is_leaf t x = true -> above t x y -> x = y.
Proof. intros t x y W H A. apply (kids_nil_above t); auto. apply leaf_kids; auto. Qed.
Lemma same_elem_trans : forall t a i b j c k, swf t -> same_elem t a i b j -> same_elem t b j c k -> same_elem t a i c k.
Proof.
  intros t a i b j c k W S1 S2. destruct (root_exists t b W) as (r & o & n & _ & Hp & B).
  destruct (proj1 (same_elem_root t r b o n W Hp B _ _ _) S1) as (A1 & A2 & oa & na & Ba & Ea).
  apply same_elem_sym in S2. destruct (proj1 (same_elem_root t r b o n W Hp B _ _ _) S2) as (C1 & C2 & oc & nc & Bc & Ec).
  split; auto. split; auto. exists r, oa, na, oc, nc. repeat split; auto. lia.
Qed.
Lemma same_elem_leaf : forall t z i z' j, swf t -> is_leaf t z = true -> is_leaf t z' = true -> same_elem t z i z' j -> z = z' /\ i = j.
Proof.
  intros t z i z' j W L1 L2 Se. assert (z = z').
  { destruct Se as (A & B & r & oy & ny & ox & nx & By & Bx & E). destruct (Nat.eq_dec z z') as [|Hne]; auto. exfalso.
    destruct (below_disjoint t r z z' oy ox ny nx); auto; try lia.
    - intros q _. split; [apply wf_node_ok; auto | apply size_nonneg; auto].
    - intros Q. apply Hne. apply (leaf_above t); auto.
    - intros Q. apply Hne. symmetry. apply (leaf_above t); auto. }
  subst z'. split; auto. apply (same_elem_self t z); auto.
Qed.
Lemma below_elem : forall t x z o n j, swf t -> below t x z o n -> 0 <= j < size t z -> same_elem t z j x (j + o).
Proof.
  intros t x z o n j W B Hj. destruct (below_range _ _ _ _ _ W B). split; auto. split; [lia|].
  exists x, o, n, 0, 0%nat. repeat split; auto; [constructor | lia].
Qed.
Lemma cover_elem : forall t x k, swf t -> 0 <= k < size t x -> exists z i, is_leaf t z = true /\ above t x z /\ same_elem t z i x k.
Proof.
  intros t x k W Hk. destruct (cover t x k W Hk) as (z & o & n & Hz & B & Hr). exists z, (k - o). split; auto. split; [exists o, n; auto|].
  replace k with (k - o + o) at 2 by lia. eapply below_elem; eauto. lia.
Qed.

Section Val.
Context {V : Type}.
Implicit Types m : @memst V.
Implicit Types s : @state V.

Definition mval m (x : oid) (j : Z) : option V :=
  match arr m x with Some (b, o, n) => if (0 <=? j) && (j <? n) then Some (cell m b (o + j)) else None | None => None end.

Lemma ready_al : forall t m x, swf t -> meminv t m -> (x < next t)%nat -> ready t x -> exists b o, al t m x b o.
Proof. intros t m x W M Hx [H|H]; [apply leaf_al; auto | apply (mm_al _ _ M); auto]. Qed.
Lemma al_self : forall t m x b o, al t m x b o -> 0 < size t x -> arr m x = Some (b, o, size t x).
Proof. intros t m x b o H Hp. rewrite <- (Z.add_0_r o). apply (H x 0 0%nat); auto. constructor. Qed.
(** The address of an element of an object with an array is that of the element of a Param. *)
Lemma leaf_addr : forall t m x b o k z i, swf t -> al t m x b o -> is_leaf t z = true -> same_elem t z i x k ->
  arr m z = Some (b, o + (k - i), size t z) /\ arr m x = Some (b, o, size t x).
Proof.
  intros t m x b o k z i W A Hz Se. pose proof Se as (Hi & Hk & _).
  split; [|apply al_self; auto; lia].
  destruct (cover_elem t x k W Hk) as (z' & i' & Hz' & [oz [nz B]] & Se').
  assert (S2 : same_elem t z i z' i') by (eapply same_elem_trans; eauto; apply same_elem_sym; auto).
  apply same_elem_leaf in S2 as [<- <-]; auto.
  assert (S3 : same_elem t x (i + oz) x k).
  { eapply same_elem_trans; [auto | apply same_elem_sym; eapply below_elem; eauto | auto]. }
  apply same_elem_self in S3; auto. subst k. replace (i + oz - i) with oz by lia. apply (A z oz nz); auto. lia.
Qed.

(** Elements that are the same have the same address. *)
Lemma same_addr : forall t m x y j k bx ox by_ oy, swf t -> al t m x bx ox -> al t m y by_ oy -> same_elem t y j x k -> by_ = bx /\ oy + j = ox + k.
Proof.
  intros t m x y j k bx ox by_ oy W Ax Ay Se. pose proof Se as (Hj & Hk & _). destruct (cover_elem t x k W Hk) as (z & i & Hz & _ & Sz).
  destruct (leaf_addr t m x bx ox k z i W Ax Hz Sz) as [E1 _].
  assert (S2 : same_elem t z i y j) by (eapply same_elem_trans; eauto; apply same_elem_sym; auto).
  destruct (leaf_addr t m y by_ oy j z i W Ay Hz S2) as [E2 _].
  rewrite E1 in E2. inversion E2. split; auto. lia.
Qed.
(** Elements of different Params, hence elements that are not the same, have different addresses. *)
Lemma diff_addr : forall t m x y j k bx ox by_ oy, swf t -> disj t m -> al t m x bx ox -> al t m y by_ oy ->
  0 <= j < size t y -> 0 <= k < size t x -> by_ = bx -> oy + j = ox + k -> same_elem t y j x k.
Proof.
  intros t m x y j k bx ox by_ oy W D Ax Ay Hj Hk Eb E. subst by_.
  destruct (cover_elem t x k W Hk) as (z & i & Hz & _ & Sz). destruct (leaf_addr t m x bx ox k z i W Ax Hz Sz) as [E1 _].
  destruct (cover_elem t y j W Hj) as (z' & i' & Hz' & _ & Sz'). destruct (leaf_addr t m y bx oy j z' i' W Ay Hz' Sz') as [E2 _].
  pose proof Sz as (Hi & _). pose proof Sz' as (Hi' & _).
  destruct (Nat.eq_dec z z') as [<-|Hne].
  - rewrite E1 in E2. inversion E2. assert (i = i') by lia. subst i'. eapply same_elem_trans; eauto. apply same_elem_sym; auto.
  - exfalso. destruct (D z z' bx _ _ Hz Hz' Hne E1 E2); lia.
Qed.

Lemma mval_al : forall t m x b o j, al t m x b o -> 0 <= j < size t x -> mval m x j = Some (cell m b (o + j)).
Proof.
  intros t m x b o j A Hj. unfold mval. rewrite (al_self t m x b o A) by lia.
  destruct (Z.leb_spec 0 j); [|lia]. destruct (Z.ltb_spec j (size t x)); [|lia]. auto.
Qed.
Lemma mval_none : forall t m x j, swf t -> meminv t m -> (x < next t)%nat -> ready t x -> ~ 0 <= j < size t x -> 0 < size t x -> mval m x j = None.
Proof.
  intros t m x j W M Hx Hr Hj Hp. destruct (ready_al t m x W M Hx Hr) as (b & o & A). unfold mval. rewrite (al_self t m x b o A) by lia.
  destruct (Z.leb_spec 0 j); auto. destruct (Z.ltb_spec j (size t x)); auto. lia.
Qed.

(** One copy in memory. *)
Lemma one_copy : forall t m x y j k, swf t -> meminv t m -> (x < next t)%nat -> (y < next t)%nat -> ready t x -> ready t y -> same_elem t y j x k -> mval m y j = mval m x k.
Proof.
  intros t m x y j k W M Hx Hy Rx Ry Se. destruct (ready_al t m x W M Hx Rx) as (b & o & A). destruct (ready_al t m y W M Hy Ry) as (b' & o' & A').
  pose proof Se as (Hj & Hk & _). destruct (same_addr t m x y j k _ _ _ _ W A A' Se) as [-> E].
  rewrite (mval_al t m x b o k), (mval_al t m y b o' j) by auto. rewrite E. auto.
Qed.

Lemma write_meminv : forall t m a vals, meminv t m -> meminv t (write_arr m a vals).
Proof.
  intros t m [[b o] n] vals [A1 A2 A3 A4 A5]. constructor; auto.
Qed.

(** Writing to the array of an object that has one. *)
Lemma write_mem : forall t m x, swf t -> meminv t m -> (x < next t)%nat -> ready t x ->
  exists m1 b o, param_array t m x = (m1, (b, o, size t x)) /\
    (forall k d, 0 <= k < size t x -> mval m x k = Some (nth (Z.to_nat k) (read_arr m1 (b, o, size t x)) d)) /\
    forall vals, let m' := write_arr m1 (b, o, size t x) vals in Z.of_nat (length vals) = size t x ->
    meminv t m' /\ (disj t m -> disj t m') /\
    (forall y j k, (y < next t)%nat -> ready t y -> same_elem t y j x k -> mval m' y j = nth_error vals (Z.to_nat k)) /\
    (forall y j, (y < next t)%nat -> ready t y -> 0 <= j < size t y -> disj t m -> (forall k, ~ same_elem t y j x k) -> mval m' y j = mval m y j).
Proof.
  intros t m x W M Hx Rx. pose proof (size_nonneg t W x) as Hnn. destruct (ready_al t m x W M Hx Rx) as (b & o & A).
  destruct (Z_lt_dec 0 (size t x)) as [Hp|Hz].
  - pose proof (al_self t m x b o A Hp) as Ex. exists m, b, o. split; [apply pa_valid; auto|]. split.
    { intros k d Hk. rewrite (mval_al t m x b o k A Hk). rewrite read_nth by auto. auto. }
    intros vals m' Hl. split; [apply write_meminv; auto|]. split; [auto|].
    assert (Al' : forall y b' o', al t m y b' o' -> al t m' y b' o') by (intros y b' o' H; exact H). split.
    + intros y j k Hy Ry Se. destruct (ready_al t m y W M Hy Ry) as (b' & o' & A'). pose proof Se as (Hj & Hk & _).
      destruct (same_addr t m x y j k _ _ _ _ W A A' Se) as [-> E]. rewrite (mval_al t m' y b o' j) by auto. unfold m'.
      rewrite write_in by lia. replace (o' + j - o) with k by lia. symmetry. apply nth_error_nth'. lia.
    + intros y j Hy Ry Hj D Hno. destruct (ready_al t m y W M Hy Ry) as (b' & o' & A'). rewrite (mval_al t m' y b' o' j), (mval_al t m y b' o' j) by auto.
      unfold m'. rewrite write_out; auto. intros [-> Hr]. apply (Hno (o' + j - o)).
      apply (diff_addr t m x y j (o' + j - o) b o b o'); auto; lia.
  - assert (Hs : size t x = 0) by lia.
    destruct (pa_spec t m x) as (m1 & b1 & o1 & Ep & Ea & Eo & Ec & En & _); [apply leaf_valid; auto|].
    exists m1, b1, o1. split; auto. split; [intros; lia|]. intros vals m' Hl.
    assert (Hcell : forall bb z, cell m' bb z = cell m bb z) by (intros; unfold m'; rewrite write_out by (rewrite Hs; lia); rewrite Ec; auto).
    assert (Harr : forall y, y <> x -> arr m' y = arr m y) by (intros; apply Eo; auto).
    assert (Hax : arr m' x = Some (b1, o1, size t x)) by exact Ea.
    split; [|split; [|split]].
    + apply write_meminv. destruct M as [A1 A2 A3 A4 A5]. constructor.
      * intros y b' o' n' E. destruct (Nat.eq_dec y x) as [->|Hne].
        -- unfold param_array in Ep. destruct (arr m x) as [[[b2 o2] n2]|] eqn:E2.
           ++ destruct (is_leaf t x || (n2 =? size t x)).
              ** inversion Ep; subst. eapply A1; eauto.
              ** inversion Ep; subst. cbn. rewrite Ea in E. inversion E. lia.
           ++ inversion Ep; subst. cbn. rewrite Ea in E. inversion E. lia.
        -- rewrite Eo in E by auto. apply A1 in E. lia.
      * intros y Hy Hk Hi. destruct (Nat.eq_dec y x) as [->|Hne]; [|rewrite Eo by auto; apply A2; auto].
        exfalso. destruct Rx as [Q|Q]; [|contradiction]. unfold is_leaf in Q. rewrite Hk in Q. discriminate.
      * intros y b' o' n' Hy E. destruct (Nat.eq_dec y x) as [->|Hne]; [rewrite Ea in E; inversion E; auto | rewrite Eo in E by auto; eapply A3; eauto].
      * intros y Hy Hl'. destruct (Nat.eq_dec y x) as [->|Hne]; [rewrite Ea; discriminate | rewrite Eo by auto; auto].
      * intros y Hy. destruct (A5 y Hy) as (b' & o' & H). exists b', o'. intros z k n B Hzp. rewrite Eo by (intros ->; lia). eapply H; eauto.
    + intros D y z b' oy oz L1 L2 Hne E1 E2 P1 P2. rewrite Harr in E1 by (intros ->; lia). rewrite Harr in E2 by (intros ->; lia). eapply D; eauto.
    + intros y j k _ _ (_ & Q & _). lia.
    + intros y j Hy Ry Hj _ _. unfold mval. rewrite Harr by (intros ->; lia). destruct (arr m y) as [[[? ?] ?]|]; auto. rewrite Hcell. auto.
Qed.

(** ** Commands that write *)

Lemma enum_map : forall (l : list V) (F : Z -> V -> V) k, (k < length l)%nat ->
  nth_error (map (fun e => F (fst e) (snd e)) (combine (arange (Z.of_nat (length l))) l)) k = option_map (F (Z.of_nat k)) (nth_error l k).
Proof.
  intros l F k Hk. destruct (nth_error l k) as [v|] eqn:E; [|apply nth_error_None in E; lia]. cbn [option_map].
  apply nth_error_nth with (d := v) in E as E'.
  assert (L : (k < length (combine (arange (Z.of_nat (length l))) l))%nat) by (rewrite combine_length, arange_len; lia).
  rewrite (nth_error_nth' _ (F 0 v)) by (rewrite map_length; auto).
  change (F 0 v) with ((fun e => F (fst e) (snd e)) (0, v)). rewrite map_nth. rewrite combine_nth by (rewrite arange_len; lia).
  rewrite arange_nth by lia. cbn [fst snd]. rewrite E'. auto.
Qed.
Lemma enum_len : forall (l : list V) (F : Z -> V -> V), length (map (fun e => F (fst e) (snd e)) (combine (arange (Z.of_nat (length l))) l)) = length l.
Proof. intros. rewrite map_length, combine_length, arange_len. lia. Qed.

(** Storing a list of values in [x], followed by something that leaves values alone. *)
Lemma store_ok : forall s x, Inv s -> (x < next (st s))%nat -> ready (st s) x ->
  exists m1 a, param_array (st s) (mem s) x = (m1, a) /\ Z.of_nat (length (read_arr m1 a)) = size (st s) x /\
    (forall k, 0 <= k < size (st s) x -> value s x k = nth_error (read_arr m1 a) (Z.to_nat k)) /\
    forall vals F, length vals = length (read_arr m1 a) ->
      (forall k, (k < length (read_arr m1 a))%nat -> nth_error vals k = option_map (F (Z.of_nat k)) (nth_error (read_arr m1 a) k)) ->
      let s' := with_mem s (write_arr m1 a vals) in Inv s' /\ changed s s' x F /\ (apart s -> apart s').
Proof.
  intros s x [W I F M N J] Hx Rx. destruct (write_mem (st s) (mem s) x W M Hx Rx) as (m1 & b & o & Ep & Rd & Wr).
  pose proof (size_nonneg (st s) W x) as Hnn. assert (Hlen : Z.of_nat (length (read_arr m1 (b, o, size (st s) x))) = size (st s) x) by (apply read_len; auto).
  exists m1, (b, o, size (st s) x). split; auto. split; auto. split.
  { intros k Hk. change (value s x k) with (mval (mem s) x k). destruct (nth_error (read_arr m1 (b, o, size (st s) x)) (Z.to_nat k)) as [v|] eqn:E.
    - rewrite (Rd k v Hk). f_equal. apply nth_error_nth; auto.
    - apply nth_error_None in E. lia. }
  intros vals G Hl HG s'. destruct (Wr vals) as (M' & D' & C1 & C2); [lia|].
  split; [constructor; auto|]. split; [|exact D'].
  split.
  - intros y j k Hy Ry Se. pose proof Se as (_ & Hk & _). change (value s' y j) with (mval (write_arr m1 (b, o, size (st s) x) vals) y j). rewrite (C1 y j k) by auto.
    rewrite HG by lia. rewrite Z2Nat.id by lia. change (value s y j) with (mval (mem s) y j). rewrite (one_copy (st s) (mem s) x y j k) by auto.
    destruct (nth_error (read_arr m1 (b, o, size (st s) x)) (Z.to_nat k)) as [v|] eqn:E; [|apply nth_error_None in E; lia].
    rewrite (Rd k v Hk). cbn [option_map]. f_equal. f_equal. symmetry. apply nth_error_nth; auto.
  - intros D y j Hy Ry Hj Hno. apply C2; auto.
Qed.
Lemma changed_mem : forall s s1 s2 x F, changed s s1 x F -> mem s2 = mem s1 -> changed s s2 x F.
Proof. intros s s1 s2 x F [A B] E. split; intros; unfold value in *; rewrite E; [eapply A; eauto | eapply B; eauto]. Qed.

Lemma set_values_ok : forall s x sel g, Inv s -> (x < next (st s))%nat -> ready (st s) x ->
  exists s', set_values x sel g s = (s', None) /\ Inv s' /\ changed s s' x (on_sel sel g) /\ (apart s -> apart s') /\
    st s' = st s /\ ios s' = ios s /\ fix_ s' = fix_ s /\ nt s' = nt s.
Proof.
  intros s x sel g H Hx Rx. destruct (store_ok s x H Hx Rx) as (m1 & a & Ep & Hlen & _ & St).
  unfold set_values. rewrite Ep.
  set (vals := map _ _). assert (Ev : vals = map (fun e => on_sel sel g (fst e) (snd e)) (combine (arange (Z.of_nat (length (read_arr m1 a)))) (read_arr m1 a))).
  { unfold vals. apply map_ext. intros e. unfold on_sel. destruct sel; auto. }
  destruct (St vals (on_sel sel g)) as (H' & C & D).
  - rewrite Ev. apply enum_len.
  - intros k Hk. rewrite Ev. apply enum_map; auto.
  - eexists. split; [reflexivity|]. split; auto. split; auto.
Qed.

Lemma only_ran_has : forall s l s', only_ran s l s' -> forall y p j, has s' y p j <-> has s y p j.
Proof. intros s l s' (_ & E & _) y p j. apply has_ext; auto. Qed.

(** [p[...] = v] on a Param, [m[...] = v] on a Parameterized. *)
Lemma assign_ok : forall s x g, Inv s -> (x < next (st s))%nat -> ready (st s) x ->
  exists s' l, assign x g s = (s', None) /\ Inv s' /\ changed s s' x g /\ (apart s -> apart s') /\
    st s' = st s /\ ios s' = ios s /\ fix_ s' = fix_ s /\ ran (nt s) l (nt s') /\
    (if is_leaf (st s) x then exists u, up (st s) x u /\ l = chain (st s) (nt s) u else triggered (st s) (ios s) (nt s) x l).
Proof.
  intros s x g H Hx Rx. destruct (store_ok s x H Hx Rx) as (m1 & a & Ep & Hlen & _ & St).
  unfold assign. rewrite Ep. set (vals := map _ _).
  destruct (St vals g) as (H1 & C & D); [apply enum_len | intros k Hk; apply enum_map; auto|].
  set (s1 := with_mem s (write_arr m1 a vals)) in *.
  assert (R1 : (fun s0 : state => (with_mem s0 (write_arr m1 a vals), None)) s = (s1, @None exn)) by reflexivity.
  rewrite (andthen_ok _ _ _ _ R1). destruct (is_leaf (st s) x) eqn:El.
  - destruct (notify_cmd s1 x H1) as (s2 & u & R2 & U & O). exists s2, (chain (st s) (nt s) u). split; auto.
    split; [eapply only_ran_inv; eauto|]. pose proof O as (E1 & E2 & E3 & E4 & E5).
    split; [eapply changed_mem; eauto|]. split; [unfold apart in *; rewrite E1, E4; auto|]. repeat (split; auto). exists u. auto.
  - destruct (trigger_full s1 x H1) as (s2 & l & R2 & O & Tr); auto. exists s2, l. split; auto.
    split; [eapply only_ran_inv; eauto|]. pose proof O as (E1 & E2 & E3 & E4 & E5).
    split; [eapply changed_mem; eauto|]. split; [unfold apart in *; rewrite E1, E4; auto|]. repeat (split; auto).
Qed.

(** [constrain]. *)
Lemma constrain_ok : forall tinit s x sel n, Inv s -> (x < next (st s))%nat -> ready (st s) x -> legal_sel (st s) x sel ->
  exists s' l, constrain tinit x sel n s = (s', None) /\ Inv s' /\ changed s s' x (on_sel sel (tinit n)) /\ (apart s -> apart s') /\
    st s' = st s /\ ran (nt s) l (nt s') /\
    (exists u l5, up (st s) x u /\ triggered (st s) (ios s') (nt s) x l5 /\ l = (if is_leaf (st s) x then chain (st s) (nt s) u else []) ++ l5) /\
    forall y q j, (y < next (st s))%nat -> (has s' y q j <->
      (has s y q j /\ ~ (exists k, selected (st s) x sel k /\ same_elem (st s) y j x k)) \/
      (q = Tr n /\ exists k, selected (st s) x sel k /\ same_elem (st s) y j x k)).
Proof.
  intros tinit s x sel n H Hx Rx Ls. destruct (set_values_ok s x sel (tinit n) H Hx Rx) as (s1 & R1 & H1 & C1 & D1 & E1 & E2 & E3 & E4).
  unfold constrain. rewrite (andthen_ok _ _ _ _ R1).
  assert (exists s2 u, (if is_leaf (st s) x then c_notify x true else done) s1 = (s2, None) /\ up (st s1) x u /\ only_ran s1 (if is_leaf (st s) x then chain (st s1) (nt s1) u else []) s2) as (s2 & u & R2 & Hu & O2).
  { destruct (is_leaf (st s) x).
    - destruct (notify_cmd s1 x H1) as (s2 & u & R2 & U & O). eauto.
    - destruct (wf_up (st s1) (inv_st _ H1) x) as [u Hu]. exists s1, u. split; auto. split; auto. repeat (split; auto). }
  set (l2 := if is_leaf (st s) x then chain (st s1) (nt s1) u else []) in *.
  rewrite (andthen_ok _ _ _ _ R2). pose proof (only_ran_inv _ _ _ O2 H1) as H2. pose proof O2 as (F1 & F2 & F3 & F4 & F5).
  destruct (unconstrain_ok s2 x sel [] H2) as (s3 & R3 & H3 & O3 & Q3); try (rewrite F1, E1; auto).
  rewrite (andthen_ok _ _ _ _ R3). pose proof O3 as (G1 & G2 & G3).
  destruct (add_cons_ok s3 x sel n H3) as (s4 & R4 & H4 & O4 & Q4); try (rewrite G1, F1, E1; auto).
  rewrite (andthen_ok _ _ _ _ R4). pose proof O4 as (K1 & K2 & K3).
  destruct (trigger_full s4 x H4) as (s5 & l5 & R5 & O5 & T5); [rewrite K1, G1, F1, E1; auto|].
  pose proof O5 as (L1 & L2 & L3 & L4 & L5).
  assert (Est : st s5 = st s) by congruence. assert (Em : mem s5 = mem s1) by congruence.
  exists s5, (l2 ++ l5). split; auto. split; [eapply only_ran_inv; eauto|]. split; [eapply changed_mem; eauto|].
  split. { intros Ap. apply D1 in Ap. unfold apart in *. rewrite Est, Em, <- E1. auto. }
  split; auto. split. { rewrite <- E4. eapply ran_app; eauto. rewrite <- G3, <- K3. auto. }
  split. { exists u, l5. split; [rewrite <- E1; auto|]. split; [|unfold l2; rewrite E1, E4; auto].
    rewrite L2, <- E1, <- F1, <- G1, <- K1. eapply triggered_ext; [|exact T5]. rewrite K3, G3, (ran_upd _ _ _ F5), E4. auto. }
  intros y q j Hy. rewrite (only_ran_has _ _ _ O5). rewrite Q4 by (rewrite G1, F1, E1; auto). rewrite Q3 by (rewrite F1, E1; auto).
  rewrite (only_ran_has _ _ _ O2). assert (Hh : has s1 y q j <-> has s y q j) by (apply has_ext; auto). rewrite Hh, G1, F1, E1. tauto.
Qed.
End Val.
