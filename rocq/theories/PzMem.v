(** Proofs about the hierarchy, part 5: memory. *)
From Coq Require Import List ZArith Bool Lia Arith.
From Verif Require Import NpModel NpProofs IndexOpsModel PzModel PzSpec PzTree PzStruct PzLink PzWalk.
Import ListNotations.
Open Scope Z_scope.

Section Mem.
Context {V : Type}.
Implicit Types m : @memst V.

Definition node_ok (st : struct) (x : oid) : Prop :=
  match kind st x with KLeaf n => kids st x = [] /\ size st x = Z.of_nat n | KNode => size st x = sum_sizes st (kids st x) end.
Lemma wf_node_ok : forall st x, wf st -> node_ok st x.
Proof.
  intros st x W. unfold node_ok. destruct (kind st x) eqn:E; [apply wf_leaf; auto | apply wf_node; auto].
Qed.
Definition valid (st : struct) m (x : oid) : Prop := exists b o, arr m x = Some (b, o, size st x).
Definition bnd m : Prop := forall x b o n, arr m x = Some (b, o, n) -> (b < nbuf m)%nat.

Lemma arange_len : forall n, length (arange n) = Z.to_nat n.
Proof. intros. unfold arange. rewrite map_length, seq_length. reflexivity. Qed.
Lemma arange_nth : forall n k d, (k < Z.to_nat n)%nat -> nth k (arange n) d = Z.of_nat k.
Proof.
  intros. unfold arange. rewrite nth_indep with (d' := Z.of_nat 0) by (rewrite map_length, seq_length; auto).
  rewrite map_nth. rewrite seq_nth by auto. reflexivity.
Qed.
Lemma read_len : forall m b o n, 0 <= n -> Z.of_nat (length (read_arr m (b, o, n))) = n.
Proof. intros. unfold read_arr. rewrite map_length, arange_len. lia. Qed.
Lemma read_nth : forall m b o n j d, 0 <= j < n -> nth (Z.to_nat j) (read_arr m (b, o, n)) d = cell m b (o + j).
Proof.
  intros. unfold read_arr.
  rewrite nth_indep with (d' := cell m b (o + 0)) by (rewrite map_length, arange_len; lia).
  rewrite (map_nth (fun k => cell m b (o + k))). rewrite arange_nth by lia. f_equal. lia.
Qed.
Lemma write_in : forall m b o n vals z, o <= z < o + n ->
  cell (write_arr m (b, o, n) vals) b z = nth (Z.to_nat (z - o)) vals (cell m b z).
Proof.
  intros. simpl. rewrite upd_eq. destruct (Z.leb_spec o z), (Z.ltb_spec z (o + n)); simpl; try lia. reflexivity.
Qed.
Lemma write_out : forall m b o n vals b' z, ~ (b' = b /\ o <= z < o + n) ->
  cell (write_arr m (b, o, n) vals) b' z = cell m b' z.
Proof.
  intros. simpl. destruct (Nat.eq_dec b' b) as [->|Hb]; [|rewrite upd_ne; auto]. rewrite upd_eq.
  destruct (Z.leb_spec o z), (Z.ltb_spec z (o + n)); simpl; try reflexivity. exfalso; apply H; auto.
Qed.
Lemma write_rest : forall m a vals, nbuf (write_arr m a vals) = nbuf m /\ forall y, arr (write_arr m a vals) y = arr m y.
Proof. intros m [[b o] n] vals. simpl. auto. Qed.
Lemma sub_eq : forall b o len lo n, 0 <= n -> lo + n <= len -> sub_arr (b, o, len) lo n = (b, o + lo, n).
Proof. intros. unfold sub_arr. rewrite !Z.min_l by lia. f_equal. lia. Qed.

Lemma pa_valid : forall st m x b o, arr m x = Some (b, o, size st x) -> param_array st m x = (m, (b, o, size st x)).
Proof. intros. unfold param_array. rewrite H, Z.eqb_refl, orb_true_r. reflexivity. Qed.
Lemma pa_spec : forall st m x, (is_leaf st x = true -> valid st m x) -> exists m' b o,
  param_array st m x = (m', (b, o, size st x)) /\ arr m' x = Some (b, o, size st x) /\
  (forall y, y <> x -> arr m' y = arr m y) /\ cell m' = cell m /\ (nbuf m <= nbuf m')%nat /\
  ((valid st m x /\ m' = m) \/ (~ valid st m x /\ is_leaf st x = false /\ b = nbuf m /\ o = 0 /\ nbuf m' = S (nbuf m))).
Proof.
  intros st m x Hl. unfold param_array.
  assert (F : ~ valid st m x -> is_leaf st x = false) by (intros; destruct (is_leaf st x); [exfalso; auto | auto]).
  set (fr := (set_arr (mkM (cell m) (S (nbuf m)) (arr m)) x (Some (nbuf m, 0, size st x)), (nbuf m, 0, size st x))).
  assert (Q : ~ valid st m x -> exists m' b o, fr = (m', (b, o, size st x)) /\ arr m' x = Some (b, o, size st x) /\
  (forall y, y <> x -> arr m' y = arr m y) /\ cell m' = cell m /\ (nbuf m <= nbuf m')%nat /\
  ((valid st m x /\ m' = m) \/ (~ valid st m x /\ is_leaf st x = false /\ b = nbuf m /\ o = 0 /\ nbuf m' = S (nbuf m)))).
  { intros Hv. exists (fst fr), (nbuf m), 0. unfold fr. simpl. split; [reflexivity|]. split; [apply upd_eq|].
    split; [intros; apply upd_ne; auto|]. split; [auto|]. split; [auto|]. right. auto. }
  destruct (arr m x) as [[[b o] n]|] eqn:E.
  - destruct (is_leaf st x || (n =? size st x)) eqn:Ev.
    + assert (n = size st x).
      { destruct (is_leaf st x) eqn:El; [|apply Z.eqb_eq; auto]. destruct (Hl eq_refl) as [b' [o' E']]. congruence. }
      subst n. exists m, b, o. rewrite E. repeat split; auto. left. split; [exists b, o; auto | auto].
    + apply Q. intros [b' [o' E']]. apply orb_false_elim in Ev as [_ Ev]. apply Z.eqb_neq in Ev. congruence.
  - apply Q. intros [b' [o' E']]. congruence.
Qed.
Lemma valid_dec : forall st m x, valid st m x \/ ~ valid st m x.
Proof.
  intros. unfold valid. destruct (arr m x) as [[[b o] n]|]; [|right; intros [? [? ?]]; discriminate].
  destruct (Z.eq_dec n (size st x)) as [->|H]; [left; eauto|]. right. intros [? [? E]]. inversion E; auto.
Qed.
Lemma valid_ext : forall st m m' x, arr m' x = arr m x -> valid st m x -> valid st m' x.
Proof. intros st m m' x E [b [o H]]. exists b, o. congruence. Qed.

Lemma copy_child_spec : forall st m self p bP oP lo, arr m self = Some (bP, oP, size st self) -> self <> p ->
  (is_leaf st p = true -> valid st m p) -> 0 <= size st p -> 0 <= lo -> lo + size st p <= size st self ->
  exists m' b o, copy_child st m self p lo = Ok m' /\ arr m' p = Some (b, o, size st p) /\
    (forall y, y <> p -> arr m' y = arr m y) /\ (nbuf m <= nbuf m')%nat /\
    (arr m p = Some (b, o, size st p) \/ (~ valid st m p /\ is_leaf st p = false /\ b = nbuf m /\ o = 0 /\ (nbuf m < nbuf m')%nat)) /\
    (forall j, 0 <= j < size st p -> cell m' bP (oP + lo + j) = cell m b (o + j)) /\
    (forall b' z, ~ (b' = bP /\ oP + lo <= z < oP + lo + size st p) -> cell m' b' z = cell m b' z).
Proof.
  intros st m self p bP oP lo Hs Hne Hl Hn Hlo Hle. unfold copy_child.
  destruct (pa_spec st m p Hl) as (m1 & b & o & E1 & A1 & A2 & C1 & N1 & D1). rewrite E1.
  assert (A3 : arr m1 self = Some (bP, oP, size st self)) by (rewrite A2; auto).
  rewrite (pa_valid _ _ _ _ _ A3). rewrite sub_eq by lia. rewrite read_len by lia.
  replace (size st p =? snd (bP, oP + lo, size st p)) with true by (symmetry; apply Z.eqb_eq; reflexivity).
  set (vals := read_arr m1 (b, o, size st p)).
  exists (write_arr m1 (bP, oP + lo, size st p) vals), b, o. split; [reflexivity|].
  destruct (write_rest m1 (bP, oP + lo, size st p) vals) as [W1 W2]. rewrite W1.
  split; [rewrite W2; auto|]. split; [intros; rewrite W2; auto|]. split; [auto|]. split.
  { destruct D1 as [[[b' [o' Ev]] ->]|(D1 & D2 & D3 & D4 & D5)].
    - left. rewrite Ev in A1. congruence.
    - right. repeat split; auto. lia. }
  split.
  - intros j Hj. rewrite write_in by lia.
    replace (oP + lo + j - (oP + lo)) with j by lia. unfold vals. rewrite read_nth by lia. rewrite C1. reflexivity.
  - intros b' z Hz. rewrite write_out by auto. rewrite C1. reflexivity.
Qed.
Lemma repoint_spec : forall st m p b o bS oS n, arr m p = Some (b, o, size st p) ->
  repoint st m p (bS, oS, n) = set_arr m p (Some (bS, oS, size st p)).
Proof. intros. unfold repoint. rewrite (pa_valid _ _ _ _ _ H). reflexivity. Qed.

Lemma tree_nonneg : forall st t, krep st t -> (forall y, In y (oids t) -> node_ok st y) -> forall y, In y (oids t) -> 0 <= size st y.
Proof.
  intros st t. induction t as [x ts IH] using tree_ind'. intros Hk Hok.
  assert (Hc : forall c y, In c ts -> In y (oids c) -> 0 <= size st y).
  { rewrite Forall_forall in IH. intros c y Hc Hy. apply (IH c Hc); auto.
    - eapply krep_child; eauto.
    - intros z Hz. apply Hok. eapply in_child; eauto. }
  intros y [<-|Hy].
  - pose proof (Hok x (or_introl eq_refl)) as H. unfold node_ok in H. destruct (kind st x); [lia|].
    rewrite H, (krep_kids _ _ _ Hk). clear - Hc. unfold sum_sizes. induction ts as [|c r IH]; simpl; [lia|].
    assert (0 <= size st (root c)) by (apply (Hc c); [left; auto | apply oids_root]).
    assert (0 <= fold_right Z.add 0 (map (size st) (map root r))) by (apply IH; intros; apply (Hc c0); [right|]; auto). lia.
  - apply in_concat in Hy as [l [Hl Hy]]. apply in_map_iff in Hl as [c [<- Hc']]. apply (Hc c); auto.
Qed.
Lemma tree_sum : forall st x ts, krep st (T x ts) -> node_ok st x -> ts <> [] -> size st x = sum_sizes st (map root ts).
Proof.
  intros st x ts Hk H Hne. unfold node_ok in H. rewrite (krep_kids _ _ _ Hk) in H.
  destruct (kind st x); [|auto]. destruct H as [H _]. destruct ts; [congruence | discriminate].
Qed.
Lemma tree_sum_le : forall st x ts, krep st (T x ts) -> (forall y, In y (oids (T x ts)) -> node_ok st y) ->
  sum_sizes st (map root ts) <= size st x.
Proof.
  intros st x ts Hk H. destruct ts as [|c r].
  - pose proof (tree_nonneg _ _ Hk H x (or_introl eq_refl)). simpl. unfold sum_sizes. simpl. lia.
  - rewrite <- (tree_sum st x (c :: r)); [lia | auto | apply H; left; auto | discriminate].
Qed.

Definition region (b : nat) (z : Z) (br : nat) (o n : Z) : Prop := b = br /\ o <= z < o + n.

(** What [_propagate_param_grad] does on the object [root t] whose array is [P], given the slice [S]. *)
Definition prop_result (st : struct) (t : tree) (bP : nat) (oP : Z) (bS : nat) (oS : Z) m m' : Prop :=
  let n := size st (root t) in
  (forall y k, In (y, k) (offs (size st) 0 t) -> y <> root t -> arr m' y = Some (bS, oS + k, size st y)) /\
  (forall y, y = root t \/ ~ In y (oids t) -> arr m' y = arr m y) /\
  (nbuf m <= nbuf m')%nat /\ bnd m' /\
  (forall b z, (b < nbuf m)%nat -> ~ region b z bS oS n -> ~ region b z bP oP n -> cell m' b z = cell m b z) /\
  ((forall y k, In (y, k) (offs (size st) 0 t) -> y <> root t -> 0 < size st y -> arr m y = Some (bP, oP + k, size st y)) ->
     (forall b z, (b < nbuf m)%nat -> ~ region b z bS oS n -> cell m' b z = cell m b z) /\
     (bP = bS -> oP = oS -> forall b z, (b < nbuf m)%nat -> cell m' b z = cell m b z)) /\
  (bP <> bS -> forall i c b o j, nth_error (kids st (root t)) i = Some c -> arr m c = Some (b, o, size st c) -> b <> bS -> b <> bP ->
     0 <= j < size st c -> cell m' bP (oP + sum_sizes st (firstn i (kids st (root t))) + j) = cell m b (o + j)).

Lemma propagate_spec : forall t f st m bP oP bS oS, krep st t -> NoDup (oids t) -> (forall y, In y (oids t) -> node_ok st y) ->
  (forall y, In y (oids t) -> is_leaf st y = true -> valid st m y) ->
  arr m (root t) = Some (bP, oP, size st (root t)) -> (bS < nbuf m)%nat -> bnd m -> (height t <= f)%nat ->
  exists m', propagate f st (root t) (bS, oS, size st (root t)) m = Ok m' /\ prop_result st t bP oP bS oS m m'.
Proof.
  induction t as [x ts IH] using tree_ind'. intros f st m bP oP bS oS Hk Hnd Hok Hlf HP HbS Hb Hf.
  destruct f as [|f]; [simpl in Hf; lia|]. cbn [root] in *. cbn [propagate]. rewrite (krep_kids _ _ _ Hk).
  set (step := fun (pi : oid) (s : memst * Z) => let (m0, old) := s in
        rbind (copy_child st m0 x pi old) (fun m1 =>
        let slice := sub_arr (bS, oS, size st x) old (size st pi) in
        let m2 := repoint st m1 pi slice in
        rbind (propagate f st pi slice m2) (fun m3 => Ok (m3, old + size st pi)))).
  assert (Hx : ~ In x (concat (map oids ts))) by (simpl in Hnd; inversion Hnd; auto).
  assert (Hnn : forall y, In y (oids (T x ts)) -> 0 <= size st y) by (apply tree_nonneg; auto).
  pose proof (tree_sum_le _ _ _ Hk Hok) as Hsum.
  assert (G : forall l old m0, incl l ts -> NoDup (concat (map oids l)) -> 0 <= old -> old + sum_sizes st (map root l) <= size st x ->
    (forall y, In y (concat (map oids l)) -> is_leaf st y = true -> valid st m0 y) ->
    arr m0 x = Some (bP, oP, size st x) -> (bS < nbuf m0)%nat -> bnd m0 ->
    exists m1, rfold step (map root l) (m0, old) = Ok (m1, old + sum_sizes st (map root l)) /\
     (forall y k, In (y, k) (offl (size st) old l) -> arr m1 y = Some (bS, oS + k, size st y)) /\
     (forall y, ~ In y (concat (map oids l)) -> arr m1 y = arr m0 y) /\
     (nbuf m0 <= nbuf m1)%nat /\ bnd m1 /\
     (forall b z, (b < nbuf m0)%nat -> ~ region b z bS (oS + old) (sum_sizes st (map root l)) ->
         ~ region b z bP (oP + old) (sum_sizes st (map root l)) -> cell m1 b z = cell m0 b z) /\
     ((forall y k, In (y, k) (offl (size st) old l) -> 0 < size st y -> arr m0 y = Some (bP, oP + k, size st y)) ->
       (forall b z, (b < nbuf m0)%nat -> ~ region b z bS (oS + old) (sum_sizes st (map root l)) -> cell m1 b z = cell m0 b z) /\
       (bP = bS -> oP = oS -> forall b z, (b < nbuf m0)%nat -> cell m1 b z = cell m0 b z)) /\
     (bP <> bS -> forall i c b o j, nth_error (map root l) i = Some c -> arr m0 c = Some (b, o, size st c) -> b <> bS -> b <> bP ->
       0 <= j < size st c -> cell m1 bP (oP + old + sum_sizes st (firstn i (map root l)) + j) = cell m0 b (o + j))).
  { induction l as [|c l IHl]; intros old m0 Hl Hn Hold Hle Hlf0 HP0 HbS0 Hb0.
    - exists m0. simpl. unfold sum_sizes. simpl. rewrite Z.add_0_r. split; [reflexivity|]. split; [tauto|]. split; [auto|].
      split; [auto|]. split; [auto|]. split; [auto|]. split; [auto|]. intros _ [|i]; discriminate.
    - simpl in Hn. apply nodup_app in Hn as [N1 [N2 N3]].
      assert (Hc : In c ts) by (apply Hl; left; auto).
      assert (Hcin : In (root c) (oids (T x ts))) by (eapply in_child; [eauto | apply oids_root]).
      assert (Hcn : 0 <= size st (root c)) by auto.
      assert (Hrn : 0 <= sum_sizes st (map root l)).
      { unfold sum_sizes. rewrite map_map. assert (Q : forall d, In d l -> 0 <= size st (root d)).
        { intros d Hd. apply Hnn. eapply in_child; [apply Hl; right; eauto | apply oids_root]. }
        clear - Q. induction l as [|d r IHr]; simpl; [lia|]. assert (0 <= size st (root d)) by (apply Q; left; auto).
        assert (0 <= fold_right Z.add 0 (map (fun x => size st (root x)) r)) by (apply IHr; intros; apply Q; right; auto). lia. }
      simpl map in Hle. rewrite sum_sizes_cons in Hle.
      assert (Hxc : x <> root c).
      { intros E. apply Hx. apply in_concat. exists (oids c). split; [apply in_map; auto|]. rewrite E. apply oids_root. }
      destruct (copy_child_spec st m0 x (root c) bP oP old) as (m1 & b1 & o1 & E1 & A1 & A2 & M1 & D1 & C1 & C2); auto; try lia.
      { intros. apply Hlf0; auto. simpl. apply in_or_app. left. apply oids_root. }
      set (m2 := set_arr m1 (root c) (Some (bS, oS + old, size st (root c)))).
      assert (E2 : sub_arr (bS, oS, size st x) old (size st (root c)) = (bS, oS + old, size st (root c))) by (apply sub_eq; lia).
      assert (E3 : repoint st m1 (root c) (bS, oS + old, size st (root c)) = m2) by (eapply repoint_spec; eauto).
      assert (Harr2 : forall y, y <> root c -> arr m2 y = arr m0 y).
      { intros y Hy. unfold m2. simpl. rewrite upd_ne by auto. auto. }
      assert (Hb2 : bnd m2).
      { intros y b o n Hy. unfold m2 in *. simpl in *. destruct (Nat.eq_dec y (root c)) as [->|Hne].
        - rewrite upd_eq in Hy. inversion Hy; subst. lia.
        - rewrite upd_ne in Hy by auto. rewrite A2 in Hy by auto. apply Hb0 in Hy. lia. }
      rewrite Forall_forall in IH.
      destruct (IH c Hc f st m2 bS (oS + old) bS (oS + old)) as (m3 & E4 & R1 & R2 & R3 & R4 & R5 & R6 & _); auto.
      { eapply krep_child; eauto. }
      { intros y Hy. apply Hok. eapply in_child; eauto. }
      { intros y Hy Hly. destruct (Nat.eq_dec y (root c)) as [->|Hne].
        - exists bS, (oS + old). unfold m2. simpl. apply upd_eq.
        - eapply valid_ext; [apply Harr2; auto|]. apply Hlf0; auto. simpl. apply in_or_app; auto. }
      { unfold m2. simpl. apply upd_eq. }
      { unfold m2. simpl. lia. }
      { pose proof (height_child x ts c Hc). lia. }
      assert (Hroot3 : arr m3 (root c) = Some (bS, oS + old, size st (root c))).
      { rewrite R2 by auto. unfold m2. simpl. apply upd_eq. }
      assert (Harr3 : forall y, ~ In y (oids c) -> arr m3 y = arr m0 y).
      { intros y Hy. rewrite R2 by auto. apply Harr2. intros ->. apply Hy, oids_root. }
      assert (Hnb : (nbuf m0 <= nbuf m3)%nat) by (unfold m2 in R3; simpl in R3; lia).
      assert (Hcell2 : cell m2 = cell m1) by reflexivity.
      assert (Hnb2 : nbuf m2 = nbuf m1) by reflexivity.
      destruct (IHl (old + size st (root c)) m3) as (m4 & E5 & S1 & S2 & S3 & S4 & S5 & S6 & S7); auto.
      { intros z Hz; apply Hl; right; auto. }
      { lia. } { lia. }
      { intros y Hy Hly. eapply valid_ext; [apply Harr3; intros Hy'; apply (N3 y); auto|].
        apply Hlf0; auto. simpl. apply in_or_app; auto. }
      { rewrite Harr3; auto. intros Hxc'. apply Hx. apply in_concat. exists (oids c). split; [apply in_map; auto | auto]. }
      { lia. }
      exists m4. split.
      { cbn [map rfold]. unfold step at 1. rewrite E1. cbn [rbind]. rewrite E2, E3. rewrite E4. cbn [rbind].
        rewrite E5. rewrite sum_sizes_cons. rewrite Z.add_assoc. reflexivity. }
      (* region inclusions *)
      assert (I1 : forall b z o, ~ region b z bS (o + old) (sum_sizes st (map root (c :: l))) ->
                   ~ region b z bS (o + old) (size st (root c)) /\ ~ region b z bS (o + (old + size st (root c))) (sum_sizes st (map root l))).
      { intros b z o H. unfold region in *. simpl map in H. rewrite sum_sizes_cons in H. split; intros [Q1 Q2]; apply H; split; auto; lia. }
      assert (I2 : forall b z o, ~ region b z bP (o + old) (sum_sizes st (map root (c :: l))) ->
                   ~ region b z bP (o + old) (size st (root c)) /\ ~ region b z bP (o + (old + size st (root c))) (sum_sizes st (map root l))).
      { intros b z o H. unfold region in *. simpl map in H. rewrite sum_sizes_cons in H. split; intros [Q1 Q2]; apply H; split; auto; lia. }
      split.
      { intros y k Hy. simpl in Hy. apply in_app_or in Hy as [Hy|Hy].
        - assert (Hyc : In y (oids c)).
          { rewrite <- (offs_fst (size st) c old). apply in_map_iff. exists (y, k). auto. }
          rewrite S2 by (apply N3; auto).
          destruct (Nat.eq_dec y (root c)) as [->|Hne].
          + assert (k = old).
            { eapply (offs_unique (size st) c old (root c)); eauto. destruct c; rewrite offs_eq; left; reflexivity. }
            subst k. exact Hroot3.
          + apply offs_shift in Hy. rewrite (R1 y (k - old)); auto. do 2 f_equal. f_equal. lia.
        - apply S1; auto. }
      split.
      { intros y Hy. simpl in Hy. rewrite in_app_iff in Hy. rewrite S2 by tauto. apply Harr3. tauto. }
      split; [lia|]. split; [auto|]. split.
      { intros b z Hbz HnS HnP. apply I1 in HnS as [P1 P2]. apply I2 in HnP as [P3 P4].
        rewrite S5; auto; [|lia]. rewrite R5; auto; [|lia]. rewrite Hcell2. apply C2. exact P3. }
      split.
      { intros Hal.
        assert (Hal1 : 0 < size st (root c) -> arr m0 (root c) = Some (bP, oP + old, size st (root c))).
        { intros Hp. apply Hal; auto. simpl. apply in_or_app. left. destruct c; rewrite offs_eq. left; reflexivity. }
        assert (Cno : forall b z, (b < nbuf m0)%nat -> cell m1 b z = cell m0 b z).
        { intros b z Hbz. destruct (Nat.eq_dec b bP) as [->|Hbp]; [|apply C2; tauto].
          destruct (Z_le_gt_dec (oP + old) z) as [L1|L1]; [|apply C2; lia].
          destruct (Z_lt_ge_dec z (oP + old + size st (root c))) as [L2|L2]; [|apply C2; lia].
          assert (Hp : 0 < size st (root c)) by lia. specialize (Hal1 Hp).
          destruct D1 as [D1|[D1 _]]; [|exfalso; apply D1; exists bP, (oP + old); auto].
          rewrite Hal1 in D1. inversion D1; subst b1 o1.
          replace z with (oP + old + (z - oP - old)) by lia. rewrite C1 by lia. reflexivity. }
        destruct S6 as [S6 S6'].
        { intros y k Hy Hp. rewrite Harr3.
          - apply Hal; auto. simpl. apply in_or_app; auto.
          - intros Hyc. apply (N3 y Hyc). assert (Q : In y (map fst (offl (size st) (old + size st (root c)) l))) by (apply in_map_iff; exists (y, k); auto).
            clear - Q. revert Q. generalize (old + size st (root c)). induction l as [|d r IHr]; intros z Q; simpl in *; [auto|].
            rewrite map_app, in_app_iff, offs_fst in Q. apply in_or_app. destruct Q as [Q|Q]; eauto. }
        split.
        - intros b z Hbz HnS. apply I1 in HnS as [P1 P2]. rewrite S6; auto; [|lia]. rewrite R5; auto; [|lia]. rewrite Hcell2. auto.
        - intros Eb Eo b z Hbz. rewrite S6' by (auto; lia). subst bP oP.
          assert (R6' : cell m3 b z = cell m2 b z).
          { apply R6; auto; [|lia]. intros y k Hy Hne Hp. rewrite Harr2 by auto. rewrite <- Z.add_assoc.
            apply Hal; auto. simpl. apply in_or_app. left. apply offs_shift. replace (old + k - old) with k by lia. auto. }
          rewrite R6', Hcell2. auto. }
      { intros Hps i d b o j Hi Hd Hb1 Hb2' Hj. destruct i as [|i]; simpl in Hi.
        - inversion Hi; subst d. simpl firstn. unfold sum_sizes at 1. simpl. rewrite Z.add_0_r.
          destruct D1 as [D1|[D1 _]]; [|exfalso; apply D1; exists b, o; auto].
          rewrite Hd in D1. inversion D1; subst b1 o1.
          assert (Hbp : (bP < nbuf m0)%nat) by (eapply Hb0; eauto).
          rewrite S5; [rewrite R5; [rewrite Hcell2; apply C1; auto | lia | |] | lia | |]; unfold region; intros [Q1 Q2]; try congruence; try lia.
        - simpl firstn. rewrite sum_sizes_cons.
          assert (Hdc : ~ In d (oids c)).
          { intros H. apply (N3 d H). apply nth_error_In in Hi. apply in_map_iff in Hi as [e [<- He]]. apply in_concat.
            exists (oids e). split; [apply in_map; auto | apply oids_root]. }
          assert (Hbn : (b < nbuf m0)%nat) by (eapply Hb0; eauto).
          replace (oP + old + (size st (root c) + sum_sizes st (firstn i (map root l))) + j)
            with (oP + (old + size st (root c)) + sum_sizes st (firstn i (map root l)) + j) by lia.
          rewrite (S7 Hps i d b o j); auto; [|rewrite Harr3; auto].
          rewrite R5; [rewrite Hcell2; apply C2; tauto | lia | |]; unfold region; intros [Q1 Q2]; congruence. } }
  destruct (G ts 0 m) as (m1 & E1 & G1 & G2 & G3 & G4 & G5 & G6 & G7); auto; try lia.
  { intros z Hz; auto. } { simpl in Hnd; inversion Hnd; auto. }
  { intros y Hy. apply Hlf. right; auto. }
  fold step. rewrite E1. cbn [rbind]. exists m1. split; [reflexivity|].
  unfold prop_result. cbn [root]. rewrite (krep_kids _ _ _ Hk).
  assert (Hin : forall y k, In (y, k) (offs (size st) 0 (T x ts)) -> y <> x -> In (y, k) (offl (size st) 0 ts)).
  { intros y k Hy Hne. rewrite offs_eq in Hy. destruct Hy as [Hy|Hy]; [inversion Hy; congruence | auto]. }
  assert (Hin' : forall y k, In (y, k) (offl (size st) 0 ts) -> In (y, k) (offs (size st) 0 (T x ts)) /\ y <> x).
  { intros y k Hy. rewrite offs_eq. split; [right; auto|]. intros ->. apply Hx.
    assert (Q : In x (map fst (offl (size st) 0 ts))) by (apply in_map_iff; exists (x, k); auto).
    clear - Q. revert Q. generalize 0. induction ts as [|d r IHr]; intros z Q; simpl in *; [auto|].
    rewrite map_app, in_app_iff, offs_fst in Q. apply in_or_app. destruct Q as [Q|Q]; eauto. }
  assert (I : forall b z br o, ~ region b z br o (size st x) -> ~ region b z br (o + 0) (sum_sizes st (map root ts))).
  { intros b z br o H [Q1 Q2]. apply H. split; auto. lia. }
  split; [auto|]. split.
  { intros y [->|Hy]; apply G2; auto. intros H; apply Hy; right; auto. }
  split; [auto|]. split; [auto|]. split; [auto|]. split.
  { intros Hal. destruct G6 as [G6 G6'].
    { intros y k Hy Hp. apply Hin' in Hy as [Hy Hne]. auto. }
    split; auto. }
  { intros Hps i c b o j Hi Hd H1 H2 Hj. rewrite <- (G7 Hps i c b o j); auto. f_equal. lia. }
Qed.

(** ** [_connect_parameters] *)
Definition aligned_at (st : struct) m (t : tree) (b : nat) (o : Z) : Prop :=
  forall y k, In (y, k) (offs (size st) 0 t) -> 0 < size st y -> arr m y = Some (b, o + k, size st y).
(** The array of the object is new, or those of everything below are parts of it. *)
Definition settled (st : struct) m (t : tree) : Prop :=
  ~ valid st m (root t) \/ exists b o, arr m (root t) = Some (b, o, size st (root t)) /\ aligned_at st m t b o.

Definition cstep (st : struct) (self p : oid) (s : memst (V := V) * Z) : res (memst * Z) :=
  let (m0, old) := s in
    let (m0', _) := param_array st m0 p in
    let (m1, a) := param_array st m0' self in
    rbind (propagate (fuel st) st p (sub_arr a old (size st p)) m1) (fun m2 =>
    rbind (copy_child st m2 self p old) (fun m3 =>
    let (m4, a4) := param_array st m3 self in
    let m5 := repoint st m4 p (sub_arr a4 old (size st p)) in
    Ok (m5, old + size st p))).
Lemma connect_mem_eq : forall st self m, connect_mem st self m = rbind (rfold (cstep st self) (kids st self) (m, 0)) (fun s => Ok (fst s)).
Proof. reflexivity. Qed.

Lemma settled_ext : forall st m m' t, (forall y, In y (oids t) -> arr m' y = arr m y) -> settled st m t -> settled st m' t.
Proof.
  intros st m m' t E [H|[b [o [H1 H2]]]].
  - left. intros [b [o Hv]]. apply H. exists b, o. rewrite <- Hv. symmetry. apply E, oids_root.
  - right. exists b, o. split; [rewrite E; auto; apply oids_root|]. intros y k Hy Hp. rewrite E; auto.
    rewrite <- (offs_fst (size st) t 0). apply in_map_iff. exists (y, k); auto.
Qed.
Lemma offs_root : forall sz t o, In (root t, o) (offs sz o t).
Proof. intros sz [x ts] o. rewrite offs_eq. left; reflexivity. Qed.

Lemma cstep_spec : forall st r c old m0, krep st c -> NoDup (oids c) -> (forall y, In y (oids c) -> node_ok st y) ->
  (forall y, In y (oids c) -> is_leaf st y = true -> valid st m0 y) -> ~ In r (oids c) -> is_leaf st r = false -> bnd m0 ->
  (height c <= fuel st)%nat -> 0 <= old -> old + size st (root c) <= size st r ->
  exists m' ba oa, cstep st r (root c) (m0, old) = Ok (m', old + size st (root c)) /\
    arr m' r = Some (ba, oa, size st r) /\
    (arr m0 r = Some (ba, oa, size st r) \/ (~ valid st m0 r /\ (nbuf m0 <= ba)%nat /\ oa = 0)) /\
    (forall y k, In (y, k) (offs (size st) old c) -> arr m' y = Some (ba, oa + k, size st y)) /\
    (forall y, ~ In y (oids c) -> y <> r -> arr m' y = arr m0 y) /\
    (nbuf m0 <= nbuf m')%nat /\ bnd m' /\
    (settled st m0 c -> forall b z, (b < nbuf m0)%nat -> ~ region b z ba (oa + old) (size st (root c)) -> cell m' b z = cell m0 b z) /\
    (arr m0 r = Some (ba, oa, size st r) -> aligned_at st m0 c ba (oa + old) -> forall b z, (b < nbuf m0)%nat -> cell m' b z = cell m0 b z) /\
    (settled st m0 c -> (forall b o, arr m0 (root c) = Some (b, o, size st (root c)) -> b <> ba) ->
      (forall i d b o j, nth_error (kids st (root c)) i = Some d -> arr m0 d = Some (b, o, size st d) -> b <> ba -> 0 <= j < size st d ->
         cell m' ba (oa + old + sum_sizes st (firstn i (kids st (root c))) + j) = cell m0 b (o + j)) /\
      (forall b o j, kids st (root c) = [] -> arr m0 (root c) = Some (b, o, size st (root c)) -> 0 <= j < size st (root c) ->
         cell m' ba (oa + old + j) = cell m0 b (o + j))).
Proof.
  intros st r c old m0 Hk Hnd Hok Hlf Hr Hrl Hb Hh Hold Hle.
  assert (Hcn : 0 <= size st (root c)) by (eapply tree_nonneg; eauto; apply oids_root).
  assert (Hrc : root c <> r) by (intros E; apply Hr; rewrite <- E; apply oids_root).
  unfold cstep.
  destruct (pa_spec st m0 (root c)) as (m1 & bP & oP & E1 & A1 & A2 & C1 & N1 & D1).
  { intros; apply Hlf; auto. apply oids_root. }
  rewrite E1.
  destruct (pa_spec st m1 r) as (m2 & ba & oa & E2 & B1 & B2 & C2 & N2 & D2).
  { congruence. }
  rewrite E2. rewrite sub_eq by lia.
  assert (Hb1 : bnd m1).
  { intros y b o n Hy. destruct (Nat.eq_dec y (root c)) as [->|Hne].
    - destruct D1 as [[[b' [o' Ev]] Em]|(_&_&Eb&_&En)]; [subst m1; eapply Hb; eauto|]. rewrite A1 in Hy. inversion Hy; subst. lia.
    - rewrite A2 in Hy by auto. apply Hb in Hy. lia. }
  assert (Hb2 : bnd m2).
  { intros y b o n Hy. destruct (Nat.eq_dec y r) as [->|Hne].
    - destruct D2 as [[[b' [o' Ev]] Em]|(_&_&Eb&_&En)]; [subst m2; eapply Hb1; eauto|]. rewrite B1 in Hy. inversion Hy; subst. lia.
    - rewrite B2 in Hy by auto. apply Hb1 in Hy. lia. }
  assert (Har2 : forall y, y <> r -> y <> root c -> arr m2 y = arr m0 y).
  { intros. rewrite B2, A2; auto. }
  assert (Hc2 : arr m2 (root c) = Some (bP, oP, size st (root c))) by (rewrite B2; auto).
  assert (Hcell : cell m2 = cell m0) by congruence.
  destruct (propagate_spec c (fuel st) st m2 bP oP ba (oa + old)) as (m3 & E3 & R1 & R2 & R3 & R4 & R5 & R6 & R7); auto.
  { intros y Hy Hly. destruct (Nat.eq_dec y (root c)) as [->|Hne]; [exists bP, oP; auto|].
    eapply valid_ext; [apply Har2; auto|]; auto. intros ->; auto. }
  { eapply Hb2; eauto. }
  rewrite E3. cbn [rbind].
  assert (Hr3 : arr m3 r = Some (ba, oa, size st r)) by (rewrite R2; auto).
  assert (Hc3 : arr m3 (root c) = Some (bP, oP, size st (root c))) by (rewrite R2; auto).
  destruct (copy_child_spec st m3 r (root c) ba oa old) as (m4 & b4 & o4 & E4 & F1 & F2 & M4 & D4 & G1 & G2); auto.
  { intros; exists bP, oP; auto. }
  destruct D4 as [D4|[D4 _]]; [|exfalso; apply D4; exists bP, oP; auto].
  rewrite Hc3 in D4. inversion D4; subst b4 o4. clear D4.
  rewrite E4. cbn [rbind].
  assert (Hr4 : arr m4 r = Some (ba, oa, size st r)) by (rewrite F2; auto).
  rewrite (pa_valid _ _ _ _ _ Hr4). rewrite sub_eq by lia. rewrite (repoint_spec _ _ _ _ _ _ _ _ F1).
  exists (set_arr m4 (root c) (Some (ba, oa + old, size st (root c)))), ba, oa.
  assert (Hr0 : arr m0 r = Some (ba, oa, size st r) \/ (~ valid st m0 r /\ (nbuf m0 <= ba)%nat /\ oa = 0 /\ (nbuf m1 <= ba)%nat)).
  { assert (Ear : arr m1 r = arr m0 r) by (apply A2; auto).
    destruct D2 as [[[b' [o' Ev]] ->]|(D2&_&Eb&Eo&_)].
    - left. rewrite <- Ear. congruence.
    - right. split; [intros Hv; apply D2; eapply valid_ext; eauto|]. split; [lia|]. split; [auto | lia]. }
  split; [reflexivity|]. split; [simpl; rewrite upd_ne by auto; auto|]. split; [tauto|].
  split.
  { intros y k Hy. simpl. destruct (Nat.eq_dec y (root c)) as [->|Hne].
    - rewrite upd_eq. assert (k = old) by (eapply (offs_unique (size st) c old (root c)); eauto; apply offs_root). subst; auto.
    - rewrite upd_ne by auto. rewrite F2 by auto. apply offs_shift in Hy. rewrite (R1 y (k - old)); auto. do 2 f_equal. f_equal. lia. }
  split.
  { intros y Hy Hyr. assert (y <> root c) by (intros ->; apply Hy, oids_root).
    simpl. rewrite upd_ne by auto. rewrite F2 by auto. rewrite R2 by auto. auto. }
  split; [simpl; lia|]. split.
  { intros y b o n Hy. simpl in *. destruct (Nat.eq_dec y (root c)) as [->|Hne].
    - rewrite upd_eq in Hy. inversion Hy; subst. assert ((b < nbuf m2)%nat) by (eapply Hb2; eauto). lia.
    - rewrite upd_ne in Hy by auto. rewrite F2 in Hy by auto. apply R4 in Hy. lia. }
  simpl cell.
  (* the array of the child: new or aligned *)
  assert (Hset : settled st m0 c -> (~ valid st m0 (root c) /\ bP = nbuf m0 /\ bP <> ba) \/
            (arr m0 (root c) = Some (bP, oP, size st (root c)) /\
             forall y k, In (y, k) (offs (size st) 0 c) -> y <> root c -> 0 < size st y -> arr m2 y = Some (bP, oP + k, size st y))).
  { intros [Hs|[b [o [Hs1 Hs2]]]].
    - left. destruct D1 as [[D1 _]|(_&_&Eb&_&En)]; [exfalso; auto|]. split; auto. split; auto.
      destruct Hr0 as [Hr0|(_&_&_&Hr0)]; [apply Hb in Hr0; lia | lia].
    - right. destruct D1 as [[_ Em]|(D1&_)]; [|exfalso; apply D1; exists b, o; auto]. subst m1.
      rewrite Hs1 in A1. inversion A1; subst b o. split; auto. intros y k Hy Hne Hp.
      rewrite Har2; auto. intros ->. apply Hr. rewrite <- (offs_fst (size st) c 0). apply in_map_iff. exists (r, k); auto. }
  split.
  { intros Hs b z Hbz Hnr. rewrite G2 by auto.
    destruct (Hset Hs) as [[_ [Eb _]]|[Hs1 Hs2]].
    - rewrite R5; [congruence | lia | auto |]. intros [Q _]. lia.
    - destruct (R6 Hs2) as [R6' _]. rewrite R6'; [congruence | lia | auto]. }
  split.
  { intros Har Hal b z Hbz.
    destruct (Z.eq_dec (size st (root c)) 0) as [Z0|Z0].
    - rewrite G2 by (unfold region; lia). rewrite R5; [congruence | lia | |]; unfold region; lia.
    - assert (Hrc0 : arr m0 (root c) = Some (ba, oa + old, size st (root c))).
      { rewrite <- (Z.add_0_r (oa + old)). apply Hal; [apply offs_root | lia]. }
      destruct D1 as [[_ Em]|(D1&_)]; [|exfalso; apply D1; exists ba, (oa + old); auto]. subst m1.
      rewrite Hrc0 in A1. inversion A1; subst bP oP. clear A1.
      assert (Hs2 : forall y k, In (y, k) (offs (size st) 0 c) -> y <> root c -> 0 < size st y -> arr m2 y = Some (ba, oa + old + k, size st y)).
      { intros y k Hy Hne Hp. rewrite Har2; auto. intros ->. apply Hr. rewrite <- (offs_fst (size st) c 0). apply in_map_iff. exists (r, k); auto. }
      destruct (R6 Hs2) as [_ R6']. assert (Q : forall b z, (b < nbuf m2)%nat -> cell m3 b z = cell m2 b z) by (apply R6'; auto).
      assert (Hba : (ba < nbuf m2)%nat) by (eapply Hb2; eauto).
      rewrite <- Hcell. rewrite <- Q by lia.
      destruct (Nat.eq_dec b ba) as [->|Hne]; [|apply G2; tauto].
      destruct (Z_le_gt_dec (oa + old) z) as [L1|L1]; [|apply G2; lia].
      destruct (Z_lt_ge_dec z (oa + old + size st (root c))) as [L2|L2]; [|apply G2; lia].
      replace z with (oa + old + (z - oa - old)) by lia. rewrite G1 by lia. reflexivity. }
  { intros Hs Hneq.
    assert (HbP : bP <> ba).
    { destruct (Hset Hs) as [[_ [_ H]]|[H _]]; auto. eapply Hneq; eauto. }
    assert (Hct := c). destruct c as [x cs]. cbn [root] in *.
    pose proof (tree_sum_le st x cs Hk Hok) as Hsum. rewrite <- (krep_kids _ _ _ Hk) in Hsum.
    assert (Hkn : forall d, In d (kids st x) -> 0 <= size st d).
    { intros d Hd. eapply tree_nonneg; eauto. rewrite (krep_kids _ _ _ Hk) in Hd. apply in_map_iff in Hd as [e [<- He]].
      eapply in_child; eauto. apply oids_root. }
    split.
    - intros i d b o j Hi Hd Hbne Hj.
      assert (Hpos : 0 <= sum_sizes st (firstn i (kids st x)) /\ sum_sizes st (firstn i (kids st x)) + size st d <= size st x).
      { assert (forall l, incl l (kids st x) -> 0 <= sum_sizes st l).
        { intros l Hl. unfold sum_sizes. induction l as [|a l IH]; simpl; [lia|]. assert (0 <= size st a) by (apply Hkn, Hl; left; auto).
          assert (0 <= fold_right Z.add 0 (map (size st) l)) by (apply IH; intros u Hu; apply Hl; right; auto). lia. }
        split; [apply H; intros u Hu; eapply firstn_In; eauto|].
        rewrite (firstn_skipn_nth _ _ _ _ Hi) in Hsum. rewrite sum_sizes_app, sum_sizes_cons in Hsum.
        assert (0 <= sum_sizes st (skipn (S i) (kids st x))).
        { apply H. intros u Hu. rewrite <- (firstn_skipn (S i) (kids st x)). apply in_or_app; auto. }
        lia. }
      rewrite <- Z.add_assoc. rewrite G1 by lia.
      assert (Hdx : d <> x /\ d <> r).
      { apply nth_error_In in Hi. rewrite (krep_kids _ _ _ Hk) in Hi. apply in_map_iff in Hi as [e [<- He]]. split.
        - intros E. simpl in Hnd. inversion Hnd; subst. apply H1. apply in_concat. exists (oids e). split; [apply in_map; auto | apply oids_root].
        - intros E. apply Hr. rewrite <- E. eapply in_child; eauto. apply oids_root. }
      destruct Hdx as [Hdx Hdr].
      destruct (Hset Hs) as [[_ [Eb _]]|[Hs1 Hs2]].
      + rewrite Z.add_assoc. rewrite (R7 HbP i d b o j); auto; [congruence | rewrite Har2; auto |].
        apply Hb in Hd. lia.
      + destruct (R6 Hs2) as [R6' _]. rewrite R6'; [| apply Hb in Hs1; lia | unfold region; intros [Q _]; congruence].
        assert (In (d, sum_sizes st (firstn i (kids st x))) (offs (size st) 0 (T x cs))).
        { rewrite offs_eq. right. apply offl_in. rewrite (krep_kids _ _ _ Hk) in *. apply nth_error_map' in Hi as [e [Hi ->]].
          exists i, e. split; auto. unfold sum_sizes. rewrite firstn_map. simpl. apply offs_root. }
        assert (Q : arr m2 d = Some (bP, oP + sum_sizes st (firstn i (kids st x)), size st d)) by (apply Hs2; auto; lia).
        rewrite Har2 in Q by auto. rewrite Hd in Q. inversion Q; subst. rewrite Hcell. f_equal. lia.
    - intros b o j Hk0 Hd Hj. rewrite G1 by lia.
      rewrite (krep_kids _ _ _ Hk) in Hk0. destruct cs; [|discriminate].
      assert (Q : forall y k, In (y, k) (offs (size st) 0 (T x [])) -> y <> x -> 0 < size st y -> arr m2 y = Some (bP, oP + k, size st y)).
      { intros y k [Hy|[]] Hne. inversion Hy; congruence. }
      destruct D1 as [[_ Em]|(D1&_)]; [|exfalso; apply D1; exists b, o; auto]. subst m1. rewrite Hd in A1. inversion A1; subst bP oP.
      destruct (R6 Q) as [R6' _]. rewrite R6'; [congruence | apply Hb in Hd; lia | unfold region; intros [Q' _]; congruence]. }
Qed.

Lemma offl_oids : forall (sz : oid -> Z) l o y k, In (y, k) (offl sz o l) -> In y (concat (map oids l)).
Proof.
  intros sz l. induction l as [|c l IH]; intros o y k H; simpl in *; [auto|].
  apply in_or_app. apply in_app_or in H as [H|H]; [left | right; eauto].
  rewrite <- (offs_fst sz c o). apply in_map_iff. exists (y, k); auto.
Qed.

(** The rest of the loop, once the object's own array exists. *)
Lemma cloop_spec : forall st r ba oa l old m0, (forall c, In c l -> krep st c) -> NoDup (concat (map oids l)) ->
  (forall c y, In c l -> In y (oids c) -> node_ok st y) ->
  (forall c y, In c l -> In y (oids c) -> is_leaf st y = true -> valid st m0 y) ->
  ~ In r (concat (map oids l)) -> is_leaf st r = false -> bnd m0 ->
  (forall c, In c l -> (height c <= fuel st)%nat) -> 0 <= old -> old + sum_sizes st (map root l) <= size st r ->
  arr m0 r = Some (ba, oa, size st r) ->
  exists m', rfold (cstep st r) (map root l) (m0, old) = Ok (m', old + sum_sizes st (map root l)) /\
    arr m' r = Some (ba, oa, size st r) /\
    (forall y k, In (y, k) (offl (size st) old l) -> arr m' y = Some (ba, oa + k, size st y)) /\
    (forall y, ~ In y (concat (map oids l)) -> arr m' y = arr m0 y) /\
    (nbuf m0 <= nbuf m')%nat /\ bnd m' /\
    ((forall c, In c l -> settled st m0 c) -> forall b z, (b < nbuf m0)%nat -> ~ region b z ba (oa + old) (sum_sizes st (map root l)) -> cell m' b z = cell m0 b z) /\
    ((forall y k, In (y, k) (offl (size st) old l) -> 0 < size st y -> arr m0 y = Some (ba, oa + k, size st y)) ->
       forall b z, (b < nbuf m0)%nat -> cell m' b z = cell m0 b z) /\
    ((forall c, In c l -> settled st m0 c) -> (forall c b o, In c l -> arr m0 (root c) = Some (b, o, size st (root c)) -> b <> ba) ->
      forall i0 c, nth_error l i0 = Some c ->
      (forall i d b o j, nth_error (kids st (root c)) i = Some d -> arr m0 d = Some (b, o, size st d) -> b <> ba -> 0 <= j < size st d ->
         cell m' ba (oa + old + sum_sizes st (firstn i0 (map root l)) + sum_sizes st (firstn i (kids st (root c))) + j) = cell m0 b (o + j)) /\
      (forall b o j, kids st (root c) = [] -> arr m0 (root c) = Some (b, o, size st (root c)) -> 0 <= j < size st (root c) ->
         cell m' ba (oa + old + sum_sizes st (firstn i0 (map root l)) + j) = cell m0 b (o + j))).
Proof.
  intros st r ba oa. induction l as [|c l IHl]; intros old m0 Hk Hnd Hok Hlf Hr Hrl Hb Hh Hold Hle Har.
  - exists m0. simpl. unfold sum_sizes. simpl. rewrite Z.add_0_r. split; [reflexivity|]. split; [auto|]. split; [tauto|].
    split; [auto|]. split; [auto|]. split; [auto|]. split; [auto|]. split; [auto|]. intros _ _ [|i]; discriminate.
  - simpl in Hnd. apply nodup_app in Hnd as [N1 [N2 N3]]. simpl in Hr. rewrite in_app_iff in Hr.
    assert (Hc : In c (c :: l)) by (left; auto).
    assert (Hcn : forall d, In d (c :: l) -> 0 <= size st (root d)).
    { intros d Hd. eapply tree_nonneg; [apply Hk; eauto | intros; eapply Hok; eauto | apply oids_root]. }
    assert (Hrn : 0 <= sum_sizes st (map root l)).
    { unfold sum_sizes. rewrite map_map. assert (Q : forall d, In d l -> 0 <= size st (root d)) by (intros; apply Hcn; right; auto).
      clear - Q. induction l as [|d r IHr]; simpl; [lia|]. assert (0 <= size st (root d)) by (apply Q; left; auto).
      assert (0 <= fold_right Z.add 0 (map (fun x => size st (root x)) r)) by (apply IHr; intros; apply Q; right; auto). lia. }
    assert (Hc0 := Hcn c Hc).
    simpl map in Hle. rewrite sum_sizes_cons in Hle.
    destruct (cstep_spec st r c old m0) as (m1 & ba' & oa' & E1 & A1 & A2 & A3 & A4 & A5 & A6 & A7 & A8 & A9); auto; try lia.
    { intros; eapply Hok; eauto. } { intros; eapply Hlf; eauto. }
    assert (ba' = ba /\ oa' = oa) as [-> ->].
    { destruct A2 as [A2|[A2 _]]; [rewrite Har in A2; inversion A2; auto | exfalso; apply A2; exists ba, oa; auto]. }
    assert (Hkeep : forall y, In y (concat (map oids l)) -> arr m1 y = arr m0 y).
    { intros y Hy. apply A4; [intros Hy'; eapply N3; eauto | intros ->; tauto]. }
    assert (Hkc : forall d y, In d l -> In y (oids d) -> In y (concat (map oids l))).
    { intros d y Hd Hy. apply in_concat. exists (oids d). split; [apply in_map; auto | auto]. }
    destruct (IHl (old + size st (root c)) m1) as (m2 & E2 & B1 & B2 & B3 & B4 & B5 & B6 & B7 & B8); auto; try lia.
    { intros; apply Hk; right; auto. } { intros d y Hd; apply Hok; right; auto. }
    { intros d y Hd Hy Hl'. eapply valid_ext; [apply Hkeep; eauto|]. eapply Hlf; [right; eauto | auto | auto]. }
    { intros; apply Hh; right; auto. }
    assert (Hset : (forall d, In d (c :: l) -> settled st m0 d) -> forall d, In d l -> settled st m1 d).
    { intros H d Hd. eapply settled_ext; [|apply H; right; auto]. intros y Hy. apply Hkeep. eauto. }
    assert (Hba : (ba < nbuf m0)%nat) by (eapply Hb; eauto).
    exists m2. split; [|split; [|split; [|split; [|split; [|split; [|split; [|split]]]]]]].
    + cbn [map rfold]. rewrite E1. cbn [rbind]. rewrite E2. rewrite sum_sizes_cons, Z.add_assoc. reflexivity.
    + auto.
    + intros y k Hy. simpl in Hy. apply in_app_or in Hy as [Hy|Hy]; auto. rewrite B3; auto. apply N3.
      rewrite <- (offs_fst (size st) c old). apply in_map_iff. exists (y, k); auto.
    + intros y Hy. simpl in Hy. rewrite in_app_iff in Hy. rewrite B3 by tauto.
      destruct (Nat.eq_dec y r) as [->|Hne]; [congruence | apply A4; tauto].
    + lia.
    + auto.
    + intros H b z Hbz Hnr. unfold region in *. cbn [map] in Hnr. rewrite sum_sizes_cons in Hnr.
      rewrite B6; [apply A7; [apply H; left; auto | auto |] | auto | lia |]; intros [Q1 Q2]; apply Hnr; split; auto; lia.
    + intros H b z Hbz. rewrite B7; [apply A8; auto | | lia].
      * intros y k Hy Hp. rewrite <- Z.add_assoc. apply H; auto. simpl. apply in_or_app. left. apply offs_shift.
        replace (old + k - old) with k by lia. auto.
      * intros y k Hy Hp. rewrite Hkeep by (eapply offl_oids; eauto). apply H; auto. simpl. apply in_or_app; auto.
    + intros H Hb' i0 d Hi0. destruct i0 as [|i0]; simpl in Hi0.
      * inversion Hi0; subst d. destruct (A9 (H c Hc)) as [P1 P2]; [intros; eapply Hb'; eauto|].
        simpl firstn. unfold sum_sizes at 1 3. simpl fold_right. rewrite !Z.add_0_r.
        assert (Fr : forall z, oa + old <= z < oa + old + size st (root c) -> cell m2 ba z = cell m1 ba z).
        { intros z Hz. apply B6; [auto | lia | unfold region; lia]. }
        destruct c as [x cs]. cbn [root] in *.
        assert (Hkx : krep st (T x cs)) by (apply Hk; left; auto).
        pose proof (tree_sum_le st x cs Hkx ltac:(intros; eapply Hok; eauto)) as Hsum. rewrite <- (krep_kids _ _ _ Hkx) in Hsum.
        assert (Hkn : forall l, incl l (kids st x) -> 0 <= sum_sizes st l).
        { assert (Q : forall d, In d (kids st x) -> 0 <= size st d).
          { intros d Hd. eapply (tree_nonneg st (T x cs)); eauto. rewrite (krep_kids _ _ _ Hkx) in Hd. apply in_map_iff in Hd as [e [<- He]].
            eapply in_child; eauto. apply oids_root. }
          intros l' Hl. unfold sum_sizes. induction l' as [|a l' IH]; simpl; [lia|]. assert (0 <= size st a) by (apply Q, Hl; left; auto).
          assert (0 <= fold_right Z.add 0 (map (size st) l')) by (apply IH; intros u Hu; apply Hl; right; auto). lia. }
        split.
        -- intros i d b o j Hi Hd Hne Hj.
           assert (P : 0 <= sum_sizes st (firstn i (kids st x)) /\ sum_sizes st (firstn i (kids st x)) + size st d <= size st x).
           { split; [apply Hkn; intros u Hu; eapply firstn_In; eauto|].
             rewrite (firstn_skipn_nth _ _ _ _ Hi) in Hsum. rewrite sum_sizes_app, sum_sizes_cons in Hsum.
             assert (0 <= sum_sizes st (skipn (S i) (kids st x))).
             { apply Hkn. intros u Hu. rewrite <- (firstn_skipn (S i) (kids st x)). apply in_or_app; auto. }
             lia. }
           rewrite Fr by lia. apply (P1 i d b o j); auto.
        -- intros b o j H0 Hd Hj. rewrite Fr by lia. apply (P2 b o j); auto.
      * assert (Hd : In d l) by (eapply nth_error_In; eauto).
        cbn [map]. rewrite firstn_cons. rewrite sum_sizes_cons.
        assert (Hx : forall e b o, In e l -> arr m1 (root e) = Some (b, o, size st (root e)) -> b <> ba).
        { intros e b o He He'. rewrite Hkeep in He' by (eapply Hkc; eauto; apply oids_root). eapply Hb'; [right; eauto | eauto]. }
        destruct (B8 (Hset H) Hx i0 d Hi0) as [P1 P2].
        assert (Hm : forall e b o j, In e (oids d) -> arr m0 e = Some (b, o, size st e) -> b <> ba -> cell m1 b (o + j) = cell m0 b (o + j)).
        { intros e b o j He He' Hne. apply A7; [apply H; left; auto | eapply Hb; eauto | unfold region; intros [Q _]; congruence]. }
        split.
        -- intros i e b o j Hi He Hne Hj.
           assert (Hed : In e (oids d)).
           { apply nth_error_In in Hi. destruct d as [x ds]. cbn [root] in Hi. rewrite (krep_kids st x ds) in Hi by (apply Hk; right; auto).
             apply in_map_iff in Hi as [u [<- Hu]]. eapply in_child; eauto. apply oids_root. }
           rewrite <- (Hm e b o j); auto. rewrite <- (P1 i e b o j); auto; [f_equal; lia|]. rewrite Hkeep; eauto.
        -- intros b o j H0 He Hj.
           assert (Hne : b <> ba) by (eapply Hb'; [right; eauto | eauto]).
           rewrite <- (Hm (root d) b o j); auto; [|apply oids_root]. rewrite <- (P2 b o j); auto; [f_equal; lia|].
           rewrite Hkeep; auto. eapply Hkc; eauto. apply oids_root.
Qed.

Lemma connect_mem_spec : forall st r ts m, krep st (T r ts) -> NoDup (oids (T r ts)) ->
  (forall y, In y (oids (T r ts)) -> node_ok st y) ->
  (forall y, In y (oids (T r ts)) -> is_leaf st y = true -> valid st m y) -> bnd m ->
  (forall c, In c ts -> (height c <= fuel st)%nat) -> ts <> [] ->
  exists m' ba oa, connect_mem st r m = Ok m' /\
    (arr m r = Some (ba, oa, size st r) \/ (~ valid st m r /\ (nbuf m <= ba)%nat /\ oa = 0)) /\
    (forall y k, In (y, k) (offs (size st) 0 (T r ts)) -> arr m' y = Some (ba, oa + k, size st y)) /\
    (forall y, ~ In y (oids (T r ts)) -> arr m' y = arr m y) /\
    (nbuf m <= nbuf m')%nat /\ bnd m' /\
    ((forall c, In c ts -> settled st m c) -> forall b z, (b < nbuf m)%nat -> ~ region b z ba oa (size st r) -> cell m' b z = cell m b z) /\
    (aligned_at st m (T r ts) ba oa -> arr m r = Some (ba, oa, size st r) -> forall b z, (b < nbuf m)%nat -> cell m' b z = cell m b z) /\
    ((forall c, In c ts -> settled st m c) -> (nbuf m <= ba)%nat ->
      forall i0 c, nth_error ts i0 = Some c ->
      (forall i d b o j, nth_error (kids st (root c)) i = Some d -> arr m d = Some (b, o, size st d) -> 0 <= j < size st d ->
         cell m' ba (oa + sum_sizes st (firstn i0 (map root ts)) + sum_sizes st (firstn i (kids st (root c))) + j) = cell m b (o + j)) /\
      (forall b o j, kids st (root c) = [] -> arr m (root c) = Some (b, o, size st (root c)) -> 0 <= j < size st (root c) ->
         cell m' ba (oa + sum_sizes st (firstn i0 (map root ts)) + j) = cell m b (o + j))).
Proof.
  intros st r ts m Hk Hnd Hok Hlf Hb Hh Hne.
  assert (Hrl : is_leaf st r = false).
  { pose proof (Hok r (or_introl eq_refl)) as H. unfold node_ok in H. unfold is_leaf. destruct (kind st r); auto.
    destruct H as [H _]. rewrite (krep_kids _ _ _ Hk) in H. destruct ts; [congruence | discriminate]. }
  pose proof (tree_sum st r ts Hk (Hok r (or_introl eq_refl)) Hne) as Hsz.
  assert (Hr : ~ In r (concat (map oids ts))) by (simpl in Hnd; inversion Hnd; auto).
  assert (Hn : NoDup (concat (map oids ts))) by (simpl in Hnd; inversion Hnd; auto).
  rewrite connect_mem_eq. rewrite (krep_kids _ _ _ Hk).
  destruct (valid_dec st m r) as [[ba [oa Hv]]|Hv].
  - destruct (cloop_spec st r ba oa ts 0 m) as (m' & E & A1 & A2 & A3 & A4 & A5 & A6 & A7 & A8); auto; try lia.
    { intros; eapply krep_child; eauto. } { intros c y Hc Hy. apply Hok. eapply in_child; eauto. }
    { intros c y Hc Hy. apply Hlf. eapply in_child; eauto. }
    exists m', ba, oa. rewrite E. split; [reflexivity|]. split; [auto|]. split.
    { intros y k Hy. rewrite offs_eq in Hy. destruct Hy as [Hy|Hy]; [inversion Hy; subst; rewrite Z.add_0_r; auto | auto]. }
    split; [intros y Hy; apply A3; intros H; apply Hy; right; auto|]. split; [auto|]. split; [auto|]. split.
    { intros H b z Hbz Hnr. apply A6; auto. rewrite Z.add_0_r, <- Hsz. auto. }
    split.
    { intros H _. apply A7. intros y k Hy Hp. apply H; auto. rewrite offs_eq. right; auto. }
    { intros H Hge. exfalso. apply Hb in Hv. lia. }
  - destruct ts as [|c l]; [congruence|]. clear Hne.
    simpl in Hn. apply nodup_app in Hn as [N1 [N2 N3]]. simpl in Hr. rewrite in_app_iff in Hr.
    assert (Hc : In c (c :: l)) by (left; auto).
    assert (Hkt : forall d, In d (c :: l) -> krep st d) by (intros; eapply krep_child; eauto).
    assert (Hokt : forall d y, In d (c :: l) -> In y (oids d) -> node_ok st y) by (intros d y Hd Hy; apply Hok; eapply in_child; eauto).
    assert (Hlft : forall d y, In d (c :: l) -> In y (oids d) -> is_leaf st y = true -> valid st m y) by (intros d y Hd Hy; apply Hlf; eapply in_child; eauto).
    assert (Hcn : forall d, In d (c :: l) -> 0 <= size st (root d)).
    { intros d Hd. eapply tree_nonneg; [apply Hkt; eauto | intros; eapply Hokt; eauto | apply oids_root]. }
    assert (Hrn : 0 <= sum_sizes st (map root l)).
    { unfold sum_sizes. rewrite map_map. assert (Q : forall d, In d l -> 0 <= size st (root d)) by (intros; apply Hcn; right; auto).
      clear - Q. induction l as [|d r IHr]; simpl; [lia|]. assert (0 <= size st (root d)) by (apply Q; left; auto).
      assert (0 <= fold_right Z.add 0 (map (fun x => size st (root x)) r)) by (apply IHr; intros; apply Q; right; auto). lia. }
    assert (Hc0 := Hcn c Hc). cbn [map] in Hsz. rewrite sum_sizes_cons in Hsz.
    destruct (cstep_spec st r c 0 m) as (m1 & ba & oa & E1 & A1 & A2 & A3 & A4 & A5 & A6 & A7 & A8 & A9); auto; try lia.
    { intros; eapply Hokt; eauto. } { intros; eapply Hlft; eauto. }
    destruct A2 as [A2|(_ & Hge & ->)]; [exfalso; apply Hv; exists ba, oa; auto|].
    assert (Hkeep : forall y, In y (concat (map oids l)) -> arr m1 y = arr m y).
    { intros y Hy. apply A4; [intros Hy'; eapply N3; eauto | intros ->; tauto]. }
    assert (Hkc : forall d y, In d l -> In y (oids d) -> In y (concat (map oids l))).
    { intros d y Hd Hy. apply in_concat. exists (oids d). split; [apply in_map; auto | auto]. }
    destruct (cloop_spec st r ba 0 l (0 + size st (root c)) m1) as (m2 & E2 & B1 & B2 & B3 & B4 & B5 & B6 & B7 & B8); auto; try lia.
    { intros; apply Hkt; right; auto. } { intros d y Hd; apply Hokt; right; auto. }
    { intros d y Hd Hy Hl'. eapply valid_ext; [apply Hkeep; eauto|]. eapply Hlft; [right; eauto | auto | auto]. }
    { intros; apply Hh; right; auto. }
    assert (Hset : (forall d, In d (c :: l) -> settled st m d) -> forall d, In d l -> settled st m1 d).
    { intros H d Hd. eapply settled_ext; [|apply H; right; auto]. intros y Hy. apply Hkeep. eauto. }
    assert (Hlow : forall y b o n, arr m y = Some (b, o, n) -> b <> ba) by (intros y b o n Hy; apply Hb in Hy; lia).
    exists m2, ba, 0. split; [|split; [|split; [|split; [|split; [|split; [|split; [|split]]]]]]].
    + cbn [map rfold]. rewrite E1. cbn [rbind]. rewrite E2. reflexivity.
    + right. auto.
    + intros y k Hy. rewrite offs_eq in Hy. cbn [offl] in Hy. destruct Hy as [Hy|Hy]; [inversion Hy; subst; auto|].
      apply in_app_or in Hy as [Hy|Hy]; auto. rewrite B3; auto. apply N3.
      rewrite <- (offs_fst (size st) c 0). apply in_map_iff. exists (y, k); auto.
    + intros y Hy. simpl in Hy. rewrite in_app_iff in Hy. rewrite B3 by tauto. apply A4; [tauto|]. intros ->; tauto.
    + lia.
    + auto.
    + intros H b z Hbz _. assert (b <> ba) by lia.
      rewrite B6; [apply A7; [apply H; left; auto | auto | intros [Q _]; congruence] | auto | lia | intros [Q _]; congruence].
    + intros _ H. exfalso. apply Hv. exists ba, 0; auto.
    + intros H _ i0 d Hi0. destruct i0 as [|i0]; simpl in Hi0.
      * inversion Hi0; subst d. destruct (A9 (H c Hc)) as [P1 P2]; [intros; eapply Hlow; eauto|].
        simpl firstn. unfold sum_sizes at 1 3. simpl fold_right. rewrite !Z.add_0_r.
        assert (Hba : (ba < nbuf m1)%nat) by (eapply A6; eauto).
        assert (Fr : forall z, 0 <= z < size st (root c) -> cell m2 ba z = cell m1 ba z).
        { intros z Hz. apply B6; [auto | lia | unfold region; lia]. }
        destruct c as [x cs]. cbn [root] in *.
        assert (Hkx : krep st (T x cs)) by (apply Hkt; left; auto).
        pose proof (tree_sum_le st x cs Hkx ltac:(intros; eapply Hokt; eauto)) as Hsum. rewrite <- (krep_kids _ _ _ Hkx) in Hsum.
        assert (Hkn : forall l, incl l (kids st x) -> 0 <= sum_sizes st l).
        { assert (Q : forall d, In d (kids st x) -> 0 <= size st d).
          { intros d Hd. eapply (tree_nonneg st (T x cs)); eauto. rewrite (krep_kids _ _ _ Hkx) in Hd. apply in_map_iff in Hd as [e [<- He]].
            eapply in_child; eauto. apply oids_root. }
          intros l' Hl. unfold sum_sizes. induction l' as [|a l' IH]; simpl; [lia|]. assert (0 <= size st a) by (apply Q, Hl; left; auto).
          assert (0 <= fold_right Z.add 0 (map (size st) l')) by (apply IH; intros u Hu; apply Hl; right; auto). lia. }
        split.
        -- intros i d b o j Hi Hd Hj.
           assert (P : 0 <= sum_sizes st (firstn i (kids st x)) /\ sum_sizes st (firstn i (kids st x)) + size st d <= size st x).
           { split; [apply Hkn; intros u Hu; eapply firstn_In; eauto|].
             rewrite (firstn_skipn_nth _ _ _ _ Hi) in Hsum. rewrite sum_sizes_app, sum_sizes_cons in Hsum.
             assert (0 <= sum_sizes st (skipn (S i) (kids st x))).
             { apply Hkn. intros u Hu. rewrite <- (firstn_skipn (S i) (kids st x)). apply in_or_app; auto. }
             lia. }
           rewrite Fr by lia. rewrite <- (P1 i d b o j); eauto.
        -- intros b o j H0 Hd Hj. rewrite Fr by lia. rewrite <- (P2 b o j); eauto.
      * assert (Hd : In d l) by (eapply nth_error_In; eauto).
        cbn [map]. rewrite firstn_cons. rewrite sum_sizes_cons.
        assert (Hx : forall e b o, In e l -> arr m1 (root e) = Some (b, o, size st (root e)) -> b <> ba).
        { intros e b o He He'. rewrite Hkeep in He' by (eapply Hkc; eauto; apply oids_root). eauto. }
        destruct (B8 (Hset H) Hx i0 d Hi0) as [P1 P2].
        assert (Hm : forall e b o j, arr m e = Some (b, o, size st e) -> cell m1 b (o + j) = cell m b (o + j)).
        { intros e b o j He'. apply A7; [apply H; left; auto | eapply Hb; eauto | unfold region; intros [Q _]; eapply Hlow; eauto]. }
        split.
        -- intros i e b o j Hi He Hj.
           assert (Hed : In e (oids d)).
           { apply nth_error_In in Hi. destruct d as [x ds]. cbn [root] in Hi. rewrite (krep_kids st x ds) in Hi by (apply Hkt; right; auto).
             apply in_map_iff in Hi as [u [<- Hu]]. eapply in_child; eauto. apply oids_root. }
           rewrite <- (Hm e b o j); auto. assert (Hne : b <> ba) by eauto.
           assert (Q : arr m1 e = Some (b, o, size st e)) by (rewrite Hkeep; eauto).
           rewrite <- (P1 i e b o j Hi Q Hne Hj). f_equal; lia.
        -- intros b o j H0 Hd0 Hj.
           assert (Q : arr m1 (root d) = Some (b, o, size st (root d))) by (rewrite Hkeep; auto; eapply Hkc; eauto; apply oids_root).
           rewrite <- (Hm (root d) b o j Hd0). rewrite <- (P2 b o j H0 Q Hj). f_equal; lia.
Qed.
End Mem.
