(** Proofs about the hierarchy, part 8: [_connect_parameters] and the values, in terms of [below]. *)
From Coq Require Import List ZArith Bool Lia Arith.
From Verif Require Import NpModel NpProofs IndexOpsModel PzModel PzSpec PzTree PzStruct PzLink PzWalk PzMem.
Import ListNotations.
Open Scope Z_scope.

Lemma kbelow_offs : forall st t y k n, krep st t -> below st (root t) y k n -> In (y, k) (offs (size st) 0 t).
Proof.
  intros st t. induction t as [x ts IH] using tree_ind'. intros y k n Hr Hb.
  inversion Hr as [x0 ts0 E1 E3]; subst. rewrite offs_eq. simpl root in Hb.
  inversion Hb as [|? i c ? o n' Hi Hb']; subst; [left; reflexivity|].
  rewrite E1 in Hi. apply nth_error_map' in Hi as [c' [Hi ->]].
  right. apply offl_in. exists i, c'. split; auto.
  apply offs_shift. rewrite Forall_forall in *.
  assert (Hc : In c' ts) by (eapply nth_error_In; eauto).
  replace (_ - _) with o.
  - eapply IH; eauto.
  - rewrite E1. unfold sum_sizes. rewrite firstn_map. lia.
Qed.
Lemma offs_kbelow : forall st t y k, krep st t -> In (y, k) (offs (size st) 0 t) ->
  exists n, (n < height t)%nat /\ below st (root t) y k n.
Proof.
  intros st t. induction t as [x ts IH] using tree_ind'. intros y k Hr Hb.
  inversion Hr as [x0 ts0 E1 E3]; subst. rewrite offs_eq in Hb. simpl root.
  destruct Hb as [Hb|Hb].
  - inversion Hb; subst. exists 0%nat. split; [simpl; lia | constructor].
  - apply offl_in in Hb as [i [c [Hi Hb]]]. apply offs_shift in Hb.
    assert (Hc : In c ts) by (eapply nth_error_In; eauto).
    rewrite Forall_forall in *. apply IH in Hb; auto. destruct Hb as [n [Hn Hb]].
    exists (S n). split.
    + pose proof (height_child x ts c Hc). lia.
    + replace k with (sum_sizes st (firstn i (kids st x)) + (k - (0 + fold_right Z.add 0 (map (size st) (map root (firstn i ts)))))).
      * econstructor; [|exact Hb]. rewrite E1. apply map_nth_error. exact Hi.
      * rewrite E1. unfold sum_sizes. rewrite firstn_map. lia.
Qed.
Lemma koids_below : forall st t y, krep st t -> (In y (oids t) <-> above st (root t) y).
Proof.
  intros st t y Hr. split.
  - intros H. rewrite <- (offs_fst (size st) t 0) in H. apply in_map_iff in H as [[y' k] [<- H]].
    apply offs_kbelow in H as [n [_ H]]; auto. exists k, n; auto.
  - intros [k [n H]]. apply kbelow_offs in H; auto. rewrite <- (offs_fst (size st) t 0). apply in_map_iff. exists (y, k); auto.
Qed.

Lemma below_split : forall st a x y o b, below st x y o (a + b) ->
  exists z o1 o2, below st x z o1 a /\ below st z y o2 b /\ o = o1 + o2.
Proof.
  intros st a. induction a as [|a IH]; intros x y o b H; simpl in H.
  - exists x, 0, o. split; [constructor | auto].
  - inversion H as [|? i c ? o' n' Hi Hb]; subst. apply IH in Hb as (z & o1 & o2 & H1 & H2 & ->).
    exists z, (sum_sizes st (firstn i (kids st x)) + o1), o2. split; [econstructor; eauto|]. split; auto. lia.
Qed.

Lemma sum_nonneg : forall st l, (forall y, In y l -> 0 <= size st y) -> 0 <= sum_sizes st l.
Proof.
  intros st l H. induction l as [|a l IH]; [unfold sum_sizes; simpl; lia|]. rewrite sum_sizes_cons.
  pose proof (H a (or_introl eq_refl)). assert (0 <= sum_sizes st l) by (apply IH; intros; apply H; right; auto). lia.
Qed.
Lemma below_range' : forall st x y o n, (forall z, above st x z -> node_ok st z /\ 0 <= size st z) -> below st x y o n ->
  0 <= o /\ o + size st y <= size st x.
Proof.
  intros st x y o n H B. induction B as [x|x i c y o n Hi B IH]; [lia|].
  assert (Hc : In c (kids st x)) by (eapply nth_error_In; eauto).
  destruct IH as [I1 I2]. { intros z Hz. apply H. eapply above_trans; [apply above_kid; eauto | auto]. }
  destruct (H x (above_refl _ _)) as [Hn _]. unfold node_ok in Hn.
  destruct (kind st x). { destruct Hn as [Hn _]. rewrite Hn in Hc. destruct Hc. }
  assert (P : forall l, incl l (kids st x) -> 0 <= sum_sizes st l).
  { intros l Hl. apply sum_nonneg. intros z Hz. apply H. apply above_kid. auto. }
  pose proof (firstn_skipn_nth _ _ _ _ Hi) as Es.
  assert (Esum : sum_sizes st (kids st x) = sum_sizes st (firstn i (kids st x)) + (size st c + sum_sizes st (skipn (S i) (kids st x)))) by (rewrite Es at 1; rewrite sum_sizes_app, sum_sizes_cons; reflexivity).
  rewrite Hn, Esum.
  pose proof (P (firstn i (kids st x)) ltac:(intros z Hz; eapply firstn_In; eauto)).
  pose proof (P (skipn (S i) (kids st x)) ltac:(intros z Hz; rewrite <- (firstn_skipn (S i)); apply in_or_app; auto)). lia.
Qed.

Lemma sum_firstn_mono' : forall st l i j c, (forall y, In y l -> 0 <= size st y) -> nth_error l i = Some c -> (i < j)%nat ->
  sum_sizes st (firstn i l) + size st c <= sum_sizes st (firstn j l).
Proof.
  intros st l. induction l as [|a l IH]; intros i j c H Hi Hj; [destruct i; discriminate|].
  destruct j as [|j]; [lia|]. cbn [firstn]. rewrite sum_sizes_cons.
  destruct i as [|i].
  - simpl in Hi. inversion Hi; subst. cbn [firstn]. unfold sum_sizes at 1. simpl.
    assert (0 <= sum_sizes st (firstn j l)); [|lia]. apply sum_nonneg. intros y Hy. apply H. right. eapply firstn_In; eauto.
  - cbn [firstn]. rewrite sum_sizes_cons. simpl in Hi. specialize (IH i j c ltac:(intros; apply H; right; auto) Hi ltac:(lia)). lia.
Qed.
(** Objects that are not below each other occupy different elements. *)
Lemma below_disjoint : forall st r x y kx ky nx ny, (forall z, above st r z -> node_ok st z /\ 0 <= size st z) ->
  below st r x kx nx -> below st r y ky ny -> ~ above st x y -> ~ above st y x ->
  kx + size st x <= ky \/ ky + size st y <= kx.
Proof.
  intros st r x y kx ky nx ny H B1. revert ky ny H. induction B1 as [r|r i c x o n Hi B1 IH]; intros ky ny H B2 N1 N2.
  - exfalso. apply N1. exists ky, ny; auto.
  - assert (Hk : forall z, In z (kids st r) -> 0 <= size st z) by (intros z Hz; apply H, above_kid; auto).
    assert (Hc : In c (kids st r)) by (eapply nth_error_In; eauto).
    assert (Hcr : forall z, above st c z -> node_ok st z /\ 0 <= size st z).
    { intros z Hz. apply H. eapply above_trans; [apply above_kid; eauto | auto]. }
    inversion B2 as [|? i' c' ? o' n' Hi' B2']; subst.
    + exfalso. apply N2. exists (sum_sizes st (firstn i (kids st y)) + o), (S n). econstructor; eauto.
    + assert (Hc' : In c' (kids st r)) by (eapply nth_error_In; eauto).
      assert (Hcr' : forall z, above st c' z -> node_ok st z /\ 0 <= size st z).
      { intros z Hz. apply H. eapply above_trans; [apply above_kid; eauto | auto]. }
      destruct (below_range' _ _ _ _ _ Hcr B1). destruct (below_range' _ _ _ _ _ Hcr' B2').
      destruct (Nat.lt_trichotomy i i') as [L|[L|L]].
      * pose proof (sum_firstn_mono' st (kids st r) i i' c Hk Hi L). left. lia.
      * subst i'. assert (c' = c) by congruence. subst c'. destruct (IH _ _ Hcr B2' N1 N2); [left | right]; lia.
      * pose proof (sum_firstn_mono' st (kids st r) i' i c' Hk Hi' L). right. lia.
Qed.

Section Conn.
Context {V : Type}.
Implicit Types m : @memst V.

(** The arrays of everything below [x] are parts of one array, in the order of the hierarchy. *)
Definition al (t : struct) m (x : oid) (b : nat) (o : Z) : Prop :=
  forall y k n, below t x y k n -> 0 < size t y -> arr m y = Some (b, o + k, size t y).
Definition settledb (t : struct) m (c : oid) : Prop :=
  ~ valid t m c \/ exists b o, arr m c = Some (b, o, size t c) /\ al t m c b o.
(** Connecting [r] does not lose values. *)
Definition safe (t : struct) m (r : oid) : Prop :=
  (exists b o, arr m r = Some (b, o, size t r) /\ al t m r b o) \/ size t r = 0 \/
  (~ valid t m r /\ forall x k, below t r x k 2 -> 0 < size t x -> exists b o, al t m x b o).
Definition kept (t : struct) m m' : Prop :=
  forall y b o j, is_leaf t y = true -> arr m y = Some (b, o, size t y) -> 0 <= j < size t y ->
    exists b' o', arr m' y = Some (b', o', size t y) /\ cell m' b' (o' + j) = cell m b (o + j).

Lemma connect_below : forall st r ts m, krep st (T r ts) -> NoDup (oids (T r ts)) ->
  (forall y, In y (oids (T r ts)) -> node_ok st y) ->
  (forall y, In y (oids (T r ts)) -> is_leaf st y = true -> valid st m y) -> bnd m ->
  (forall c, In c ts -> (height c <= fuel st)%nat) ->
  exists m', connect_mem st r m = Ok m' /\ (nbuf m <= nbuf m')%nat /\ bnd m' /\
    (forall y, ~ above st r y -> arr m' y = arr m y) /\
    (kids st r = [] -> m' = m) /\
    (kids st r <> [] -> exists ba oa,
      (arr m r = Some (ba, oa, size st r) \/ (~ valid st m r /\ (nbuf m <= ba)%nat)) /\
      forall y k n, below st r y k n -> arr m' y = Some (ba, oa + k, size st y)) /\
    ((forall c, In c (kids st r) -> settledb st m c) -> safe st m r -> kept st m m').
Proof.
  intros st r ts m Hk Hnd Hok Hlf Hb Hh.
  assert (Ekids : kids st r = map root ts) by (apply krep_kids; auto).
  destruct ts as [|c0 ts'].
  { exists m. assert (E : connect_mem st r m = Ok m) by (rewrite connect_mem_eq, Ekids; reflexivity).
    split; [exact E|]. split; [lia|]. split; [auto|]. split; [auto|]. split; [auto|].
    split; [simpl in Ekids; congruence|]. intros _ _ y b o j _ H1 _. exists b, o; auto. }
  set (ts := c0 :: ts') in *. assert (Hne : ts <> []) by (unfold ts; congruence).
  destruct (connect_mem_spec st r ts m Hk Hnd Hok Hlf Hb Hh Hne) as
    (m' & ba & oa & E & A1 & A2 & A3 & A4 & A5 & A6 & A7 & A8).
  assert (Hrange : forall x, above st r x -> forall y o n, below st x y o n -> 0 <= o /\ o + size st y <= size st x).
  { intros x Hx y o n B. eapply below_range'; eauto. intros z Hz.
    assert (Q : In z (oids (T r ts))) by (apply (koids_below st (T r ts)); auto; eapply above_trans; eauto).
    split; [apply Hok; auto|]. eapply tree_nonneg; eauto. }
  assert (Hset : (forall c, In c (kids st r) -> settledb st m c) -> forall c, In c ts -> settled st m c).
  { intros H c Hc. destruct (H (root c)) as [Hs|[b [o [H1 H2]]]]; [rewrite Ekids; apply in_map; auto | left; auto|].
    right. exists b, o. split; auto. intros y k Hy Hp. apply offs_kbelow in Hy as [n [_ Hy]]; [|eapply krep_child; eauto]. eapply H2; eauto. }
  exists m'. split; [exact E|]. split; [auto|]. split; [auto|].
  split. { intros y Hy. apply A3. intros Q. apply Hy. apply (koids_below st (T r ts)); auto. }
  split. { rewrite Ekids. unfold ts. simpl. discriminate. }
  assert (A2' : forall y k n, below st r y k n -> arr m' y = Some (ba, oa + k, size st y)).
  { intros y k n B. apply A2. exact (kbelow_offs st (T r ts) y k n Hk B). }
  split. { intros _. exists ba, oa. split; [tauto | exact A2']. }
  intros Hs Hsafe y b o j Hyl Hya Hj. specialize (Hset Hs).
  destruct (in_dec Nat.eq_dec y (oids (T r ts))) as [Hin|Hout].
  - apply (koids_below st (T r ts)) in Hin as [k [n B]]; auto. simpl in B.
    pose proof (A2' _ _ _ B) as Ey. exists ba, (oa + k). split; auto.
    destruct (Hrange r (above_refl _ _) y k n B) as [R1 R2].
    destruct Hsafe as [[b1 [o1 [H1 H2]]]|[H1|[H1 H2]]].
    + assert (ba = b1 /\ oa = o1) as [-> ->].
      { destruct A1 as [A1|[A1 _]]; [rewrite H1 in A1; inversion A1; auto | exfalso; apply A1; exists b1, o1; auto]. }
      pose proof (H2 y k n B ltac:(lia)) as H3. rewrite Hya in H3. inversion H3; subst.
      apply A7; auto; [|eapply Hb; eauto].
      intros z k' Hz Hp. apply (offs_kbelow st (T r ts)) in Hz as [n' [_ Hz]]; auto. eapply H2; eauto.
    + lia.
    + destruct A1 as [A1|[_ [A1 A1']]]; [exfalso; apply H1; exists ba, oa; auto|]. subst oa.
      destruct n as [|[|n]].
      * assert (Ery : r = y) by (inversion B; auto). rewrite <- Ery in Hyl. exfalso. pose proof (Hok r (or_introl eq_refl)) as Q. unfold node_ok in Q. unfold is_leaf in Hyl.
        destruct (kind st r); [|discriminate]. destruct Q as [Q _]. rewrite Ekids in Q. discriminate.
      * inversion B as [|? i c ? o' n' Hi Hb']; subst. inversion Hb'; subst.
        assert (Hi' := Hi). rewrite Ekids in Hi'. apply nth_error_map' in Hi' as [c [Hi' ->]].
        assert (Hkn : kids st (root c) = []).
        { assert (Q : node_ok st (root c)). { apply Hok. eapply in_child; [eapply nth_error_In; eauto | apply oids_root]. }
          unfold node_ok in Q. unfold is_leaf in Hyl. destruct (kind st (root c)); [tauto | discriminate]. }
        destruct (A8 Hset A1 i c Hi') as [_ A9]. rewrite <- (A9 b o j); auto. f_equal. rewrite Ekids. lia.
      * destruct (below_split st 2 r y k n B) as (x & k1 & k2 & B1 & B2 & ->).
        destruct (Hrange x ltac:(eexists; eexists; eauto) y k2 n B2) as [R3 R4].
        destruct (H2 x k1 B1 ltac:(lia)) as [bx [ox Hx]].
        pose proof (Hx x 0 0%nat (below_refl _ _) ltac:(lia)) as Ex. rewrite Z.add_0_r in Ex.
        pose proof (Hx y k2 n B2 ltac:(lia)) as Ey2. rewrite Hya in Ey2. inversion Ey2; subst bx o. clear Ey2.
        inversion B1 as [|? i0 c ? o' n' Hi Hb']; subst. inversion Hb' as [|? i d ? o'' n'' Hi2 Hb'']; subst. inversion Hb''; subst.
        rewrite Ekids in Hi. apply nth_error_map' in Hi as [c' [Hi' ->]].
        destruct (A8 Hset A1 i0 c' Hi') as [A9 _].
        replace (ox + k2 + j) with (ox + (k2 + j)) by lia. rewrite <- (A9 i x b ox (k2 + j)); auto; [|lia]. f_equal. rewrite Ekids. lia.
  - exists b, o. split; [rewrite A3; auto|].
    assert (Hbb : (b < nbuf m)%nat) by (eapply Hb; eauto).
    destruct Hsafe as [[b1 [o1 [H1 H2]]]|[H1|[H1 H2]]].
    + assert (ba = b1 /\ oa = o1) as [-> ->].
      { destruct A1 as [A1|[A1 _]]; [rewrite H1 in A1; inversion A1; auto | exfalso; apply A1; exists b1, o1; auto]. }
      apply A7; auto. intros z k' Hz Hp. apply (offs_kbelow st (T r ts)) in Hz as [n' [_ Hz]]; auto. eapply H2; eauto.
    + apply A6; auto. unfold region. lia.
    + destruct A1 as [A1|[_ [A1 A1']]]; [exfalso; apply H1; exists ba, oa; auto|].
      apply A6; auto. unfold region. lia.
Qed.

(** No two Params share memory. *)
Definition disj (t : struct) m : Prop :=
  forall x y b ox oy, is_leaf t x = true -> is_leaf t y = true -> x <> y ->
    arr m x = Some (b, ox, size t x) -> arr m y = Some (b, oy, size t y) -> 0 < size t x -> 0 < size t y ->
    ox + size t x <= oy \/ oy + size t y <= ox.
Lemma connect_disj : forall st r m m', (forall z, above st r z -> node_ok st z /\ 0 <= size st z) ->
  bnd m -> (forall y, above st r y \/ ~ above st r y) ->
  (forall y, ~ above st r y -> arr m' y = arr m y) ->
  (kids st r = [] -> m' = m) ->
  (kids st r <> [] -> exists ba oa,
      (arr m r = Some (ba, oa, size st r) \/ (~ valid st m r /\ (nbuf m <= ba)%nat)) /\
      forall y k n, below st r y k n -> arr m' y = Some (ba, oa + k, size st y)) ->
  ((exists b o, arr m r = Some (b, o, size st r) /\ al st m r b o) \/ size st r = 0 \/ ~ valid st m r) ->
  disj st m -> disj st m'.
Proof.
  intros st r m m' Hok Hb Hdec Ho He Hc Hs D.
  destruct (kids st r) as [|c0 ks] eqn:Ek; [rewrite He; auto|]. destruct Hc as (ba & oa & A1 & A2); [congruence|].
  assert (Hleaf : forall x y, above st r x -> is_leaf st x = true -> above st x y -> x = y).
  { intros x y Hx Hl [o [n B]]. destruct (Hok x Hx) as [Hn _]. unfold node_ok in Hn. unfold is_leaf in Hl.
    destruct (kind st x); [|discriminate]. inversion B as [|? ? ? ? ? ? Q]; subst; auto. destruct Hn as [Hn _]. rewrite Hn in Q. destruct i; discriminate. }
  (* either the arrays are the same, or the new ones are in a buffer of their own *)
  assert (G : (forall y, 0 < size st y -> arr m' y = arr m y) \/ (forall y k n, below st r y k n -> 0 < size st y -> exists o, arr m' y = Some (ba, o, size st y)) /\ (nbuf m <= ba)%nat).
  { destruct Hs as [[b [o [H1 H2]]]|[H1|H1]].
    - left. intros y Hp. destruct (Hdec y) as [[k [n B]]|N]; [|auto]. rewrite (A2 _ _ _ B), (H2 _ _ _ B Hp).
      destruct A1 as [A1|[A1 _]]; [congruence | exfalso; apply A1; exists b, o; auto].
    - left. intros y Hp. destruct (Hdec y) as [[k [n B]]|N]; [|auto]. destruct (below_range' _ _ _ _ _ Hok B). lia.
    - right. destruct A1 as [A1|[_ A1]]; [exfalso; apply H1; exists ba, oa; auto|]. split; auto.
      intros y k n B _. eexists. apply (A2 _ _ _ B). }
  intros x y b ox oy Lx Ly Hne Ex Ey Px Py.
  destruct G as [G|[G1 G2]].
  - rewrite G in Ex, Ey by auto. eapply D; eauto.
  - destruct (Hdec x) as [[kx [nx Bx]]|Nx]; destruct (Hdec y) as [[ky [ny By]]|Ny].
    + rewrite (A2 _ _ _ Bx) in Ex. rewrite (A2 _ _ _ By) in Ey. inversion Ex; inversion Ey; subst.
      destruct (below_disjoint st r x y kx ky nx ny Hok Bx By) as [Q|Q]; try lia.
      * intros Q. apply Hne. apply Hleaf; auto. exists kx, nx; auto.
      * intros Q. apply Hne. symmetry. apply Hleaf; auto. exists ky, ny; auto.
    + exfalso. rewrite Ho in Ey by auto. apply Hb in Ey. destruct (G1 _ _ _ Bx Px) as [o Q]. rewrite Q in Ex. inversion Ex; subst. lia.
    + exfalso. rewrite Ho in Ex by auto. apply Hb in Ex. destruct (G1 _ _ _ By Py) as [o Q]. rewrite Q in Ey. inversion Ey; subst. lia.
    + rewrite Ho in Ex, Ey by auto. eapply D; eauto.
Qed.
End Conn.
