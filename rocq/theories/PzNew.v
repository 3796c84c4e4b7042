(** Proofs about the hierarchy, part 15: new objects. *)
From Coq Require Import List ZArith Bool Lia Arith.
From Verif Require Import NpModel NpProofs IndexOpsModel IndexOpsSpec IndexOpsProofs PzModel PzSpec PzTree PzStruct PzLink PzWalk PzMem PzIo PzInv PzConn PzFix PzLinkMem PzPres PzUnlink PzTraverse PzNotify.
Import ListNotations.
Open Scope Z_scope.

(** ** A new object *)
Section NewSt.
Variables (t t' : struct).
Notation x := (next t).
Hypothesis W : swf t.
Hypothesis Hnx : next t' = S x.
Hypothesis Hold : forall y, y <> x -> kind t' y = kind t y /\ par t' y = par t y /\ pidx t' y = pidx t y /\ kids t' y = kids t y /\
  size t' y = size t y /\ in_init t' y = in_init t y /\ inited t' y = inited t y.
Hypothesis Hnew : par t' x = None /\ pidx t' x = None /\ kids t' x = [] /\ inited t' x = None.
Hypothesis Hkd : match kind t' x with KLeaf n => size t' x = Z.of_nat n | KNode => size t' x = 0 end.

Lemma new_old : kids t x = [] /\ par t x = None /\ kind t x = KNode /\ inited t x = None.
Proof. apply (PzTree.wf_new t W). lia. Qed.
Lemma new_kids : forall y, kids t' y = kids t y.
Proof.
  intros y. destruct (Nat.eq_dec y x) as [->|Hne]; [|apply Hold; auto].
  destruct Hnew as (_ & _ & -> & _). destruct new_old as (-> & _). auto.
Qed.
Lemma new_par : forall y, par t' y = par t y.
Proof.
  intros y. destruct (Nat.eq_dec y x) as [->|Hne]; [|apply Hold; auto].
  destruct Hnew as (-> & _). destruct new_old as (_ & -> & _). auto.
Qed.
Lemma new_not_kid : forall y, ~ In x (kids t y).
Proof. intros y H. apply (PzTree.wf_par t W) in H. destruct new_old as (_ & E & _). congruence. Qed.
Lemma new_sum : forall y l, incl l (kids t y) -> sum_sizes t' l = sum_sizes t l.
Proof.
  intros y l H. apply sum_sizes_ext. intros c Hc. apply Hold. intros ->. apply (new_not_kid y). apply H; auto.
Qed.
Lemma new_below : forall y z o n, below t' y z o n <-> below t y z o n.
Proof.
  assert (Hf : forall y i, incl (firstn i (kids t y)) (kids t y)) by (intros y i c Hc; eapply firstn_In; eauto).
  intros y z o n. split; intros B; induction B as [y|y i c z o n Hi B IH]; try constructor.
  - rewrite new_kids in *. rewrite (new_sum y) by apply Hf. econstructor; eauto.
  - rewrite <- (new_sum y) by apply Hf. rewrite <- new_kids in *. econstructor; eauto.
Qed.
Lemma new_above : forall y z, above t' y z <-> above t y z.
Proof. intros y z. split; intros [o [n B]]; exists o, n; apply new_below; auto. Qed.
Lemma new_above_x : forall y, above t y x -> y = x.
Proof. intros y H. apply (above_root t y x W H). apply new_old. Qed.
Lemma new_x_above : forall y, above t x y -> y = x.
Proof. intros y H. symmetry. apply (kids_nil_above t); auto. apply new_old. Qed.
Lemma new_wf : swf t'.
Proof.
  destruct (PzTree.wf_rank t W) as [rk Hrk]. destruct Hnew as (N1 & N2 & N3 & N4). constructor.
  - exists rk. intros a b. rewrite new_kids. apply Hrk.
  - intros a b. rewrite new_kids, new_par. apply (PzTree.wf_par t W).
  - intros a i b. rewrite new_kids. intros H. destruct (Hold b) as (_ & _ & -> & _); [|eapply (PzTree.wf_pidx t W); eauto].
    intros ->. apply (new_not_kid a). eapply nth_error_In; eauto.
  - intros a Ha. destruct (Nat.eq_dec a x) as [->|Hne]; auto. destruct (Hold a Hne) as (_ & E & -> & _). apply (PzTree.wf_root t W). congruence.
  - intros a n Ha. rewrite new_kids. destruct (Nat.eq_dec a x) as [->|Hne].
    + rewrite Ha in Hkd. split; auto. apply new_old.
    + destruct (Hold a Hne) as (E & _ & _ & _ & -> & _). apply (PzTree.wf_leaf t W). congruence.
  - intros a Ha. rewrite new_kids, (new_sum a) by apply incl_refl. destruct (Nat.eq_dec a x) as [->|Hne].
    + rewrite Ha in Hkd. destruct new_old as (-> & _). auto.
    + destruct (Hold a Hne) as (E & _ & _ & _ & -> & _). apply (PzTree.wf_node t W). congruence.
  - intros a Ha. assert (Hne : a <> x) by lia. destruct (Hold a Hne) as (-> & -> & _ & -> & _ & _ & ->). apply (PzTree.wf_new t W). lia.
Qed.
Lemma new_ioinv : forall i i', ioinv t i -> iop i' = upd (iop i) x (nrid i, Root) -> dicts i' = upd (dicts i) (nrid i) [] -> nrid i' = S (nrid i) ->
  ioinv t' i' /\ (forall y p j, (y < x)%nat -> (hasi i' y p j <-> hasi i y p j)) /\ (forall p j, ~ hasi i' x p j).
Proof.
  intros i i' I E1 E2 E3. destruct Hnew as (N1 & N2 & N3 & N4).
  assert (Hlt : forall y, (y < x)%nat -> (fst (iop i y) < nrid i)%nat).
  { intros y Hy. destruct (root_exists t y W) as (r & o & n & _ & Hr & B).
    assert (Hrt : (r < next t)%nat) by (eapply root_lt; eauto).
    destruct (Nat.eq_dec y r) as [->|Hne]; [apply (io_rid _ _ I); auto|].
    rewrite (io_view _ _ I r y o n Hrt Hr B Hne). simpl. apply (io_rid _ _ I); auto. }
  assert (Hi : forall y, y <> x -> iop i' y = iop i y) by (intros; rewrite E1, upd_ne; auto).
  assert (Hix : iop i' x = (nrid i, Root)) by (rewrite E1, upd_eq; auto).
  assert (Hcase : forall y, (y < S x)%nat -> y = x \/ (y < x)%nat) by (intros; lia).
  split; [constructor|split].
  - intros r Hr Hp. rewrite Hnx in Hr. destruct (Hcase r Hr) as [->|Hr']; [rewrite Hix; auto|].
    rewrite Hi by lia. rewrite new_par in Hp. apply (io_root _ _ I); auto.
  - intros r Hr Hp. rewrite Hnx in Hr. unfold rid. rewrite E3. destruct (Hcase r Hr) as [->|Hr']; [rewrite Hix; simpl; lia|].
    rewrite Hi by lia. specialize (Hlt r Hr'). lia.
  - intros r r' Hr Hp Hr' Hp'. rewrite Hnx in *. unfold rid. destruct (Hcase r Hr) as [->|Hr1], (Hcase r' Hr') as [->|Hr2]; auto.
    + rewrite Hix, Hi by lia. simpl. specialize (Hlt r' Hr2). lia.
    + rewrite Hix, Hi by lia. simpl. specialize (Hlt r Hr1). lia.
    + rewrite !Hi by lia. rewrite new_par in *. apply (io_inj _ _ I); auto.
  - intros r y o n Hr Hp B Hne. rewrite Hnx in *. apply new_below in B.
    destruct (Hcase r Hr) as [->|Hr1]; [exfalso; apply Hne; apply new_x_above; exists o, n; auto|].
    assert (Hy : (y < x)%nat) by (eapply below_lt; eauto).
    unfold rid. rewrite !Hi by lia. destruct (Hold y) as (_ & _ & _ & _ & -> & _); [lia|]. rewrite new_par in Hp.
    apply (io_view _ _ I r y o n); auto.
  - intros r Hr Hp. rewrite Hnx in Hr. unfold dof, rid. rewrite E2. destruct (Hcase r Hr) as [->|Hr1].
    + rewrite Hix. simpl. rewrite upd_eq. split; [split; constructor|]. intros p j [].
    + rewrite Hi by lia. specialize (Hlt r Hr1). rewrite upd_ne by lia. destruct (Hold r) as (_ & _ & _ & _ & -> & _); [lia|].
      rewrite new_par in Hp. apply (io_dict _ _ I); auto.
  - intros y p j Hy. unfold hasi. rewrite Hi by lia. rewrite E2. specialize (Hlt y Hy). rewrite upd_ne by lia. tauto.
  - intros p j. unfold hasi. rewrite Hix, E2. simpl. rewrite upd_eq. rewrite carries_lk. simpl. intros [[] _].
Qed.
End NewSt.

Section New.
Context {V : Type}.
Implicit Types s : @state V.

Lemma inv_nt_change : forall s n, Inv s -> ntinv (st s) n -> Inv (with_nt s n).
Proof. intros s n [A1 A2 A3 A4 A5 A6] H. constructor; auto. Qed.

(** What a constructor leaves alone. *)
Record grown s s' : Prop := mkGrown {
  gr_next : next (st s') = S (next (st s));
  gr_old : forall y, y <> next (st s) -> kind (st s') y = kind (st s) y /\ par (st s') y = par (st s) y /\
    kids (st s') y = kids (st s) y /\ size (st s') y = size (st s) y /\ in_init (st s') y = in_init (st s) y /\ inited (st s') y = inited (st s) y;
  gr_new : par (st s') (next (st s)) = None /\ kids (st s') (next (st s)) = [] /\ inited (st s') (next (st s)) = None;
  gr_below : forall y z o n, below (st s') y z o n <-> below (st s) y z o n;
  gr_has : forall y p j, (y < next (st s))%nat -> (has s' y p j <-> has s y p j);
  gr_has_new : forall p j, ~ has s' (next (st s)) p j;
  gr_kept : kept (st s) (mem s) (mem s');
  gr_arr : forall y, y <> next (st s) -> arr (mem s') y = arr (mem s) y;
  gr_disj : disj (st s) (mem s) -> disj (st s') (mem s') }.

Lemma new_fixinv : forall t t' i i' (fx fx' : fixst), swf t -> next t' = S (next t) ->
  (forall y, y <> next t -> kind t' y = kind t y /\ par t' y = par t y /\ size t' y = size t y /\ inited t' y = inited t y) ->
  fx' = upd fx (next t) None -> (forall j, ~ hasi i' (next t) Fixed j) ->
  (forall y p j, (y < next t)%nat -> (hasi i' y p j <-> hasi i y p j)) -> fixinv t i fx -> fixinv t' i' fx'.
Proof.
  intros t t' i i' fx fx' W Hn Ho -> Hx Hh F r Hr Hp Hl. destruct (Nat.eq_dec r (next t)) as [->|Hne].
  - unfold mask_ok. rewrite upd_eq. auto.
  - destruct (Ho r Hne) as (E1 & E2 & E3 & E4). apply (mask_ok_ext t i fx); auto; [apply upd_ne; auto | |].
    + intros j. apply Hh. lia.
    + apply F; [lia | congruence|]. destruct Hl as [Hl|Hl]; [left | right]; [|congruence]. unfold is_leaf in *. rewrite <- E1. auto.
Qed.
Lemma new_ntinv : forall t t' (n n' : @ntst V), ntinv t n -> (forall y, par t' y = par t y) -> par t (next t) = None ->
  (forall y, passes n' y = upd (passes n) (next t) [] y) -> (forall y, visited n' y = upd (visited n) (next t) false y) -> ntinv t' n'.
Proof.
  intros t t' n n' [N1 N2] Hp Hx H1 H2. split; intros y.
  - rewrite H1, Hp. unfold upd. destruct (Nat.eqb_spec y (next t)) as [->|]; [rewrite Hx; auto | auto].
  - rewrite H2. unfold upd. destruct (Nat.eqb y (next t)); auto.
Qed.

Lemma new_leaf_ok : forall s vals, Inv s -> exists s', new_leaf vals s = (s', None) /\ Inv s' /\ grown s s' /\
  kind (st s') (next (st s)) = KLeaf (length vals) /\ in_init (st s') (next (st s)) = false /\
  (forall j, (j < length vals)%nat -> exists b o, arr (mem s') (next (st s)) = Some (b, o, Z.of_nat (length vals)) /\
     nth_error vals j = Some (cell (mem s') b (o + Z.of_nat j))).
Proof.
  intros s vals [W I F M N J]. eexists. split; [reflexivity|]. cbv zeta.
  set (s' := mkS _ _ _ _ _). set (x := next (st s)) in *.
  assert (Ho : forall y, y <> x -> kind (st s') y = kind (st s) y /\ par (st s') y = par (st s) y /\ pidx (st s') y = pidx (st s) y /\ kids (st s') y = kids (st s) y /\
    size (st s') y = size (st s) y /\ in_init (st s') y = in_init (st s) y /\ inited (st s') y = inited (st s) y).
  { intros y Hy. cbn [s' st kind par pidx kids size in_init inited]. rewrite !upd_ne by auto. repeat split. }
  assert (Hnew : par (st s') x = None /\ pidx (st s') x = None /\ kids (st s') x = [] /\ inited (st s') x = None).
  { cbn [s' st kind par pidx kids size in_init inited]. rewrite !upd_eq. auto. }
  assert (Hkx : kind (st s') x = KLeaf (length vals) /\ size (st s') x = Z.of_nat (length vals) /\ in_init (st s') x = false).
  { cbn [s' st kind par pidx kids size in_init inited]. rewrite !upd_eq. auto. }
  destruct Hkx as (Hkx & Hsx & Hix).
  assert (Hkd : match kind (st s') x with KLeaf n => size (st s') x = Z.of_nat n | KNode => size (st s') x = 0 end) by (rewrite Hkx; auto).
  assert (Hnx : next (st s') = S x) by reflexivity.
  pose proof (new_wf (st s) (st s') W Hnx Ho Hnew Hkd) as W'.
  pose proof (new_below (st s) (st s') W Hnx Ho Hnew) as HB.
  pose proof (new_above (st s) (st s') W Hnx Ho Hnew) as HA.
  pose proof (new_par (st s) (st s') W Hnx Ho Hnew) as HP.
  pose proof (new_kids (st s) (st s') W Hnx Ho Hnew) as HK.
  destruct (new_ioinv (st s) (st s') W Hnx Ho Hnew (ios s) (ios s') I eq_refl eq_refl eq_refl) as (I' & Hh & Hhx).
  destruct (new_old (st s) (st s') W Hnx) as (Hx1 & Hx2 & Hx3 & Hx4). fold x in Hx1, Hx2, Hx3, Hx4.
  set (m' := mem s').
  assert (Hax : arr m' x = Some (nbuf (mem s), 0, Z.of_nat (length vals))).
  { unfold m', s'. cbn [mem]. unfold write_arr, set_arr; cbn [arr]. apply upd_eq. }
  assert (Ha : forall y, y <> x -> arr m' y = arr (mem s) y).
  { intros y Hy. unfold m', s'. cbn [mem]. unfold write_arr, set_arr; cbn [arr]. apply upd_ne; auto. }
  assert (Hc : forall b k, (b < nbuf (mem s))%nat -> cell m' b k = cell (mem s) b k).
  { intros b k Hb. unfold m', s'. cbn [mem]. unfold write_arr, set_arr; cbn [cell]. rewrite upd_ne by lia. auto. }
  assert (Hcx : forall j, (j < length vals)%nat -> nth_error vals j = Some (cell m' (nbuf (mem s)) (0 + Z.of_nat j))).
  { intros j Hj. unfold m', s'. cbn [mem]. unfold write_arr, set_arr; cbn [cell]. rewrite upd_eq.
    destruct (Z.leb_spec 0 (0 + Z.of_nat j)); [|lia]. destruct (Z.ltb_spec (0 + Z.of_nat j) (0 + Z.of_nat (length vals))); [|lia]. cbn [andb].
    replace (Z.to_nat (0 + Z.of_nat j - 0)) with j by lia. apply nth_error_nth'. auto. }
  assert (Hnb : nbuf m' = S (nbuf (mem s))) by reflexivity.
  assert (Hlf : forall y, y <> x -> is_leaf (st s') y = is_leaf (st s) y).
  { intros y Hy. unfold is_leaf. destruct (Ho y Hy) as (-> & _). auto. }
  assert (Hsz : forall y, y <> x -> size (st s') y = size (st s) y) by (intros y Hy; apply Ho; auto).
  assert (M' : meminv (st s') m').
  { constructor.
    - intros y b o n Hy. destruct (Nat.eq_dec y x) as [->|Hne]; [rewrite Hax in Hy; inversion Hy; lia|].
      rewrite Ha in Hy by auto. apply (mm_bnd _ _ M) in Hy. lia.
    - intros y Hy Hk Hi. assert (Hne : y <> x) by (intros ->; congruence). rewrite Ha by auto. destruct (Ho y Hne) as (E1 & _ & _ & _ & _ & _ & E2).
      apply (mm_none _ _ M); [lia | congruence | congruence].
    - intros y b o n Hy Q. destruct (Nat.eq_dec y x) as [->|Hne]; [rewrite Hax in Q; inversion Q; subst; left; auto|].
      rewrite Ha in Q by auto. destruct (Ho y Hne) as (-> & _ & _ & -> & -> & _). eapply (mm_size _ _ M); eauto. lia.
    - intros y Hy Hl. destruct (Nat.eq_dec y x) as [->|Hne]; [rewrite Hax; discriminate|]. rewrite Ha by auto. apply (mm_leaf _ _ M); [lia|]. rewrite <- Hlf; auto.
    - intros y Hy. assert (Hne : y <> x) by (intros ->; destruct Hnew as (_ & _ & _ & Q); congruence).
      destruct (Ho y Hne) as (_ & _ & _ & _ & _ & _ & E2). rewrite E2 in Hy. destruct (mm_al _ _ M y Hy) as [b [o Q]]. exists b, o.
      intros z k d B Hp. apply HB in B. assert (z <> x). { intros ->. apply Hne. apply (new_above_x (st s) (st s') W Hnx). exists k, d; auto. }
      rewrite Ha, Hsz in * by auto. eapply Q; eauto. }
  split; [|split; [|split; [|split]]].
  - constructor; auto.
    + apply (new_fixinv (st s) (st s') (ios s) (ios s') (fix_ s)); auto. intros y Hy. destruct (Ho y Hy) as (E1 & E2 & _ & _ & E3 & _ & E4). auto.
    + apply (new_ntinv (st s) (st s') (nt s)); auto.
    + constructor.
      * intros y Hy. destruct (Nat.eq_dec y x) as [->|Hne]; auto. destruct (Ho y Hne) as (_ & _ & _ & _ & _ & -> & _). apply (ii_leaf _ J). rewrite <- Hlf; auto.
      * intros y Hy Hk Hi. assert (Hne : y <> x) by (intros ->; congruence). destruct (Ho y Hne) as (E1 & _ & _ & _ & _ & E3 & ->). apply (ii_node _ J); [lia | congruence | congruence].
      * intros y Hy. assert (Hne : y <> x) by (intros ->; congruence). destruct (Ho y Hne) as (_ & -> & _ & _ & _ & E3 & ->). apply (ii_in _ J). congruence.
      * intros y z Hy Hyz Hk. apply HA in Hyz. assert (Hne : y <> x) by (intros ->; destruct Hnew as (_ & _ & _ & Q); congruence).
        assert (Hnz : z <> x) by (intros ->; congruence). destruct (Ho y Hne) as (_ & _ & _ & _ & _ & _ & E). destruct (Ho z Hnz) as (E1 & _ & _ & _ & _ & _ & E2).
        rewrite E2. apply (ii_down _ J y z); congruence.
  - constructor; auto.
    + intros y Hy. destruct (Ho y Hy) as (? & ? & _ & ? & ? & ? & ?). auto 10.
    + destruct Hnew as (? & _ & ? & ?); auto.
    + intros y b o j Ly Ey Hj. assert (Hne : y <> x). { intros ->. unfold is_leaf in Ly. rewrite Hx3 in Ly. discriminate. }
      exists b, o. fold m'. rewrite Ha by auto. split; auto. apply Hc. eapply (mm_bnd _ _ M); eauto.
    + fold m'. intros D y z b oy oz Ly Lz Hyz Ay Az Py Pz.
      destruct (Nat.eq_dec y x) as [->|Hy], (Nat.eq_dec z x) as [->|Hz]; [congruence| | |].
      * rewrite Hax in Ay. inversion Ay; subst. rewrite Ha in Az by auto. apply (mm_bnd _ _ M) in Az. lia.
      * rewrite Hax in Az. inversion Az; subst. rewrite Ha in Ay by auto. apply (mm_bnd _ _ M) in Ay. lia.
      * rewrite Hlf in Ly by auto. rewrite Hlf in Lz by auto. rewrite Ha, Hsz in Ay by auto. rewrite Ha, Hsz in Az by auto. rewrite Hsz in Py, Pz by auto.
        rewrite !Hsz by auto. eapply D; eauto.
  - auto.
  - auto.
  - intros j Hj. exists (nbuf (mem s)), 0. split; auto.
Qed.

Lemma bare_node_ok : forall s, Inv s -> exists s', bare_node s = (s', None) /\ Inv s' /\ grown s s' /\
  kind (st s') (next (st s)) = KNode /\ in_init (st s') (next (st s)) = true /\ size (st s') (next (st s)) = 0 /\ trace (nt s') = trace (nt s).
Proof.
  intros s [W I F M N J]. eexists. split; [reflexivity|]. cbv zeta.
  set (s' := mkS _ _ _ _ _). set (x := next (st s)) in *.
  assert (Ho : forall y, y <> x -> kind (st s') y = kind (st s) y /\ par (st s') y = par (st s) y /\ pidx (st s') y = pidx (st s) y /\ kids (st s') y = kids (st s) y /\
    size (st s') y = size (st s) y /\ in_init (st s') y = in_init (st s) y /\ inited (st s') y = inited (st s) y).
  { intros y Hy. cbn [s' st kind par pidx kids size in_init inited]. rewrite !upd_ne by auto. repeat split. }
  assert (Hnew : par (st s') x = None /\ pidx (st s') x = None /\ kids (st s') x = [] /\ inited (st s') x = None).
  { cbn [s' st kind par pidx kids size in_init inited]. rewrite !upd_eq. auto. }
  assert (Hkx : kind (st s') x = KNode /\ size (st s') x = 0 /\ in_init (st s') x = true).
  { cbn [s' st kind par pidx kids size in_init inited]. rewrite !upd_eq. auto. }
  destruct Hkx as (Hkx & Hsx & Hix).
  assert (Hkd : match kind (st s') x with KLeaf n => size (st s') x = Z.of_nat n | KNode => size (st s') x = 0 end) by (rewrite Hkx; auto).
  assert (Hnx : next (st s') = S x) by reflexivity.
  pose proof (new_wf (st s) (st s') W Hnx Ho Hnew Hkd) as W'.
  pose proof (new_below (st s) (st s') W Hnx Ho Hnew) as HB.
  pose proof (new_above (st s) (st s') W Hnx Ho Hnew) as HA.
  pose proof (new_par (st s) (st s') W Hnx Ho Hnew) as HP.
  pose proof (new_kids (st s) (st s') W Hnx Ho Hnew) as HK.
  destruct (new_ioinv (st s) (st s') W Hnx Ho Hnew (ios s) (ios s') I eq_refl eq_refl eq_refl) as (I' & Hh & Hhx).
  destruct (new_old (st s) (st s') W Hnx) as (Hx1 & Hx2 & Hx3 & Hx4). fold x in Hx1, Hx2, Hx3, Hx4.
  set (m' := mem s').
  assert (Hax : arr m' x = None) by (unfold m', s'; cbn [mem]; unfold set_arr; cbn [arr]; apply upd_eq).
  assert (Ha : forall y, y <> x -> arr m' y = arr (mem s) y) by (intros y Hy; unfold m', s'; cbn [mem]; unfold set_arr; cbn [arr]; apply upd_ne; auto).
  assert (Hlf : forall y, is_leaf (st s') y = is_leaf (st s) y).
  { intros y. unfold is_leaf. destruct (Nat.eq_dec y x) as [->|Hne]; [rewrite Hkx, Hx3; auto|]. destruct (Ho y Hne) as (-> & _). auto. }
  assert (Hsz : forall y, y <> x -> size (st s') y = size (st s) y) by (intros y Hy; apply Ho; auto).
  assert (M' : meminv (st s') m').
  { constructor.
    - intros y b o n Hy. destruct (Nat.eq_dec y x) as [->|Hne]; [rewrite Hax in Hy; discriminate|].
      rewrite Ha in Hy by auto. apply (mm_bnd _ _ M) in Hy. exact Hy.
    - intros y Hy Hk Hi. destruct (Nat.eq_dec y x) as [->|Hne]; auto. rewrite Ha by auto. destruct (Ho y Hne) as (E1 & _ & _ & _ & _ & _ & E2).
      apply (mm_none _ _ M); [lia | congruence | congruence].
    - intros y b o n Hy Q. destruct (Nat.eq_dec y x) as [->|Hne]; [rewrite Hax in Q; discriminate|].
      rewrite Ha in Q by auto. destruct (Ho y Hne) as (-> & _ & _ & -> & -> & _). eapply (mm_size _ _ M); eauto. lia.
    - intros y Hy Hl. assert (Hne : y <> x) by (intros ->; unfold is_leaf in Hl; rewrite Hkx in Hl; discriminate).
      rewrite Ha by auto. apply (mm_leaf _ _ M); [lia|]. rewrite <- Hlf; auto.
    - intros y Hy. assert (Hne : y <> x) by (intros ->; destruct Hnew as (_ & _ & _ & Q); congruence).
      destruct (Ho y Hne) as (_ & _ & _ & _ & _ & _ & E2). rewrite E2 in Hy. destruct (mm_al _ _ M y Hy) as [b [o Q]]. exists b, o.
      intros z k d B Hp. apply HB in B. assert (z <> x). { intros ->. apply Hne. apply (new_above_x (st s) (st s') W Hnx). exists k, d; auto. }
      rewrite Ha, Hsz in * by auto. eapply Q; eauto. }
  split; [|split; [|auto]].
  - constructor; auto.
    + apply (new_fixinv (st s) (st s') (ios s) (ios s') (fix_ s)); auto. intros y Hy. destruct (Ho y Hy) as (E1 & E2 & _ & _ & E3 & _ & E4). auto.
    + apply (new_ntinv (st s) (st s') (nt s)); auto.
    + constructor.
      * intros y Hy. assert (Hne : y <> x) by (intros ->; unfold is_leaf in Hy; rewrite Hkx in Hy; discriminate).
        destruct (Ho y Hne) as (_ & _ & _ & _ & _ & -> & _). apply (ii_leaf _ J). rewrite <- Hlf; auto.
      * intros y Hy Hk Hi. assert (Hne : y <> x) by (intros ->; congruence). destruct (Ho y Hne) as (E1 & _ & _ & _ & _ & E3 & ->). apply (ii_node _ J); [lia | congruence | congruence].
      * intros y Hy. destruct (Nat.eq_dec y x) as [->|Hne]; [destruct Hnew as (? & _ & _ & ?); auto|]. destruct (Ho y Hne) as (_ & -> & _ & _ & _ & E3 & ->). apply (ii_in _ J). congruence.
      * intros y z Hy Hyz Hk. apply HA in Hyz. assert (Hne : y <> x) by (intros ->; destruct Hnew as (_ & _ & _ & Q); congruence).
        assert (Hnz : z <> x) by (intros ->; apply Hne; apply (new_above_x (st s) (st s') W Hnx); auto).
        destruct (Ho y Hne) as (_ & _ & _ & _ & _ & _ & E). destruct (Ho z Hnz) as (E1 & _ & _ & _ & _ & _ & E2).
        rewrite E2. apply (ii_down _ J y z); congruence.
  - constructor; auto.
    + intros y Hy. destruct (Ho y Hy) as (? & ? & _ & ? & ? & ? & ?). auto 10.
    + destruct Hnew as (? & _ & ? & ?); auto.
    + intros y b o j Ly Ey Hj. assert (Hne : y <> x). { intros ->. unfold is_leaf in Ly. rewrite Hx3 in Ly. discriminate. }
      exists b, o. fold m'. rewrite Ha by auto. split; auto.
    + fold m'. intros D y z b oy oz Ly Lz Hyz Ay Az Py Pz. rewrite Hlf in Ly. rewrite Hlf in Lz.
      assert (Hy : y <> x) by (intros ->; congruence). assert (Hz : z <> x) by (intros ->; congruence).
      rewrite Ha, Hsz in Ay by auto. rewrite Ha, Hsz in Az by auto. rewrite Hsz in Py, Pz by auto. rewrite !Hsz by auto. eapply D; eauto.
Qed.
End New.
