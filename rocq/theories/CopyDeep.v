(** Proofs about copying, part 2: the deep copy. *)
From Coq Require Import List ZArith Bool Lia Arith.
From Verif Require Import NpModel NpProofs IndexOpsModel IndexOpsSpec IndexOpsProofs PzModel CopyModel PzSpec PzTree PzStruct PzLink PzWalk PzMem PzIo PzInv PzConn PzFix PzLinkMem PzPres PzUnlink PzTraverse PzNotify PzNew PzCmd PzInit CopyTree.
Import ListNotations.
Open Scope Z_scope.

Section Deep.
Context {V : Type}.
Implicit Types s : @state V.

Lemma copy_leaf_ok : forall s0 s x pp, Inv s0 -> ext s0 s -> bnd (mem s) -> (x < next (st s0))%nat -> is_leaf (st s0) x = true ->
  copied_tree s0 s (copy_leaf x pp s) x pp (T x []) (T (next (st s)) []).
Proof.
  intros s0 s x pp [W I F M N J] E Bd Hx Hl.
  pose proof (old_out s0 s x Hx) as Ox. pose proof (ex_next _ _ E) as Hn.
  destruct (ex_st _ _ E x Ox) as (k1 & k2 & k3 & k4 & k5 & k6 & k7).
  destruct (ex_nt _ _ E x Ox) as (n1 & n2 & n3 & n4 & n5).
  destruct (leaf_valid (st s0) (mem s0) x M Hx Hl) as (b & o & Ea).
  pose proof (size_nonneg (st s0) W x) as Hz.
  assert (Ea' : arr (mem s) x = Some (b, o, size (st s) x)) by (rewrite (ex_arr _ _ E x Ox), k5; auto).
  set (y := next (st s)). set (m := mem s).
  set (vals := read_arr m (b, o, size (st s) x)).
  assert (Lv : Z.of_nat (length vals) = size (st s) x) by (apply read_len; rewrite k5; auto).
  set (m2 := write_arr (mkM (cell m) (S (nbuf m)) (arr m)) (nbuf m, 0, size (st s) x) vals).
  assert (Es : copy_leaf x pp s = set_attrs x y pp [] (Some (nbuf m, 0, size (st s) x)) (alloc (with_mem s m2))).
  { unfold copy_leaf. rewrite (pa_valid _ _ _ _ _ Ea'). fold m. fold vals. rewrite Lv. reflexivity. }
  rewrite Es. clear Es.
  set (s' := set_attrs x y pp [] (Some (nbuf m, 0, size (st s) x)) (alloc (with_mem s m2))).
  assert (A2 : forall z, arr m2 z = arr m z) by (intros; reflexivity).
  assert (Nb2 : nbuf m2 = S (nbuf m)) by reflexivity.
  assert (Hxy : x <> y) by (unfold y; lia).
  assert (Ny : next (st s') = S y) by reflexivity.
  assert (Hio : snd (iop (ios s) x) = snd (iop (ios s0) x) /\ dicts (ios s) (fst (iop (ios s) x)) = dicts (ios s0) (fst (iop (ios s0) x))).
  { rewrite (ex_iop _ _ E x Ox). split; auto. apply (ex_dicts _ _ E).
    destruct (root_exists (st s0) x W) as (r & a & c & _ & Hr & B).
    assert (Hrt : (r < next (st s0))%nat) by (eapply root_lt; eauto).
    destruct (Nat.eq_dec x r) as [Q|Q]; [subst r; apply (io_rid _ _ I); auto|].
    rewrite (io_view _ _ I r x a c Hrt Hr B Q). apply (io_rid _ _ I r); auto. }
  destruct Hio as [Hio1 Hio2].
  constructor.
  - constructor.
    + rewrite Ny. unfold y. lia.
    + intros z Hz'. assert (z <> y) by (unfold outside in Hz'; rewrite Ny in Hz'; unfold y in *; lia).
      cbn. unfold upd. destruct (Nat.eqb_spec z y); [contradiction|]. auto 10.
    + intros z Hz'. assert (z <> y) by (unfold outside in Hz'; rewrite Ny in Hz'; unfold y in *; lia). cbn. apply upd_ne; auto.
    + cbn. lia.
    + intros r Hr. cbn. apply upd_ne. lia.
    + intros z Hz'. assert (z <> y) by (unfold outside in Hz'; rewrite Ny in Hz'; unfold y in *; lia). cbn. apply upd_ne; auto.
    + intros z Hz'. assert (z <> y) by (unfold outside in Hz'; rewrite Ny in Hz'; unfold y in *; lia). cbn. rewrite upd_ne by auto. auto.
    + change (nbuf m <= nbuf m2)%nat. rewrite Nb2. lia.
    + intros b' z Hb. change (cell m2 b' z = cell m b' z). unfold m2. rewrite write_out; auto. intros [-> _]. unfold m in Hb. lia.
    + intros z Hz'. assert (z <> y) by (unfold outside in Hz'; rewrite Ny in Hz'; unfold y in *; lia).
      cbn. unfold upd. destruct (Nat.eqb_spec z y); [contradiction|]. auto 10.
    + exists []. split; [reflexivity | intros z []].
  - intros z b' o' n' Q. change (nbuf (mem s')) with (nbuf m2). rewrite Nb2. change (arr (mem s') z) with (upd (arr m2) y (Some (nbuf m, 0, size (st s) x)) z) in Q. unfold upd in Q.
    destruct (Nat.eqb z y); [inversion Q; subst; lia|]. rewrite A2 in Q. apply Bd in Q. fold m in Q. lia.
  - assert (Ky : kids (st s') y = []) by (cbn; apply upd_eq).
    assert (In1 : forall z, In z (oids (T y [])) <-> z = y) by (intros z; simpl; split; [intros [Q|[]]; auto | intros ->; auto]).
    assert (Kd : kind (st s') y = kind (st s0) x) by (cbn; rewrite upd_eq; auto).
    assert (Sz : size (st s') y = size (st s0) x) by (cbn; rewrite upd_eq; auto).
    assert (Ay : arr (mem s') y = Some (nbuf m, 0, size (st s') y)) by (rewrite Sz, <- k5; cbn; apply upd_eq).
    constructor.
    + reflexivity.
    + constructor; auto. intros [|i] c Q; discriminate.
    + intros z. rewrite In1, Ny. fold y. lia.
    + simpl. constructor; [tauto | constructor].
    + constructor; [|constructor]. split; auto. split; auto. split; [cbn; rewrite upd_eq; auto|]. split; [cbn; rewrite upd_eq; auto|].
      intros _ j Hj. rewrite (value_arr s' y _ _ _ j Ay) by (rewrite Sz; auto). rewrite (value_arr s0 x _ _ _ j Ea Hj). f_equal.
      change (cell m2 (nbuf m) (0 + j) = cell (mem s0) b (o + j)). unfold m2. rewrite write_in by lia.
      replace (0 + j - 0) with j by lia. unfold vals. rewrite read_nth by lia. apply (ex_cell _ _ E). eapply (mm_bnd _ _ M); eauto.
    + intros z Hz'. apply In1 in Hz'. subst z. cbn. rewrite !upd_eq. split; auto. rewrite n3. apply N.
    + intros z Hz'. apply In1 in Hz'. subst z. rewrite Kd. intros Q. unfold is_leaf in Hl. rewrite Q in Hl. discriminate.
    + intros z Hz'. apply In1 in Hz'. subst z. rewrite Ay. auto.
    + exists (nbuf m), 0. split; [apply (ex_nbuf _ _ E)|]. intros z k n B Hp. fold y in B. assert (y = z) by (apply (kids_nil_above (st s')); auto; exists k, n; auto). subst z.
      inversion B as [|? i ? ? ? ? Hi]; subst; [rewrite Z.add_0_r; auto|]. rewrite Ky in Hi. destruct i; discriminate.
    + intros z Hz'. apply In1 in Hz'. subst z. unfold node_ok. rewrite Kd, Ky, Sz. pose proof (wf_node_ok (st s0) x W) as Q. unfold node_ok in Q.
      unfold is_leaf in Hl. destruct (kind (st s0) x); [tauto | discriminate].
    + intros z c Hz'. apply In1 in Hz'. subst z. rewrite Ky. intros [].
    + intros z Hz'. apply In1 in Hz'. subst z. rewrite Kd. intros Q. unfold is_leaf in Hl. rewrite Q in Hl. discriminate.
  - cbn. apply upd_eq.
  - cbn. rewrite upd_eq. auto.
  - rewrite Ny. unfold y. lia.
  - fold y. constructor.
    + exists (nrid (ios s)). split; [cbn; apply upd_eq|]. split; [cbn; lia|].
      assert (Ed : dicts (ios s') (nrid (ios s)) = IndexOpsModel.copy (snd (iop (ios s0) x)) (dicts (ios s0) (fst (iop (ios s0) x)))).
      { cbn. rewrite upd_eq, Hio1, Hio2. auto. }
      rewrite Ed. assert (Wd : dwf (dof (ios s0) x)) by (apply (dict_of (st s0)); auto).
      split; [apply copy_spec; exact Wd|]. split; [intros; apply copy_has; auto|].
      intros b' o' n' B Hne. exfalso. apply Hne. symmetry. apply (kids_nil_above (st s')); [cbn; apply upd_eq | exists o', n'; auto].
    + congruence.
    + intros _. cbn. apply upd_eq.
    + intros z Hz'. rewrite Ny in Hz'. lia.
Qed.

Lemma alloc_ext : forall s, ext s (alloc s).
Proof.
  intros s. constructor; cbn; auto; intros; auto 10. exists []. split; [auto | intros z []].
Qed.

(** The copies [us] of the children [l] made so far. *)
Definition kid_of s0 u (y : oid) (a b : nat) (c d : tree) : Prop :=
  exists lo hi, (a <= lo)%nat /\ (hi <= b)%nat /\ made s0 u lo hi c d /\ par (st u) lo = Some y.
Lemma fold_copies : forall s0 f y l, Inv s0 ->
  (forall c, In c l -> forall s, ext s0 s -> bnd (mem s) ->
     exists s' d, dcopy f (root c) (Some y) s = (s', next (st s), None) /\ copied_tree s0 s s' (root c) (Some y) c d) ->
  forall u acc, ext s0 u -> bnd (mem u) ->
  exists u' us, fold_left (fun (a : state * list oid * option exn) c =>
      match a with
      | (s0, l, None) => let '(s0', c', e) := dcopy f c (Some y) s0 in (s0', l ++ [c'], e)
      | _ => a
      end) (map root l) (u, acc, None) = (u', acc ++ map root us, None) /\
    ext u u' /\ bnd (mem u') /\ Forall2 (kid_of s0 u' y (next (st u)) (next (st u'))) l us /\
    (forall z, In z (concat (map oids us)) <-> (next (st u) <= z < next (st u'))%nat) /\ NoDup (concat (map oids us)).
Proof.
  intros s0 f y l Inv0. induction l as [|c l IH]; intros Hd u acc E Bd.
  - exists u, []. cbn [map fold_left]. rewrite app_nil_r. split; auto. split; [apply ext_refl|]. split; auto. split; [constructor|].
    split; [|constructor]. intros z. simpl. lia.
  - destruct (Hd c (or_introl eq_refl) u E Bd) as (u1 & d & R1 & C1). destruct C1 as [X1 B1 M1 P1 _ L1 _].
    destruct (IH ltac:(intros c' Hc; apply Hd; right; auto) u1 (acc ++ [next (st u)]) (ext_trans _ _ _ E X1) B1) as (u' & us & R2 & X2 & B2 & K2 & I2 & N2).
    exists u', (d :: us). cbn [map fold_left]. rewrite R1. cbv beta iota. rewrite R2.
    pose proof (ex_next _ _ X1) as N1. pose proof (ex_next _ _ X2) as N3.
    split. { rewrite <- app_assoc. rewrite (md_root _ _ _ _ _ _ M1). reflexivity. }
    split; [eapply ext_trans; eauto|]. split; auto. split.
    { constructor.
      - exists (next (st u)), (next (st u1)). split; [lia|]. split; [lia|]. split; [apply (made_frame s0 u1); auto|].
        destruct (ex_st _ _ X2 (next (st u))) as (_ & -> & _); [left; lia | auto].
      - eapply Forall2_mono; [|exact K2]. intros a b _ _ (lo & hi & Q1 & Q2 & Q3 & Q4). exists lo, hi. split; [lia|]. auto. }
    split.
    + intros z. cbn [map concat]. rewrite in_app_iff, I2, (md_ids _ _ _ _ _ _ M1). lia.
    + cbn [map concat]. apply NoDup_app_intro'; auto; [apply (md_nd _ _ _ _ _ _ M1)|]. intros z Hz Q. apply I2 in Q. apply (md_ids _ _ _ _ _ _ M1) in Hz. lia.
Qed.

Lemma below_via : forall t x z k n, below t x z k (S n) -> exists i c o, nth_error (kids t x) i = Some c /\ below t c z o n.
Proof. intros t x z k n B. inversion B; subst. eauto. Qed.
Lemma finish_ok : forall s0 s u x pp ts us, Inv s0 -> (x < next (st s0))%nat -> kind (st s0) x = KNode -> rep (st s0) (T x ts) ->
  (height (T x ts) <= fuel (st s0))%nat -> ext s0 s -> ext (alloc s) u -> bnd (mem u) ->
  Forall2 (kid_of s0 u (next (st s)) (S (next (st s))) (next (st u))) ts us ->
  (forall z, In z (concat (map oids us)) <-> (S (next (st s)) <= z < next (st u))%nat) -> NoDup (concat (map oids us)) ->
  exists s', end_setstate (next (st s)) (set_attrs x (next (st s)) pp (map root us) None u) = (s', None) /\
    copied_tree s0 s s' x pp (T x ts) (T (next (st s)) us).
Proof.
  intros s0 s u x pp ts us [W I F M N J] Hx Hkx Rx Hht E0 E Bd K Ids Nd.
  set (y := next (st s)) in *.
  pose proof (ex_next _ _ E0) as Hn0. pose proof (ex_next _ _ E) as Hn1. change (next (st (alloc s))) with (S y) in Hn1. fold y in Hn0.
  assert (Eu : ext s u) by (eapply ext_trans; [apply alloc_ext | exact E]).
  assert (E0u : ext s0 u) by (eapply ext_trans; [exact E0 | exact Eu]).
  pose proof (old_out s0 u x Hx) as Ox.
  destruct (ex_st _ _ E0u x Ox) as (k1 & k2 & k3 & k4 & k5 & k6 & k7).
  destruct (ex_nt _ _ E0u x Ox) as (n1 & n2 & n3 & n4 & n5).
  set (s2 := set_attrs x y pp (map root us) None u). set (t2 := st s2).
  assert (Hxl : is_leaf (st s0) x = false) by (unfold is_leaf; rewrite Hkx; auto).
  assert (Hyu : forall d, In d us -> ~ In y (oids d)).
  { intros d Hd Q. assert (Q' : In y (concat (map oids us))) by (apply in_concat; exists (oids d); split; [apply in_map|]; auto). apply Ids in Q'. lia. }
  (* the members of the copies *)
  assert (Kid : forall d, In d us -> exists c lo hi, In c ts /\ (S y <= lo)%nat /\ (hi <= next (st u))%nat /\ made s0 u lo hi c d /\ par (st u) lo = Some y).
  { intros d Hd. apply In_nth_error in Hd as [i Hi]. destruct (Forall2_nth _ _ _ _ _ _ _ K Hi) as (c & Hc & lo & hi & Q1 & Q2 & Q3 & Q4).
    exists c, lo, hi. split; [eapply nth_error_In; eauto|]. auto. }
  assert (Att2 : forall z, z <> y -> kind t2 z = kind (st u) z /\ par t2 z = par (st u) z /\ pidx t2 z = pidx (st u) z /\ kids t2 z = kids (st u) z /\
     size t2 z = size (st u) z /\ in_init t2 z = in_init (st u) z /\ inited t2 z = inited (st u) z).
  { intros z Hz. unfold t2, s2; cbn. rewrite !upd_ne by auto. auto 10. }
  assert (Atty : kind t2 y = KNode /\ par t2 y = pp /\ pidx t2 y = pidx (st s0) x /\ kids t2 y = map root us /\ size t2 y = size (st s0) x /\ in_init t2 y = in_init (st s0) x).
  { unfold t2, s2; cbn. rewrite !upd_eq. rewrite k1, k3, k5, k6. auto 10. }
  destruct Atty as (y1 & y2 & y3 & y4 & y5 & y6).
  assert (Kr2 : Forall (krep t2) us).
  { apply Forall_forall. intros d Hd. destruct (Kid d Hd) as (c & lo & hi & _ & _ & _ & Md & _). apply (krep_frame (st u)); [apply rep_krep, (md_rep _ _ _ _ _ _ Md)|].
    intros z Hz. apply Att2. intros ->. apply (Hyu d); auto. }
  assert (Ndy : NoDup (oids (T y us))).
  { simpl. constructor; auto. intros Q. apply Ids in Q. lia. }
  assert (Hh2 : forall d, In d us -> (height d <= fuel t2)%nat).
  { intros d Hd. destruct (Kid d Hd) as (c & lo & hi & Hc & _ & _ & Md & _). rewrite (iso_height _ _ _ (md_iso _ _ _ _ _ _ Md)).
    pose proof (height_child x ts c Hc). unfold fuel in *. change (next t2) with (next (st u)). lia. }
  destruct (connect_struct_spec t2 y us y4 Kr2 Ndy Hh2) as (A1 & A2 & A3 & A4 & A5 & A6).
  set (t3 := connect_struct t2 y) in *.
  assert (Hyn : ~ In y (map root us)).
  { intros Q. apply in_map_iff in Q as (d & Q & Hd). apply (Hyu d Hd). rewrite <- Q. apply oids_root. }
  assert (Att3 : forall z, z <> y -> kind t3 z = kind (st u) z /\ kids t3 z = kids (st u) z /\ size t3 z = size (st u) z /\ in_init t3 z = in_init (st u) z).
  { intros z Hz. destruct (A2 z) as (-> & -> & -> & ->). destruct (Att2 z Hz) as (q1 & q2 & q3 & q4 & q5 & q6 & q7). auto. }
  destruct (A2 y) as (z1 & z4 & z5 & z6). rewrite y1 in z1. rewrite y4 in z4. rewrite y5 in z5. rewrite y6 in z6.
  destruct (A3 y Hyn) as [z2 z3]. rewrite y2 in z2. rewrite y3 in z3.
  assert (Mem : forall z, In z (concat (map oids us)) <-> exists d, In d us /\ In z (oids d)).
  { intros z. rewrite in_concat. split.
    - intros (l & Hl & Hz). apply in_map_iff in Hl as (d & <- & Hd). eauto.
    - intros (d & Hd & Hz). exists (oids d). split; [apply in_map|]; auto. }
  (* inner objects keep their parents *)
  assert (Par3 : forall d z, In d us -> In z (oids d) -> par t3 z = par (st u) z).
  { intros d z Hd Hz. destruct (in_dec Nat.eq_dec z (map root us)) as [Q|Q].
    - apply in_map_iff in Q as (d' & Er & Hd'). subst z. destruct (In_nth_error _ _ Hd') as [i Hi]. destruct (A4 _ _ Hi) as [-> _].
      destruct (Kid d' Hd') as (c & lo & hi & _ & _ & _ & Md & Hp). rewrite (md_root _ _ _ _ _ _ Md). auto.
    - destruct (A3 z Q) as [-> _]. apply Att2. intros ->. apply (Hyu d); auto. }
  assert (Rt3 : rep t3 (T y us)).
  { constructor; auto. apply Forall_forall. intros d Hd. destruct (Kid d Hd) as (c & lo & hi & _ & _ & _ & Md & _).
    assert (Hne : forall z, In z (oids d) -> z <> y) by (intros z Hz ->; apply (Hyu d); auto).
    apply (rep_frame (st u)); [apply (md_rep _ _ _ _ _ _ Md) | | | apply (md_nd _ _ _ _ _ _ Md)].
    - intros z Hz. apply Att3; auto.
    - intros z Hz Hr. split; [eapply Par3; eauto|]. destruct (A3 z) as [_ ->]; [|apply Att2; auto].
      intros Q. apply in_map_iff in Q as (d' & Er & Hd'). destruct (in_split _ _ Hd) as (l1 & l2 & El).
      assert (Hdd : d' <> d) by congruence. subst us. apply in_app_or in Hd'.
      rewrite map_app, concat_app in Nd. cbn [map concat] in Nd. apply nodup_app in Nd as (_ & Nd2 & Nd3). apply nodup_app in Nd2 as (_ & _ & Nd4).
      destruct Hd' as [Hd'|[Hd'|Hd']]; [|congruence|].
      + apply (Nd3 z); [|apply in_or_app; left; auto]. apply in_concat. exists (oids d'). split; [apply in_map; auto | rewrite <- Er; apply oids_root].
      + apply (Nd4 z); auto. apply in_concat. exists (oids d'). split; [apply in_map; auto | rewrite <- Er; apply oids_root]. }
  pose proof (rep_krep _ _ Rt3) as Kt3.
  assert (Szk : forall l l', Forall2 (kid_of s0 u y (S y) (next (st u))) l l' -> (forall d, In d l' -> In d us) -> sum_sizes t3 (map root l') = sum_sizes (st s0) (map root l)).
  { intros l l' Q. induction Q as [|c d l l' Hcd Q IH]; intros Hin; auto. cbn [map]. rewrite !sum_sizes_cons. rewrite IH by (intros; apply Hin; right; auto). f_equal.
    destruct Hcd as (lo & hi & _ & _ & Md & _). destruct (iso_root _ _ _ (md_iso _ _ _ _ _ _ Md)) as (_ & <- & _). apply Att3.
    intros Er. apply (Hyu d); [apply Hin; left; auto | rewrite <- Er; apply oids_root]. }
  assert (NodeOk : forall z, In z (oids (T y us)) -> node_ok t3 z).
  { intros z [<-|Hz].
    - unfold node_ok. rewrite z1, z5, z4. rewrite (Szk ts us K) by auto. assert (Ek : kids (st s0) x = map root ts) by (inversion Rx; auto). rewrite <- Ek. pose proof (wf_node_ok (st s0) x W) as Q. unfold node_ok in Q. rewrite Hkx in Q. exact Q.
    - apply Mem in Hz as (d & Hd & Hz). destruct (Kid d Hd) as (c & lo & hi & _ & _ & _ & Md & _). pose proof (md_node _ _ _ _ _ _ Md z Hz) as Q.
      assert (Hne : z <> y) by (intros ->; apply (Hyu d); auto). destruct (Att3 z Hne) as (q1 & q2 & q3 & q4).
      unfold node_ok in *. rewrite q1, q2, q3. destruct (kind (st u) z); auto. rewrite Q. apply sum_sizes_ext. intros e He. symmetry. apply Att3.
      intros ->. pose proof (md_rank _ _ _ _ _ _ Md z y Hz He). apply (md_ids _ _ _ _ _ _ Md) in Hz. assert (Q2 : In z (concat (map oids us))) by (apply Mem; exists d; split; auto; apply (md_ids _ _ _ _ _ _ Md); auto). apply Ids in Q2. lia. }
  assert (Ar2 : forall z, arr (mem s2) z = if Nat.eqb z y then None else arr (mem u) z) by reflexivity.
  assert (Ar2' : forall z, z <> y -> arr (mem s2) z = arr (mem u) z) by (intros z Hz; rewrite Ar2; destruct (Nat.eqb_spec z y); [contradiction | auto]).
  assert (Nvy : ~ valid t3 (mem s2) y) by (intros (b & o & Q); rewrite Ar2, Nat.eqb_refl in Q; discriminate).
  assert (Leaf2 : forall z, In z (oids (T y us)) -> is_leaf t3 z = true -> valid t3 (mem s2) z).
  { intros z [<-|Hz] Hl; [unfold is_leaf in Hl; rewrite z1 in Hl; discriminate|].
    apply Mem in Hz as (d & Hd & Hz). destruct (Kid d Hd) as (c & lo & hi & _ & _ & _ & Md & _). pose proof (md_arr _ _ _ _ _ _ Md z Hz) as Q.
    assert (Hne : z <> y) by (intros ->; apply (Hyu d); auto). destruct (Att3 z Hne) as (q1 & q2 & q3 & q4).
    destruct (arr (mem u) z) as [[[b o] n]|] eqn:Ea; [|unfold is_leaf in Hl; rewrite q1 in Hl; destruct Q as [Q _]; rewrite Q in Hl; discriminate].
    exists b, o. rewrite Ar2', q3, <- Q by auto. auto. }
  assert (Bd2 : bnd (mem s2)).
  { intros z b o n Q. rewrite Ar2 in Q. destruct (Nat.eqb z y); [discriminate|]. apply Bd in Q. exact Q. }
  assert (Hh3 : forall c, In c us -> (height c <= fuel t3)%nat) by (intros c Hc; unfold fuel; rewrite A1; apply Hh2; auto).
  destruct (connect_below t3 y us (mem s2) Kt3 Ndy NodeOk Leaf2 Bd2 Hh3) as (m3 & Em & Nb3 & Bd3 & O3 & Z3 & C3 & Kp3).
  assert (Abv : forall z, above t3 y z <-> In z (oids (T y us))) by (intros z; symmetry; apply (koids_below t3 (T y us)); auto).
  assert (Nneg : forall z, In z (oids (T y us)) -> 0 <= size t3 z) by (intros z Hz; eapply tree_nonneg; eauto).
  assert (Al2 : forall d, In d us -> exists b o, al t3 (mem s2) (root d) b o).
  { intros d Hd. destruct (Kid d Hd) as (c & lo & hi & _ & _ & _ & Md & _). destruct (md_al _ _ _ _ _ _ Md) as (b & o & _ & Q). exists b, o. rewrite (md_root _ _ _ _ _ _ Md).
    assert (Hne : forall z, In z (oids d) -> z <> y) by (intros z Hz ->; apply (Hyu d); auto).
    assert (G : forall a z k n, In a (oids d) -> below t3 a z k n -> below (st u) a z k n /\ In z (oids d)).
    { intros a z k n Ha B. induction B as [a|a i e z k n Hi B IH]; [split; [constructor | auto]|].
      destruct (Att3 a (Hne a Ha)) as (_ & Ek & _). rewrite Ek in Hi.
      assert (Kin : forall e, In e (kids (st u) a) -> In e (oids d)).
      { intros e' He'. pose proof (rep_krep _ _ (md_rep _ _ _ _ _ _ Md)) as Kd. apply (koids_below (st u)) in Ha; auto. apply (koids_below (st u)); auto. eapply above_trans; [exact Ha | apply above_kid; auto]. }
      assert (He : In e (oids d)) by (apply Kin; eapply nth_error_In; eauto).
      destruct (IH He) as [B1 B2]. split; auto. rewrite Ek.
      replace (sum_sizes t3 (firstn i (kids (st u) a))) with (sum_sizes (st u) (firstn i (kids (st u) a))); [econstructor; eauto|].
      apply sum_sizes_ext. intros e' He'. symmetry. apply Att3. apply Hne, Kin. eapply firstn_In; eauto. }
    intros z k n B Hp. destruct (G lo z k n) as [B1 B2]; auto. { rewrite <- (md_root _ _ _ _ _ _ Md). apply oids_root. }
    destruct (Att3 z (Hne z B2)) as (_ & _ & q3 & _). rewrite Ar2' by auto. rewrite q3 in *. eapply Q; eauto. }
  assert (Kept : kept t3 (mem s2) m3).
  { apply Kp3.
    - intros c Hc. rewrite z4 in Hc. apply in_map_iff in Hc as (d & <- & Hd). destruct (valid_dec t3 (mem s2) (root d)) as [Hv|Hv]; [|left; auto].
      assert (Hin : In (root d) (oids (T y us))) by (eapply in_child; eauto; apply oids_root).
      destruct (Z.eq_dec (size t3 (root d)) 0) as [Q0|Q0].
      + destruct Hv as (b & o & Q). right. exists b, o. split; auto. intros z k n B Hp.
        destruct (below_range' t3 (root d) z k n) as [R1 R2]; auto; [|lia].
        intros z' Hz'. assert (Q' : In z' (oids (T y us))) by (apply Abv; eapply above_trans; [apply Abv; eauto | auto]). auto.
      + destruct (Al2 d Hd) as (b & o & Q). eapply al_settled; eauto. specialize (Nneg _ Hin). lia.
    - right. right. split; auto. intros z k B Hp. apply below_via in B as (i & c & o & Hi & B1). rewrite z4 in Hi. apply nth_error_In in Hi. apply in_map_iff in Hi as (d & <- & Hd).
      destruct (Al2 d Hd) as (b & o' & Q). exists b, (o' + o). eapply al_sub; eauto. }
  assert (Cell3 : forall b z, (b < nbuf (mem u))%nat -> cell m3 b z = cell (mem u) b z).
  { intros b z Hb. destruct us as [|d0 us0]; [rewrite Z3 by auto; auto|]. set (us := d0 :: us0) in *.
    destruct (connect_mem_spec t3 y us (mem s2) Kt3 Ndy NodeOk Leaf2 Bd2 Hh3 ltac:(discriminate)) as (m3' & ba & oa & Em' & B1 & _ & _ & _ & _ & B6 & _).
    rewrite Em in Em'. injection Em' as <-. destruct B1 as [B1|(_ & B1 & _)]; [exfalso; apply Nvy; exists ba, oa; auto|].
    rewrite B6; auto.
    - intros d Hd. destruct (valid_dec t3 (mem s2) (root d)) as [Hv|Hv]; [|left; auto].
      assert (Hin : In (root d) (oids (T y us))) by (eapply in_child; eauto; apply oids_root).
      destruct Hv as (b' & o & Q). destruct (Al2 d Hd) as (b2 & o2 & Q2). 
      destruct (Z.eq_dec (size t3 (root d)) 0) as [Q0|Q0]; right.
      + exists b', o. split; auto. intros z' k Hz Hp. apply offs_kbelow in Hz as [n [_ Bz]]; [|eapply krep_child; eauto].
        destruct (below_range' t3 (root d) z' k n) as [R1 R2]; auto; [|lia].
        intros z2' Hz2. assert (Q' : In z2' (oids (T y us))) by (apply Abv; eapply above_trans; [apply Abv; eauto | auto]). auto.
      + exists b2, o2. specialize (Nneg _ Hin). split; [rewrite <- (Z.add_0_r o2); eapply Q2; [constructor | lia]|].
        intros z' k Hz Hp. apply offs_kbelow in Hz as [n [_ Bz]]; [|eapply krep_child; eauto]. eapply Q2; eauto.
    - intros [-> _]. change (nbuf (mem s2)) with (nbuf (mem u)) in B1. lia. }
  (* index operations *)
  set (i2 := ios s2). set (r := nrid (ios u)).
  assert (Ox' : iop (ios u) x = iop (ios s0) x) by (apply (ex_iop _ _ E0u); auto).
  assert (Hdx : dicts (ios u) (fst (iop (ios s0) x)) = dicts (ios s0) (fst (iop (ios s0) x))).
  { apply (ex_dicts _ _ E0u). destruct (root_exists (st s0) x W) as (q & a & c & _ & Hr & B).
    assert (Hrt : (q < next (st s0))%nat) by (eapply root_lt; eauto).
    destruct (Nat.eq_dec x q) as [Q|Q]; [subst q; apply (io_rid _ _ I); auto|].
    rewrite (io_view _ _ I q x a c Hrt Hr B Q). apply (io_rid _ _ I q); auto. }
  assert (Wdx : dwf (dof (ios s0) x)) by (apply (dict_of (st s0)); auto).
  assert (Iy2 : iop i2 y = (r, Root)) by (cbn; apply upd_eq).
  assert (Dy2 : dicts i2 r = IndexOpsModel.copy (snd (iop (ios s0) x)) (dicts (ios s0) (fst (iop (ios s0) x)))).
  { cbn. unfold r. rewrite upd_eq, Ox', Hdx. auto. }
  assert (Hy2 : forall p j, hasi i2 y p j <-> hasi (ios s0) x p j).
  { intros p j. rewrite <- (copy_has (ios s0) x p j Wdx), <- Dy2. unfold hasi. rewrite carries_lk, Iy2. cbn. rewrite Z.add_0_r. tauto. }
  destruct (connect_fixes_ok t3 i2 (fix_ s2) y) as (i4 & fx4 & E4 & Q4 & U4 & Mk4).
  { rewrite z5. apply size_nonneg; auto. }
  { intros j Hj. apply Hy2 in Hj. rewrite z5. eapply hasi_range; eauto. }
  { unfold dof, rid. rewrite Iy2. cbn [fst]. rewrite Dy2. apply copy_spec. exact Wdx. }
  assert (Hht3 : (height (T y us) <= S (fuel t3))%nat).
  { assert (Q : height (T y us) = height (T x ts)).
    { cbn [height]. f_equal. clear - K. induction K as [|c d l l' Hcd K IH]; auto. cbn [map fold_right].
      destruct Hcd as (lo & hi & _ & _ & Md & _). rewrite (iso_height _ _ _ (md_iso _ _ _ _ _ _ Md)), IH. auto. }
    rewrite Q. unfold fuel in *. rewrite A1. change (next t2) with (next (st u)). lia. }
  destruct (notify_parent_rep t3 y (T y us) i4 fx4 eq_refl Rt3 Ndy Hht3) as (i5 & fx5 & E5 & D5 & R5 & V5 & O5).
  set (s' := mkS t3 i5 fx5 m3 (add_trace (nt s2) y)).
  assert (Run : end_setstate y s2 = (s', None)).
  { unfold end_setstate, c_connect, andthen, upd_st, lift, c_connect_fixes, c_notify_parent, c_nt, with_st, with_mem, with_io, with_nt. cbn [st ios fix_ mem nt].
    fold t2. fold t3. rewrite Em. cbn [st ios fix_ mem nt]. fold i2. unfold lift. cbn [st ios fix_ mem nt]. rewrite E4. cbn [st ios fix_ mem nt fst snd]. rewrite E5. reflexivity. }
  exists s'. split; [exact Run|].
  assert (Out : forall z, outside s s' z -> z <> y /\ ~ In z (oids (T y us)) /\ outside s u z).
  { intros z Hz. unfold outside in Hz. change (next (st s')) with (next t3) in Hz. rewrite A1 in Hz. change (next t2) with (next (st u)) in Hz. fold y in Hz.
    assert (Q : z <> y) by lia. split; auto. split; [intros [Q'|Q']; [congruence | apply Ids in Q'; lia]|]. unfold outside. fold y. auto. }
  assert (Nri : nrid i5 = S r) by (rewrite R5; destruct Q4 as (_ & -> & _); reflexivity).
  assert (Dold : forall b, (b < r)%nat -> dicts i5 b = dicts (ios u) b).
  { intros b Hb. rewrite D5. rewrite (connect_fixes_dicts _ _ _ _ _ _ E4) by (unfold rid; rewrite Iy2; cbn; lia). cbn. apply upd_ne. unfold r in Hb. lia. }
  assert (Nru : (nrid (ios s) <= r)%nat) by (apply (ex_nrid _ _ Eu)).
  constructor.
  - constructor.
    + change (y <= next t3)%nat. rewrite A1. change (next t2) with (next (st u)). lia.
    + intros z Hz. destruct (Out z Hz) as (q1 & q2 & q3). cbn [s' st]. destruct (Att3 z q1) as (-> & -> & -> & ->).
      destruct (A3 z) as [-> ->]. { intros Q. apply q2. right. apply in_map_iff in Q as (d & <- & Hd). apply Mem. exists d. split; auto. apply oids_root. }
      rewrite A6 by auto. destruct (Att2 z q1) as (_ & -> & -> & _ & _ & _ & ->). apply (ex_st _ _ Eu); auto.
    + intros z Hz. destruct (Out z Hz) as (q1 & q2 & q3). cbn [s' ios]. destruct (O5 z (or_intror q2)) as [-> _]. destruct Q4 as (-> & _).
      cbn. rewrite upd_ne by auto. apply (ex_iop _ _ Eu); auto.
    + cbn [s' ios]. rewrite Nri. lia.
    + intros b Hb. cbn [s' ios]. rewrite Dold by lia. apply (ex_dicts _ _ Eu); auto.
    + intros z Hz. destruct (Out z Hz) as (q1 & q2 & q3). cbn [s' fix_]. destruct (O5 z (or_intror q2)) as [_ ->]. rewrite U4 by auto. cbn. rewrite upd_ne by auto. apply (ex_fix _ _ Eu); auto.
    + intros z Hz. destruct (Out z Hz) as (q1 & q2 & q3). cbn [s' mem]. rewrite O3 by (rewrite Abv; auto). rewrite Ar2' by auto. apply (ex_arr _ _ Eu); auto.
    + cbn [s' mem]. pose proof (ex_nbuf _ _ Eu). change (nbuf (mem s2)) with (nbuf (mem u)) in Nb3. lia.
    + intros b z Hb. cbn [s' mem]. pose proof (ex_nbuf _ _ Eu). rewrite Cell3 by lia. apply (ex_cell _ _ Eu); auto.
    + intros z Hz. destruct (Out z Hz) as (q1 & q2 & q3). cbn. rewrite !upd_ne by auto. apply (ex_nt _ _ Eu); auto.
    + destruct (ex_trace _ _ Eu) as (l & Tr & Hl). exists (y :: l). split; [cbn; rewrite Tr; auto|].
      intros z Hz. change (next (st s')) with (next t3). rewrite A1. change (next t2) with (next (st u)). fold y. destruct Hz as [<-|Hz]; [lia|]. apply Hl in Hz. auto.
  - exact Bd3.
  - assert (Nx' : next (st s') = next (st u)) by (cbn [s' st]; rewrite A1; auto).
    constructor.
    + reflexivity.
    + exact Rt3.
    + intros z. rewrite Nx'. cbn [oids In]. rewrite Ids. fold y. lia.
    + exact Ndy.
    + constructor.
      { split; [cbn [s' st]; congruence|]. split; [exact z5|]. split; [exact z6|]. split; [cbn; rewrite upd_eq; auto|]. congruence. }
      eapply Forall2_mono; [|exact K]. intros c d Hc Hd (lo & hi & _ & _ & Md & _). eapply iso_mono; [apply (md_iso _ _ _ _ _ _ Md)|].
      intros a b Ha Hb (a1 & a2 & a3 & a4 & a5). assert (Hne : b <> y) by (intros ->; apply (Hyu d); auto).
      destruct (Att3 b Hne) as (q1 & q2 & q3 & q4). cbn [s' st].
      split; [cbn [s' st]; congruence|]. split; [cbn [s' st]; congruence|]. split; [cbn [s' st]; congruence|]. split; [cbn; rewrite upd_ne by auto; auto|].
      intros Hl j Hj. rewrite <- a5 by auto. assert (Hlb : is_leaf t3 b = true) by (unfold is_leaf in *; rewrite q1, a1; auto).
      destruct (Leaf2 b ltac:(eapply in_child; eauto) Hlb) as (b' & o' & Ea).
      destruct (Kept b b' o' j Hlb Ea ltac:(rewrite q3, a2; auto)) as (b2 & o2 & Ea2 & Ec).
      rewrite (value_arr s' b b2 o2 (size t3 b) j Ea2) by (rewrite q3, a2; auto). cbn [s' mem]. rewrite Ec.
      rewrite Ar2' in Ea by auto. rewrite (value_arr u b b' o' _ j Ea) by (rewrite q3, a2; auto). reflexivity.
    + intros z [<-|Hz].
      * cbn [s' st nt add_trace passes visited]. rewrite z2. cbn. rewrite !upd_eq. split; auto. rewrite n3. apply N.
      * apply Mem in Hz as (d & Hd & Hz). assert (Hne : z <> y) by (intros ->; apply (Hyu d); auto). cbn [s' st]. rewrite (Par3 d z Hd Hz). cbn. rewrite !upd_ne by auto.
        destruct (Kid d Hd) as (c & lo & hi & _ & _ & _ & Md & _). apply (md_nt _ _ _ _ _ _ Md); auto.
    + intros z Hz _. cbn [s' st]. apply A5; auto.
    + intros z Hz. cbn [s' st mem]. destruct us as [|d0 us0].
      * destruct Hz as [<-|[]]. rewrite Z3 by auto. rewrite Ar2, Nat.eqb_refl. split; [rewrite z1 | rewrite z4]; auto.
      * destruct C3 as (ba & oa & _ & C3); [rewrite z4; discriminate|]. apply Abv in Hz as (k & n & Bz). rewrite (C3 z k n Bz). auto.
    + cbn [s' st mem]. fold y. destruct us as [|d0 us0].
      * exists (nbuf (mem s0)), 0. split; [lia|]. intros z k n Bz Hp. exfalso. assert (Q : y = z) by (apply (kids_nil_above t3); [rewrite z4; auto | exists k, n; auto]). subst z.
        pose proof (NodeOk y (or_introl eq_refl)) as Q. unfold node_ok in Q. rewrite z1, z4 in Q. unfold sum_sizes in Q. simpl in Q. lia.
      * destruct C3 as (ba & oa & Cb & C3); [rewrite z4; discriminate|]. exists ba, oa. split.
        { destruct Cb as [Cb|[_ Cb]]; [rewrite Ar2, Nat.eqb_refl in Cb; discriminate|]. pose proof (ex_nbuf _ _ E0u). change (nbuf (mem s2)) with (nbuf (mem u)) in Cb. lia. }
        intros z k n Bz _. apply (C3 z k n Bz).
    + exact NodeOk.
    + intros z c [<-|Hz] Hc; cbn [s' st] in Hc.
      * rewrite z4 in Hc. apply in_map_iff in Hc as (d & <- & Hd). assert (Q : In (root d) (concat (map oids us))) by (apply Mem; exists d; split; auto; apply oids_root). apply Ids in Q. lia.
      * apply Mem in Hz as (d & Hd & Hz). assert (Hne : z <> y) by (intros ->; apply (Hyu d); auto). destruct (Att3 z Hne) as (_ & q2 & _). rewrite q2 in Hc.
        destruct (Kid d Hd) as (c' & lo & hi & _ & _ & _ & Md & _). apply (md_rank _ _ _ _ _ _ Md z); auto.
    + destruct (ex_trace _ _ E0u) as (k0 & Ek0 & _). intros z [<-|Hz] Hk; [exists (y :: k0); split; [cbn; rewrite Ek0; auto | left; auto]|].
      apply Mem in Hz as (d & Hd & Hz). assert (Hne : z <> y) by (intros ->; apply (Hyu d); auto). destruct (Att3 z Hne) as (q1 & _).
      destruct (Kid d Hd) as (c' & lo & hi & _ & _ & _ & Md & _). cbn [s' st] in Hk. rewrite q1 in Hk. destruct (md_ran _ _ _ _ _ _ Md z Hz Hk) as (k & Ek & Ik).
      exists (y :: k). split; [cbn; rewrite Ek; auto | right; auto].
  - exact z2.
  - exact z3.
  - change (y < next t3)%nat. rewrite A1. change (next t2) with (next (st u)). lia.
  - fold y. assert (Iy5 : iop i5 y = (r, Root)). { destruct (O5 y (or_introl eq_refl)) as [-> _]. destruct Q4 as (-> & _). exact Iy2. }
    assert (Iy4 : iop i4 y = (r, Root)) by (destruct Q4 as (-> & _); exact Iy2).
    constructor.
    + exists r. split; [exact Iy5|]. split; [cbn [s' ios]; lia|]. split.
      { cbn [s' ios]. rewrite D5. destruct Q4 as (_ & _ & _ & Qw). apply Qw. rewrite Dy2. apply copy_spec. exact Wdx. }
      split.
      { intros p j. cbn [s' ios]. rewrite D5. destruct Q4 as (_ & _ & Ql & _). rewrite Ql, Dy2. apply copy_has. exact Wdx. }
      intros b o n B Hne. cbn [s' ios st]. destruct (V5 b o n B Hne) as [-> _]. unfold view_of. rewrite Iy4. reflexivity.
    + intros _. cbn [s' st ios fix_]. destruct (O5 y (or_introl eq_refl)) as [q1 q2]. eapply mask_ok_ext; [reflexivity | exact q2 | | exact Mk4].
      intros j. unfold hasi. rewrite q1, D5. tauto.
    + congruence.
    + intros z Hz. change (next (st s')) with (next t3) in Hz. rewrite A1 in Hz. change (next t2) with (next (st u)) in Hz. cbn [s' fix_].
      assert (Hin : In z (oids (T y us))) by (right; apply Ids; lia). apply Abv in Hin as (k & n & B). apply (V5 z k n B). lia.
Qed.

Lemma dcopy_ok : forall s0 tr, Inv s0 -> rep (st s0) tr -> NoDup (oids tr) -> forall f s pp, (root tr < next (st s0))%nat -> ext s0 s -> bnd (mem s) ->
  (height tr <= f)%nat -> exists s' tr', dcopy f (root tr) pp s = (s', next (st s), None) /\ copied_tree s0 s s' (root tr) pp tr tr'.
Proof.
  intros s0 tr Inv0. induction tr as [x ts IH] using tree_ind'. intros R Nd f s pp Hx E Bd Hf. cbn [root] in *.
  pose proof (inv_st _ Inv0) as W. destruct f as [|f]; [simpl in Hf; lia|].
  assert (El : is_leaf (st s) x = is_leaf (st s0) x).
  { unfold is_leaf. destruct (ex_st _ _ E x (old_out _ _ _ Hx)) as (-> & _). auto. }
  assert (Ek : kids (st s) x = map root ts).
  { destruct (ex_st _ _ E x (old_out _ _ _ Hx)) as (_ & _ & _ & -> & _). inversion R; auto. }
  cbn [dcopy]. rewrite El. destruct (is_leaf (st s0) x) eqn:Hl.
  - assert (ts = []). { inversion R as [? ? Q _ _]; subst. rewrite (leaf_kids (st s0) x W Hl) in Q. destruct ts; [auto | discriminate]. } subst ts.
    exists (copy_leaf x pp s), (T (next (st s)) []). split; auto. apply copy_leaf_ok; auto.
  - rewrite Ek. set (y := next (st s)).
    assert (Ks : forall c, In c ts -> forall u, ext s0 u -> bnd (mem u) ->
       exists s' d, dcopy f (root c) (Some y) u = (s', next (st u), None) /\ copied_tree s0 u s' (root c) (Some y) c d).
    { intros c Hc u Eu Bu. rewrite Forall_forall in IH. apply IH; auto.
      - inversion R as [? ? _ _ Q]; subst. rewrite Forall_forall in Q. auto.
      - eapply nodup_child; eauto.
      - inversion R as [? ? Q _ _]; subst. destruct (kid_lt (st s0) x (root c) W) as [Q1 Q2]; [rewrite Q; apply in_map; auto | auto].
      - pose proof (height_child x ts c Hc). lia. }
    destruct (fold_copies s0 f y ts Inv0 Ks (alloc s) []) as (u & us & Ru & Xu & Bu & Ku & Iu & Nu).
    { eapply ext_trans; [exact E | apply alloc_ext]. } { exact Bd. }
    rewrite Ru. cbn [app].
    destruct (finish_ok s0 s u x pp ts us) as (s' & Rs & C); auto.
    { apply node_not_leaf; auto. } { apply (rep_new_height _ _ W R Nd). }
    fold y in Rs. exists s', (T y us). rewrite Rs. split; auto.
Qed.
End Deep.
