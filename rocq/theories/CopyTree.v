(** Proofs about copying, part 1: what the deep copy of a part of a hierarchy looks like. *)
From Coq Require Import List ZArith Bool Lia Arith.
From Verif Require Import NpModel NpProofs IndexOpsModel IndexOpsSpec IndexOpsProofs PzModel CopyModel PzSpec PzTree PzStruct PzLink PzWalk PzMem PzIo PzInv PzConn PzFix PzLinkMem PzPres PzUnlink PzTraverse PzNotify PzNew PzCmd PzInit.
Import ListNotations.
Open Scope Z_scope.

Inductive iso (P : oid -> oid -> Prop) : tree -> tree -> Prop :=
| Iso : forall x y ts us, P x y -> Forall2 (iso P) ts us -> iso P (T x ts) (T y us).
Lemma iso_mono : forall (P Q : oid -> oid -> Prop) t u, iso P t u ->
  (forall a b, In a (oids t) -> In b (oids u) -> P a b -> Q a b) -> iso Q t u.
Proof.
  intros P Q t. induction t as [x ts IH] using tree_ind'. intros u H HPQ.
  inversion H as [x0 y ts0 us Hxy Hl]; subst. constructor; [apply HPQ; auto; left; auto|].
  assert (G : forall a b c d, In c ts -> In d us -> In a (oids c) -> In b (oids d) -> P a b -> Q a b).
  { intros a b c d Hc Hd Ha Hb. apply HPQ; eapply in_child; eauto. }
  clear H Hxy HPQ. induction Hl as [|c d ts us Hcd Hl IHl]; constructor.
  - inversion IH; subst. apply H1; auto. intros a b Ha Hb. apply (G a b c d); auto; left; auto.
  - inversion IH; subst. apply IHl; auto. intros a b c' d' Hc Hd. apply (G a b c' d'); right; auto.
Qed.
Lemma iso_root : forall P t u, iso P t u -> P (root t) (root u).
Proof. intros P t u H. inversion H; auto. Qed.
Lemma iso_height : forall P t u, iso P t u -> height u = height t.
Proof.
  intros P t. induction t as [x ts IH] using tree_ind'. intros u H. inversion H as [x0 y ts0 us Hxy Hl]; subst. cbn [height]. f_equal.
  clear H Hxy. induction Hl as [|c d ts us Hcd Hl IHl]; auto. inversion IH; subst. cbn [map fold_right]. rewrite (H1 d Hcd), IHl; auto.
Qed.
Lemma Forall2_mono : forall (A B : Type) (P Q : A -> B -> Prop) l l', (forall a b, In a l -> In b l' -> P a b -> Q a b) -> Forall2 P l l' -> Forall2 Q l l'.
Proof. intros A B P Q l l' H F. induction F; constructor; auto using in_eq, in_cons. Qed.
Lemma Forall2_nth : forall (A B : Type) (P : A -> B -> Prop) l l' i b, Forall2 P l l' -> nth_error l' i = Some b ->
  exists a, nth_error l i = Some a /\ P a b.
Proof.
  intros A B P l l' i b H. revert i. induction H as [|a b' l l' Hab H IH]; intros i Hi; [destruct i; discriminate|].
  destruct i as [|i]; cbn in *; [inversion Hi; subst; eauto | auto].
Qed.

Section Copies.
Context {V : Type}.
Implicit Types s : @state V.

(** [s'] has more objects than [s]; those of [s] are as they were. *)
Definition outside s s' (z : oid) : Prop := (z < next (st s))%nat \/ (next (st s') <= z)%nat.
Record ext s s' : Prop := mkExt {
  ex_next : (next (st s) <= next (st s'))%nat;
  ex_st : forall z, outside s s' z -> kind (st s') z = kind (st s) z /\ par (st s') z = par (st s) z /\ pidx (st s') z = pidx (st s) z /\
    kids (st s') z = kids (st s) z /\ size (st s') z = size (st s) z /\ in_init (st s') z = in_init (st s) z /\ inited (st s') z = inited (st s) z;
  ex_iop : forall z, outside s s' z -> iop (ios s') z = iop (ios s) z;
  ex_nrid : (nrid (ios s) <= nrid (ios s'))%nat;
  ex_dicts : forall r, (r < nrid (ios s))%nat -> dicts (ios s') r = dicts (ios s) r;
  ex_fix : forall z, outside s s' z -> fix_ s' z = fix_ s z;
  ex_arr : forall z, outside s s' z -> arr (mem s') z = arr (mem s) z;
  ex_nbuf : (nbuf (mem s) <= nbuf (mem s'))%nat;
  ex_cell : forall b z, (b < nbuf (mem s))%nat -> cell (mem s') b z = cell (mem s) b z;
  ex_nt : forall z, outside s s' z -> passes (nt s') z = passes (nt s) z /\ updates (nt s') z = updates (nt s) z /\
    visited (nt s') z = visited (nt s) z /\ copied (nt s') z = copied (nt s) z /\ fresh (nt s') z = fresh (nt s) z;
  ex_trace : exists l, trace (nt s') = l ++ trace (nt s) /\ forall z, In z l -> (next (st s) <= z < next (st s'))%nat }.
Lemma ext_refl : forall s, ext s s.
Proof. intros s. constructor; auto; intros; auto 10. exists []. split; [auto | intros z []]. Qed.
Lemma ext_trans : forall a b c, ext a b -> ext b c -> ext a c.
Proof.
  intros a b c A B. pose proof (ex_next _ _ A) as N1. pose proof (ex_next _ _ B) as N2.
  assert (O : forall z, outside a c z -> outside a b z /\ outside b c z) by (unfold outside; intros z H; lia).
  constructor.
  - lia.
  - intros z Hz. destruct (O z Hz) as [Oa Ob]. destruct (ex_st _ _ A z Oa) as (a1 & a2 & a3 & a4 & a5 & a6 & a7).
    destruct (ex_st _ _ B z Ob) as (b1 & b2 & b3 & b4 & b5 & b6 & b7). repeat split; congruence.
  - intros z Hz. destruct (O z Hz) as [Oa Ob]. rewrite (ex_iop _ _ B z Ob). apply (ex_iop _ _ A z Oa).
  - pose proof (ex_nrid _ _ A). pose proof (ex_nrid _ _ B). lia.
  - intros r Hr. pose proof (ex_nrid _ _ A). rewrite (ex_dicts _ _ B) by lia. apply (ex_dicts _ _ A); auto.
  - intros z Hz. destruct (O z Hz) as [Oa Ob]. rewrite (ex_fix _ _ B z Ob). apply (ex_fix _ _ A z Oa).
  - intros z Hz. destruct (O z Hz) as [Oa Ob]. rewrite (ex_arr _ _ B z Ob). apply (ex_arr _ _ A z Oa).
  - pose proof (ex_nbuf _ _ A). pose proof (ex_nbuf _ _ B). lia.
  - intros r z Hr. pose proof (ex_nbuf _ _ A). rewrite (ex_cell _ _ B) by lia. apply (ex_cell _ _ A); auto.
  - intros z Hz. destruct (O z Hz) as [Oa Ob]. destruct (ex_nt _ _ A z Oa) as (a1 & a2 & a3 & a4 & a5).
    destruct (ex_nt _ _ B z Ob) as (b1 & b2 & b3 & b4 & b5). repeat split; congruence.
  - destruct (ex_trace _ _ A) as (l1 & T1 & H1). destruct (ex_trace _ _ B) as (l2 & T2 & H2). exists (l2 ++ l1). split; [rewrite T2, T1, app_assoc; auto|].
    intros z Hz. apply in_app_or in Hz as [Hz|Hz]; [apply H2 in Hz | apply H1 in Hz]; lia.
Qed.
Lemma old_out : forall s s' z, (z < next (st s))%nat -> outside s s' z.
Proof. intros. left; auto. Qed.

Lemma value_arr : forall s y b o n j, arr (mem s) y = Some (b, o, n) -> 0 <= j < n -> value s y j = Some (cell (mem s) b (o + j)).
Proof. intros s y b o n j E Hj. unfold value. rewrite E. destruct (Z.leb_spec 0 j), (Z.ltb_spec j n); simpl; auto; lia. Qed.
Lemma ext_value : forall s s' y j, bnd (mem s) -> ext s s' -> (y < next (st s))%nat -> value s' y j = value s y j.
Proof.
  intros s s' y j B E Hy. unfold value. rewrite (ex_arr _ _ E y (old_out _ _ _ Hy)). destruct (arr (mem s) y) as [[[b o] n]|] eqn:Ea; auto.
  rewrite (ex_cell _ _ E); auto. eapply B; eauto.
Qed.

Definition alike s0 s (a b : oid) : Prop :=
  kind (st s) b = kind (st s0) a /\ size (st s) b = size (st s0) a /\ in_init (st s) b = in_init (st s0) a /\
  updates (nt s) b = updates (nt s0) a /\
  (is_leaf (st s0) a = true -> forall j, 0 <= j < size (st s0) a -> value s b j = value s0 a j).

Record made s0 s (lo hi : oid) (tr tr' : tree) : Prop := mkMade {
  md_root : root tr' = lo;
  md_rep : rep (st s) tr';
  md_ids : forall z, In z (oids tr') <-> (lo <= z < hi)%nat;
  md_nd : NoDup (oids tr');
  md_iso : iso (alike s0 s) tr tr';
  md_nt : forall z, In z (oids tr') -> passes (nt s) z = default_passes (par (st s) z) /\ visited (nt s) z = false;
  md_init : forall z, In z (oids tr') -> kind (st s) z = KNode -> inited (st s) z = Some true;
  md_arr : forall z, In z (oids tr') -> match arr (mem s) z with Some (_, _, n) => n = size (st s) z | None => kind (st s) z = KNode /\ kids (st s) z = [] end;
  md_al : exists b o, (nbuf (mem s0) <= b)%nat /\ al (st s) (mem s) lo b o;
  md_node : forall z, In z (oids tr') -> node_ok (st s) z;
  md_rank : forall z c, In z (oids tr') -> In c (kids (st s) z) -> (z < c)%nat;
  md_ran : forall z, In z (oids tr') -> kind (st s) z = KNode -> exists k, trace (nt s) = k ++ trace (nt s0) /\ In z k }.

Lemma made_frame : forall s0 s s2 lo hi tr tr', made s0 s lo hi tr tr' -> (hi <= next (st s))%nat -> bnd (mem s) -> ext s s2 ->
  made s0 s2 lo hi tr tr'.
Proof.
  intros s0 s s2 lo hi tr tr' M Hhi Bd E.
  assert (Ho : forall z, In z (oids tr') -> outside s s2 z) by (intros z Hz; apply (md_ids _ _ _ _ _ _ M) in Hz; left; lia).
  assert (Hs : forall z, In z (oids tr') -> kind (st s2) z = kind (st s) z /\ par (st s2) z = par (st s) z /\ pidx (st s2) z = pidx (st s) z /\
    kids (st s2) z = kids (st s) z /\ size (st s2) z = size (st s) z /\ in_init (st s2) z = in_init (st s) z /\ inited (st s2) z = inited (st s) z).
  { intros z Hz. apply (ex_st _ _ E). auto. }
  pose proof (md_rep _ _ _ _ _ _ M) as R.
  assert (Kin : forall z c, In z (oids tr') -> In c (kids (st s) z) -> In c (oids tr')).
  { intros z c Hz Hc. apply (koids_below (st s)) in Hz; [|apply rep_krep; auto]. apply (koids_below (st s)); [apply rep_krep; auto|].
    eapply above_trans; [exact Hz | apply above_kid; auto]. }
  constructor.
  - apply (md_root _ _ _ _ _ _ M).
  - apply (rep_frame (st s)); auto.
    + intros y Hy. apply Hs; auto.
    + intros y Hy _. split; apply Hs; auto.
    + apply (md_nd _ _ _ _ _ _ M).
  - apply (md_ids _ _ _ _ _ _ M).
  - apply (md_nd _ _ _ _ _ _ M).
  - apply (iso_mono (alike s0 s)); [apply (md_iso _ _ _ _ _ _ M)|]. intros a b Ha Hb (A1 & A2 & A3 & A4 & A5).
    destruct (Hs b Hb) as (h1 & _ & _ & _ & h5 & h6 & _). destruct (ex_nt _ _ E b (Ho b Hb)) as (_ & u2 & _).
    split; [congruence|]. split; [congruence|]. split; [congruence|]. split; [congruence|].
    intros Hl j Hj. rewrite <- A5 by auto. apply ext_value; auto. apply (md_ids _ _ _ _ _ _ M) in Hb. lia.
  - intros z Hz. destruct (Hs z Hz) as (_ & -> & _). destruct (ex_nt _ _ E z (Ho z Hz)) as (-> & _ & -> & _). apply (md_nt _ _ _ _ _ _ M); auto.
  - intros z Hz. destruct (Hs z Hz) as (-> & _ & _ & _ & _ & _ & ->). apply (md_init _ _ _ _ _ _ M); auto.
  - intros z Hz. destruct (Hs z Hz) as (-> & _ & _ & -> & -> & _ & _). rewrite (ex_arr _ _ E z (Ho z Hz)). apply (md_arr _ _ _ _ _ _ M); auto.
  - destruct (md_al _ _ _ _ _ _ M) as (b & o & Hb & A). exists b, o. split; auto. intros y k n B Hp.
    assert (G : forall x y k n, In x (oids tr') -> below (st s2) x y k n -> below (st s) x y k n /\ In y (oids tr')).
    { clear B Hp y k n. intros x y k n Hx B. induction B as [x|x i c y k n Hi B IH]; [split; [constructor | auto]|].
      destruct (Hs x Hx) as (_ & _ & _ & Ek & _). rewrite Ek in Hi. assert (Hc : In c (oids tr')) by (eapply Kin; eauto; eapply nth_error_In; eauto).
      destruct (IH Hc) as [B1 B2]. split; auto. rewrite Ek.
      replace (sum_sizes (st s2) (firstn i (kids (st s) x))) with (sum_sizes (st s) (firstn i (kids (st s) x))); [econstructor; eauto|].
      apply sum_sizes_ext. intros d Hd. symmetry. apply Hs. apply (Kin x); auto. eapply firstn_In; eauto. }
    assert (Hlo : In lo (oids tr')) by (rewrite <- (md_root _ _ _ _ _ _ M); apply oids_root).
    destruct (G lo y k n Hlo B) as [B1 B2]. destruct (Hs y B2) as (_ & _ & _ & _ & Es & _). rewrite Es in *.
    rewrite (ex_arr _ _ E y (Ho y B2)). eapply A; eauto.
  - intros z Hz. pose proof (md_node _ _ _ _ _ _ M z Hz) as Q. unfold node_ok in *. destruct (Hs z Hz) as (-> & _ & _ & -> & -> & _).
    destruct (kind (st s) z); auto. rewrite Q. apply sum_sizes_ext. intros d Hd. symmetry. apply Hs. apply (Kin z); auto.
  - intros z c Hz. destruct (Hs z Hz) as (_ & _ & _ & -> & _). apply (md_rank _ _ _ _ _ _ M); auto.
  - intros z Hz. destruct (Hs z Hz) as (-> & _). intros Hk. destruct (md_ran _ _ _ _ _ _ M z Hz Hk) as (k & Ek & Ik).
    destruct (ex_trace _ _ E) as (l & El & _). exists (l ++ k). split; [rewrite El, Ek, app_assoc; auto | apply in_or_app; auto].
Qed.

(** The index operations of the copy [y] of [x]. *)
Record top_io s0 s s' (x y : oid) : Prop := mkTopIo {
  ti_rid : exists r, iop (ios s') y = (r, Root) /\ (nrid (ios s) <= r < nrid (ios s'))%nat /\ dwf (dicts (ios s') r) /\
    (forall p j, In j (lk (dicts (ios s') r) p) <-> hasi (ios s0) x p j) /\
    forall b o n, below (st s') y b o n -> b <> y -> iop (ios s') b = (r, View Root o (size (st s') b));
  ti_fix : is_leaf (st s0) x = false -> mask_ok (st s') (ios s') (fix_ s') y;
  ti_fixl : is_leaf (st s0) x = true -> fix_ s' y = None;
  ti_fix' : forall z, (y < z < next (st s'))%nat -> fix_ s' z = None }.

Record copied_tree s0 s s' (x : oid) (pp : option oid) (tr tr' : tree) : Prop := mkCopied {
  ct_ext : ext s s';
  ct_bnd : bnd (mem s');
  ct_made : made s0 s' (next (st s)) (next (st s')) tr tr';
  ct_par : par (st s') (next (st s)) = pp;
  ct_pidx : pidx (st s') (next (st s)) = pidx (st s0) x;
  ct_lt : (next (st s) < next (st s'))%nat;
  ct_io : top_io s0 s s' x (next (st s)) }.

Lemma copy_has : forall i x p j, dwf (dof i x) -> (In j (lk (IndexOpsModel.copy (snd (iop i x)) (dicts i (fst (iop i x)))) p) <-> hasi i x p j).
Proof.
  intros i x p j W. destruct (copy_spec (snd (iop i x)) (dicts i (fst (iop i x))) W) as [_ L]. rewrite L. unfold hasi, carries. rewrite getitem_fst. tauto.
Qed.
End Copies.
