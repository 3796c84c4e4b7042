(** Constraints across copies, pickles and processes: invariants of programs and effects of calls. *)
From Coq Require Import List ZArith Bool Arith Lia.
From Verif Require Import NpModel NpProofs IndexOpsModel IndexOpsProofs InstModel InstProofs BdModel BdSpec BdProofs BdProofs2.
Import ListNotations.
Open Scope Z_scope.

Lemma copy_same : forall d, wf d -> full d -> copy Root d = d.
Proof.
  intros d [N S0] Fu. unfold copy. cbn [items].
  assert (E : root_items d = d).
  { unfold root_items. clear N S0. induction d as [|[p l] d IH]; [reflexivity|]. cbn [filter snd].
    assert (Hl : l <> []) by (apply (Fu p l); left; reflexivity). destruct l; [congruence|]. cbn [nonempty]. f_equal. apply IH. intros q l' H. apply (Fu q l'). right. exact H. }
  rewrite E. rewrite copy_fold; [reflexivity | exact N | intros p _ [] | exact S0].
Qed.

Section Calls.
Variable fl : Z -> Z.
Variable dflt : Z.
Notation load_keys := (load_keys dflt).
Notation bexec := (bexec fl dflt).
Notation bexec1 := (bexec1 fl dflt).

(** ** Loading *)
Definition twin (t t1 : tst) (e e' : prop * list Z) : Prop :=
  exists o o' w, fst e = Tr o /\ fst e' = Tr o' /\ kind t o = Some w /\ kind t1 o' = Some w /\ alive t1 o' = true /\ snd e = snd e'.
Lemma F_tail : forall t e d, F t (e :: d) -> F t d.
Proof.
  intros t e d [[A1 A2] B C E]. constructor.
  - split; [inversion A1; auto | inversion A2; auto].
  - intros p l H. apply (B p l). right. exact H.
  - intros p H. apply C. right. exact H.
  - intros o o' c H H'. apply (E o o' c); right; [exact H | exact H'].
Qed.
Lemma F_skip : forall t e1 e2 d, F t (e1 :: e2 :: d) -> F t (e1 :: d).
Proof.
  intros t e1 e2 d [[A1 A2] B C Q]. constructor.
  - split; [cbn in *; inversion A1 as [|? ? N1 N2]; subst; inversion N2; subst; constructor; auto; intros Z0; apply N1; right; exact Z0
           | inversion A2 as [|? ? N1 N2]; subst; inversion N2; subst; constructor; auto].
  - intros p0 l0 [H|H]; [apply (B p0 l0); left; exact H | apply (B p0 l0); right; right; exact H].
  - intros p0 [H|H]; [apply C; left; exact H | apply C; right; right; exact H].
  - intros a b c Ha Hb. apply Q; [destruct Ha as [Ha|Ha]; [left; exact Ha | right; right; exact Ha] | destruct Hb as [Hb|Hb]; [left; exact Hb | right; right; exact Hb]].
Qed.
Lemma load_ok : forall d t t1 r, T t -> F t d -> load_keys d t = (t1, r) ->
  exists d', r = inl d' /\ T t1 /\ ext t t1 /\ Forall2 (twin t t1) d d' /\ NoDup (map fst d') /\
    only t t1 (fun x => key d' x) /\
    (forall x lo hi, key d' x -> kind t1 x = Some (Bounds lo hi) -> (length (objs t) <= x)%nat) /\
    ((forall o o' lo hi, key d o -> key d o' -> kind t o = Some (Bounds lo hi) -> kind t o' = Some (Bounds lo hi) -> o = o') ->
     forall x x' lo hi, key d' x -> key d' x' -> kind t1 x = Some (Bounds lo hi) -> kind t1 x' = Some (Bounds lo hi) -> x = x').
Proof.
  induction d as [|[p l] d IH]; intros t t1 r HT HF E.
  - cbn in E. injection E as <- <-. exists []. split; [reflexivity|]. split; [exact HT|]. split; [apply ext_refl|]. split; [constructor|]. split; [constructor|].
    split; [intros x w; auto|]. split; [intros x lo hi []|]. intros _ x x' lo hi [].
  - destruct (f_kind t _ HF p) as (o & w & -> & K); [left; reflexivity|]. cbn [BdModel.load_keys] in E.
    destruct (duplicate bmro bbounded dflt o t) as [t2 q] eqn:Ed.
    destruct (duplicate_ok dflt o w t t2 q HT K Ed) as (o' & -> & H1 & H2 & H3 & H4 & H5 & H6).
    destruct (load_keys d t2) as [t3 q3] eqn:El.
    destruct (IH t2 t3 q3 H1 (F_ext _ _ _ (F_tail _ _ _ HF) H2) El) as (d' & -> & G1 & G2 & G3 & G4 & G5 & G6 & G7).
    injection E as <- <-. exists ((Tr o', l) :: d'). split; [reflexivity|]. split; [exact G1|].
    pose proof (ext_trans _ _ _ H2 G2) as X. split; [exact X|].
    assert (Ko' : kind t3 o' = Some w) by (apply (e_kind _ _ G2); exact H3).
    assert (Lo' : (o' < length (objs t2))%nat) by (eapply kind_lt; eauto).
    assert (Ao' : alive t3 o' = true) by (rewrite (e_alive _ _ G2); auto).
    (* a key of the rest of kind [w] comes from a key of the rest *)
    assert (Back : forall x v, key d' x -> kind t3 x = Some v -> exists o2, key d o2 /\ kind t o2 = Some v /\ o2 <> o).
    { intros x v Kx Kv. apply in_map_iff in Kx. destruct Kx as ([px lx] & Ex & Hx). cbn in Ex. subst px.
      clear - G3 Hx Kv HF H2. assert (Nd : ~ In (Tr o) (map fst d)). { destruct HF as [[A1 _] _ _ _]. inversion A1. auto. }
      assert (Fd := f_kind t _ (F_tail _ _ _ HF)).
      induction G3 as [|e e' d d' (o2 & o2' & v2 & E1 & E2 & E3 & E4 & E5 & E6) G3 IHG]; [destruct Hx|].
      destruct Hx as [->|Hx].
      - cbn in E2. injection E2 as <-. exists o2. destruct e as [pe le]. cbn in E1. subst pe. split; [left; reflexivity|].
        destruct (Fd (Tr o2)) as (y & v3 & Q & K3); [left; reflexivity|]. injection Q as <-.
        pose proof (e_kind _ _ H2 _ _ K3). split; [congruence|]. intros ->. apply Nd. left. reflexivity.
      - destruct IHG as (y & Y1 & Y2 & Y3); auto.
        + eapply F_skip; exact HF.
        + intros Z0. apply Nd. right. exact Z0.
        + intros p0 Hp0. apply Fd. right. exact Hp0.
        + exists y. split; [right; exact Y1 | auto]. }
    split; [|split; [|split; [|split]]].
    + constructor; [exists o, o', w; auto 8|]. clear - G3 H2 HF. assert (Fd := f_kind t _ (F_tail _ _ _ HF)).
      induction G3 as [|e e' d d' (o2 & o2' & v2 & E1 & E2 & E3 & E4 & E5 & E6) G3 IHG]; [constructor|]. constructor.
      * destruct e as [pe le]. cbn in E1. subst pe. destruct (Fd (Tr o2)) as (y & v3 & Q & K3); [left; reflexivity|]. injection Q as <-.
        pose proof (e_kind _ _ H2 _ _ K3). exists o2, o2', v3. repeat split; auto. congruence.
      * apply IHG; [eapply F_skip; exact HF | intros p0 Hp0; apply Fd; right; exact Hp0].
    + cbn [map fst]. constructor; [|exact G4]. intros Hin. destruct w as [c|lo hi].
      * destruct (Back o' (Class c) Hin Ko') as (o2 & B1 & B2 & B3). apply B3.
        apply (f_class t _ HF o2 o c); [right; exact B1 | left; reflexivity | exact B2 | exact K].
      * specialize (G6 o' lo hi Hin Ko'). lia.
    + intros x v Ax Kx. destruct (G5 x v Ax Kx) as [Q|[Q1 Q2]]; [left; right; exact Q|].
      destruct (H5 x v Q1 Q2) as [->|Q]; [left; left; reflexivity | right; exact Q].
    + intros x lo hi [Q|Q] Kx.
      * cbn in Q. injection Q as <-. rewrite Ko' in Kx. injection Kx as ->. rewrite H6. lia.
      * specialize (G6 x lo hi Q Kx). pose proof (e_len _ _ H2). lia.
    + intros U x x' lo hi Hx Hx' Kx Kx'.
      assert (Ud : forall a b l1 h1, key d a -> key d b -> kind t2 a = Some (Bounds l1 h1) -> kind t2 b = Some (Bounds l1 h1) -> a = b).
      { intros a b l1 h1 Ka Kb E1 E2. destruct (f_kind t _ HF (Tr a)) as (y & v & Q & Ky); [right; exact Ka|]. injection Q as <-.
        destruct (f_kind t _ HF (Tr b)) as (y & v' & Q & Ky'); [right; exact Kb|]. injection Q as <-.
        pose proof (e_kind _ _ H2 _ _ Ky). pose proof (e_kind _ _ H2 _ _ Ky'). apply (U a b l1 h1); [right; exact Ka | right; exact Kb | congruence | congruence]. }
      assert (HdTl : forall y, key d' y -> kind t3 y = Some (Bounds lo hi) -> w = Bounds lo hi -> False).
      { intros y Ky Kv ->. destruct (Back y _ Ky Kv) as (o2 & B1 & B2 & B3). apply B3. apply (U o2 o lo hi); [right; exact B1 | left; reflexivity | exact B2 | exact K]. }
      destruct Hx as [Q|Q]; destruct Hx' as [Q'|Q']; cbn in *.
      * congruence.
      * exfalso. injection Q as <-. apply (HdTl x' Q' Kx'). congruence.
      * exfalso. injection Q' as <-. apply (HdTl x Q Kx). congruence.
      * eapply G7; eauto.
Qed.
Lemma twins_binds : forall t t1 d d' i v, Forall2 (twin t t1) d d' -> (binds t1 d' i v <-> binds t d i v).
Proof.
  intros t t1 d d' i v H. induction H as [|e e' d d' (o & o' & w & E1 & E2 & E3 & E4 & E5 & E6) H IH].
  - split; intros (o & l & [] & _).
  - destruct e as [p l], e' as [p' l']. cbn in E1, E2, E6. subst p p' l'. split; intros (x & lx & Hx & Hi & Hk).
    + destruct Hx as [Hx|Hx].
      * injection Hx as -> ->. exists o, lx. split; [left; reflexivity|]. split; [exact Hi | congruence].
      * destruct (proj1 IH) as (y & ly & Hy & Hy2 & Hy3); [exists x, lx; auto|]. exists y, ly. split; [right; exact Hy | auto].
    + destruct Hx as [Hx|Hx].
      * injection Hx as -> ->. exists o', lx. split; [left; reflexivity|]. split; [exact Hi | congruence].
      * destruct (proj2 IH) as (y & ly & Hy & Hy2 & Hy3); [exists x, lx; auto|]. exists y, ly. split; [right; exact Hy | auto].
Qed.
Lemma twins_D : forall t t1 d d', T t1 -> F t d -> Forall2 (twin t t1) d d' -> NoDup (map fst d') -> D t1 d'.
Proof.
  intros t t1 d d' HT [[A1 A2] B _ _] H N. apply D_of_T; [exact HT | split; [exact N|] | |].
  - clear A1 B N. induction H as [|e e' d d' (o & o' & w & E1 & E2 & E3 & E4 & E5 & E6) H IH]; [constructor|]. inversion A2; subst. constructor; [rewrite <- E6; auto | auto].
  - clear A1 A2 N. induction H as [|e e' d d' (o & o' & w & E1 & E2 & E3 & E4 & E5 & E6) H IH]; [intros p l []|].
    intros p l [Q|Q]; [subst e'; cbn in E6; subst l; destruct e as [pe le]; apply (B pe le); left; reflexivity|].
    eapply IH; [|exact Q]. intros q l' Hq. apply (B q l'). right. exact Hq.
  - clear A1 A2 B N. intros p Hp. induction H as [|e e' d d' (o & o' & w & E1 & E2 & E3 & E4 & E5 & E6) H IH]; [destruct Hp|].
    destruct Hp as [Hp|Hp]; [exists o', w; rewrite <- Hp, E2; auto | apply IH; exact Hp].
Qed.

(** ** The invariant *)
Record Inv (s : bst) : Prop := mkInv {
  i_T : T (ts s);
  i_mods : forall m d, nth_error (mods s) m = Some (Some d) -> D (ts s) d;
  i_files : forall f d, nth_error (files s) f = Some d -> F (ts s) d }.
Definition cleaned (s : bst) : Prop := forall o lo hi, alive (ts s) o = true -> kind (ts s) o = Some (Bounds lo hi) ->
  exists m d, nth_error (mods s) m = Some (Some d) /\ key d o.

Lemma used_iff : forall ms o, used ms o = true <-> exists m d, nth_error ms m = Some (Some d) /\ key d o.
Proof.
  intros ms o. unfold used. rewrite existsb_exists. split.
  - intros ([d|] & H1 & H2); [|discriminate]. apply In_nth_error in H1. destruct H1 as [m H1]. exists m, d. split; [exact H1|].
    rewrite existsb_exists in H2. destruct H2 as (e & H2 & H3). apply prop_eqb_eq in H3. apply in_map_iff. exists e. auto.
  - intros (m & d & H1 & H2). exists (Some d). split; [eapply nth_error_In; eauto|]. apply existsb_exists. apply in_map_iff in H2.
    destruct H2 as (e & H2 & H3). exists e. split; [exact H3|]. apply prop_eqb_eq. congruence.
Qed.
Lemma kind_collect : forall s o, kind (ts (collect s)) o = kind (ts s) o.
Proof. reflexivity. Qed.
Lemma alive_collect : forall s o, alive (ts (collect s)) o = true -> alive (ts s) o = true.
Proof. intros s o H. cbn in H. apply andb_true_iff in H. apply H. Qed.
Lemma alive_class : forall s o c, alive (ts s) o = true -> kind (ts s) o = Some (Class c) -> alive (ts (collect s)) o = true.
Proof.
  intros s o c A K. cbn. rewrite A. apply kind_class in K. rewrite K. cbn. apply orb_true_r.
Qed.
Lemma F_kinds : forall t t' d, F t d -> (forall x, kind t' x = kind t x) -> F t' d.
Proof.
  intros t t' d [A B C E] K. constructor; auto.
  - intros p Hp. destruct (C p Hp) as (o & w & E1 & E2). exists o, w. rewrite K. auto.
  - intros o o' c H H'. rewrite !K. apply E; auto.
Qed.
Lemma Inv_collect : forall s, Inv s -> Inv (collect s) /\ cleaned (collect s).
Proof.
  intros s [[A B C D0 E F0] M Fi]. split; [constructor|].
  - constructor.
    + intros o Ho Ha. apply A; [exact Ho | apply alive_collect; exact Ha].
    + intros o lo hi Ha K. eapply B; [apply alive_collect; exact Ha | exact K].
    + exact C.
    + intros c o H. destruct (D0 c o H) as (c' & E1 & E2 & E3). exists c'. split; [exact E1|]. split; [exact E2|]. eapply alive_class; eauto.
    + intros o c Ha K. apply E; [apply alive_collect; exact Ha | exact K].
    + exact F0.
  - intros m d H. destruct (M m d H) as [H1 H2]. split; [apply (F_kinds (ts s)); auto|].
    intros o K. cbn. rewrite (H2 o K). cbn. apply orb_true_iff. left. apply used_iff. exists m, d. auto.
  - intros f d H. apply (F_kinds (ts s)); [eapply Fi; eauto | reflexivity].
  - intros o lo hi Ha K. cbn in Ha. apply andb_true_iff in Ha. destruct Ha as [_ Ha]. apply kind_bounds in K. destruct K as [K _].
    change (cls_of (ts (collect s)) o) with (cls_of (ts s) o) in K. rewrite K in Ha. cbn in Ha. rewrite orb_false_r in Ha. apply used_iff in Ha. exact Ha.
Qed.
Lemma Inv_ext : forall s t1, Inv s -> T t1 -> ext (ts s) t1 -> Inv (mkB t1 (mods s) (files s)).
Proof.
  intros s t1 [A B C] HT X. constructor; cbn [ts mods files]; [exact HT| |].
  - intros m d H. eapply D_ext; eauto.
  - intros f d H. eapply F_ext; eauto.
Qed.
Lemma nth_set_model : forall s t m d m', (m < length (mods s))%nat ->
  nth_error (mods (set_model s t m d)) m' = if Nat.eqb m' m then Some d else nth_error (mods s) m'.
Proof.
  intros s t m d m' Hm. cbn [set_model mods]. destruct (Nat.eqb_spec m' m) as [->|N].
  - rewrite nth_error_app2 by (rewrite firstn_length; lia). rewrite firstn_length, Nat.min_l by lia. rewrite Nat.sub_diag. reflexivity.
  - destruct (Nat.lt_ge_cases m' m) as [L|L].
    + rewrite nth_error_app1 by (rewrite firstn_length; lia). revert m m' Hm N L. induction (mods s) as [|x l IH]; intros m m' Hm N L; [cbn in Hm; lia|].
      destruct m as [|m]; [lia|]. destruct m' as [|m']; [reflexivity|]. cbn [firstn nth_error]. cbn in Hm. apply IH; lia.
    + rewrite nth_error_app2 by (rewrite firstn_length; lia). rewrite firstn_length, Nat.min_l by lia.
      destruct (m' - m)%nat as [|k] eqn:Ek; [lia|]. cbn [nth_error]. rewrite <- (firstn_skipn (S m) (mods s)) at 2.
      rewrite nth_error_app2 by (rewrite firstn_length; lia). rewrite firstn_length, Nat.min_l by lia. f_equal. lia.
Qed.
Lemma exists_lt : forall s m, exists_model s m -> (m < length (mods s))%nat.
Proof. intros s m [d H]. apply nth_error_Some. congruence. Qed.
Lemma exists_is : forall s m, exists_model s m -> nth_error (mods s) m = Some (Some (model s m)).
Proof. intros s m [d H]. unfold model. rewrite H. reflexivity. Qed.
Lemma Inv_set : forall s t1 m od, Inv s -> T t1 -> ext (ts s) t1 -> exists_model s m -> (forall d, od = Some d -> D t1 d) -> Inv (set_model s t1 m od).
Proof.
  intros s t1 m od HI HT X Hm Hd. pose proof (Inv_ext s t1 HI HT X) as [A B C]. constructor; [exact HT| |exact C].
  intros m' d' H. rewrite nth_set_model in H by (apply exists_lt; exact Hm). destruct (Nat.eqb m' m); [injection H as H; auto | eapply B; exact H].
Qed.
Lemma Inv_new : forall s t1 d, Inv s -> T t1 -> ext (ts s) t1 -> D t1 d -> Inv (mkB t1 (mods s ++ [Some d]) (files s)).
Proof.
  intros s t1 d HI HT X Hd. pose proof (Inv_ext s t1 HI HT X) as [A B C]. constructor; [exact HT| |exact C].
  intros m' d' H. cbn [mods ts] in *. destruct (Nat.lt_ge_cases m' (length (mods s))) as [L|L].
  - rewrite nth_error_app1 in H by exact L. eapply B; exact H.
  - rewrite nth_error_app2 in H by exact L. destruct (m' - length (mods s))%nat as [|k]; [injection H as <-; exact Hd | destruct k; discriminate].
Qed.
Lemma nil_D : forall t, T t -> D t [].
Proof. intros t HT. apply D_of_T; [exact HT | apply wf_nil | intros p l [] | intros p []]. Qed.

(** What [bexec1] does to the objects, and the invariant. *)
Lemma step_ok : forall s k, Inv s -> blegal fl s k -> Inv (fst (bexec1 k s)) /\ (k = NewProcess \/ ext (ts s) (ts (fst (bexec1 k s)))).
Proof.
  intros s k HI Hl. pose proof HI as [HT HM HF]. destruct k; cbn [BdModel.bexec1].
  - cbn [fst]. split; [apply Inv_new; [exact HI | exact HT | apply ext_refl | apply nil_D; exact HT] | right; apply ext_refl].
  - destruct Hl as (Hm & Hx & Hw). destruct (make fl dflt w (ts s)) as [t1 r] eqn:E. pose proof (exists_is s m Hm) as Em. pose proof (HM _ _ Em) as Dm.
    destruct (make_ok fl dflt w (ts s) t1 r HT Hw E) as [(o & -> & (H1 & H2 & H3 & H4 & H5 & H6) & _)|(lo & hi & _ & _ & -> & H1 & H2 & _)]; cbn [fst].
    + split; [|right; exact H2]. apply Inv_set; auto. intros d Q. injection Q as <-.
      destruct (D_strip t1 _ ix H1 (D_ext _ _ _ Dm H2)) as [S1 _]. apply (D_add t1 _ o w ix H1 S1 Hx H3 H4).
    + split; [apply Inv_ext; auto | right; exact H2].
  - destruct Hl as (Hm & Hw). destruct (make fl dflt w (ts s)) as [t1 r] eqn:E. pose proof (exists_is s m Hm) as Em. pose proof (HM _ _ Em) as Dm.
    destruct (make_ok fl dflt w (ts s) t1 r HT Hw E) as [(o & -> & (H1 & H2 & H3 & H4 & H5 & H6) & _)|(lo & hi & _ & _ & -> & H1 & H2 & _)]; cbn [fst].
    + split; [|right; exact H2]. apply Inv_set; auto. intros d Q. injection Q as <-. apply (D_remove t1 _ o w ix H1 (D_ext _ _ _ Dm H2) H3).
    + split; [apply Inv_ext; auto | right; exact H2].
  - cbn [fst]. pose proof (exists_is s m Hl) as Em. split; [|right; apply ext_refl]. apply Inv_set; auto; [apply ext_refl|].
    intros d Q. injection Q as <-. apply (D_strip (ts s) _ ix HT (HM _ _ Em)).
  - cbn [fst]. pose proof (exists_is s m Hl) as Em. split; [|right; apply ext_refl]. apply Inv_new; auto; [apply ext_refl|].
    pose proof (HM _ _ Em) as Dm. rewrite copy_same; [exact Dm | apply Dm | apply Dm].
  - cbn [fst]. pose proof (exists_is s m Hl) as Em. split; [|right; apply ext_refl]. constructor; [exact HT | exact HM|]. cbn [files ts].
    intros f d H. destruct (Nat.lt_ge_cases f (length (files s))) as [L|L].
    + rewrite nth_error_app1 in H by exact L. eapply HF; exact H.
    + rewrite nth_error_app2 in H by exact L. destruct (f - length (files s))%nat as [|j]; [injection H as <-; apply (HM _ _ Em) | destruct j; discriminate].
  - destruct (load_keys (nth f (files s) []) (ts s)) as [t1 r] eqn:E.
    assert (Ff : F (ts s) (nth f (files s) [])) by (eapply HF; apply nth_error_nth'; exact Hl).
    destruct (load_ok _ _ _ _ HT Ff E) as (d' & -> & H1 & H2 & H3 & H4 & _). cbn [fst].
    split; [|right; exact H2]. apply Inv_new; auto. eapply twins_D; eauto.
  - cbn [fst]. split; [|right; apply ext_refl]. apply Inv_set; auto; [apply ext_refl|]. intros d Q. discriminate.
  - cbn [fst]. split; [|left; reflexivity]. constructor; cbn [ts mods files].
    + constructor; cbn; try discriminate; try (intros; contradiction). intros o lo hi K. exact (t_order _ HT o lo hi K).
    + intros m d H. rewrite nth_error_map in H. destruct (nth_error (mods s) m); discriminate.
    + intros f d H. apply (F_kinds (ts s)); [eapply HF; eauto | reflexivity].
Qed.
Lemma bexec_split : forall k s, bexec k s = (collect (fst (bexec1 k s)), snd (bexec1 k s)).
Proof. intros k s. unfold BdModel.bexec. destruct (bexec1 k s) as [s1 e]. reflexivity. Qed.
Lemma start_inv : Inv bstart /\ cleaned bstart.
Proof.
  split; [constructor|].
  - constructor; cbn; try discriminate; try (intros; contradiction). intros o lo hi K. unfold kind in K. cbn in K. destruct o; discriminate.
  - intros m d H. destruct m; discriminate.
  - intros f d H. destruct f; discriminate.
  - intros o lo hi H. discriminate.
Qed.
Lemma breach_inv : forall ok s, breach fl dflt ok s -> Inv s /\ cleaned s.
Proof.
  intros ok s H. induction H as [|s k H [IH _] Hl Hok]; [exact start_inv|]. rewrite bexec_split. cbn [fst]. apply Inv_collect. apply step_ok; auto.
Qed.
End Calls.
