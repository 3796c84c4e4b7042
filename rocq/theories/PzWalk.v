(** Proofs about the hierarchy, part 4: the functions that walk down a part of the hierarchy. *)
From Coq Require Import List ZArith Bool Lia Arith.
From Verif Require Import NpModel NpProofs IndexOpsModel PzModel PzSpec PzTree PzStruct PzLink.
Import ListNotations.
Open Scope Z_scope.

(** The links downwards only. *)
Inductive krep (st : struct) : tree -> Prop :=
| Krep : forall x ts, kids st x = map root ts -> Forall (krep st) ts -> krep st (T x ts).

Lemma rep_krep : forall st t, rep st t -> krep st t.
Proof.
  intros st t. induction t as [x ts IH] using tree_ind'. intros H. inversion H; subst.
  constructor; auto. rewrite Forall_forall in *. auto.
Qed.
Lemma krep_frame : forall st st' t, krep st t -> (forall y, In y (oids t) -> kids st' y = kids st y) -> krep st' t.
Proof.
  intros st st' t. induction t as [x ts IH] using tree_ind'. intros H E. inversion H; subst. constructor.
  - rewrite E by (left; auto). auto.
  - rewrite Forall_forall in *. intros c Hc. apply IH; auto. intros y Hy. apply E. eapply in_child; eauto.
Qed.
Lemma krep_kids : forall st x ts, krep st (T x ts) -> kids st x = map root ts.
Proof. intros st x ts H; inversion H; auto. Qed.
Lemma krep_child : forall st x ts c, krep st (T x ts) -> In c ts -> krep st c.
Proof. intros st x ts c H Hc; inversion H; subst. rewrite Forall_forall in *; auto. Qed.
Lemma height_child : forall x ts c, In c ts -> (height c < height (T x ts))%nat.
Proof.
  intros x ts c Hc. simpl. apply Nat.lt_succ_r. induction ts as [|a r IH]; [destruct Hc|]. simpl.
  destruct Hc as [->|Hc]; [lia|]. specialize (IH Hc). lia.
Qed.

(** Everything but [_model_initialized_]. *)
Definition same (st st' : struct) : Prop :=
  next st' = next st /\ forall y, kind st' y = kind st y /\ par st' y = par st y /\ pidx st' y = pidx st y
    /\ kids st' y = kids st y /\ size st' y = size st y /\ in_init st' y = in_init st y.
Lemma same_refl : forall st, same st st.
Proof. intros; split; [reflexivity | intros; auto 10]. Qed.
Lemma same_trans : forall a b c, same a b -> same b c -> same a c.
Proof.
  intros a b c [N1 H1] [N2 H2]. split; [congruence|]. intros y.
  destruct (H1 y) as (?&?&?&?&?&?). destruct (H2 y) as (?&?&?&?&?&?). repeat split; congruence.
Qed.
Lemma same_sym : forall a b, same a b -> same b a.
Proof. intros a b [N H]. split; auto. intros y. destruct (H y) as (?&?&?&?&?&?). repeat split; auto. Qed.
Lemma same_kids : forall a b y, same a b -> kids b y = kids a y.
Proof. intros a b y [_ H]. apply H. Qed.
Lemma same_size : forall a b y, same a b -> size b y = size a y.
Proof. intros a b y [_ H]. apply H. Qed.
Lemma same_par : forall a b y, same a b -> par b y = par a y.
Proof. intros a b y [_ H]. apply H. Qed.
Lemma same_fuel : forall a b, same a b -> fuel b = fuel a.
Proof. intros a b [H _]. unfold fuel. congruence. Qed.
Lemma same_sum : forall a b l, same a b -> sum_sizes b l = sum_sizes a l.
Proof. intros a b l H. apply sum_sizes_ext. intros; apply same_size; auto. Qed.
Lemma same_below : forall a b x y o n, same a b -> below a x y o n -> below b x y o n.
Proof.
  intros a b x y o n S H. induction H; [constructor|].
  rewrite <- (same_sum a b) by auto. rewrite <- (same_kids a b) by auto. econstructor; [|exact IHbelow].
  rewrite (same_kids a b); auto.
Qed.
Lemma same_above : forall a b x y, same a b -> above a x y -> above b x y.
Proof. intros a b x y S [o [n H]]. exists o, n. eapply same_below; eauto. Qed.
Lemma same_wf : forall a b, same a b -> wf a -> (forall x, (next a <= x)%nat -> inited b x = None) -> wf b.
Proof.
  intros a b S W Hn. pose proof (same_sym _ _ S) as S'. destruct W as [W1 W2 W3 W4 W5 W6 W7]. split.
  - destruct W1 as [rk H]. exists rk. intros x y. rewrite (same_kids a b) by auto. auto.
  - intros x y. rewrite (same_kids a b), (same_par a b) by auto. auto.
  - intros x i y. rewrite (same_kids a b) by auto. intros H. apply W3 in H. destruct S as [_ S]. destruct (S y) as (?&?&?&?). congruence.
  - intros x. rewrite (same_par a b) by auto. intros H. apply W4 in H. destruct S as [_ S]. destruct (S x) as (?&?&?&?). congruence.
  - intros x n. destruct S as [_ S]. destruct (S x) as (->&?&?&->&->&?). auto.
  - intros x H. rewrite (same_sum a b) by auto. destruct S as [_ S]. destruct (S x) as (E&?&?&->&->&?). apply W6. congruence.
  - intros x. destruct S as [Sn S]. rewrite Sn. intros H. destruct (S x) as (->&->&?&->&?&?).
    destruct (W7 x H) as (?&?&?&?). auto.
Qed.
Lemma same_inited : forall st y v, same st (set_inited st y v).
Proof. intros. split; [reflexivity|]. intros; simpl; auto 10. Qed.

(** ** [init_below], [connect_struct] *)
Lemma init_below_spec : forall t f st, krep st t -> NoDup (oids t) -> (height t <= f)%nat ->
  let st' := init_below f st (root t) in
  same st st' /\ (forall y, In y (oids t) -> inited st' y = Some true) /\
  (forall y, ~ In y (oids t) -> inited st' y = inited st y).
Proof.
  induction t as [x ts IH] using tree_ind'. intros f st Hk Hnd Hf.
  destruct f as [|f]; [simpl in Hf; lia|]. simpl root. simpl init_below. rewrite (krep_kids _ _ _ Hk).
  assert (G : forall l u, incl l ts -> NoDup (concat (map oids l)) -> (forall y, kids u y = kids st y) ->
    let u' := fold_left (init_below f) (map root l) u in
    same u u' /\ (forall y, In y (concat (map oids l)) -> inited u' y = Some true) /\
    (forall y, ~ In y (concat (map oids l)) -> inited u' y = inited u y)).
  { induction l as [|c l IHl]; intros u Hl Hn Hu; simpl.
    - split; [apply same_refl|]. split; [tauto | auto].
    - simpl in Hn. apply nodup_app in Hn as [N1 [N2 N3]].
      assert (Hc : In c ts) by (apply Hl; left; auto).
      rewrite Forall_forall in IH.
      destruct (IH c Hc f u) as [S1 [I1 I2]].
      { eapply krep_frame; [eapply krep_child; eauto|]. intros; apply Hu. }
      { auto. }
      { pose proof (height_child x ts c Hc). lia. }
      destruct (IHl (init_below f u (root c))) as [S2 [I3 I4]].
      { intros z Hz; apply Hl; right; auto. } { auto. }
      { intros y. rewrite (same_kids _ _ _ S1). apply Hu. }
      split; [eapply same_trans; eauto|]. split.
      + intros y Hy. apply in_app_or in Hy as [Hy|Hy]; [|auto].
        rewrite I4 by (apply N3; auto). auto.
      + intros y Hy. rewrite in_app_iff in Hy. rewrite I4 by tauto. apply I2. tauto. }
  simpl in Hnd. inversion Hnd as [|? ? Hx Hnd']; subst.
  destruct (G ts st) as [S1 [I1 I2]]; auto; [intros z Hz; auto|].
  split; [eapply same_trans; [exact S1 | apply same_inited]|]. split.
  - intros y [<-|Hy]; simpl; [apply upd_eq|].
    rewrite upd_ne; [auto|]. intros ->; auto.
  - intros y Hy. simpl in Hy. simpl. rewrite upd_ne by (intros ->; auto). apply I2; auto.
Qed.

Lemma connect_struct_spec : forall st self ts, kids st self = map root ts -> Forall (krep st) ts ->
  NoDup (oids (T self ts)) -> (forall c, In c ts -> (height c <= fuel st)%nat) ->
  let st' := connect_struct st self in
  next st' = next st /\
  (forall y, kind st' y = kind st y /\ kids st' y = kids st y /\ size st' y = size st y /\ in_init st' y = in_init st y) /\
  (forall y, ~ In y (map root ts) -> par st' y = par st y /\ pidx st' y = pidx st y) /\
  (forall i c, nth_error ts i = Some c -> par st' (root c) = Some self /\ pidx st' (root c) = Some (Z.of_nat i)) /\
  (forall y, In y (oids (T self ts)) -> inited st' y = Some true) /\
  (forall y, ~ In y (oids (T self ts)) -> inited st' y = inited st y).
Proof.
  intros st self ts Hk Hts Hnd Hh. unfold connect_struct. rewrite Hk.
  set (step := fun (s : Z * struct) p => let (i, t) := s in
    (i + 1, init_below (fuel t) (set_pidx (set_par t p (Some self)) p (Some i)) p)).
  assert (G : forall l j u, incl l ts -> NoDup (concat (map oids l)) -> (forall y, kids u y = kids st y) -> fuel u = fuel st ->
    let u' := snd (fold_left step (map root l) (Z.of_nat j, u)) in
    next u' = next u /\
    (forall y, kind u' y = kind u y /\ kids u' y = kids u y /\ size u' y = size u y /\ in_init u' y = in_init u y) /\
    (forall y, ~ In y (map root l) -> par u' y = par u y /\ pidx u' y = pidx u y) /\
    (forall i c, nth_error l i = Some c -> par u' (root c) = Some self /\ pidx u' (root c) = Some (Z.of_nat (j + i))) /\
    (forall y, In y (concat (map oids l)) -> inited u' y = Some true) /\
    (forall y, ~ In y (concat (map oids l)) -> inited u' y = inited u y)).
  { induction l as [|c l IHl]; intros j u Hl Hn Hu Hfu.
    - simpl. split; [auto|]. split; [auto|]. split; [auto|]. split; [intros [|i]; discriminate|]. split; [tauto | auto].
    - simpl in Hn. apply nodup_app in Hn as [N1 [N2 N3]].
      assert (Hc : In c ts) by (apply Hl; left; auto).
      set (u1 := set_pidx (set_par u (root c) (Some self)) (root c) (Some (Z.of_nat j))).
      assert (E : fold_left step (map root (c :: l)) (Z.of_nat j, u)
                  = fold_left step (map root l) (Z.of_nat (S j), init_below (fuel u) u1 (root c))).
      { simpl. fold u1. replace (Z.of_nat j + 1) with (Z.of_nat (S j)) by lia. reflexivity. }
      rewrite E. clear E.
      destruct (init_below_spec c (fuel u) u1) as [[Sn S1] [I1 I2]].
      { eapply krep_frame; [rewrite Forall_forall in Hts; apply Hts; auto|]. intros; apply Hu. }
      { auto. }
      { rewrite Hfu. auto. }
      set (u2 := init_below (fuel u) u1 (root c)) in *.
      destruct (IHl (S j) u2) as (A1 & A2 & A3 & A4 & A5 & A6).
      { intros z Hz; apply Hl; right; auto. } { auto. }
      { intros y. destruct (S1 y) as (_&_&_&->&_). apply Hu. }
      { unfold fuel. rewrite Sn. exact Hfu. }
      assert (Hr : ~ In (root c) (map root l)).
      { intros H. apply in_map_iff in H as [d [Ed Hd]]. apply (N3 (root c)); [apply oids_root|].
        apply in_concat. exists (oids d). split; [apply in_map; auto|]. rewrite <- Ed. apply oids_root. }
      split; [rewrite A1, Sn; reflexivity|]. split.
      { intros y. destruct (A2 y) as (?&?&?&?). destruct (S1 y) as (?&?&?&?&?&?). unfold u1 in *. simpl in *. repeat split; congruence. }
      split.
      { intros y Hy. simpl in Hy. destruct (A3 y) as [B1 B2]; [tauto|]. destruct (S1 y) as (?&?&?&?).
        unfold u1 in *. simpl in *. rewrite upd_ne in * by (intros ->; tauto). split; congruence. }
      split.
      { intros [|i] d Hi; simpl in Hi.
        - inversion Hi; subst d. destruct (A3 (root c) Hr) as [B1 B2]. destruct (S1 (root c)) as (?&?&?&?).
          unfold u1 in *. simpl in *. rewrite upd_eq in *. rewrite Nat.add_0_r. split; congruence.
        - destruct (A4 i d Hi) as [B1 B2]. rewrite B1, B2. split; auto. f_equal. f_equal. lia. }
      split.
      + intros y Hy. simpl in Hy. apply in_app_or in Hy as [Hy|Hy]; [|auto].
        rewrite A6 by (apply N3; auto). auto.
      + intros y Hy. simpl in Hy. rewrite in_app_iff in Hy. rewrite A6 by tauto. rewrite I2 by tauto. reflexivity. }
  simpl in Hnd. inversion Hnd as [|? ? Hx Hnd']; subst.
  destruct (G ts 0%nat (set_inited st self (Some true))) as (A1 & A2 & A3 & A4 & A5 & A6);
    [intros z Hz; auto | auto | auto | auto |].
  change (Z.of_nat 0) with 0 in *.
  split; [exact A1|]. split; [exact A2|]. split; [exact A3|]. split; [exact A4|]. split.
  - intros y [<-|Hy]; [|auto]. rewrite A6 by auto. simpl. apply upd_eq.
  - intros y Hy. simpl in Hy. rewrite A6 by tauto. simpl. apply upd_ne. intros ->; tauto.
Qed.

(** When the links are already right only [_model_initialized_] changes. *)
Lemma connect_struct_same : forall st x t, wf st -> root t = x -> rep st t -> NoDup (oids t) ->
  same st (connect_struct st x) /\
  (forall y, In y (oids t) -> inited (connect_struct st x) y = Some true) /\
  (forall y, ~ In y (oids t) -> inited (connect_struct st x) y = inited st y).
Proof.
  intros st x [x' ts] W E Hr Hnd. simpl in E; subst x'.
  pose proof (rep_new_height _ _ W Hr Hnd) as Hh.
  inversion Hr as [? ? E1 E2 E3]; subst.
  destruct (connect_struct_spec st x ts) as (A1 & A2 & A3 & A4 & A5 & A6); auto.
  { rewrite Forall_forall in *. intros; apply rep_krep; auto. }
  { intros c Hc. pose proof (height_child x ts c Hc). lia. }
  split; [|auto]. split; [auto|]. intros y. destruct (A2 y) as (?&?&?&?).
  destruct (in_dec Nat.eq_dec y (map root ts)) as [Hy|Hy].
  - apply in_map_iff in Hy as [c [<- Hc]]. apply In_nth_error in Hc as [i Hi].
    destruct (A4 _ _ Hi) as [-> ->]. destruct (E2 _ _ Hi) as [-> ->]. auto 10.
  - destruct (A3 y Hy) as [-> ->]. auto 10.
Qed.

(** ** [_notify_parent_change] *)
Definition view_of (i : iost) (x : oid) (off n : Z) : nat * io := (fst (iop i x), View (snd (iop i x)) off n).

Lemma parent_changed_spec : forall st parent ts, rep st (T parent ts) -> NoDup (oids (T parent ts)) ->
  (height (T parent ts) <= S (fuel st))%nat ->
  forall c f i fx, incl (oids c) (concat (map oids ts)) -> krep st c -> NoDup (oids c) -> (height c <= f)%nat ->
  exists i' fx', parent_changed f st parent (root c) (i, fx) = Ok (i', fx') /\
    dicts i' = dicts i /\ nrid i' = nrid i /\
    (forall y o, In y (oids c) -> In (y, o) (offs (size st) 0 (T parent ts)) ->
       iop i' y = view_of i parent o (size st y) /\ fx' y = None) /\
    (forall y, ~ In y (oids c) -> iop i' y = iop i y /\ fx' y = fx y).
Proof.
  intros st parent ts Hr Hnd Hht.
  assert (Hpar : ~ In parent (concat (map oids ts))) by (simpl in Hnd; inversion Hnd; auto).
  assert (Hoff : forall y, In y (concat (map oids ts)) -> exists o, offset_for (fuel st) st parent y = Ok o /\
            In (y, o) (offs (size st) 0 (T parent ts))).
  { intros y Hy. assert (H : In y (oids (T parent ts))) by (right; auto).
    rewrite <- (offs_fst (size st) (T parent ts) 0) in H. apply in_map_iff in H as [[y' o] [Ey Ho]]. simpl in Ey; subst y'.
    exists o. split; auto. apply (offset_offs st (T parent ts) y o); auto. simpl. intros ->; auto. }
  induction c as [x cs IH] using tree_ind'. intros f i fx Hin Hk Hnc Hf.
  destruct f as [|f]; [simpl in Hf; lia|]. cbn [root parent_changed].
  destruct (Hoff x) as [o [Eo Ho]]; [apply Hin; left; auto|]. rewrite Eo. cbn [rbind].
  rewrite (krep_kids _ _ _ Hk).
  set (i1 := set_iop i x (fst (iop i parent), View (snd (iop i parent)) o (size st x))).
  set (fx1 := upd fx x None).
  assert (Hxp : x <> parent) by (intros ->; apply Hpar, Hin; left; auto).
  simpl in Hnc. inversion Hnc as [|? ? Hx Hnc']; subst.
  assert (G : forall l j fy, incl l cs -> NoDup (concat (map oids l)) -> iop j parent = iop i parent ->
    exists j' fy', rfold (parent_changed f st parent) (map root l) (j, fy) = Ok (j', fy') /\
      dicts j' = dicts j /\ nrid j' = nrid j /\
      (forall y o, In y (concat (map oids l)) -> In (y, o) (offs (size st) 0 (T parent ts)) ->
         iop j' y = view_of i parent o (size st y) /\ fy' y = None) /\
      (forall y, ~ In y (concat (map oids l)) -> iop j' y = iop j y /\ fy' y = fy y)).
  { induction l as [|c l IHl]; intros j fy Hl Hn Hj.
    - exists j, fy. simpl. split; [auto|]. split; [auto|]. split; [auto|]. split; [tauto | auto].
    - simpl in Hn. apply nodup_app in Hn as [N1 [N2 N3]].
      assert (Hc : In c cs) by (apply Hl; left; auto). rewrite Forall_forall in IH.
      assert (Hsub : incl (oids c) (concat (map oids ts))).
      { intros z Hz. apply Hin. eapply in_child; eauto. }
      destruct (IH c Hc f j fy) as (j1 & fy1 & E1 & D1 & M1 & V1 & O1); auto.
      { eapply krep_child; eauto. } { pose proof (height_child x cs c Hc). lia. }
      destruct (IHl j1 fy1) as (j2 & fy2 & E2 & D2 & M2 & V2 & O2); auto.
      { intros z Hz; apply Hl; right; auto. }
      { destruct (O1 parent) as [-> _]; auto. }
      exists j2, fy2. split; [cbn [map rfold]; rewrite E1; exact E2|].
      split; [congruence|]. split; [congruence|]. split.
      + intros y o' Hy Ho'. simpl in Hy. apply in_app_or in Hy as [Hy|Hy]; [|auto].
        destruct (V1 y o' Hy Ho') as [A B]. destruct (O2 y) as [C D]; [apply N3; auto|].
        rewrite C, D, A, B. unfold view_of. rewrite Hj. auto.
      + intros y Hy. simpl in Hy. rewrite in_app_iff in Hy. destruct (O2 y) as [-> ->]; [tauto|]. apply O1. tauto. }
  destruct (G cs i1 fx1) as (j2 & fy2 & E2 & D2 & M2 & V2 & O2); [intros z Hz; auto | auto | |].
  { unfold i1. simpl. apply upd_ne. auto. }
  exists j2, fy2. split; [exact E2|]. split; [rewrite D2; reflexivity|]. split; [rewrite M2; reflexivity|]. split.
  - intros y o' [<-|Hy] Ho'; [|auto]. destruct (O2 x Hx) as [-> ->].
    unfold i1, fx1. simpl. rewrite !upd_eq.
    assert (o' = o) by (eapply (offs_unique (size st) (T parent ts)); eauto). subst. unfold view_of. auto.
  - intros y Hy. simpl in Hy. destruct (O2 y) as [-> ->]; [tauto|]. unfold i1, fx1. simpl. rewrite !upd_ne by (intros ->; tauto). auto.
Qed.

Lemma notify_parent_rep : forall st x t i fx, root t = x -> rep st t -> NoDup (oids t) -> (height t <= S (fuel st))%nat ->
  exists i' fx', notify_parent_change st x (i, fx) = Ok (i', fx') /\
    dicts i' = dicts i /\ nrid i' = nrid i /\
    (forall y o n, below st x y o n -> y <> x -> iop i' y = view_of i x o (size st y) /\ fx' y = None) /\
    (forall y, (y = x \/ ~ In y (oids t)) -> iop i' y = iop i y /\ fx' y = fx y).
Proof.
  intros st x [x' ts] i fx E Hr Hnd Hh. simpl in E; subst x'.
  unfold notify_parent_change. rewrite (krep_kids _ _ _ (rep_krep _ _ Hr)).
  assert (Hx : ~ In x (concat (map oids ts))) by (simpl in Hnd; inversion Hnd; auto).
  assert (G : forall l j fy, incl l ts -> NoDup (concat (map oids l)) -> iop j x = iop i x ->
    exists j' fy', rfold (parent_changed (fuel st) st x) (map root l) (j, fy) = Ok (j', fy') /\
      dicts j' = dicts j /\ nrid j' = nrid j /\
      (forall y o, In y (concat (map oids l)) -> In (y, o) (offs (size st) 0 (T x ts)) ->
         iop j' y = view_of i x o (size st y) /\ fy' y = None) /\
      (forall y, ~ In y (concat (map oids l)) -> iop j' y = iop j y /\ fy' y = fy y)).
  { induction l as [|c l IHl]; intros j fy Hl Hn Hj.
    - exists j, fy. simpl. split; [auto|]. split; [auto|]. split; [auto|]. split; [tauto | auto].
    - simpl in Hn. apply nodup_app in Hn as [N1 [N2 N3]].
      assert (Hc : In c ts) by (apply Hl; left; auto).
      assert (Hsub : incl (oids c) (concat (map oids ts))).
      { intros z Hz. apply in_concat. exists (oids c). split; [apply in_map; auto | auto]. }
      destruct (parent_changed_spec st x ts Hr Hnd Hh c (fuel st) j fy) as (j1 & fy1 & E1 & D1 & M1 & V1 & O1); auto.
      { eapply krep_child; [apply rep_krep; eauto | auto]. } { pose proof (height_child x ts c Hc). lia. }
      destruct (IHl j1 fy1) as (j2 & fy2 & E2 & D2 & M2 & V2 & O2); auto.
      { intros z Hz; apply Hl; right; auto. }
      { destruct (O1 x) as [-> _]; auto. }
      exists j2, fy2. split; [cbn [map rfold]; rewrite E1; exact E2|].
      split; [congruence|]. split; [congruence|]. split.
      + intros y o' Hy Ho'. simpl in Hy. apply in_app_or in Hy as [Hy|Hy]; [|auto].
        destruct (V1 y o' Hy Ho') as [A B]. destruct (O2 y) as [C D]; [apply N3; auto|].
        rewrite C, D, A, B. unfold view_of. rewrite Hj. auto.
      + intros y Hy. simpl in Hy. rewrite in_app_iff in Hy. destruct (O2 y) as [-> ->]; [tauto|]. apply O1. tauto. }
  simpl in Hnd. inversion Hnd as [|? ? Hx' Hnd']; subst.
  destruct (G ts i fx) as (j2 & fy2 & E2 & D2 & M2 & V2 & O2); [intros z Hz; auto | auto | auto |].
  exists j2, fy2. split; [exact E2|]. split; [auto|]. split; [auto|]. split.
  - intros y o n Hb Hne. pose proof (below_offs st (T x ts) y o n Hr Hb) as Ho. apply V2; auto.
    assert (H : In y (oids (T x ts))) by (apply (oids_below st); [auto | exists o, n; auto]).
    destruct H as [->|H]; [congruence | auto].
  - intros y [->|Hy]; apply O2; auto. intros H; apply Hy; right; auto.
Qed.
Lemma notify_parent_spec : forall st x i fx, wf st ->
  exists i' fx', notify_parent_change st x (i, fx) = Ok (i', fx') /\
    dicts i' = dicts i /\ nrid i' = nrid i /\
    (forall y o n, below st x y o n -> y <> x -> iop i' y = view_of i x o (size st y) /\ fx' y = None) /\
    (forall y, (y = x \/ ~ above st x y) -> iop i' y = iop i y /\ fx' y = fx y).
Proof.
  intros st x i fx W. destruct (tree_exists st W x) as [t [E [Hr Hnd]]].
  pose proof (rep_new_height _ _ W Hr Hnd) as Hh.
  destruct (notify_parent_rep st x t i fx E Hr Hnd ltac:(lia)) as (i' & fx' & E1 & D1 & M1 & V1 & O1).
  exists i', fx'. split; [exact E1|]. split; [auto|]. split; [auto|]. split; [exact V1|].
  intros y [->|Hy]; apply O1; auto. right. intros H. apply Hy. apply (oids_below st) in H as [k [n H]]; auto.
  rewrite E in H. exists k, n; auto.
Qed.
