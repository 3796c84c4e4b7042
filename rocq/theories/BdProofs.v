(** Transformation objects as constraints need them: making and loading them. *)
From Coq Require Import List ZArith Bool Arith Lia.
From Verif Require Import NpModel NpProofs IndexOpsModel IndexOpsProofs InstModel InstProofs BdModel BdSpec.
Import ListNotations.
Open Scope Z_scope.

Lemma kind_eq : forall t o, kind t o =
  match cls_of t o with
  | Some (S c) => Some (Class c)
  | Some O => match bds_of t o with Some (lo, hi) => Some (Bounds lo hi) | None => None end
  | None => None
  end.
Proof. intros t o. unfold kind, cls_of, bds_of. destruct (nth_error (objs t) o) as [[[|c] [[lo hi]|]]|]; reflexivity. Qed.
Lemma kind_lt : forall t o w, kind t o = Some w -> (o < length (objs t))%nat.
Proof. intros t o w H. unfold kind in H. apply nth_error_Some. destruct (nth_error (objs t) o); congruence. Qed.
Lemma kind_bounds : forall t o lo hi, kind t o = Some (Bounds lo hi) <-> cls_of t o = Some O /\ bds_of t o = Some (lo, hi).
Proof.
  intros t o lo hi. rewrite kind_eq. destruct (cls_of t o) as [[|c]|]; [|split; [discriminate | intros [H _]; discriminate]..].
  destruct (bds_of t o) as [[l h]|]; split.
  - intros H. injection H as -> ->. auto.
  - intros [_ H]. injection H as -> ->. auto.
  - discriminate.
  - intros [_ H]. discriminate.
Qed.
Lemma kind_class : forall t o c, kind t o = Some (Class c) <-> cls_of t o = Some (S c).
Proof.
  intros t o c. rewrite kind_eq. destruct (cls_of t o) as [[|k]|]; [|split; intros H; injection H as ->; reflexivity | split; discriminate].
  destruct (bds_of t o) as [[l h]|]; split; discriminate.
Qed.

(** The state of the transformation objects between calls. *)
Record T (t : tst) : Prop := mkTT {
  t_weak : forall o, In o (weak t) -> alive t o = true -> exists lo hi, kind t o = Some (Bounds lo hi);
  t_in : forall o lo hi, alive t o = true -> kind t o = Some (Bounds lo hi) -> In o (weak t);
  t_lt : forall o, In o (weak t) -> (o < length (objs t))%nat;
  t_single : forall c o, single t c = Some o -> exists c', c = S c' /\ kind t o = Some (Class c') /\ alive t o = true;
  t_class : forall o c, alive t o = true -> kind t o = Some (Class c) -> single t (S c) = Some o;
  t_order : forall o lo hi, kind t o = Some (Bounds lo hi) -> lo < hi }.
(** What was there stays as it was. *)
Record ext (t t1 : tst) : Prop := mkExt {
  e_kind : forall o w, kind t o = Some w -> kind t1 o = Some w;
  e_alive : forall o, (o < length (objs t))%nat -> alive t1 o = alive t o;
  e_len : (length (objs t) <= length (objs t1))%nat }.
Lemma ext_refl : forall t, ext t t.
Proof. intros t. constructor; auto. Qed.
Lemma ext_trans : forall a b c, ext a b -> ext b c -> ext a c.
Proof.
  intros a b c [A1 A2 A3] [B1 B2 B3]. constructor; auto; [|lia]. intros o H. rewrite B2 by lia. auto.
Qed.
(** Nothing else came to life. *)
Definition only (t t1 : tst) (P : nat -> Prop) : Prop :=
  forall x w, alive t1 x = true -> kind t1 x = Some w -> P x \/ (alive t x = true /\ kind t x = Some w).

Lemma sing_of_T : forall t, T t -> sing_ok t.
Proof. intros t H c o E. destruct (t_single t H c o E) as (c' & -> & K & _). apply kind_class. exact K. Qed.
Lemma mro_self : forall c, exists r, bmro c = c :: r.
Proof. intros c. exists []. reflexivity. Qed.

Lemma kind_purged : forall t o, kind (purged t) o = kind t o.
Proof. reflexivity. Qed.
Lemma T_purged : forall t, T t -> T (purged t).
Proof.
  intros t [A B C D E F]. constructor; auto.
  - intros o Ho. apply filter_In in Ho. apply A, Ho.
  - intros o lo hi Ha Hk. apply filter_In. split; [eapply B; eauto | exact Ha].
  - intros o Ho. apply filter_In in Ho. apply C, Ho.
Qed.
Lemma kind_set_same : forall t o b x, bds_of t o = Some b -> kind (set_bds o (Some b) t) x = kind t x.
Proof.
  intros t o b x H. rewrite !kind_eq, cls_set, bds_set. destruct (Nat.eqb_spec x o) as [->|N]; [|reflexivity].
  pose proof (bds_lt _ _ _ H) as L. apply Nat.ltb_lt in L. rewrite L, H. reflexivity.
Qed.
Lemma T_kinds : forall t t1, T t -> (forall x, kind t1 x = kind t x) -> alive t1 = alive t -> weak t1 = weak t -> single t1 = single t ->
  length (objs t1) = length (objs t) -> T t1.
Proof.
  intros t t1 [A B C D E F] K Al W Si L. constructor; rewrite ?Al, ?W, ?Si, ?L; auto.
  - intros o H1 H2. rewrite K. auto.
  - intros o lo hi H1. rewrite K. eauto.
  - intros c o H. destruct (D c o H) as (c' & E1 & E2 & E3). exists c'. rewrite K. auto.
  - intros o c H. rewrite K. auto.
  - intros o lo hi. rewrite K. eauto.
Qed.
(** A new [Logistic] with bounds. *)
Definition bounded_new (t : tst) (lo hi : Z) : tst := set_bds (length (objs t)) (Some (lo, hi)) (added 0 t).
Lemma kind_new : forall t lo hi x, kind (bounded_new t lo hi) x = if Nat.eqb x (length (objs t)) then Some (Bounds lo hi) else kind t x.
Proof.
  intros t lo hi x. unfold bounded_new. rewrite !kind_eq, cls_set, bds_set, added_cls, added_len, added_bds.
  destruct (Nat.eqb_spec x (length (objs t))) as [->|N]; [|reflexivity].
  destruct (Nat.ltb_spec (length (objs t)) (S (length (objs t)))) as [L|L]; [reflexivity | lia].
Qed.
Lemma new_none : forall t, kind t (length (objs t)) = None.
Proof. intros t. unfold kind. rewrite (proj2 (nth_error_None _ _)); auto. Qed.
Lemma T_new : forall t lo hi, T t -> lo < hi -> T (bounded_new t lo hi) /\ ext t (bounded_new t lo hi) /\
  kind (bounded_new t lo hi) (length (objs t)) = Some (Bounds lo hi) /\ alive (bounded_new t lo hi) (length (objs t)) = true /\
  only t (bounded_new t lo hi) (fun x => x = length (objs t)).
Proof.
  intros t lo hi [A B C D E F] Lt. set (n := length (objs t)).
  assert (Al : forall x, alive (bounded_new t lo hi) x = if Nat.eqb x n then true else alive t x) by reflexivity.
  assert (Wk : weak (bounded_new t lo hi) = filter (alive t) (weak t) ++ [n]) by reflexivity.
  assert (Ln : length (objs (bounded_new t lo hi)) = S n) by (unfold bounded_new; rewrite len_set; apply added_len).
  split; [|split; [|split; [|split]]].
  - constructor.
    + intros o Ho Ha. rewrite kind_new. rewrite Al in Ha. fold n. destruct (Nat.eqb_spec o n) as [->|N]; [eauto|].
      rewrite Wk, in_app_iff, filter_In in Ho. destruct Ho as [[Ho _]|[->|[]]]; [apply A; auto | congruence].
    + intros o l h Ha. rewrite Al in Ha. rewrite kind_new, Wk, in_app_iff, filter_In. fold n. destruct (Nat.eqb_spec o n) as [->|N].
      * intros _. right. left. reflexivity.
      * intros K. left. split; [eapply B; eauto | exact Ha].
    + intros o. rewrite Wk, in_app_iff, filter_In, Ln. intros [[Ho _]|[<-|[]]]; [|lia]. specialize (C o Ho). fold n in C. lia.
    + intros c o H. change (single (bounded_new t lo hi)) with (single t) in H. destruct (D c o H) as (c' & E1 & E2 & E3). exists c'.
      pose proof (kind_lt _ _ _ E2) as L. rewrite kind_new, Al. fold n. fold n in L. destruct (Nat.eqb_spec o n) as [->|N]; [lia|]. auto.
    + intros o c Ha. rewrite Al in Ha. rewrite kind_new. fold n. destruct (Nat.eqb_spec o n) as [->|N]; [discriminate|].
      change (single (bounded_new t lo hi)) with (single t). auto.
    + intros o l h. rewrite kind_new. destruct (Nat.eqb o (length (objs t))); [intros H; injection H as <- <-; exact Lt | apply F].
  - constructor.
    + intros o w K. rewrite kind_new. pose proof (kind_lt _ _ _ K). destruct (Nat.eqb_spec o (length (objs t))) as [->|N]; [lia | exact K].
    + intros o Ho. rewrite Al. fold n in Ho. destruct (Nat.eqb_spec o n) as [->|N]; [lia | reflexivity].
    + rewrite Ln. fold n. lia.
  - rewrite kind_new, Nat.eqb_refl. reflexivity.
  - rewrite Al, Nat.eqb_refl. reflexivity.
  - intros x w Ha. rewrite kind_new. rewrite Al in Ha. fold n. destruct (Nat.eqb_spec x n) as [->|N]; auto.
Qed.

Section Calls.
Variable fl : Z -> Z.
Variable dflt : Z.
Notation make := (make fl dflt).
Notation duplicate := (duplicate bmro bbounded dflt).

(** [c()] for the classes with one object. *)
Lemma single_ok : forall t c t1 r, T t -> new_single bmro (S c) false t = (t1, r) ->
  exists o, r = inl o /\ T t1 /\ ext t t1 /\ kind t1 o = Some (Class c) /\ alive t1 o = true /\ only t t1 (fun x => x = o) /\
    forall x, alive t1 x = true -> kind t1 x = Some (Class c) -> x = o.
Proof.
  intros t c t1 r HT E. pose proof HT as [A B C D E0 F].
  destruct (new_single_cases bmro mro_self (S c) false t t1 r (sing_of_T t HT) E) as [(o & H1 & -> & ->)|[(_ & H & _)|(H1 & _ & -> & ->)]]; [|discriminate|].
  - exists o. destruct (D _ _ H1) as (c' & Ec & K & Al). injection Ec as <-. split; [reflexivity|]. split; [exact HT|].
    split; [apply ext_refl|]. split; [exact K|]. split; [exact Al|]. split; [intros x w; auto|].
    intros x Hx Kx. pose proof (E0 x c Hx Kx). congruence.
  - set (n := length (objs t)). exists n. split; [reflexivity|].
    set (t1 := mkTst _ _ _ _).
    assert (Kn : forall x, kind t1 x = if Nat.eqb x n then Some (Class c) else kind t x).
    { intros x. rewrite !kind_eq. change (cls_of t1 x) with (cls_of (fst (fresh_obj (S c) t)) x). change (bds_of t1 x) with (bds_of (fst (fresh_obj (S c) t)) x).
      rewrite fresh_cls, fresh_bds. fold n. destruct (Nat.eqb x n); reflexivity. }
    assert (Al : forall x, alive t1 x = if Nat.eqb x n then true else alive t x) by reflexivity.
    assert (Si : forall x, single t1 x = if Nat.eqb x (S c) then Some n else single t x) by reflexivity.
    assert (Ln : length (objs t1) = S n) by (unfold t1; cbn [objs fresh_obj fst]; rewrite app_length; cbn; fold n; lia).
    assert (Cl : forall x, alive t1 x = true -> kind t1 x = Some (Class c) -> x = n).
    { intros x Ha. rewrite Kn. rewrite Al in Ha. destruct (Nat.eqb_spec x n) as [Q|N]; [intros _; exact Q|]. intros K. pose proof (E0 x c Ha K). congruence. }
    split; [|split; [|split; [|split; [|split]]]].
    + constructor.
      * intros o Ho Ha. rewrite Kn. rewrite Al in Ha. change (weak t1) with (weak t) in Ho. pose proof (C o Ho) as L. fold n in L.
        destruct (Nat.eqb_spec o n) as [->|N]; [lia|]. auto.
      * intros o lo hi Ha. rewrite Al in Ha. rewrite Kn. destruct (Nat.eqb_spec o n) as [->|N]; [discriminate|]. intros K. exact (B o lo hi Ha K).
      * intros o Ho. specialize (C o Ho). rewrite Ln. fold n in C. lia.
      * intros c1 o. rewrite Si. destruct (Nat.eqb_spec c1 (S c)) as [->|N].
        -- intros H. injection H as <-. exists c. rewrite Kn, Al, Nat.eqb_refl. auto.
        -- intros H. destruct (D c1 o H) as (c' & E1 & E2 & E3). exists c'. rewrite Kn, Al. destruct (Nat.eqb_spec o n) as [->|N2]; [|auto].
           pose proof (kind_lt _ _ _ E2) as L. fold n in L. lia.
      * intros o c1 Ha K. rewrite Si. destruct (Nat.eqb_spec (S c1) (S c)) as [Q|N].
        -- injection Q as ->. rewrite (Cl o Ha K). reflexivity.
        -- rewrite Kn in K. rewrite Al in Ha. destruct (Nat.eqb_spec o n) as [->|N2]; [congruence|]. auto.
      * intros o lo hi. rewrite Kn. destruct (Nat.eqb o n); [discriminate | apply F].
    + constructor.
      * intros o w K. rewrite Kn. pose proof (kind_lt _ _ _ K) as L. fold n in L. destruct (Nat.eqb_spec o n) as [->|N]; [lia | exact K].
      * intros o Ho. rewrite Al. fold n in Ho. destruct (Nat.eqb_spec o n) as [->|N]; [lia | reflexivity].
      * rewrite Ln. fold n. lia.
    + rewrite Kn, Nat.eqb_refl. reflexivity.
    + rewrite Al, Nat.eqb_refl. reflexivity.
    + intros x w Ha. rewrite Kn. rewrite Al in Ha. destruct (Nat.eqb_spec x n) as [->|N]; auto.
    + exact Cl.
Qed.

(** The result of [make]: an object of the right kind, the one there is if there is one. *)
Definition made (t t1 : tst) (o : nat) (w : what) : Prop :=
  T t1 /\ ext t t1 /\ kind t1 o = Some w /\ alive t1 o = true /\ only t t1 (fun x => x = o) /\
  ((alive t o = true /\ kind t o = Some w) \/ forall x, alive t x = true -> kind t x <> Some w).
Lemma make_ok : forall w t t1 r, T t -> float_what fl w -> make w t = (t1, r) ->
  (exists o, r = inl o /\ made t t1 o w /\ proper_what fl w) \/
  (exists lo hi, w = Bounds lo hi /\ hi <= lo /\ r = inr AssertionError /\ T t1 /\ ext t t1 /\ only t t1 (fun _ => False)).
Proof.
  intros w t t1 r HT Hf E. destruct w as [c|lo hi].
  - left. cbn in E. destruct (single_ok t c t1 r HT E) as (o & -> & H1 & H2 & H3 & H4 & H5 & H6). exists o. split; [reflexivity|].
    split; [|exact I]. split; [exact H1|]. split; [exact H2|]. split; [exact H3|]. split; [exact H4|]. split; [exact H5|].
    destruct (H5 o (Class c) H4 H3) as [_|H]; [|left; exact H].
    destruct (single t (S c)) as [o'|] eqn:Es.
    + destruct (t_single t HT _ _ Es) as (c' & Ec & K & Al). injection Ec as <-. left.
      assert (Q : o' = o). { apply H6; [|apply (e_kind _ _ H2); exact K]. rewrite (e_alive _ _ H2); [exact Al | eapply kind_lt; eauto]. }
      subst o'. auto.
    + right. intros x Ax Kx. rewrite (t_class t HT x c Ax Kx) in Es. discriminate.
  - destruct Hf as [F1 F2]. unfold BdModel.make in E.
    destruct (construct_bounded_cases bmro bbounded fl dflt 0 (Some (lo, hi)) false t t1 r eq_refl E) as (s1 & q & EN & Q).
    destruct (new_bounded_cases 0 lo hi t s1 q EN) as [(o & -> & -> & Hw & Ha & Hb)|[(-> & -> & o & Hw & Ha & Hb)|(-> & -> & Hn)]].
    + left. destruct (t_weak t HT o Hw Ha) as (l & h & K). pose proof K as K0. apply kind_bounds in K. destruct K as [K1 K2]. rewrite K2 in Hb. injection Hb as -> ->.
      pose proof (t_order t HT _ _ _ K0) as Lt.
      assert (I1 : isinstance bmro (purged t) o 0 = true) by (unfold isinstance; change (cls_of (purged t) o) with (cls_of t o); rewrite K1; reflexivity).
      destruct Q as [(Q & _)|[(_ & l & h & A & _ & -> & ->)|(e & _ & _ & [Q|(l & h & A & Le)] & _)]]; [congruence | | discriminate |].
      2:{ injection A as <- <-. lia. }
      injection A as <- <-. rewrite F1, F2. exists o. split; [reflexivity|]. split; [|cbn; auto].
      assert (Kn : forall x, kind (set_bds o (Some (lo, hi)) (purged t)) x = kind t x) by (intros x; apply (kind_set_same (purged t)); exact K2).
      split; [apply (T_kinds (purged t)); [apply T_purged; exact HT | intros x; rewrite Kn; reflexivity | reflexivity.. | apply len_set]|].
      split; [constructor; [intros x w; rewrite Kn; auto | reflexivity | rewrite len_set; reflexivity]|].
      split; [rewrite Kn; exact K0|]. split; [exact Ha|]. split; [intros x w H1; rewrite Kn; right; auto | left; auto].
    + destruct (t_weak t HT o Hw Ha) as (l & h & K). apply kind_bounds in K. destruct K as [_ K]. congruence.
    + assert (Nk : forall x, alive t x = true -> kind t x <> Some (Bounds lo hi)).
      { intros x Ax Kx. pose proof (t_in t HT x lo hi Ax Kx) as Hw. destruct (Hn x Hw Ax) as (b & B1 & B2). apply kind_bounds in Kx. destruct Kx. congruence. }
      destruct Q as [(Q & _)|[(_ & l & h & A & Lt & -> & ->)|(e & -> & _ & [Q0|(l & h & A & Le)] & Q)]].
      * rewrite (added_inst bmro mro_self) in Q. discriminate.
      * injection A as <- <-. rewrite F1, F2. left. exists (length (objs t)). split; [reflexivity|]. split; [|cbn; auto].
        destruct (T_new t lo hi HT Lt) as (H1 & H2 & H3 & H4 & H5). split; [exact H1|]. split; [exact H2|]. split; [exact H3|]. split; [exact H4|]. split; [exact H5|].
        right. exact Nk.
      * discriminate.
      * injection A as <- <-. right. exists lo, hi. split; [reflexivity|]. split; [exact Le|].
        assert (Er : e = AssertionError).
        { unfold construct in E. cbn [bbounded Nat.eqb] in E. rewrite EN, (added_inst bmro mro_self) in E.
          assert (L : (lo <? hi) = false) by (apply Z.ltb_ge; exact Le). rewrite L in E. injection E as _ E. congruence. }
        subst e. split; [reflexivity|].
        destruct Q as [(_ & [Q|Q])|(-> & _)]; [discriminate | lia|].
        set (n := length (objs t)).
        assert (Kn : forall x, (x < n)%nat -> kind (drop n (added 0 t)) x = kind t x).
        { intros x Hx. rewrite !kind_eq. change (cls_of (drop n (added 0 t)) x) with (cls_of (added 0 t) x). change (bds_of (drop n (added 0 t)) x) with (bds_of (added 0 t) x).
          rewrite added_cls, added_bds. fold n. destruct (Nat.eqb_spec x n); [lia | reflexivity]. }
        assert (Kb : forall x w, kind (drop n (added 0 t)) x = Some w -> (x < n)%nat).
        { intros x w Kx. pose proof (kind_lt _ _ _ Kx) as L. change (objs (drop n (added 0 t))) with (objs (added 0 t)) in L. rewrite added_len in L. fold n in L.
          destruct (Nat.eq_dec x n) as [->|]; [|lia]. exfalso. rewrite kind_eq in Kx. change (cls_of (drop n (added 0 t)) n) with (cls_of (added 0 t) n) in Kx.
          change (bds_of (drop n (added 0 t)) n) with (bds_of (added 0 t) n) in Kx. rewrite added_cls, added_bds in Kx. fold n in Kx. rewrite Nat.eqb_refl in Kx.
          unfold n in Kx. rewrite new_fresh_none in Kx. discriminate. }
        assert (Al : forall x, alive (drop n (added 0 t)) x = if Nat.eqb x n then false else alive t x).
        { intros x. cbn. fold n. destruct (Nat.eqb x n); reflexivity. }
        split; [|split].
        -- constructor.
           ++ intros o Ho Hal. rewrite Al in Hal. destruct (Nat.eqb_spec o n) as [->|N]; [discriminate|].
              change (weak (drop n (added 0 t))) with (filter (alive t) (weak t) ++ [n]) in Ho. rewrite in_app_iff, filter_In in Ho.
              destruct Ho as [[Ho _]|[Ho|[]]]; [|congruence]. rewrite Kn by (exact (t_lt t HT o Ho)). apply (t_weak t HT); auto.
           ++ intros o l h Hal Hk. pose proof (Kb _ _ Hk) as L. rewrite Kn in Hk by exact L. rewrite Al in Hal. destruct (Nat.eqb_spec o n) as [->|N]; [lia|].
              change (weak (drop n (added 0 t))) with (filter (alive t) (weak t) ++ [n]). rewrite in_app_iff, filter_In. left. split; [eapply (t_in t HT); eauto | exact Hal].
           ++ intros o Ho. change (objs (drop n (added 0 t))) with (objs (added 0 t)). rewrite added_len.
              change (weak (drop n (added 0 t))) with (filter (alive t) (weak t) ++ [n]) in Ho. rewrite in_app_iff, filter_In in Ho. fold n.
              destruct Ho as [[Ho _]|[<-|[]]]; [|lia]. pose proof (t_lt t HT o Ho) as L. fold n in L. lia.
           ++ intros c o H. destruct (t_single t HT c o H) as (c' & E1 & E2 & E3). exists c'. pose proof (kind_lt _ _ _ E2) as L. fold n in L.
              rewrite Kn, Al by exact L. destruct (Nat.eqb_spec o n) as [->|N]; [lia | auto].
           ++ intros o c Hal Hk. pose proof (Kb _ _ Hk) as L. rewrite Kn in Hk by exact L. rewrite Al in Hal. destruct (Nat.eqb_spec o n) as [->|N]; [lia|].
              apply (t_class t HT); auto.
           ++ intros o l h Hk. rewrite Kn in Hk by (eapply Kb; eauto). eapply (t_order t HT); eauto.
        -- constructor.
           ++ intros o w Hk. pose proof (kind_lt _ _ _ Hk) as L. rewrite Kn by exact L. exact Hk.
           ++ intros o Ho. rewrite Al. fold n in Ho. destruct (Nat.eqb_spec o n) as [->|N]; [lia | reflexivity].
           ++ change (objs (drop n (added 0 t))) with (objs (added 0 t)). rewrite added_len. lia.
        -- intros x w Hal Hk. pose proof (Kb _ _ Hk) as L. rewrite Kn in Hk by exact L. rewrite Al in Hal. destruct (Nat.eqb_spec x n) as [->|N]; [lia | right; auto].
Qed.

(** Loading one object: a Logistic is made anew. *)
Lemma duplicate_ok : forall o w t t1 r, T t -> kind t o = Some w -> duplicate o t = (t1, r) ->
  exists o', r = inl o' /\ T t1 /\ ext t t1 /\ kind t1 o' = Some w /\ alive t1 o' = true /\ only t t1 (fun x => x = o') /\
    match w with Class c => forall x, alive t1 x = true -> kind t1 x = Some (Class c) -> x = o' | Bounds _ _ => o' = length (objs t) end.
Proof.
  intros o w t t1 r HT K E. unfold InstModel.duplicate in E. pose proof K as K0. unfold kind in K. destruct (nth_error (objs t) o) as [[c b]|] eqn:En; [|discriminate].
  cbn [tcls bds] in E. destruct c as [|c]; cbn [bbounded Nat.eqb] in E.
  - destruct b as [[lo hi]|]; [|discriminate]. injection K as <-. pose proof (t_order t HT _ _ _ K0) as Lt.
    destruct (new_bounded 0 dflt dflt t) as [s1 q] eqn:EN.
    destruct (new_bounded_cases 0 dflt dflt t s1 q EN) as [(x & -> & -> & Hw & Ha & Hb)|[(-> & -> & x & Hw & Ha & Hb)|(-> & -> & Hn)]].
    + exfalso. destruct (t_weak t HT x Hw Ha) as (l & h & Kx). pose proof (t_order t HT _ _ _ Kx). apply kind_bounds in Kx. destruct Kx as [_ Kx].
      rewrite Kx in Hb. injection Hb as -> ->. lia.
    + exfalso. destruct (t_weak t HT x Hw Ha) as (l & h & Kx). apply kind_bounds in Kx. destruct Kx. congruence.
    + injection E as <- <-. exists (length (objs t)). split; [reflexivity|].
      destruct (T_new t lo hi HT Lt) as (H1 & H2 & H3 & H4 & H5). split; [exact H1|]. split; [exact H2|]. split; [exact H3|]. split; [exact H4|]. split; [exact H5 | reflexivity].
  - injection K as <-. exact (single_ok t c t1 r HT E).
Qed.
End Calls.
