(** Proofs about cachers. *)
From Coq Require Import List ZArith NArith Bool Ascii Lia Permutation.
From Verif Require Import CachingModel CachingSpec CachingKeys.
Import ListNotations.

Definition count (l : list key) (k : key) : nat := count_occ key_dec l k.
Definition ocount (l : list nat) (o : nat) : nat := count_occ Nat.eq_dec l o.
Arguments ocount : simpl never.
Arguments count : simpl never.

(** ** The id table. *)
Lemma iget_iset : forall l k v k', iget (iset l k v) k' = if key_eqb k' k then Some v else iget l k'.
Proof.
  induction l as [|[a b] l IH]; intros k v k'; simpl.
  - reflexivity.
  - destruct (key_eqb k a) eqn:Ha; simpl.
    + apply key_eqb_eq in Ha. subst a. destruct (key_eqb k' k) eqn:Hk; reflexivity.
    + rewrite IH. destruct (key_eqb k' a) eqn:Hk; [|reflexivity].
      apply key_eqb_eq in Hk. subst a.
      rewrite key_eqb_neq; [reflexivity|]. intros ->. rewrite key_eqb_refl in Ha. discriminate.
Qed.
Lemma iget_none : forall l k, ~ In k (map fst l) -> iget l k = None.
Proof.
  induction l as [|[a b] l IH]; intros k Hk; simpl in *; [reflexivity|].
  rewrite key_eqb_neq by (intros ->; tauto). apply IH. tauto.
Qed.
Lemma iget_idel : forall l k k', NoDup (map fst l) ->
  iget (idel l k) k' = if key_eqb k' k then None else iget l k'.
Proof.
  induction l as [|[a b] l IH]; intros k k' Hn; simpl in *.
  - destruct (key_eqb k' k); reflexivity.
  - inversion Hn as [|? ? Ha Hl]; subst.
    destruct (key_eqb k a) eqn:Hk; simpl.
    + apply key_eqb_eq in Hk. subst a. destruct (key_eqb k' k) eqn:Hk'; [|reflexivity].
      apply key_eqb_eq in Hk'. subst. apply iget_none; assumption.
    + rewrite IH by assumption. destruct (key_eqb k' a) eqn:Hk'; [|reflexivity].
      apply key_eqb_eq in Hk'. subst a.
      rewrite key_eqb_neq; [reflexivity|]. intros ->. rewrite key_eqb_refl in Hk. discriminate.
Qed.
Lemma iset_keys : forall l k v x, In x (map fst (iset l k v)) -> x = k \/ In x (map fst l).
Proof.
  induction l as [|[a b] l IH]; intros k v x; simpl.
  - intros [H|[]]; auto.
  - destruct (key_eqb k a) eqn:Ha; simpl; intros [H|H]; auto.
    apply IH in H. tauto.
Qed.
Lemma iset_nodup : forall l k v, NoDup (map fst l) -> NoDup (map fst (iset l k v)).
Proof.
  induction l as [|[a b] l IH]; intros k v Hn; simpl in *.
  - constructor; [auto | constructor].
  - inversion Hn as [|? ? Ha Hl]; subst. destruct (key_eqb k a) eqn:Hk; simpl.
    + apply key_eqb_eq in Hk. subst. assumption.
    + constructor; [|auto]. intros Hin. apply iset_keys in Hin. destruct Hin as [-> | Hin]; [|auto].
      rewrite key_eqb_refl in Hk. discriminate.
Qed.
Lemma idel_keys : forall l k x, In x (map fst (idel l k)) -> In x (map fst l).
Proof.
  induction l as [|[a b] l IH]; intros k x; simpl; [tauto|].
  destruct (key_eqb k a); simpl; [auto|]. intros [H|H]; [auto|]. right. eauto.
Qed.
Lemma idel_nodup : forall l k, NoDup (map fst l) -> NoDup (map fst (idel l k)).
Proof.
  induction l as [|[a b] l IH]; intros k Hn; simpl in *; [constructor|].
  inversion Hn as [|? ? Ha Hl]; subst. destruct (key_eqb k a); simpl; [assumption|].
  constructor; [|auto]. intros Hin. apply idel_keys in Hin. auto.
Qed.
Lemma iget_in : forall l k v, iget l k = Some v -> In (k, v) l.
Proof.
  induction l as [|[a b] l IH]; intros k v; simpl; [discriminate|].
  destruct (key_eqb k a) eqn:Hk.
  - apply key_eqb_eq in Hk. subst. intros [= ->]. auto.
  - auto.
Qed.

Lemma list_remove1_count : forall l k, (0 < count l k)%nat ->
  exists l', list_remove1 k l = Some l' /\ S (length l') = length l /\
  forall k', count l' k' = if key_eqb k' k then pred (count l k') else count l k'.
Proof.
  induction l as [|a l IH]; intros k Hk; unfold count in *; simpl in *; [lia|].
  destruct (key_eqb k a) eqn:Ha.
  - apply key_eqb_eq in Ha. subst a. exists l. repeat split; auto. intros k'.
    destruct (key_dec k k') as [<-|Hn].
    + rewrite key_eqb_refl. lia.
    + rewrite key_eqb_neq by congruence. reflexivity.
  - destruct (key_dec a k) as [->|Hn]; [rewrite key_eqb_refl in Ha; discriminate|].
    destruct (IH k Hk) as (l' & -> & Hlen & Hc). exists (a :: l'). simpl.
    repeat split; auto. intros k'. rewrite Hc.
    destruct (key_dec a k') as [<-|Hn']; [|reflexivity].
    rewrite key_eqb_neq by congruence. reflexivity.
Qed.

Lemma count_snoc : forall l a k, count (l ++ [a]) k = (count l k + (if key_eqb k a then 1 else 0))%nat.
Proof.
  intros. unfold count. rewrite count_occ_app. simpl. f_equal.
  destruct (key_dec a k) as [->|Hn]; [rewrite key_eqb_refl; auto|].
  rewrite key_eqb_neq by congruence. reflexivity.
Qed.

Lemma len1_count : forall l k, length l = 1%nat -> (0 < count l k)%nat -> l = [k].
Proof.
  intros [|a [|b l]] k Hl Hc; simpl in Hl; try lia. unfold count in Hc; simpl in Hc.
  destruct (key_dec a k); [congruence | lia].
Qed.

Section P.
Variables C V E : Type.
Variable F : list C -> list (nat * C) -> V + E.
Notation world := (world C).
Notation cacher := (cacher V).

Definition isobs (w : world) (o : nat) : Prop := live w o = true /\ kindof w o = KObs.

Definition okw (w : world) : Prop :=
  (forall a b, live w a = true -> live w b = true -> addr w a = addr w b -> a = b) /\
  (forall a b, olist w a = olist w b -> a = b).

Lemma okey_inj : forall w a b, okw w -> live w a = true -> live w b = true ->
  oid_key w a = oid_key w b -> a = b.
Proof. intros w a b [H _] Ha Hb He. apply H; auto. apply hex_inj. exact He. Qed.

Record tbl (w : world) (ids : list (key * (nat * list key))) (n : nat -> key -> nat) : Prop := {
  t_nodup : NoDup (map fst ids);
  t_some : forall k r l, iget ids k = Some (r, l) ->
     isobs w r /\ k = oid_key w r /\ l <> [] /\ forall cid, count l cid = n r cid;
  t_none : forall o, isobs w o -> iget ids (oid_key w o) = None -> forall cid, n o cid = 0%nat;
  t_reg : forall o, isobs w o ->
     regs w (olist w o) = match iget ids (oid_key w o) with Some _ => 1%nat | None => 0%nat end;
  t_unreg : forall o, ~ isobs w o -> regs w (olist w o) = 0%nat }.

Lemma tbl_ext : forall w ids n n', tbl w ids n ->
  (forall o cid, isobs w o -> n o cid = n' o cid) -> tbl w ids n'.
Proof.
  intros w ids n n' T H. destruct T as [T1 T2 T3 T4 T5]. constructor; auto.
  - intros k r l Hk. destruct (T2 k r l Hk) as (Ho & Hr & Hl & Hc). repeat split; auto.
    + apply Ho. + apply Ho. + intros. rewrite Hc. auto.
  - intros o Ho Hn cid. rewrite <- H by assumption. auto.
Qed.

(** Worlds that differ in registrations only. *)
Definition regs_only (w w' : world) : Prop := w' = set_regs w (regs w').
Lemma regs_only_refl : forall w, regs_only w w.
Proof. intros []. reflexivity. Qed.
Lemma regs_only_trans : forall a b c, regs_only a b -> regs_only b c -> regs_only a c.
Proof. unfold regs_only. intros a b c H1 H2. rewrite H2. rewrite H1. reflexivity. Qed.
Lemma regs_only_rem : forall w o, regs_only w (rem_obs w o).
Proof. reflexivity. Qed.
Lemma regs_only_add : forall w o, regs_only w (add_obs w o).
Proof. reflexivity. Qed.

Lemma ocount_cons : forall x l o, ocount (x :: l) o = ((if Nat.eqb x o then 1 else 0) + ocount l o)%nat.
Proof.
  intros. unfold ocount. simpl. destruct (Nat.eq_dec x o) as [->|Hn].
  - rewrite Nat.eqb_refl. reflexivity.
  - rewrite (proj2 (Nat.eqb_neq x o)) by assumption. reflexivity.
Qed.
Lemma ocount_in : forall l o, (0 < ocount l o)%nat <-> In o l.
Proof. intros. unfold ocount. rewrite (count_occ_In Nat.eq_dec). lia. Qed.

Definition good_in (w : world) (o : nat) : Prop := live w o = true /\ kindof w o <> KOther.

Lemma release_spec : forall ins cid w ids n, okw w -> tbl w ids n ->
  Forall (good_in w) ins ->
  (forall o, isobs w o -> (ocount ins o <= n o cid)%nat) ->
  exists w' ids', release cid ins w ids = Some (w', ids') /\ regs_only w w' /\
    tbl w' ids' (fun o k => if key_eqb k cid then (n o k - ocount ins o)%nat else n o k).
Proof.
  induction ins as [|o ins IH]; intros cid w ids n Hw T Hg Hc; simpl.
  - exists w, ids. split; [reflexivity|]. split; [apply regs_only_refl|].
    eapply tbl_ext; [exact T|]. intros. unfold ocount; simpl.
    destruct (key_eqb cid0 cid); lia.
  - inversion Hg as [|? ? [Hlo Hko] Hg']; subst.
    destruct (iget ids (oid_key w o)) as [[ref cids]|] eqn:Hi.
    + destruct (t_some _ _ _ T _ _ _ Hi) as (Hobs & Hk & Hne & Hcnt).
      assert (ref = o) by (symmetry; eapply okey_inj; eauto; apply Hobs). subst ref.
      assert (Hpos : (0 < count cids cid)%nat).
      { rewrite Hcnt. specialize (Hc o Hobs). rewrite ocount_cons, Nat.eqb_refl in Hc. lia. }
      rewrite Hlo, andb_true_r.
      destruct (Nat.eqb (length cids) 1) eqn:Hl1.
      * apply Nat.eqb_eq in Hl1.
        pose proof (len1_count _ _ Hl1 Hpos). subst cids.
        assert (Hn1 : n o cid = 1%nat).
        { rewrite <- Hcnt. unfold count; simpl. destruct (key_dec cid cid); congruence. }
        assert (Hn0 : forall k, k <> cid -> n o k = 0%nat).
        { intros k Hkc. rewrite <- Hcnt. unfold count; simpl. destruct (key_dec cid k); congruence. }
        assert (Hz : ocount ins o = 0%nat).
        { specialize (Hc o Hobs). rewrite ocount_cons, Nat.eqb_refl in Hc. lia. }
        set (n1 := fun x k => if Nat.eqb x o then 0%nat else n x k).
        assert (Hw1 : okw (rem_obs w o)) by exact Hw.
        assert (T1 : tbl (rem_obs w o) (idel ids (oid_key w o)) n1).
        { destruct T as [T1 T2 T3 T4 T5].
          assert (Hsame : forall x, isobs (rem_obs w o) x <-> isobs w x) by (intros; reflexivity).
          constructor.
          - apply idel_nodup; assumption.
          - intros k r l Hkr. rewrite iget_idel in Hkr by assumption.
            destruct (key_eqb k (oid_key w o)) eqn:Hkk; [discriminate|].
            destruct (T2 _ _ _ Hkr) as (A & B & D & G). split; [exact A|]. split; [exact B|].
            split; [exact D|]. intros c0. unfold n1.
            destruct (Nat.eqb_spec r o) as [->|Hro]; [|auto].
            subst k. rewrite key_eqb_refl in Hkk. discriminate.
          - intros x Hx Hn cid0. change (oid_key (rem_obs w o) x) with (oid_key w x) in Hn.
            rewrite iget_idel in Hn by assumption. unfold n1.
            destruct (Nat.eqb_spec x o) as [->|Hxo]; [reflexivity|].
            apply T3; auto. destruct (key_eqb (oid_key w x) (oid_key w o)) eqn:Hkk; [|auto].
            apply key_eqb_eq in Hkk. exfalso. apply Hxo. eapply okey_inj; eauto. apply Hx.
          - intros x Hx. change (oid_key (rem_obs w o) x) with (oid_key w x).
            rewrite iget_idel by assumption.
            change (olist (rem_obs w o) x) with (olist w x). simpl.
            destruct (Nat.eqb_spec (olist w x) (olist w o)) as [He|He].
            + apply (proj2 Hw) in He. subst x. rewrite key_eqb_refl. reflexivity.
            + rewrite key_eqb_neq. * apply T4. exact Hx.
              * intros Hkk. apply He. f_equal. eapply okey_inj; eauto. apply Hx.
          - intros x Hx. simpl. destruct (Nat.eqb_spec (olist w x) (olist w o)); [reflexivity|].
            apply T5. exact Hx. }
        destruct (IH cid (rem_obs w o) (idel ids (oid_key w o)) n1 Hw1 T1 Hg') as (w' & ids' & Hr & Hro & T').
        { intros x Hx. unfold n1. destruct (Nat.eqb_spec x o) as [->|Hxo]; [lia|].
          specialize (Hc x Hx). rewrite ocount_cons in Hc. lia. }
        exists w', ids'. split; [exact Hr|]. split.
        { eapply regs_only_trans; [apply regs_only_rem | exact Hro]. }
        eapply tbl_ext; [exact T'|]. intros x k Hx. simpl. unfold n1. rewrite ocount_cons.
        rewrite (Nat.eqb_sym o x).
        destruct (Nat.eqb_spec x o) as [->|Hxo].
        { destruct (key_eqb k cid) eqn:Hkc.
          - apply key_eqb_eq in Hkc. subst. lia.
          - assert (k <> cid) by (intros ->; rewrite key_eqb_refl in Hkc; discriminate).
            rewrite Hn0; auto. }
        { destruct (key_eqb k cid); lia. }
      * destruct (list_remove1_count _ _ Hpos) as (cids' & Hrm & Hlen & Hcc). rewrite Hrm.
        assert (Hne' : cids' <> []).
        { intros ->. simpl in Hlen. rewrite <- Hlen in Hl1. discriminate. }
        set (n1 := fun x k => if Nat.eqb x o && key_eqb k cid then pred (n x k) else n x k).
        assert (T1 : tbl w (iset ids (oid_key w o) (o, cids')) n1).
        { destruct T as [T1 T2 T3 T4 T5]. constructor.
          - apply iset_nodup; assumption.
          - intros k r l Hkr. rewrite iget_iset in Hkr.
            destruct (key_eqb k (oid_key w o)) eqn:Hkk.
            + apply key_eqb_eq in Hkk. injection Hkr as <- <-. split; [exact Hobs|].
              split; [exact Hkk|]. split; [exact Hne'|]. intros c0. rewrite Hcc. unfold n1.
              rewrite Nat.eqb_refl, !Hcnt. simpl. reflexivity.
            + destruct (T2 _ _ _ Hkr) as (A & B & D & G). split; [exact A|]. split; [exact B|].
              split; [exact D|]. intros c0. unfold n1.
              destruct (Nat.eqb_spec r o) as [->|Hro]; [|simpl; auto].
              subst k. rewrite key_eqb_refl in Hkk. discriminate.
          - intros x Hx Hn cid0. rewrite iget_iset in Hn.
            destruct (key_eqb (oid_key w x) (oid_key w o)) eqn:Hkk; [discriminate|].
            unfold n1. destruct (Nat.eqb_spec x o) as [->|Hxo].
            + rewrite key_eqb_refl in Hkk. discriminate.
            + simpl. apply T3; auto.
          - intros x Hx. rewrite iget_iset. rewrite T4 by exact Hx.
            destruct (key_eqb (oid_key w x) (oid_key w o)) eqn:Hkk; [|reflexivity].
            apply key_eqb_eq in Hkk. rewrite Hkk, Hi. reflexivity.
          - exact T5. }
        destruct (IH cid w _ n1 Hw T1 Hg') as (w' & ids' & Hr & Hro & T').
        { intros x Hx. unfold n1. specialize (Hc x Hx). rewrite ocount_cons in Hc.
          rewrite key_eqb_refl, andb_true_r, Nat.eqb_sym.
          destruct (Nat.eqb o x); lia. }
        exists w', ids'. split; [exact Hr|]. split; [exact Hro|].
        eapply tbl_ext; [exact T'|]. intros x k Hx. simpl. unfold n1. rewrite ocount_cons.
        rewrite (Nat.eqb_sym o x). destruct (key_eqb k cid); [|rewrite andb_false_r; reflexivity].
        rewrite andb_true_r. destruct (Nat.eqb x o); lia.
    + destruct (IH cid w ids n Hw T Hg') as (w' & ids' & Hr & Hro & T').
      { intros x Hx. specialize (Hc x Hx). rewrite ocount_cons in Hc. lia. }
      exists w', ids'. split; [exact Hr|]. split; [exact Hro|].
      eapply tbl_ext; [exact T'|]. intros x k Hx. simpl. rewrite ocount_cons.
      destruct (Nat.eqb_spec o x) as [<-|Hox]; [|reflexivity].
      assert (Hx' : isobs w o).
      { rewrite Hro in Hx. exact Hx. }
      rewrite (t_none _ _ _ T o Hx' Hi). destruct (key_eqb k cid); reflexivity.
Qed.

Lemma acquire_spec : forall ins cid w ids n, okw w -> tbl w ids n ->
  Forall (good_in w) ins ->
  exists w' ids', acquire cid ins w ids = (w', ids') /\ regs_only w w' /\
    tbl w' ids' (fun o k => if key_eqb k cid then (n o k + ocount ins o)%nat else n o k).
Proof.
  induction ins as [|o ins IH]; intros cid w ids n Hw T Hg; simpl.
  - exists w, ids. split; [reflexivity|]. split; [apply regs_only_refl|].
    eapply tbl_ext; [exact T|]. intros. unfold ocount; simpl.
    destruct (key_eqb cid0 cid); lia.
  - inversion Hg as [|? ? [Hlo Hko] Hg']; subst.
    destruct (kindof w o) eqn:Hkind; [| | congruence].
    + assert (Hobs : isobs w o) by (split; assumption).
      set (v := match iget ids (oid_key w o) with Some v => v | None => (o, []) end).
      assert (Hv : v = (o, snd v) /\ forall c0, count (snd v) c0 = n o c0).
      { unfold v. destruct (iget ids (oid_key w o)) as [[r l]|] eqn:Hi.
        - destruct (t_some _ _ _ T _ _ _ Hi) as (A & B & D & G).
          assert (r = o) by (symmetry; eapply okey_inj; eauto; apply A). subst. auto.
        - split; [reflexivity|]. intros. simpl. rewrite (t_none _ _ _ T o Hobs Hi). reflexivity. }
      assert (Hlen0 : length (snd v ++ [cid]) = 1%nat <-> iget ids (oid_key w o) = None).
      { unfold v. destruct (iget ids (oid_key w o)) as [[r l]|] eqn:Hi.
        - destruct (t_some _ _ _ T _ _ _ Hi) as (A & B & D & G). simpl.
          rewrite app_length. simpl. destruct l; [congruence|]. simpl. split; [lia | discriminate].
        - simpl. tauto. }
      destruct Hv as [Hv Hcnt]. rewrite Hv. set (cids := snd v) in *.
      set (w1 := if Nat.eqb (length (cids ++ [cid])) 1 then add_obs w o else w).
      set (n1 := fun x k => if Nat.eqb x o && key_eqb k cid then S (n x k) else n x k).
      assert (Hro1 : regs_only w w1).
      { unfold w1. destruct (Nat.eqb _ 1); [apply regs_only_add | apply regs_only_refl]. }
      assert (Hw1 : okw w1) by (rewrite Hro1; exact Hw).
      assert (Hob1 : forall x, isobs w1 x <-> isobs w x) by (intros; rewrite Hro1; reflexivity).
      assert (Hkey1 : forall x, oid_key w1 x = oid_key w x) by (intros; rewrite Hro1; reflexivity).
      assert (Hol1 : forall x, olist w1 x = olist w x) by (intros; rewrite Hro1; reflexivity).
      assert (T1 : tbl w1 (iset ids (oid_key w o) (o, cids ++ [cid])) n1).
      { constructor.
        - apply iset_nodup; apply T.
        - intros k r l Hkr. rewrite Hob1, Hkey1. rewrite iget_iset in Hkr.
          destruct (key_eqb k (oid_key w o)) eqn:Hkk.
          + apply key_eqb_eq in Hkk. injection Hkr as <- <-. split; [exact Hobs|].
            split; [exact Hkk|]. split; [destruct cids; discriminate|]. intros c0.
            rewrite count_snoc, Hcnt. unfold n1. rewrite Nat.eqb_refl. simpl.
            destruct (key_eqb c0 cid); lia.
          + destruct (t_some _ _ _ T _ _ _ Hkr) as (A & B & D & G). split; [exact A|].
            split; [exact B|]. split; [exact D|]. intros c0. unfold n1.
            destruct (Nat.eqb_spec r o) as [->|Hr]; [|simpl; auto].
            subst k. rewrite key_eqb_refl in Hkk. discriminate.
        - intros x Hx Hn c0. rewrite Hob1 in Hx. rewrite Hkey1, iget_iset in Hn.
          destruct (key_eqb (oid_key w x) (oid_key w o)) eqn:Hkk; [discriminate|].
          unfold n1. destruct (Nat.eqb_spec x o) as [->|Hxo].
          + rewrite key_eqb_refl in Hkk. discriminate.
          + simpl. eapply t_none; eauto.
        - intros x Hx. rewrite Hob1 in Hx. rewrite Hkey1, Hol1, iget_iset. unfold w1.
          destruct (key_eqb (oid_key w x) (oid_key w o)) eqn:Hkk.
          + apply key_eqb_eq in Hkk.
            assert (x = o) by (apply (okey_inj w x o Hw); [apply Hx | exact Hlo | exact Hkk]). subst x.
            destruct (Nat.eqb (length (cids ++ [cid])) 1) eqn:Hl.
            * apply Nat.eqb_eq in Hl. simpl. rewrite Nat.eqb_refl.
              rewrite (t_reg _ _ _ T o Hobs). apply Hlen0 in Hl. rewrite Hl. reflexivity.
            * rewrite (t_reg _ _ _ T o Hobs).
              destruct (iget ids (oid_key w o)) eqn:Hi; [reflexivity|].
              apply Nat.eqb_neq in Hl. exfalso. apply Hl. apply Hlen0. reflexivity.
          + assert (Hxo : x <> o) by (intros ->; rewrite key_eqb_refl in Hkk; discriminate).
            rewrite <- (t_reg _ _ _ T x Hx).
            destruct (Nat.eqb (length (cids ++ [cid])) 1); [|reflexivity]. simpl.
            destruct (Nat.eqb_spec (olist w x) (olist w o)) as [He|He]; [|reflexivity].
            apply (proj2 Hw) in He. congruence.
        - intros x Hx. rewrite Hob1 in Hx. rewrite Hol1. unfold w1.
          destruct (Nat.eqb (length (cids ++ [cid])) 1); [|apply T; exact Hx]. simpl.
          destruct (Nat.eqb_spec (olist w x) (olist w o)) as [He|He].
          + apply (proj2 Hw) in He. subst. tauto.
          + apply T. exact Hx. }
      assert (Hg1 : Forall (good_in w1) ins) by (rewrite Hro1; exact Hg').
      destruct (IH cid w1 _ n1 Hw1 T1 Hg1) as (w' & ids' & Hr & Hro & T').
      exists w', ids'. split; [exact Hr|]. split; [eapply regs_only_trans; eauto|].
      eapply tbl_ext; [exact T'|]. intros x k Hx. simpl. unfold n1. rewrite ocount_cons.
      rewrite (Nat.eqb_sym o x). destruct (key_eqb k cid); [|rewrite andb_false_r; reflexivity].
      rewrite andb_true_r. destruct (Nat.eqb x o); lia.
    + destruct (IH cid w ids n Hw T Hg') as (w' & ids' & Hr & Hro & T').
      exists w', ids'. split; [exact Hr|]. split; [exact Hro|].
      eapply tbl_ext; [exact T'|]. intros x k Hx. simpl. rewrite ocount_cons.
      destruct (Nat.eqb_spec o x) as [<-|Hox]; [|reflexivity].
      rewrite Hro in Hx. destruct Hx as [_ Hx]. simpl in Hx. congruence.
Qed.

(** ** The invariant. *)
Definition cnt (c : cacher) (o : nat) (k : key) : nat :=
  match c_in c k with Some ins => ocount ins o | None => 0%nat end.

Record inv (sg : signature) (w : world) (c : cacher) : Prop := {
  i_w : okw w;
  i_lim : (1 <= limit c)%Z;
  i_len : (Z.of_nat (length (order c)) <= limit c)%Z;
  i_nodup : NoDup (order c);
  i_in : forall k, In k (order c) <-> c_in c k <> None;
  i_out : forall k, In k (order c) <-> c_out c k <> None;
  i_chg : forall k, In k (order c) <-> c_chg c k <> None;
  i_entry : forall k ins, c_in c k = Some ins ->
     k = prepare_cache_id (map (addr w) ins) /\ Forall (good_in w) ins;
  i_tbl : tbl w (c_ids c) (cnt c);
  i_ign : respects_ignore F (ignore c);
  i_coh : forall k ins, c_in c k = Some ins -> c_chg c k = Some false ->
     exists v, c_out c k = Some v /\
     forall args kw, has_sig sg args kw -> combine_inputs (ignore c) args kw = ins ->
       operate F w args kw = inl v }.

Lemma mset_same : forall A (m : key -> option A) k v, mset m k v k = v.
Proof. intros. unfold mset. rewrite key_eqb_refl. reflexivity. Qed.
Lemma mset_other : forall A (m : key -> option A) k v k', k' <> k -> mset m k v k' = m k'.
Proof. intros. unfold mset. rewrite key_eqb_neq by assumption. reflexivity. Qed.

Definition same_conf (c c' : cacher) : Prop :=
  limit c' = limit c /\ ignore c' = ignore c /\ force c' = force c /\ enabled c' = enabled c.

Lemma ensure_spec : forall sg w c, inv sg w c ->
  exists w1 c1, ensure_cache_length w c = inl (w1, c1) /\ regs_only w w1 /\ inv sg w1 c1 /\
    same_conf c c1 /\ (Z.of_nat (length (order c1)) < limit c1)%Z /\
    order c1 = (if Z.eqb (Z.of_nat (length (order c))) (limit c) then tl (order c) else order c) /\
    (forall k, In k (order c1) -> c_in c1 k = c_in c k /\ c_out c1 k = c_out c k /\ c_chg c1 k = c_chg c k) /\
    (forall k, c_in c k = None -> c_in c1 k = None).
Proof.
  intros sg w c H. unfold ensure_cache_length.
  destruct (Z.eqb_spec (Z.of_nat (length (order c))) (limit c)) as [Hfull|Hnf].
  2:{ exists w, c. split; [reflexivity|]. split; [apply regs_only_refl|]. split; [exact H|].
      split; [repeat split|]. split; [pose proof (i_len _ _ _ H); lia|]. split; [reflexivity|].
      split; auto. }
  destruct (order c) as [|cid rest] eqn:Ho.
  { pose proof (i_lim _ _ _ H). simpl in Hfull. lia. }
  pose proof (i_in _ _ _ H cid) as Hin. rewrite Ho in Hin.
  destruct (c_in c cid) as [ins|] eqn:Hci; [| exfalso; apply Hin; [left; reflexivity | reflexivity]].
  destruct (i_entry _ _ _ H _ _ Hci) as [Hk Hg].
  destruct (release_spec ins cid w (c_ids c) (cnt c) (i_w _ _ _ H) (i_tbl _ _ _ H) Hg)
    as (w' & ids' & Hr & Hro & T').
  { intros o Hob. unfold cnt. rewrite Hci. lia. }
  rewrite Hr. eexists w', _. split; [reflexivity|]. split; [exact Hro|].
  pose proof (i_nodup _ _ _ H) as Hnd. rewrite Ho in Hnd. apply NoDup_cons_iff in Hnd; destruct Hnd as [Hnin Hnd'].
  assert (Hm : forall A (m : key -> option A), (forall k, In k (cid :: rest) <-> m k <> None) ->
     forall k, In k rest <-> mset m cid None k <> None).
  { intros A m Hm k. destruct (key_dec k cid) as [->|Hne].
    - rewrite mset_same. tauto.
    - rewrite mset_other by assumption. rewrite <- Hm. simpl. intuition congruence. }
  split.
  { constructor; simpl.
    - rewrite Hro. apply H.
    - apply H.
    - rewrite <- Hfull. simpl. lia.
    - exact Hnd'.
    - apply Hm. rewrite <- Ho. apply H.
    - apply Hm. rewrite <- Ho. apply H.
    - apply Hm. rewrite <- Ho. apply H.
    - intros k ins0 Hk0. unfold mset in Hk0.
      destruct (key_eqb k cid); [discriminate|].
      rewrite Hro. exact (i_entry _ _ _ H _ _ Hk0).
    - eapply tbl_ext; [exact T'|]. intros o k Hob. simpl. unfold cnt; simpl. unfold mset.
      destruct (key_eqb k cid) eqn:Hkk; [|reflexivity].
      apply key_eqb_eq in Hkk. subst k. rewrite Hci. lia.
    - apply H.
    - intros k ins0 Hk0 Hc0. unfold mset in *.
      destruct (key_eqb k cid); [discriminate|].
      rewrite Hro. exact (i_coh _ _ _ H _ _ Hk0 Hc0). }
  split; [repeat split|]. split; [simpl; rewrite <- Hfull; simpl; lia|].
  split; [reflexivity|]. split.
  { simpl. intros k Hkr. rewrite !mset_other by (intros ->; auto). auto. }
  simpl. intros k Hk0. unfold mset. destruct (key_eqb k _); auto.
Qed.

Lemma add_spec : forall sg w c cid ins v, inv sg w c ->
  (Z.of_nat (length (order c)) < limit c)%Z -> c_in c cid = None ->
  cid = prepare_cache_id (map (addr w) ins) -> Forall (good_in w) ins ->
  (forall args kw, has_sig sg args kw -> combine_inputs (ignore c) args kw = ins ->
       operate F w args kw = inl v) ->
  exists w' c', add_to_cache w c cid ins v = (w', c') /\ regs_only w w' /\ inv sg w' c' /\
    same_conf c c' /\ order c' = order c ++ [cid] /\
    c_in c' = mset (c_in c) cid (Some ins) /\ c_out c' = mset (c_out c) cid (Some v) /\
    c_chg c' = mset (c_chg c) cid (Some false).
Proof.
  intros sg w c cid ins v H Hlen Hnone Hcid Hg Hop. unfold add_to_cache.
  destruct (acquire_spec ins cid w (c_ids c) (cnt c) (i_w _ _ _ H) (i_tbl _ _ _ H) Hg)
    as (w' & ids' & Hr & Hro & T').
  rewrite Hr. eexists w', _. split; [reflexivity|]. split; [exact Hro|].
  assert (Hnin : ~ In cid (order c)).
  { rewrite (i_in _ _ _ H). tauto. }
  assert (Hm : forall A (m : key -> option A) x, (forall k, In k (order c) <-> m k <> None) ->
     forall k, In k (order c ++ [cid]) <-> mset m cid (Some x) k <> None).
  { intros A m x Hm k. rewrite in_app_iff, Hm. simpl.
    destruct (key_dec k cid) as [->|Hne].
    - rewrite mset_same. split; [discriminate | auto].
    - rewrite mset_other by assumption. intuition congruence. }
  split.
  { constructor; simpl.
    - rewrite Hro. apply H.
    - apply H.
    - rewrite app_length. simpl. lia.
    - apply (Permutation_NoDup (l := cid :: order c)).
      + apply Permutation_cons_append.
      + constructor; [assumption | apply H].
    - apply Hm. apply H.
    - apply Hm. apply H.
    - apply Hm. apply H.
    - intros k ins0 Hk0. unfold mset in Hk0. rewrite Hro.
      destruct (key_eqb k cid) eqn:Hkk.
      + apply key_eqb_eq in Hkk. injection Hk0 as <-. subst k. split; assumption.
      + exact (i_entry _ _ _ H _ _ Hk0).
    - eapply tbl_ext; [exact T'|]. intros o k Hob. simpl. unfold cnt; simpl. unfold mset.
      destruct (key_eqb k cid) eqn:Hkk; [|reflexivity].
      apply key_eqb_eq in Hkk. rewrite Hkk, Hnone. reflexivity.
    - apply H.
    - intros k ins0 Hk0 Hc0. unfold mset in *. destruct (key_eqb k cid) eqn:Hkk.
      + injection Hk0 as <-. exists v. split; [reflexivity|]. rewrite Hro. exact Hop.
      + rewrite Hro. exact (i_coh _ _ _ H _ _ Hk0 Hc0). }
  repeat split.
Qed.

Lemma rem_fold_regs : forall (l : list (key * (nat * list key))) w,
  regs_only w (fold_left (fun w e => if live w (fst (snd e)) then rem_obs w (fst (snd e)) else w) l w).
Proof.
  induction l as [|[k [r cids]] l IH]; intros w; simpl; [apply regs_only_refl|].
  eapply regs_only_trans; [|apply IH]. destruct (live w r); [apply regs_only_rem | apply regs_only_refl].
Qed.
Lemma rem_fold_zero : forall (l : list (key * (nat * list key))) (w : world) x, regs w x = 0%nat ->
  regs (fold_left (fun w e => if live w (fst (snd e)) then rem_obs w (fst (snd e)) else w) l w) x = 0%nat.
Proof.
  induction l as [|[k [r cids]] l IH]; intros w x Hx; simpl; [assumption|]. apply IH.
  destruct (live w r); [|assumption]. simpl. destruct (Nat.eqb x (olist w r)); auto.
Qed.
Lemma rem_fold_in : forall (l : list (key * (nat * list key))) (w : world) k o cids, In (k, (o, cids)) l -> live w o = true ->
  regs (fold_left (fun w e => if live w (fst (snd e)) then rem_obs w (fst (snd e)) else w) l w)
       (olist w o) = 0%nat.
Proof.
  induction l as [|[k' [r cids']] l IH]; intros w k o cids Hin Hl; simpl; [destruct Hin|].
  destruct Hin as [Heq|Hin].
  - injection Heq as -> -> ->. rewrite Hl. apply rem_fold_zero. simpl. rewrite Nat.eqb_refl. reflexivity.
  - destruct (live w r).
    + change (olist w o) with (olist (rem_obs w r) o). eapply IH; eauto.
    + eapply IH; eauto.
Qed.

Lemma reset_spec : forall sg w c, inv sg w c ->
  exists w' c', reset w c = (w', c') /\ regs_only w w' /\ inv sg w' c' /\ same_conf c c' /\
    order c' = [] /\ (forall o, regs w' (olist w' o) = 0%nat).
Proof.
  intros sg w c H. unfold reset. eexists _, _. split; [reflexivity|].
  set (w' := fold_left _ _ _). assert (Hro : regs_only w w') by apply rem_fold_regs.
  assert (Hz : forall o, regs w' (olist w' o) = 0%nat).
  { intros o. assert (Hol : olist w' o = olist w o) by (rewrite Hro; reflexivity). rewrite Hol.
    destruct (live w o) eqn:Hl.
    - destruct (kindof w o) eqn:Hk.
      + assert (Hob : isobs w o) by (split; assumption).
        pose proof (t_reg _ _ _ (i_tbl _ _ _ H) o Hob) as Hreg.
        destruct (iget (c_ids c) (oid_key w o)) as [[r l]|] eqn:Hi.
        * destruct (t_some _ _ _ (i_tbl _ _ _ H) _ _ _ Hi) as (A & B & _).
          assert (r = o).
          { symmetry. apply (okey_inj w o r (i_w _ _ _ H) Hl (proj1 A) B). }
          subst r. unfold w'. eapply rem_fold_in; [|exact Hl]. apply iget_in. exact Hi.
        * apply rem_fold_zero. assumption.
      + apply rem_fold_zero. apply (t_unreg _ _ _ (i_tbl _ _ _ H)). intros [_ ?]; congruence.
      + apply rem_fold_zero. apply (t_unreg _ _ _ (i_tbl _ _ _ H)). intros [_ ?]; congruence.
    - apply rem_fold_zero. apply (t_unreg _ _ _ (i_tbl _ _ _ H)). intros [? _]; congruence. }
  split; [exact Hro|]. split.
  { constructor; simpl.
    - rewrite Hro. apply H.
    - apply H.
    - pose proof (i_lim _ _ _ H). lia.
    - constructor.
    - intros; tauto.
    - intros; tauto.
    - intros; tauto.
    - discriminate.
    - constructor; simpl.
      + constructor.
      + discriminate.
      + reflexivity.
      + intros; apply Hz.
      + intros; apply Hz.
    - apply H.
    - discriminate. }
  repeat split; auto.
Qed.

(** ** One call. *)
Definition pend_ok (w : world) (c : cacher) (p : pending) : Prop :=
  p_cid p = prepare_cache_id (map (addr w) (p_ins p)) /\ Forall (good_in w) (p_ins p) /\
  (if p_changed p then c_in c (p_cid p) = Some (p_ins p) else c_in c (p_cid p) = None).

Lemma end_call_spec : forall sg w c p (r : V + E), inv sg w c -> pend_ok w c p ->
  (forall v, r = inl v -> forall args kw, has_sig sg args kw ->
     combine_inputs (ignore c) args kw = p_ins p -> operate F w args kw = inl v) ->
  exists w' c', end_call w c p r = (to_result r, w', c') /\ regs_only w w' /\ inv sg w' c' /\
    same_conf c c'.
Proof.
  intros sg w c p r H (Hcid & Hg & Hp) Hop. unfold end_call. destruct r as [v|e].
  - specialize (Hop v eq_refl). destruct (p_changed p).
    + eexists w, _. split; [reflexivity|]. split; [apply regs_only_refl|].
      assert (Hin : In (p_cid p) (order c)) by (apply (i_in _ _ _ H); congruence).
      assert (Hm : forall A (m : key -> option A) x, (forall k, In k (order c) <-> m k <> None) ->
         forall k, In k (order c) <-> mset m (p_cid p) (Some x) k <> None).
      { intros A m x Hm k. destruct (key_dec k (p_cid p)) as [->|Hne].
        - rewrite mset_same. split; [discriminate | auto].
        - rewrite mset_other by assumption. apply Hm. }
      split; [|repeat split]. constructor; simpl; try apply H.
      * apply Hm. apply H.
      * apply Hm. apply H.
      * intros k ins Hk Hc. unfold mset in *. destruct (key_eqb k (p_cid p)) eqn:Hkk.
        { apply key_eqb_eq in Hkk. subst k. rewrite Hp in Hk. injection Hk as <-.
          exists v. auto. }
        { exact (i_coh _ _ _ H _ _ Hk Hc). }
    + destruct (ensure_spec sg w c H) as (w1 & c1 & He & Hro & H1 & Hsc & Hl & _ & _ & Hn).
      rewrite He.
      destruct (add_spec sg w1 c1 (p_cid p) (p_ins p) v H1 Hl) as (w2 & c2 & Ha & Hro2 & H2 & Hsc2 & _).
      * apply Hn. exact Hp.
      * rewrite Hro. exact Hcid.
      * rewrite Hro. exact Hg.
      * rewrite Hro. destruct Hsc as (_ & -> & _). exact Hop.
      * rewrite Ha. exists w2, c2. split; [reflexivity|].
        split; [eapply regs_only_trans; eauto|]. split; [assumption|].
        unfold same_conf in *. intuition congruence.
  - destruct (reset_spec sg w c H) as (w' & c' & Hr & Hro & H' & Hsc & _). rewrite Hr.
    exists w', c'. auto.
Qed.

Lemma inv_tick : forall sg w c, inv sg w c -> inv sg (tick w) c.
Proof.
  intros sg w c H. destruct H as [? ? ? ? ? ? ? ? [? ? ? ? ?] ? ?]. constructor; auto. constructor; auto.
Qed.

Lemma drop_map : forall A B (f : A -> B) ig l i, drop_ignored ig i (map f l) = map f (drop_ignored ig i l).
Proof.
  induction l; intros i; simpl; [reflexivity|]. rewrite !IHl. destruct (existsb (Nat.eqb i) ig); reflexivity.
Qed.
Lemma drop_in : forall A ig (l : list A) i x, In x (drop_ignored ig i l) -> In x l.
Proof.
  induction l; intros i x; simpl; [tauto|]. destruct (existsb (Nat.eqb i) ig); simpl; intros Hx.
  - right. eapply IHl; eauto.
  - destruct Hx; [auto|]. right. eapply IHl; eauto.
Qed.
Lemma kw_insert_perm : forall A (x : nat * A) l, Permutation (kw_insert x l) (x :: l).
Proof.
  induction l; simpl; [auto|]. destruct (Nat.leb (fst x) (fst a)); [auto|].
  rewrite IHl. apply perm_swap.
Qed.
Lemma kw_sort_perm : forall A (l : list (nat * A)), Permutation (kw_sort l) l.
Proof.
  induction l; simpl; [auto|]. rewrite kw_insert_perm. auto.
Qed.

Lemma drop_kept : forall A ig (l : list A) i, drop_ignored ig i l =
  map snd (filter (fun e => negb (existsb (Nat.eqb (fst e)) ig)) (combine (seq i (length l)) l)).
Proof.
  induction l as [|a l IH]; intros i; simpl; [reflexivity|].
  destruct (existsb (Nat.eqb i) ig); simpl; rewrite IH; reflexivity.
Qed.
Lemma kw_insert_sorted : forall A (x : nat * A) l, Sorted.StronglySorted le (map fst l) ->
  Sorted.StronglySorted le (map fst (kw_insert x l)).
Proof.
  induction l as [|y l IH]; intros H; simpl in *; [repeat constructor|].
  inversion H as [|? ? Hs Hf]; subst. destruct (Nat.leb_spec (fst x) (fst y)) as [L|L]; simpl.
  - constructor; auto. constructor; auto. eapply Forall_impl; [|exact Hf]. simpl; intros; lia.
  - constructor; auto. rewrite Forall_forall in *. intros z Hz. apply in_map_iff in Hz as [e [<- He]].
    assert (Hp : Permutation (kw_insert x l) (x :: l)).
    { clear. induction l as [|y l IH]; simpl; auto. destruct (Nat.leb (fst x) (fst y)); auto.
      rewrite IH. apply perm_swap. }
    eapply Permutation_in in He; [|exact Hp]. destruct He as [<-|He]; [lia|]. apply Hf. apply in_map; auto.
Qed.
Lemma kw_sort_sorted : forall A (l : list (nat * A)), Sorted.StronglySorted le (map fst (kw_sort l)).
Proof. induction l as [|x l IH]; simpl; [constructor | apply kw_insert_sorted; exact IH]. Qed.
Lemma sorted_same : forall l l' : list nat, Sorted.StronglySorted le l -> Sorted.StronglySorted le l' ->
  Permutation l l' -> l = l'.
Proof.
  induction l as [|a l IH]; intros [|b l'] Hl Hl' P; auto.
  - apply Permutation_nil in P. discriminate.
  - apply Permutation_sym, Permutation_nil in P. discriminate.
  - inversion Hl as [|? ? H1 H2]; inversion Hl' as [|? ? H1' H2']; subst. rewrite Forall_forall in H2, H2'.
    assert (a = b).
    { assert (Ha : In a (b :: l')) by (eapply Permutation_in; [exact P | left; reflexivity]).
      assert (Hb : In b (a :: l)) by (eapply Permutation_in; [apply Permutation_sym; exact P | left; reflexivity]).
      destruct Ha as [->|Ha]; [reflexivity|]. destruct Hb as [->|Hb]; [reflexivity|].
      apply H2' in Ha. apply H2 in Hb. lia. }
    subst b. f_equal. apply IH; auto. eapply Permutation_cons_inv; exact P.
Qed.
Lemma sorted_names : forall A B (kw : list (nat * A)) (kw' : list (nat * B)),
  Permutation (map fst kw) (map fst kw') -> map fst (kw_sort kw) = map fst (kw_sort kw').
Proof.
  intros A B kw kw' P. apply sorted_same; [apply kw_sort_sorted | apply kw_sort_sorted |].
  rewrite (Permutation_map fst (kw_sort_perm _ kw)), (Permutation_map fst (kw_sort_perm _ kw')). exact P.
Qed.
Lemma kept_drop : forall A ig (l : list A), kept ig l = drop_ignored ig 0 l.
Proof. intros. symmetry. apply drop_kept. Qed.
(** Calling the operation with the keywords in the order of their names. *)
Lemma operate_sorted : forall (w : world) args kw, by_name F ->
  operate F w args kw = F (map (content w) args) (map (fun x => (fst x, content w (snd x))) (kw_sort kw)).
Proof.
  intros w args kw Hb. unfold operate. apply Hb. apply Permutation_map, Permutation_sym, kw_sort_perm.
Qed.

Lemma same_inputs_same_result : forall sg ig (w : world) args kw args' kw', respects_ignore F ig ->
  has_sig sg args kw -> has_sig sg args' kw' ->
  combine_inputs ig args kw = combine_inputs ig args' kw' ->
  operate F w args kw = operate F w args' kw'.
Proof.
  intros sg ig w args kw args' kw' [Hb Hr] [Ha Hk] [Ha' Hk'] He. rewrite !operate_sorted by exact Hb. apply Hr.
  - rewrite !map_length. congruence.
  - rewrite !map_map. simpl. change (map (fun x : nat * nat => fst x)) with (map (@fst nat nat)).
    apply sorted_names. rewrite Hk, Hk'. reflexivity.
  - rewrite map_map. simpl. apply kw_sort_sorted.
  - rewrite !kept_drop. rewrite !map_map. simpl. rewrite <- (map_map snd (content w)), <- (map_map snd (content w)).
    rewrite <- !map_app, !drop_map. unfold combine_inputs in He. rewrite He. reflexivity.
Qed.

Lemma addr_lists : forall w l1 l2, okw w -> Forall (good_in w) l1 ->
  Forall (fun o => live w o = true) l2 -> map (addr w) l1 = map (addr w) l2 -> l1 = l2.
Proof.
  intros w l1 l2 [Hw _]. revert l2. induction l1 as [|a l1 IH]; intros [|b l2] H1 H2 He; simpl in He;
    try discriminate; auto.
  inversion H1 as [|? ? [Ha _] H1']; inversion H2 as [|? ? Hb H2']; subst.
  injection He as He1 He2. f_equal; auto.
Qed.

Lemma combine_live : forall (w : world) ig args kw,
  Forall (fun o => live w o = true) (args ++ map snd kw) ->
  Forall (fun o => live w o = true) (combine_inputs ig args kw).
Proof.
  intros w ig args kw H. rewrite Forall_forall in *. intros o Ho. apply drop_in in Ho.
  apply H. rewrite in_app_iff in *. destruct Ho as [Ho|Ho]; [auto|]. right.
  eapply Permutation_in; [|exact Ho]. apply Permutation_map. apply kw_sort_perm.
Qed.

(** What [begin_call] finds. *)
Lemma begin_call_spec : forall sg w c args kw, inv sg w c -> has_sig sg args kw ->
  Forall (fun o => live w o = true) (args ++ map snd kw) ->
  let ins := combine_inputs (ignore c) args kw in
  let cid := prepare_cache_id (map (addr w) ins) in
  match begin_call w c args kw with
  | Bypass => True
  | Hit v => c_in c cid = Some ins /\ c_chg c cid = Some false /\ c_out c cid = Some v /\
             operate F w args kw = inl v
  | Broken => False
  | Compute p => p_cid p = cid /\ p_ins p = ins /\ pend_ok w c p /\
                 (if p_changed p then c_chg c cid = Some true else c_chg c cid = None)
  end.
Proof.
  intros sg w c args kw H Hs Hl ins cid. unfold begin_call. fold ins. fold cid.
  destruct (negb (enabled c)); [exact I|]. destruct (existsb _ kw); [exact I|].
  destruct (existsb _ ins) eqn:Hother; [exact I|].
  pose proof (combine_live w (ignore c) args kw Hl) as Hlive. fold ins in Hlive.
  assert (Hg : Forall (good_in w) ins).
  { rewrite Forall_forall in *. intros o Ho. split; [auto|]. intros Hk.
    assert (Ht : existsb (fun o => match kindof w o with KOther => true | _ => false end) ins = true).
    { apply existsb_exists. exists o. rewrite Hk. auto. }
    congruence. }
  pose proof (i_chg _ _ _ H cid) as Hchg. pose proof (i_in _ _ _ H cid) as Hin.
  assert (Hsome : c_chg c cid <> None -> c_in c cid = Some ins).
  { intros Hc. destruct (c_in c cid) as [ins0|] eqn:Hci; [| tauto].
    destruct (i_entry _ _ _ H _ _ Hci) as [Hk Hg0]. f_equal.
    apply (addr_lists w); auto; [apply H|]. apply prepare_inj. symmetry. exact Hk. }
  destruct (c_chg c cid) as [[|]|] eqn:Hc.
  - simpl. repeat split; auto. apply Hsome. discriminate.
  - assert (Hci := Hsome ltac:(discriminate)).
    destruct (i_coh _ _ _ H _ _ Hci Hc) as (v & Hv & Hop). rewrite Hv. repeat split; auto.
  - assert (Hni : c_in c cid = None).
    { destruct (c_in c cid); [|reflexivity].
      exfalso. apply Hchg; [apply Hin; discriminate | reflexivity]. }
    simpl. repeat split; auto.
Qed.

Definition runs_only (w w' : world) : Prop := w' = set_regs (mkW (content w) (kindof w) (isnone w)
   (addr w) (live w) (upd w) (olist w) (regs w) (runs w')) (regs w').

Lemma call_spec : forall sg w c args kw, inv sg w c -> has_sig sg args kw ->
  Forall (fun o => live w o = true) (args ++ map snd kw) ->
  exists w' c', call F w c args kw = (to_result (operate F w args kw), w', c') /\
    runs_only w w' /\ inv sg w' c' /\ same_conf c c'.
Proof.
  intros sg w c args kw H Hs Hl. unfold call.
  pose proof (begin_call_spec sg w c args kw H Hs Hl) as Hb.
  destruct (begin_call w c args kw) as [|v| |p].
  - exists (tick w), c. split; [reflexivity|]. split; [reflexivity|]. split; [apply inv_tick; assumption|].
    repeat split.
  - destruct Hb as (_ & _ & _ & Hop). rewrite Hop. exists w, c. split; [reflexivity|].
    split; [destruct w; reflexivity|]. split; [assumption | repeat split].
  - destruct Hb.
  - destruct Hb as (Hcid & Hins & Hok & _).
    destruct (end_call_spec sg (tick w) c p (operate F w args kw)) as (w' & c' & He & Hro & H' & Hsc).
    + apply inv_tick; assumption.
    + exact Hok.
    + intros v Hv args' kw' Hs' Hc'. rewrite Hins in Hc'.
      change (operate F w args' kw' = inl v). rewrite <- Hv. symmetry.
      eapply same_inputs_same_result; eauto. apply H.
    + rewrite He. exists w', c'. split; [reflexivity|]. split; [|auto].
      unfold runs_only. rewrite Hro. reflexivity.
Qed.

(** ** Marking changed entries. *)
Definition marks (c c' : cacher) : Prop :=
  c' = set_chg c (c_chg c') /\ (forall k, c_chg c' k <> None <-> c_chg c k <> None) /\
  (forall k, c_chg c' k = Some false -> c_chg c k = Some false).
Definition tbl_keys (c : cacher) : Prop :=
  forall k r l cid, iget (c_ids c) k = Some (r, l) -> In cid l -> c_chg c cid <> None.

Lemma marks_refl : forall c, marks c c.
Proof. intros []. repeat split; auto. Qed.
Lemma marks_trans : forall a b c, marks a b -> marks b c -> marks a c.
Proof.
  intros a b c (A1 & A2 & A3) (B1 & B2 & B3). split.
  - rewrite B1, A1. reflexivity.
  - split; intros k; [rewrite B2; apply A2 | auto].
Qed.
Lemma marks_ids : forall a b, marks a b -> c_ids b = c_ids a.
Proof. intros a b [-> _]. reflexivity. Qed.
Lemma marks_keys : forall a b, marks a b -> tbl_keys a -> tbl_keys b.
Proof.
  intros a b M T k r l cid Hi Hc. destruct M as (M1 & M2 & M3). apply M2.
  rewrite M1 in Hi. simpl in Hi. eapply T; eauto.
Qed.
Lemma marks_true : forall a b k, marks a b -> c_chg a k = Some true -> c_chg b k = Some true.
Proof.
  intros a b k (_ & M2 & M3) H. destruct (c_chg b k) as [[|]|] eqn:Hb; auto.
  - apply M3 in Hb. congruence.
  - exfalso. apply (proj2 (M2 k)); congruence.
Qed.

Lemma fold_mset : forall l (m : key -> option bool) k,
  fold_left (fun m cid => mset m cid (Some true)) l m k =
  if in_dec key_dec k l then Some true else m k.
Proof.
  induction l as [|a l IH]; intros m k; simpl; [reflexivity|].
  rewrite IH. destruct (in_dec key_dec k l) as [Hi|Hi].
  - destruct (key_dec a k); reflexivity.
  - unfold mset. destruct (key_dec a k) as [->|Hn].
    + rewrite key_eqb_refl. reflexivity.
    + rewrite key_eqb_neq by congruence. reflexivity.
Qed.

Lemma mark_spec : forall (c : cacher) k, tbl_keys c -> marks c (mark c k) /\
  forall r l cid, iget (c_ids c) k = Some (r, l) -> In cid l -> c_chg (mark c k) cid = Some true.
Proof.
  intros c k T. unfold mark. destruct (iget (c_ids c) k) as [[r l]|] eqn:Hi; simpl.
  - split.
    + split; [reflexivity|]. simpl. split; intros x; rewrite fold_mset; destruct (in_dec key_dec x l).
      * split; [intros _; eapply T; eauto | discriminate].
      * reflexivity.
      * discriminate.
      * auto.
    + intros r' l' cid [= <- <-] Hc. rewrite fold_mset. destruct (in_dec key_dec cid l); tauto.
  - split; [|discriminate]. repeat split; auto.
Qed.

Lemma deliver_spec : forall (w : world) (c : cacher) n, tbl_keys c ->
  marks c (deliver w c n) /\
  (upd w (fst n) = true -> (0 < regs w (olist w (fst n)))%nat ->
   forall r l cid, iget (c_ids c) (oid_key w (fst n)) = Some (r, l) -> In cid l ->
     c_chg (deliver w c n) cid = Some true).
Proof.
  intros w c n T. unfold deliver. destruct (upd w (fst n)); [|split; [apply marks_refl | discriminate]].
  assert (H1 : forall c, tbl_keys c -> marks c (on_cache_changed w c (fst n) (snd n)) /\
     forall r l cid, iget (c_ids c) (oid_key w (fst n)) = Some (r, l) -> In cid l ->
     c_chg (on_cache_changed w c (fst n) (snd n)) cid = Some true).
  { clear c T. intros c T. unfold on_cache_changed.
    destruct (mark_spec c (oid_key w (fst n)) T) as [M1 M2].
    destruct (mark_spec (mark c (oid_key w (fst n))) (oid_key w (snd n)) (marks_keys _ _ M1 T)) as [M3 _].
    split; [eapply marks_trans; eauto|]. intros r l cid Hi Hc. eapply marks_true; eauto. }
  induction (regs w (olist w (fst n))) as [|m IH]; simpl.
  - split; [apply marks_refl | lia].
  - destruct IH as [IH1 IH2].
    destruct (H1 _ (marks_keys _ _ IH1 T)) as [M1 M2]. split; [eapply marks_trans; eauto|].
    intros _ _ r l cid Hi Hc. eapply M2; [|exact Hc]. rewrite (marks_ids _ _ IH1). exact Hi.
Qed.

Lemma deliver_all : forall (w : world) notes (c : cacher), tbl_keys c ->
  marks c (fold_left (deliver w) notes c) /\
  (forall n, In n notes -> upd w (fst n) = true -> (0 < regs w (olist w (fst n)))%nat ->
   forall r l cid, iget (c_ids c) (oid_key w (fst n)) = Some (r, l) -> In cid l ->
     c_chg (fold_left (deliver w) notes c) cid = Some true).
Proof.
  intros w notes. induction notes as [|n notes IH]; intros c T; simpl.
  - split; [apply marks_refl | tauto].
  - destruct (deliver_spec w c n T) as [M1 M2].
    destruct (IH _ (marks_keys _ _ M1 T)) as [M3 M4]. split; [eapply marks_trans; eauto|].
    intros n' [<-|Hin] Hu Hr r l cid Hi Hc.
    + eapply marks_true; [exact M3|]. eapply M2; eauto.
    + eapply M4; eauto. rewrite (marks_ids _ _ M1). exact Hi.
Qed.

Lemma inv_tbl_keys : forall sg w c, inv sg w c -> tbl_keys c.
Proof.
  intros sg w c H k r l cid Hi Hc. apply (i_chg _ _ _ H). apply (i_in _ _ _ H).
  destruct (t_some _ _ _ (i_tbl _ _ _ H) _ _ _ Hi) as (_ & _ & _ & G).
  assert (Hp : (0 < count l cid)%nat) by (unfold count; apply count_occ_In; exact Hc).
  rewrite G in Hp. unfold cnt in Hp. destruct (c_in c cid); [discriminate | lia].
Qed.

Lemma marks_in : forall a b, marks a b -> order b = order a /\ c_in b = c_in a /\ c_out b = c_out a /\
  same_conf a b.
Proof. intros a b [-> _]. repeat split. Qed.

Lemma assign_other : forall l (f : nat -> C) o, (forall x, In x l -> fst x <> o) -> assign f l o = f o.
Proof.
  induction l as [|x l IH]; intros f o H; unfold assign in *; simpl; [reflexivity|].
  rewrite IH by (intros; apply H; right; assumption).
  rewrite (proj2 (Nat.eqb_neq o (fst x))); [reflexivity|]. intros ->. apply (H x); [left|]; reflexivity.
Qed.

(** Contents matter only at the non-ignored arguments. *)
Lemma operate_frame : forall ig (w w' : world) args kw, respects_ignore F ig ->
  (forall o, In o (combine_inputs ig args kw) -> content w' o = content w o) ->
  operate F w' args kw = operate F w args kw.
Proof.
  intros ig w w' args kw [Hb Hr] He. rewrite !operate_sorted by exact Hb. apply Hr.
  - rewrite !map_length. reflexivity.
  - rewrite !map_map. reflexivity.
  - rewrite map_map. apply kw_sort_sorted.
  - rewrite !kept_drop. rewrite !map_map. simpl. rewrite <- (map_map snd (content w')), <- (map_map snd (content w)).
    rewrite <- !map_app, !drop_map. apply map_ext_in. exact He.
Qed.

Lemma change_spec : forall sg w c l notes, inv sg w c -> legal_event sg w c (EChange l notes) ->
  let w' := set_content w (assign (content w) l) in
  inv sg w' (fold_left (deliver w') notes c) /\ marks c (fold_left (deliver w') notes c).
Proof.
  intros sg w c l notes H [Hl Hn] w'.
  destruct (deliver_all w' notes c (inv_tbl_keys _ _ _ H)) as [M Mt].
  split; [|exact M]. set (c' := fold_left (deliver w') notes c) in *.
  destruct (marks_in _ _ M) as (Eo & Ei & Eu & (El & Eg & _)).
  assert (Ec : c_ids c' = c_ids c) by (apply marks_ids; exact M).
  destruct M as (M1 & M2 & M3).
  constructor.
  - apply H.
  - rewrite El. apply H.
  - rewrite Eo, El. apply H.
  - rewrite Eo. apply H.
  - rewrite Eo, Ei. apply H.
  - rewrite Eo, Eu. apply H.
  - intros k. rewrite Eo, M2. apply H.
  - rewrite Ei. apply H.
  - rewrite Ec. eapply tbl_ext.
    + destruct (i_tbl _ _ _ H). constructor; eauto.
    + intros. unfold cnt. rewrite Ei. reflexivity.
  - rewrite Eg. apply H.
  - intros k ins Hk Hc. rewrite Ei in Hk. rewrite Eu, Eg.
    pose proof (M3 _ Hc) as Hc0. destruct (i_coh _ _ _ H _ _ Hk Hc0) as (v & Hv & Hop).
    exists v. split; [exact Hv|]. intros args kw Hs Hci.
    rewrite <- (Hop args kw Hs Hci). eapply operate_frame; [apply (i_ign _ _ _ H)|].
    intros o Ho. simpl. apply assign_other. intros x Hx Hxo. subst o.
    rewrite Hci in Ho.
    destruct (i_entry _ _ _ H _ _ Hk) as [_ Hg]. rewrite Forall_forall in Hg.
    destruct (Hg _ Ho) as [Hlive Hko]. rewrite Forall_forall in Hl.
    destruct (Hl x Hx) as (_ & [Hk1 | (Hk1 & Hu & wh & Hnote)]); [congruence|].
    assert (Hob : isobs w (fst x)) by (split; assumption).
    pose proof (t_reg _ _ _ (i_tbl _ _ _ H) _ Hob) as Hreg.
    assert (Hpos : (0 < cnt c (fst x) k)%nat).
    { unfold cnt. rewrite Hk. apply ocount_in. exact Ho. }
    destruct (iget (c_ids c) (oid_key w (fst x))) as [[r cl]|] eqn:Hi.
    2:{ rewrite (t_none _ _ _ (i_tbl _ _ _ H) _ Hob Hi) in Hpos. lia. }
    destruct (t_some _ _ _ (i_tbl _ _ _ H) _ _ _ Hi) as (A & B & _ & G).
    assert (r = fst x).
    { symmetry. apply (okey_inj w _ _ (i_w _ _ _ H) Hlive (proj1 A) B). }
    subst r. assert (Hin : In k cl).
    { apply (count_occ_In key_dec). fold (count cl k). rewrite G. lia. }
    assert (Ht : c_chg c' k = Some true).
    { eapply (Mt _ Hnote); simpl; eauto. rewrite Hreg. lia. }
    congruence.
Qed.

(** ** Steps and histories. *)
Lemma inv_new : forall sg lim ig fo en x ol, (1 <= lim)%Z -> respects_ignore F ig ->
  (forall a b : nat, ol a = ol b -> a = b) -> inv sg (new_world x ol) (new_cacher lim ig fo en).
Proof.
  intros. constructor; simpl; try (intros; tauto); try discriminate; try lia; auto.
  - split; simpl; [discriminate | auto].
  - constructor.
  - constructor; simpl; auto; [constructor | discriminate].
Qed.

Lemma step_spec : forall sg w c e, inv sg w c -> legal_event sg w c e ->
  exists x w' c', step F w c e = (x, w', c') /\ inv sg w' c' /\
    (match e with
     | ECall args kw => x = Some (to_result (operate F w args kw)) /\ content w' = content w
     | EChange l _ => x = None /\ content w' = assign (content w) l
     | ENew o _ _ y _ => x = None /\ content w' = upd1 (content w) o y
     | _ => x = None /\ content w' = content w
     end) /\ limit c' = limit c /\ ignore c' = ignore c /\ force c' = force c.
Proof.
  intros sg w c e H Hl. destruct e as [args kw|l notes| | | |o k none y a|o|o b]; cbn [step].
  - destruct Hl as [Hs Hlive].
    destruct (call_spec sg w c args kw H Hs Hlive) as (w' & c' & Hc & Hr & H' & Hsc & Hsi & Hsf & _).
    rewrite Hc. exists (Some (to_result (operate F w args kw))), w', c'. split; [reflexivity|].
    split; [exact H'|]. split; [|auto]. split; [reflexivity|]. rewrite Hr. reflexivity.
  - destruct (change_spec sg w c l notes H Hl) as [H' M].
    eexists None, _, _. split; [reflexivity|]. split; [exact H'|].
    destruct (marks_in _ _ M) as (_ & _ & _ & (? & ? & ? & _)). auto.
  - destruct (reset_spec sg w c H) as (w' & c' & Hr & Hro & H' & (? & ? & ? & _) & _).
    rewrite Hr. exists None, w', c'. split; [reflexivity|]. split; [exact H'|]. split; [|auto].
    split; [reflexivity|]. rewrite Hro. reflexivity.
  - assert (He : inv sg w (set_enabled c false)).
    { destruct H. constructor; auto. }
    destruct (reset_spec sg w _ He) as (w' & c' & Hr & Hro & H' & (? & ? & ? & _) & _).
    rewrite Hr. exists None, w', c'. split; [reflexivity|]. split; [exact H'|]. split; [|auto].
    split; [reflexivity|]. rewrite Hro. reflexivity.
  - eexists None, _, _. split; [reflexivity|]. split; [|auto]. destruct H. constructor; auto.
  - destruct Hl as [Hdead Hfresh]. eexists None, _, _. split; [reflexivity|]. split; [|auto].
    assert (Hgood : forall x, live w x = true -> x <> o) by (intros x Hx ->; congruence).
    assert (Hf : forall A (f : nat -> A) v x, live w x = true -> upd1 f o v x = f x).
    { intros A f v x Hx. unfold upd1. rewrite (proj2 (Nat.eqb_neq x o)); auto. }
    assert (Hent : forall k0 ins, c_in c k0 = Some ins ->
       map (upd1 (addr w) o a) ins = map (addr w) ins /\ (forall A (f : nat -> A) v, map (upd1 f o v) ins = map f ins)).
    { intros k0 ins Hk0. destruct (i_entry _ _ _ H _ _ Hk0) as [_ Hg]. rewrite Forall_forall in Hg.
      split; intros; apply map_ext_in; intros x Hx; apply Hf; apply Hg; exact Hx. }
    constructor; simpl; try apply H.
    + destruct (i_w _ _ _ H) as [W1 W2]. split; simpl; [|exact W2].
      intros x y0 Hx Hy He. unfold upd1 in *.
      destruct (Nat.eqb_spec x o) as [->|Hxo]; destruct (Nat.eqb_spec y0 o) as [->|Hyo]; auto.
      * exfalso. eapply Hfresh; [exact Hy|]. congruence.
      * exfalso. eapply Hfresh; [exact Hx|]. congruence.
    + intros k0 ins Hk0. destruct (i_entry _ _ _ H _ _ Hk0) as [E1 E2].
      destruct (Hent _ _ Hk0) as [-> _]. split; [exact E1|].
      rewrite Forall_forall in *. intros x Hx. destruct (E2 x Hx) as [L1 L2].
      split; simpl; rewrite Hf; auto.
    + assert (Hob : forall x, x <> o -> (isobs (mkW (upd1 (content w) o y) (upd1 (kindof w) o k)
          (upd1 (isnone w) o none) (upd1 (addr w) o a) (upd1 (live w) o true) (upd1 (upd w) o true)
          (olist w) (regs w) (runs w)) x <-> isobs w x)).
      { intros x Hx. unfold isobs; simpl. unfold upd1. rewrite (proj2 (Nat.eqb_neq x o)); tauto. }
      assert (Hnone : iget (c_ids c) (hex a) = None).
      { destruct (iget (c_ids c) (hex a)) as [[r cl]|] eqn:Hi; [|reflexivity].
        destruct (t_some _ _ _ (i_tbl _ _ _ H) _ _ _ Hi) as ([A1 A2] & B & _).
        exfalso. apply hex_inj in B. eapply Hfresh; eauto. }
      destruct (i_tbl _ _ _ H) as [T1 T2 T3 T4 T5]. constructor; simpl.
      * exact T1.
      * intros k0 r cl Hi. destruct (T2 _ _ _ Hi) as (A & B & D & G).
        assert (Hr : r <> o) by (apply Hgood; apply A).
        split; [apply Hob; auto|]. split; [|auto]. rewrite B. unfold oid_key; simpl.
        rewrite Hf; [reflexivity|]. apply A.
      * intros x Hx Hi cid. unfold oid_key in Hi; simpl in Hi.
        destruct (Nat.eq_dec x o) as [->|Hxo].
        { unfold cnt. destruct (c_in c cid) as [ins|] eqn:Hk0; [|reflexivity].
          destruct (Nat.eq_dec (ocount ins o) 0) as [->|Hnz]; [reflexivity|].
          assert (Ho : In o ins) by (apply ocount_in; lia).
          destruct (i_entry _ _ _ H _ _ Hk0) as [_ Hg]. rewrite Forall_forall in Hg.
          destruct (Hg _ Ho). congruence. }
        { unfold upd1 in Hi at 1. rewrite (proj2 (Nat.eqb_neq x o)) in Hi by assumption.
          apply T3; auto. apply Hob; auto. }
      * intros x Hx. unfold oid_key; simpl. unfold upd1 at 1.
        destruct (Nat.eqb_spec x o) as [->|Hxo].
        { rewrite Hnone. apply T5. intros [? _]. congruence. }
        { apply T4. apply Hob; auto. }
      * intros x Hx. destruct (Nat.eq_dec x o) as [->|Hxo].
        { apply T5. intros [? _]. congruence. }
        { apply T5. intros Hy. apply Hx. apply Hob; auto. }
    + intros k0 ins Hk0 Hc0. destruct (i_coh _ _ _ H _ _ Hk0 Hc0) as (v & Hv & Hop).
      exists v. split; [exact Hv|]. intros args kw Hs Hci. rewrite <- (Hop args kw Hs Hci).
      eapply operate_frame; [apply (i_ign _ _ _ H)|]. intros x Hx. simpl. apply Hf.
      rewrite Hci in Hx. destruct (i_entry _ _ _ H _ _ Hk0) as [_ Hg]. rewrite Forall_forall in Hg.
      apply Hg. exact Hx.
  - destruct Hl as [Hlive Hheld]. eexists None, _, _. split; [reflexivity|]. split; [|auto].
    assert (Hnot : forall k0 ins, c_in c k0 = Some ins -> ~ In o ins).
    { intros k0 ins Hk0 Ho. apply Hheld. exists ins. split; [exists k0; exact Hk0 | exact Ho]. }
    constructor; simpl; try apply H.
    + destruct (i_w _ _ _ H) as [W1 W2]. split; simpl; [|exact W2].
      intros x y0 Hx Hy He. unfold upd1 in *.
      destruct (Nat.eqb x o); [discriminate|]. destruct (Nat.eqb y0 o); [discriminate|]. auto.
    + intros k0 ins Hk0. destruct (i_entry _ _ _ H _ _ Hk0) as [E1 E2]. split; [exact E1|].
      rewrite Forall_forall in *. intros x Hx. destruct (E2 x Hx) as [L1 L2].
      split; simpl; [|exact L2]. unfold upd1. destruct (Nat.eqb_spec x o) as [->|]; [|exact L1].
      exfalso. eapply Hnot; eauto.
    + set (w1 := mkW _ _ _ _ _ _ _ _ _).
      assert (Hob : forall x, isobs w1 x <-> isobs w x /\ x <> o).
      { intros x. unfold isobs, w1; simpl. unfold upd1. destruct (Nat.eqb_spec x o); intuition congruence. }
      assert (Hcz : forall cid, cnt c o cid = 0%nat).
      { intros cid. unfold cnt. destruct (c_in c cid) as [ins|] eqn:Hk0; [|reflexivity].
        destruct (Nat.eq_dec (ocount ins o) 0) as [->|Hnz]; [reflexivity|].
        exfalso. apply (Hnot _ _ Hk0). apply ocount_in. lia. }
      assert (Hnone : isobs w o -> iget (c_ids c) (oid_key w o) = None).
      { intros Hoo. destruct (iget (c_ids c) (oid_key w o)) as [[r cl]|] eqn:Hi; [|reflexivity].
        destruct (t_some _ _ _ (i_tbl _ _ _ H) _ _ _ Hi) as (A & B & D & G).
        assert (r = o) by (symmetry; apply (okey_inj w _ _ (i_w _ _ _ H) Hlive (proj1 A) B)).
        subst r. destruct cl as [|cid cl]; [congruence|]. specialize (G cid). rewrite Hcz in G.
        unfold count in G; simpl in G. destruct (key_dec cid cid); congruence. }
      pose proof (t_reg _ _ _ (i_tbl _ _ _ H) o) as Hro.
      destruct (i_tbl _ _ _ H) as [T1 T2 T3 T4 T5]. constructor.
      * exact T1.
      * intros k0 r cl Hi. destruct (T2 _ _ _ Hi) as (A & B & D & G). rewrite Hob.
        split; [|auto]. split; [exact A|]. intros ->. rewrite B in Hi. rewrite Hnone in Hi; [discriminate | exact A].
      * intros x Hx Hi. rewrite Hob in Hx. destruct Hx as [Hx _]. exact (T3 x Hx Hi).
      * intros x Hx. rewrite Hob in Hx. destruct Hx as [Hx _]. exact (T4 x Hx).
      * intros x Hx. rewrite Hob in Hx. unfold w1; simpl.
        destruct (Nat.eq_dec x o) as [->|Hxo].
        { destruct (kindof w o) eqn:Hk.
          - rewrite Hro by (split; assumption). rewrite Hnone by (split; assumption). reflexivity.
          - apply T5. intros [_ ?]. congruence.
          - apply T5. intros [_ ?]. congruence. }
        { apply T5. tauto. }
  - eexists None, _, _. split; [reflexivity|]. split; [|auto].
    destruct H as [? ? ? ? ? ? ? ? [? ? ? ? ?] ? ?]. constructor; auto. constructor; auto.
Qed.

Lemma history_inv : forall sg l w c, inv sg w c -> legal F sg w c l ->
  exists xs w' c', history F w c l = (xs, w', c') /\ inv sg w' c' /\ xs = ideal F (content w) l /\
    limit c' = limit c /\ ignore c' = ignore c.
Proof.
  intros sg l. induction l as [|e l IH]; intros w c H Hl; simpl.
  - exists [], w, c. auto.
  - destruct Hl as [He Hl].
    destruct (step_spec sg w c e H He) as (x & w1 & c1 & Hs & H1 & Hx & El & Eg & _).
    rewrite Hs in *. simpl in Hl. destruct (IH w1 c1 H1 Hl) as (xs & w2 & c2 & Hh & H2 & Hxs & El2 & Eg2).
    rewrite Hh. eexists _, w2, c2. split; [reflexivity|]. split; [exact H2|].
    split; [|split; congruence]. subst xs.
    destruct e; destruct Hx as [-> ->]; reflexivity.
Qed.

Lemma reached_inv : forall sg w c, reached F sg w c -> inv sg w c.
Proof.
  intros sg w c (lim & ig & fo & en & x & ol & l & H1 & H2 & H3 & H4 & H5 & H6).
  destruct (history_inv sg l _ _ (inv_new sg lim ig fo en x ol H1 H2 H3) H4)
    as (xs & w' & c' & Hh & Hi & _). rewrite Hh in *. simpl in *. subst. exact Hi.
Qed.
End P.
