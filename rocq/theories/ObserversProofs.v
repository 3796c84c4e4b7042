(** Proofs about observers. *)
From Coq Require Import List ZArith Bool Lia Sorting.Sorted Sorting.Permutation.
From Verif Require Import ObserversModel ObserversSpec.
Import ListNotations.
Open Scope Z_scope.

Lemma prio_eqb_eq : forall a b, prio_eqb a b = true <-> a = b.
Proof.
  intros [|x] [|y]; simpl; split; intro H; try congruence.
  - apply Z.eqb_eq in H; congruence.
  - inversion H; apply Z.eqb_refl.
Qed.
Lemma entry_eqb_eq : forall a b, entry_eqb a b = true <-> a = b.
Proof.
  intros [p o c] [p' o' c']; unfold entry_eqb; simpl.
  rewrite !andb_true_iff, prio_eqb_eq, !Nat.eqb_eq. split.
  - intros [[-> ->] ->]; auto.
  - intros H; inversion H; auto.
Qed.

Lemma prio_leb_refl : forall a, prio_leb a a = true.
Proof. intros [|x]; unfold prio_leb; simpl; auto. now rewrite Z.ltb_irrefl. Qed.
Lemma prio_leb_trans : forall a b c, prio_leb a b = true -> prio_leb b c = true -> prio_leb a c = true.
Proof.
  unfold prio_leb; intros [|x] [|y] [|z]; simpl; rewrite ?negb_true_iff, ?Z.ltb_ge; auto;
    try discriminate; lia.
Qed.
Lemma prio_total : forall a b, prio_leb a b = false -> prio_leb b a = true.
Proof.
  unfold prio_leb; intros [|x] [|y]; simpl; rewrite ?negb_true_iff, ?negb_false_iff, ?Z.ltb_ge, ?Z.ltb_lt;
    auto; try discriminate; lia.
Qed.
Lemma prio_gtb_leb : forall a b, prio_gtb a b = negb (prio_leb a b).
Proof. intros; unfold prio_leb; now rewrite negb_involutive. Qed.

Lemma filter_filter {A} (f g : A -> bool) l :
  filter f (filter g l) = filter (fun x => g x && f x) l.
Proof.
  induction l as [|x r IH]; simpl; auto.
  destruct (g x); simpl; [destruct (f x); now rewrite IH | auto].
Qed.
Lemma filter_comm {A} (f g : A -> bool) l : filter f (filter g l) = filter g (filter f l).
Proof. rewrite !filter_filter. apply filter_ext. intros; apply andb_comm. Qed.
Lemma filter_all {A} (f : A -> bool) l : (forall x, In x l -> f x = true) -> filter f l = l.
Proof.
  induction l as [|x r IH]; simpl; intros H; auto.
  rewrite H by auto. f_equal; auto.
Qed.
Lemma filter_none {A} (f : A -> bool) l : (forall x, In x l -> f x = false) -> filter f l = [].
Proof.
  induction l as [|x r IH]; simpl; intros H; auto. rewrite H by auto. auto.
Qed.

(* ---- list deletion loop ---- *)
Lemma del_at_spec {A} : forall k (l : list A), (k < length l)%nat ->
  del_at k l = firstn k l ++ skipn (S k) l.
Proof.
  induction k as [|k IH]; intros [|x l] H; simpl in *; try lia; auto.
  f_equal. rewrite IH by lia. reflexivity.
Qed.
Lemma firstn_S_nth {A} : forall k (l : list A) e, nth_error l k = Some e ->
  firstn (S k) l = firstn k l ++ [e].
Proof.
  induction k as [|k IH]; intros [|x l] e H; simpl in *; try discriminate.
  - congruence.
  - f_equal. now apply IH.
Qed.
Lemma skipn_nth {A} : forall k (l : list A) e, nth_error l k = Some e ->
  skipn k l = e :: skipn (S k) l.
Proof.
  induction k as [|k IH]; intros [|x l] e H; simpl in *; try discriminate.
  - congruence.
  - now apply IH.
Qed.
Lemma remove_loop_spec : forall n r l, (n <= length l)%nat ->
  remove_loop n r l = filter (fun e => negb (entry_eqb r e)) (firstn n l) ++ skipn n l.
Proof.
  induction n as [|i IH]; intros r l H; auto.
  simpl remove_loop. destruct (nth_error l i) as [e|] eqn:E.
  2: { apply nth_error_None in E; lia. }
  rewrite (firstn_S_nth _ _ _ E), filter_app. simpl.
  destruct (entry_eqb r e) eqn:Er; simpl.
  - rewrite app_nil_r. assert (i < length l)%nat as Hi by lia.
    rewrite del_at_spec by auto. rewrite IH.
    2: { rewrite app_length, firstn_length, skipn_length. lia. }
    assert (length (firstn i l) = i) as Hl by (rewrite firstn_length; lia).
    rewrite firstn_app, Hl, Nat.sub_diag, firstn_O, app_nil_r, firstn_firstn, Nat.min_id.
    rewrite skipn_app, Hl, Nat.sub_diag, skipn_O.
    rewrite (skipn_all2 (firstn i l)) by lia. reflexivity.
  - rewrite IH by lia. rewrite <- app_assoc. rewrite (skipn_nth _ _ _ E). reflexivity.
Qed.

(* ---- frames ---- *)
Lemma set_list_eq : forall f k l, set_list f k l k = l.
Proof. intros; unfold set_list; now rewrite Nat.eqb_refl. Qed.
Lemma set_list_ne : forall f k l x, x <> k -> set_list f k l x = f x.
Proof. intros f k l x H; unfold set_list. apply Nat.eqb_neq in H. now rewrite H. Qed.

Lemma flush_poc : forall s, lists (flush s) (cur (flush s)) = registered s.
Proof. intros; unfold flush; simpl. now rewrite set_list_eq. Qed.
Lemma flush_alive : forall s, alive (flush s) = alive s.
Proof. reflexivity. Qed.
Lemma registered_flush : forall s, registered (flush s) = registered s.
Proof.
  intros. unfold registered at 1. rewrite flush_poc, flush_alive. unfold registered.
  rewrite filter_filter. apply filter_ext. intros; now rewrite andb_diag.
Qed.
Lemma registered_set_poc : forall s l, (forall e, In e l -> alive s (e_obs e) = true) ->
  registered (set_poc s l) = l.
Proof.
  intros s l H. unfold registered, set_poc; simpl. rewrite set_list_eq. now apply filter_all.
Qed.
Lemma registered_alive : forall s e, In e (registered s) -> alive s (e_obs e) = true.
Proof. intros s e H; unfold registered in H. now apply filter_In in H. Qed.

(* ---- remove ---- *)
Lemma ol_remove_registered : forall s r,
  registered (ol_remove s r) = filter (fun e => negb (entry_eqb r e)) (registered s) /\
  alive (ol_remove s r) = alive s /\ updates (ol_remove s r) = updates s.
Proof.
  intros s r. unfold ol_remove. split; [|split; reflexivity].
  assert (lists (flush (flush s)) (cur (flush (flush s))) = registered s) as E
    by (now rewrite flush_poc, registered_flush).
  rewrite E, remove_loop_spec by auto. rewrite firstn_all, skipn_all, app_nil_r.
  apply registered_set_poc. intros e He. apply filter_In in He as [He _].
  simpl. now apply registered_alive.
Qed.
Lemma fold_ol_remove : forall rs s,
  let s' := fold_left ol_remove rs s in
  registered s' = filter (fun e => negb (existsb (fun r => entry_eqb r e) rs)) (registered s) /\
  alive s' = alive s /\ updates s' = updates s.
Proof.
  induction rs as [|r rs IH]; simpl; intros s.
  - split; auto. now rewrite filter_all.
  - destruct (IH (ol_remove s r)) as (H1 & H2 & H3).
    destruct (ol_remove_registered s r) as (G1 & G2 & G3).
    rewrite H1, H2, H3, G1, G2, G3. split; auto.
    rewrite filter_filter. apply filter_ext. intros e.
    now rewrite negb_orb.
Qed.
Lemma remove_observer_registered : forall s o c,
  registered (remove_observer s o c) = filter (fun e => negb (rm_match o c e)) (registered s) /\
  alive (remove_observer s o c) = alive s /\ updates (remove_observer s o c) = updates s.
Proof.
  intros s o c. unfold remove_observer. rewrite flush_poc.
  destruct (fold_ol_remove (filter (rm_match o c) (registered s)) (flush s)) as (H1 & H2 & H3).
  rewrite H1, H2, H3, registered_flush. split; auto.
  apply filter_ext_in. intros e He. f_equal.
  destruct (rm_match o c e) eqn:E.
  - apply existsb_exists. exists e. split; [now apply filter_In | now apply entry_eqb_eq].
  - destruct (existsb _ _) eqn:E2; auto. apply existsb_exists in E2 as (x & Hx & E3).
    apply entry_eqb_eq in E3; subst. apply filter_In in Hx as [_ Hx]. congruence.
Qed.

(* ---- add ---- *)
Lemma add_observer_registered : forall s p o c, alive s o = true ->
  registered (add_observer s p o c) =
    list_insert (ins_pos p (registered s)) (mkE p o c) (registered s) /\
  alive (add_observer s p o c) = alive s /\ updates (add_observer s p o c) = updates s.
Proof.
  intros s p o c Ho. unfold add_observer. split; [|split; reflexivity].
  rewrite flush_poc. apply registered_set_poc. intros e He.
  unfold list_insert in He. apply in_app_or in He. simpl in *.
  destruct He as [He|[He|He]].
  - apply registered_alive. rewrite <- (firstn_skipn (ins_pos p (registered s))).
    apply in_or_app; auto.
  - now subst.
  - apply registered_alive. rewrite <- (firstn_skipn (ins_pos p (registered s))).
    apply in_or_app; auto.
Qed.

Definition desc (l : list entry) : Prop :=
  StronglySorted (fun a b => prio_leb (e_prio b) (e_prio a) = true) l.

Lemma desc_inv : forall x l, desc (x :: l) ->
  desc l /\ forall y, In y l -> prio_leb (e_prio y) (e_prio x) = true.
Proof. intros x l H; inversion H; subst; split; auto. now apply Forall_forall. Qed.
Lemma desc_filter : forall f l, desc l -> desc (filter f l).
Proof.
  induction l as [|x r IH]; simpl; intros H; auto.
  apply desc_inv in H as [Hs H]. destruct (f x); [|now apply IH].
  constructor; [now apply IH|]. apply Forall_forall. intros y Hy.
  apply filter_In in Hy as [Hy _]. auto.
Qed.

Lemma insert_desc : forall p o c l, desc l ->
  desc (list_insert (ins_pos p l) (mkE p o c) l) /\
  forall q, filter (fun e => prio_eqb (e_prio e) q) (list_insert (ins_pos p l) (mkE p o c) l) =
            filter (fun e => prio_eqb (e_prio e) q) (l ++ [mkE p o c]).
Proof.
  intros p o c. set (x := mkE p o c).
  induction l as [|e r IH]; intros H.
  - simpl. split; [repeat constructor | reflexivity].
  - simpl ins_pos. destruct (prio_gtb p (e_prio e)) eqn:E.
    + unfold list_insert; simpl firstn; simpl skipn. simpl app at 1.
      pose proof (desc_inv _ _ H) as [Hs Hr].
      rewrite prio_gtb_leb, negb_true_iff in E.
      assert (forall y, In y (e :: r) -> prio_leb p (e_prio y) = false) as Hall.
      { intros y [<-|Hy]; auto.
        destruct (prio_leb p (e_prio y)) eqn:E2; auto.
        rewrite (prio_leb_trans _ _ _ E2 (Hr _ Hy)) in E. discriminate. }
      split.
      * constructor; auto. apply Forall_forall. intros y Hy. simpl.
        apply prio_total. auto.
      * intros q. change ([] ++ x :: e :: r) with (x :: e :: r).
        rewrite (filter_app _ (e :: r) [x]).
        assert (prio_eqb p q = true -> filter (fun e => prio_eqb (e_prio e) q) (e :: r) = []) as Hn.
        { intros Eq. apply prio_eqb_eq in Eq; subst q. apply filter_none. intros y Hy.
          destruct (prio_eqb (e_prio y) p) eqn:E3; auto. apply prio_eqb_eq in E3.
          specialize (Hall _ Hy). rewrite E3, prio_leb_refl in Hall. discriminate. }
        change (filter (fun e0 => prio_eqb (e_prio e0) q) (x :: e :: r)) with
          (if prio_eqb p q then x :: filter (fun e0 => prio_eqb (e_prio e0) q) (e :: r)
           else filter (fun e0 => prio_eqb (e_prio e0) q) (e :: r)).
        change (filter (fun e0 => prio_eqb (e_prio e0) q) [x]) with
          (if prio_eqb p q then [x] else []).
        destruct (prio_eqb p q) eqn:Eq.
        -- rewrite Hn by auto. reflexivity.
        -- now rewrite app_nil_r.
    + pose proof (desc_inv _ _ H) as [Hs Hr]. destruct (IH Hs) as [I1 I2].
      change (list_insert (S (ins_pos p r)) x (e :: r)) with
        (e :: list_insert (ins_pos p r) x r).
      split.
      * constructor; auto. apply Forall_forall. intros y Hy. unfold list_insert in Hy.
        assert (y = x \/ In y r) as [->|Hy'].
        { apply in_app_or in Hy as [Hy|[Hy|Hy]]; auto.
          - right. rewrite <- (firstn_skipn (ins_pos p r)). apply in_or_app; auto.
          - right. rewrite <- (firstn_skipn (ins_pos p r)). apply in_or_app; auto. }
        -- rewrite prio_gtb_leb, negb_false_iff in E. exact E.
        -- auto.
      * intros q. simpl. rewrite I2. destruct (prio_eqb (e_prio e) q); reflexivity.
Qed.

(* ---- the invariant over histories ---- *)
Definition oinv (s : ostate) (g : list entry) (dead : list nat) : Prop :=
  stable_by_priority (registered s) g /\
  (forall o, alive s o = true <-> ~ In o dead) /\
  (forall e, In e g -> ~ In (e_obs e) dead).

Lemma stable_filter : forall f l g, stable_by_priority l g ->
  stable_by_priority (filter f l) (filter f g).
Proof.
  intros f l g [H1 H2]; split; [now apply desc_filter|].
  intros p. now rewrite filter_comm, H2, filter_comm.
Qed.
Lemma stable_insert : forall p o c l g, stable_by_priority l g ->
  stable_by_priority (list_insert (ins_pos p l) (mkE p o c) l) (g ++ [mkE p o c]).
Proof.
  intros p o c l g [H1 H2]. destruct (insert_desc p o c l H1) as [I1 I2].
  split; auto. intros q. now rewrite I2, !filter_app, H2.
Qed.
Lemma stable_ext : forall l g g', g = g' -> stable_by_priority l g -> stable_by_priority l g'.
Proof. intros; now subst. Qed.

Lemma rm_match_some : forall o c e, rm_match o (Some c) e = Nat.eqb (e_obs e) o && Nat.eqb (e_cb e) c.
Proof. intros; simpl. now rewrite (Nat.eqb_sym c). Qed.

Definition dead_step (dead : list nat) (a : oop) : list nat :=
  match a with OKill o => o :: dead | _ => dead end.

Lemma oexec_inv : forall a s g dead, oinv s g dead -> legal_from dead [a] ->
  oinv (oexec s a) (log_step g a) (dead_step dead a).
Proof.
  intros a s g dead (S & A & G) L.
  destruct a as [p o c|o c|o c p|b|o|]; simpl in *.
  - destruct L as [L _]. destruct (add_observer_registered s p o c) as (R & R2 & _); [now apply A|].
    unfold oinv. rewrite R, R2. split; [now apply stable_insert|]. split; auto.
    intros e He. apply in_app_or in He as [He|[<-|[]]]; auto.
  - destruct (remove_observer_registered s o c) as (R & R2 & _).
    unfold oinv. rewrite R, R2. destruct c as [c|].
    + split; [|split; auto].
      * rewrite (filter_ext _ _ (fun e => f_equal negb (rm_match_some o c e))).
        now apply stable_filter.
      * intros e He. apply filter_In in He as [He _]. auto.
    + split; [|split; auto].
      * now apply stable_filter.
      * intros e He. apply filter_In in He as [He _]. auto.
  - destruct L as [L _]. unfold change_priority.
    destruct (remove_observer_registered s o (Some c)) as (R & R2 & _).
    destruct (add_observer_registered (remove_observer s o (Some c)) p o c) as (Q & Q2 & _).
    { rewrite R2. now apply A. }
    unfold oinv. rewrite Q, Q2, R, R2. split; [|split; auto].
    + apply stable_insert. rewrite (filter_ext _ _ (fun e => f_equal negb (rm_match_some o c e))).
      now apply stable_filter.
    + intros e He. apply in_app_or in He as [He|[<-|[]]]; auto.
      apply filter_In in He as [He _]. auto.
  - exact (conj S (conj A G)).
  - unfold oinv. split; [|split].
    + assert (registered (kill s o) = filter (fun e => negb (Nat.eqb (e_obs e) o)) (registered s)) as ->.
      { unfold registered, kill; simpl. rewrite filter_filter. apply filter_ext. intros e.
        destruct (Nat.eqb (e_obs e) o); simpl; [now rewrite andb_false_r | now rewrite andb_true_r]. }
      now apply stable_filter.
    + intros x. simpl. destruct (Nat.eqb x o) eqn:E.
      * apply Nat.eqb_eq in E; subst. split; [discriminate | intuition].
      * apply Nat.eqb_neq in E. rewrite A. intuition.
    + intros e He. apply filter_In in He as [He E]. apply negb_true_iff, Nat.eqb_neq in E.
      simpl. intros [H|H]; [congruence | eapply G; eauto].
  - unfold oinv. rewrite registered_flush. simpl. auto.
Qed.

Lemma legal_head : forall a r dead, legal_from dead (a :: r) ->
  legal_from dead [a] /\ legal_from (dead_step dead a) r.
Proof. intros [p o c|o c|o c p|b|o|] r dead; simpl; tauto. Qed.

Lemma orun_inv : forall l s g dead, oinv s g dead -> legal_from dead l ->
  exists dead', oinv (orun s l) (fold_left log_step l g) dead'.
Proof.
  induction l as [|a l IH]; simpl; intros s g dead I L; [eauto|].
  apply legal_head in L as [L1 L2]. eapply IH; [|exact L2]. now apply oexec_inv.
Qed.

Lemma onew_inv : oinv onew [] [].
Proof.
  split; [|split].
  - split; [constructor | reflexivity].
  - simpl; intros; intuition.
  - intros e [].
Qed.

Lemma order_inv : forall l, legal_from [] l ->
  stable_by_priority (registered (orun onew l)) (log_of l).
Proof.
  intros l L. destruct (orun_inv l onew [] [] onew_inv L) as (dead & H & _). exact H.
Qed.

(* ---- exactness of removal ---- *)
Lemma remove_exact : forall s o c,
  registered (remove_observer s o c) =
  filter (fun e => negb (Nat.eqb (e_obs e) o && match c with Some k => Nat.eqb (e_cb e) k | None => true end))
         (registered s).
Proof.
  intros s o c. destruct (remove_observer_registered s o c) as (-> & _ & _).
  apply filter_ext. intros e. f_equal. destruct c as [c|].
  - apply rm_match_some.
  - simpl. now rewrite andb_true_r.
Qed.

Lemma insert_In {A} : forall k (x : A) l y, In y (list_insert k x l) <-> y = x \/ In y l.
Proof.
  intros k x l y. unfold list_insert. rewrite in_app_iff; simpl.
  rewrite <- (firstn_skipn k l) at 3. rewrite in_app_iff. intuition.
Qed.

Lemma change_exact : forall s o c p, alive s o = true ->
  let s' := change_priority s o c p in
  filter (fun e => Nat.eqb (e_obs e) o && Nat.eqb (e_cb e) c) (registered s') = [mkE p o c] /\
  filter (fun e => negb (Nat.eqb (e_obs e) o && Nat.eqb (e_cb e) c)) (registered s') =
  filter (fun e => negb (Nat.eqb (e_obs e) o && Nat.eqb (e_cb e) c)) (registered s).
Proof.
  intros s o c p Ho s'. unfold s', change_priority.
  destruct (remove_observer_registered s o (Some c)) as (R & R2 & _).
  destruct (add_observer_registered (remove_observer s o (Some c)) p o c) as (Q & _ & _);
    [now rewrite R2|].
  rewrite Q. rewrite remove_exact. simpl.
  set (m := fun e => Nat.eqb (e_obs e) o && Nat.eqb (e_cb e) c).
  set (l := filter (fun e => negb (m e)) (registered s)).
  change (filter (fun e : entry => negb (Nat.eqb (e_obs e) o && Nat.eqb (e_cb e) c)) (registered s)) with l.
  unfold list_insert. rewrite !filter_app.
  assert (forall k, filter m (firstn k l) = [] /\ filter m (skipn k l) = []) as Hm.
  { intros k; split; apply filter_none; intros x Hx.
    - assert (In x l) as H by (rewrite <- (firstn_skipn k l); apply in_or_app; auto).
      apply filter_In in H as [_ H]. now apply negb_true_iff.
    - assert (In x l) as H by (rewrite <- (firstn_skipn k l); apply in_or_app; auto).
      apply filter_In in H as [_ H]. now apply negb_true_iff. }
  assert (forall k, filter (fun e => negb (m e)) (firstn k l) = firstn k l /\
                    filter (fun e => negb (m e)) (skipn k l) = skipn k l) as Hn.
  { intros k; split; apply filter_all; intros x Hx;
      (assert (In x l) as H by (rewrite <- (firstn_skipn k l); apply in_or_app; auto));
      apply filter_In in H as [_ H]; exact H. }
  assert (m (mkE p o c) = true) as Hx by (unfold m; simpl; now rewrite !Nat.eqb_refl).
  assert (forall r, filter m (mkE p o c :: r) = mkE p o c :: filter m r) as F1
    by (intros; cbn [filter]; now rewrite Hx).
  assert (forall r, filter (fun e => negb (m e)) (mkE p o c :: r) = filter (fun e => negb (m e)) r) as F2
    by (intros; cbn [filter]; now rewrite Hx).
  change (fun e : entry => (Nat.eqb (e_obs e) o && Nat.eqb (e_cb e) c)) with m.
  change (fun e : entry => negb (Nat.eqb (e_obs e) o && Nat.eqb (e_cb e) c)) with (fun e => negb (m e)).
  rewrite F1, F2. clearbody m.
  destruct (Hm (ins_pos p l)) as [-> ->]. destruct (Hn (ins_pos p l)) as [-> ->].
  split; auto. apply firstn_skipn.
Qed.

(* ---- notification rounds ---- *)
Lemma flush_frame : forall s x, (x < nextl s)%nat ->
  lists (flush s) x = lists s x /\ (nextl s <= nextl (flush s))%nat.
Proof.
  intros s x H; unfold flush; simpl. rewrite set_list_ne by lia. split; auto.
Qed.
Lemma set_poc_flush_frame : forall s l x, (x < nextl s)%nat ->
  lists (set_poc (flush s) l) x = lists s x /\ (nextl s <= nextl (set_poc (flush s) l))%nat.
Proof.
  intros s l x H. unfold set_poc, flush; simpl. rewrite !set_list_ne by lia. split; auto.
Qed.
Lemma ol_remove_frame : forall s r x, (x < nextl s)%nat ->
  lists (ol_remove s r) x = lists s x /\ (nextl s <= nextl (ol_remove s r))%nat.
Proof.
  intros s r x H. unfold ol_remove.
  destruct (flush_frame s x H) as [F1 F2].
  destruct (set_poc_flush_frame (flush s)
     (remove_loop (length (lists (flush (flush s)) (cur (flush (flush s))))) r
        (lists (flush (flush s)) (cur (flush (flush s))))) x) as [G1 G2]; [lia|].
  split; [congruence | lia].
Qed.
Lemma fold_ol_remove_frame : forall rs s x, (x < nextl s)%nat ->
  lists (fold_left ol_remove rs s) x = lists s x /\
  (nextl s <= nextl (fold_left ol_remove rs s))%nat.
Proof.
  induction rs as [|r rs IH]; simpl; intros s x H; auto.
  destruct (ol_remove_frame s r x H) as [E1 E2].
  destruct (IH (ol_remove s r) x) as [F1 F2]; [lia|]. split; [congruence | lia].
Qed.
Lemma remove_observer_frame : forall s o c x, (x < nextl s)%nat ->
  lists (remove_observer s o c) x = lists s x /\ (nextl s <= nextl (remove_observer s o c))%nat.
Proof.
  intros s o c x H. unfold remove_observer. destruct (flush_frame s x H) as [F1 F2].
  destruct (fold_ol_remove_frame
    (filter (rm_match o c) (lists (flush s) (cur (flush s)))) (flush s) x) as [G1 G2]; [lia|].
  split; [congruence | lia].
Qed.
Lemma add_observer_frame : forall s p o c x, (x < nextl s)%nat ->
  lists (add_observer s p o c) x = lists s x /\ (nextl s <= nextl (add_observer s p o c))%nat.
Proof. intros; unfold add_observer; now apply set_poc_flush_frame. Qed.
Lemma oexec_frame : forall a s x, (x < nextl s)%nat ->
  lists (oexec s a) x = lists s x /\ (nextl s <= nextl (oexec s a))%nat.
Proof.
  intros [p o c|o c|o c p|b|o|] s x H; simpl.
  - now apply set_poc_flush_frame.
  - now apply remove_observer_frame.
  - unfold change_priority. destruct (remove_observer_frame s o (Some c) x H) as [F1 F2].
    destruct (add_observer_frame (remove_observer s o (Some c)) p o c x) as [G1 G2]; [lia|].
    split; [exact (eq_trans G1 F1) | lia].
  - auto.
  - auto.
  - now apply flush_frame.
Qed.
Lemma orun_frame : forall l s x, (x < nextl s)%nat ->
  lists (orun s l) x = lists s x /\ (nextl s <= nextl (orun s l))%nat.
Proof.
  induction l as [|a l IH]; simpl; intros s x H; auto.
  destruct (oexec_frame a s x H) as [E1 E2].
  destruct (IH (oexec s a) x) as [F1 F2]; [lia|]. split; [congruence | lia].
Qed.

Fixpoint above (minp : option prio) (l : list entry) : list entry :=
  match l with
  | [] => []
  | e :: r => if match minp with Some m => prio_leb (e_prio e) m | None => false end
              then [] else e :: above minp r
  end.

Lemma above_filter : forall minp l, desc l ->
  above minp l = filter (fun e => match minp with Some m => prio_gtb (e_prio e) m | None => true end) l.
Proof.
  induction l as [|e r IH]; simpl; intros H; auto.
  apply desc_inv in H as [Hs Hr]. destruct minp as [m|]; simpl.
  - rewrite prio_gtb_leb. destruct (prio_leb (e_prio e) m) eqn:E; simpl.
    + symmetry; apply filter_none. intros y Hy. rewrite prio_gtb_leb.
      now rewrite (prio_leb_trans _ _ _ (Hr _ Hy) E).
    + f_equal; auto.
  - f_equal; auto.
Qed.

Lemma notify_loop_spec : forall self which minp script L snap n pos k s fuel,
  length snap = (pos + n)%nat -> (n < fuel)%nat -> (L < nextl s)%nat -> lists s L = snap ->
  notify_loop fuel self which minp script L pos k s =
  let ab := above minp (skipn pos snap) in
  Some (map (fun e => (e_cb e, self, which)) ab,
        orun s (concat (map script (seq k (length ab))))).
Proof.
  intros self which minp script L snap.
  induction n as [|n IH]; intros pos k s fuel Hlen Hf HL Hs; (destruct fuel as [|fuel]; [lia|]);
    simpl notify_loop; rewrite Hs.
  - destruct (nth_error snap pos) eqn:E.
    + assert (nth_error snap pos <> None) as X by congruence. apply nth_error_Some in X. lia.
    + rewrite skipn_all2 by lia. reflexivity.
  - destruct (nth_error snap pos) as [e|] eqn:E.
    2: { apply nth_error_None in E; lia. }
    rewrite (skipn_nth _ _ _ E). simpl above.
    destruct (match minp with Some m => prio_leb (e_prio e) m | None => false end); [reflexivity|].
    destruct (orun_frame (script k) s L HL) as [F1 F2].
    rewrite (IH (S pos) (S k)); try lia; try congruence.
    simpl. unfold orun. rewrite fold_left_app. reflexivity.
Qed.

Lemma notify_spec : forall self which minp script s fuel,
  desc (registered s) -> (length (registered s) < fuel)%nat ->
  notify_observers fuel self which minp script s =
  if updates s then
    let targets := filter (fun e => match minp with Some m => prio_gtb (e_prio e) m | None => true end)
                          (registered s) in
    Some (map (fun e => (e_cb e, self, match which with Some w => w | None => self end)) targets,
          orun (flush s) (concat (map script (seq 0 (length targets)))))
  else Some ([], s).
Proof.
  intros self which minp script s fuel D F. unfold notify_observers.
  destruct (updates s); auto.
  rewrite (notify_loop_spec self _ minp script (cur (flush s)) (registered s)
             (length (registered s)) 0 0 (flush s) fuel); auto.
  - rewrite skipn_O. rewrite above_filter by auto. reflexivity.
  - apply flush_poc.
Qed.

Lemma notify_reached : forall l self which minp script fuel, legal_from [] l ->
  let s := orun onew l in
  (length (registered s) < fuel)%nat ->
  notify_observers fuel self which minp script s =
  if updates s then
    let targets := filter (fun e => match minp with Some m => prio_gtb (e_prio e) m | None => true end)
                          (registered s) in
    Some (map (fun e => (e_cb e, self, match which with Some w => w | None => self end)) targets,
          orun (flush s) (concat (map script (seq 0 (length targets)))))
  else Some ([], s).
Proof.
  intros l self which minp script fuel L s F. apply notify_spec; auto.
  apply order_inv. exact L.
Qed.

Lemma notify_calls : forall l self which minp fuel, legal_from [] l ->
  let s := orun onew l in
  (length (registered s) < fuel)%nat ->
  option_map fst (notify_observers fuel self which minp (fun _ => []) s) =
  Some (if updates s then
          map (fun e => (e_cb e, self, match which with Some w => w | None => self end))
              (filter (fun e => match minp with Some m => prio_gtb (e_prio e) m | None => true end)
                      (registered s))
        else []).
Proof.
  intros l self which minp fuel L s F.
  pose proof (notify_reached l self which minp (fun _ => []) fuel L F) as H.
  fold s in H. rewrite H. destruct (updates s); reflexivity.
Qed.
