(** Proofs about the index-operations model. *)
From Coq Require Import List ZArith Bool Lia Sorting.Sorted Sorting.Permutation.
From Verif Require Import NpModel NpProofs IndexOpsModel IndexOpsSpec.
Import ListNotations.
Open Scope Z_scope.

Lemma prop_eqb_eq : forall a b, prop_eqb a b = true <-> a = b.
Proof.
  intros [|n] [|m]; simpl; split; intro H; try congruence.
  - apply PeanoNat.Nat.eqb_eq in H. now subst.
  - inversion H. apply PeanoNat.Nat.eqb_refl.
Qed.
Lemma prop_eqb_refl : forall a, prop_eqb a a = true.
Proof. intros; now apply prop_eqb_eq. Qed.
Lemma prop_eqb_neq : forall a b, prop_eqb a b = false <-> a <> b.
Proof. intros; rewrite <- prop_eqb_eq. destruct (prop_eqb a b); split; congruence. Qed.
Lemma prop_dec : forall a b : prop, {a = b} + {a <> b}.
Proof. decide equality. apply PeanoNat.Nat.eq_dec. Qed.

(** Stored array, empty if absent. *)
Definition lk (d : dict) (p : prop) : list Z :=
  match dget d p with Some l => l | None => [] end.

Definition wf (d : dict) : Prop :=
  NoDup (map fst d) /\ Forall (fun e => ssorted (snd e)) d.

(* ---- dictionary laws ---- *)
Lemma dget_dset_eq : forall d p v, dget (dset d p v) p = Some v.
Proof.
  induction d as [|[q l] r IH]; simpl; intros p v.
  - now rewrite prop_eqb_refl.
  - destruct (prop_eqb p q) eqn:E; simpl.
    + now rewrite prop_eqb_refl.
    + now rewrite E.
Qed.
Lemma dget_dset_ne : forall d p q v, p <> q -> dget (dset d p v) q = dget d q.
Proof.
  induction d as [|[q' l] r IH]; simpl; intros p q v H.
  - apply not_eq_sym in H. apply prop_eqb_neq in H. now rewrite H.
  - destruct (prop_eqb p q') eqn:E; simpl.
    + apply prop_eqb_eq in E; subst q'. apply not_eq_sym, prop_eqb_neq in H. now rewrite H.
    + destruct (prop_eqb q q'); auto.
Qed.
Lemma dget_None_notin : forall d p, dget d p = None <-> ~ In p (map fst d).
Proof.
  induction d as [|[q l] r IH]; simpl; intros p; [tauto|].
  destruct (prop_eqb p q) eqn:E.
  - apply prop_eqb_eq in E; subst. split; [congruence|tauto].
  - apply prop_eqb_neq in E. rewrite IH. intuition.
Qed.
Lemma dget_ddel_eq : forall d p, NoDup (map fst d) -> dget (ddel d p) p = None.
Proof.
  induction d as [|[q l] r IH]; simpl; intros p H; auto.
  inversion H; subst. destruct (prop_eqb p q) eqn:E.
  - apply prop_eqb_eq in E; subst. now apply dget_None_notin.
  - simpl. rewrite E. auto.
Qed.
Lemma dget_ddel_ne : forall d p q, p <> q -> dget (ddel d p) q = dget d q.
Proof.
  induction d as [|[q' l] r IH]; simpl; intros p q H; auto.
  destruct (prop_eqb p q') eqn:E.
  - apply prop_eqb_eq in E; subst q'. apply not_eq_sym, prop_eqb_neq in H. now rewrite H.
  - simpl. destruct (prop_eqb q q'); auto.
Qed.
Lemma dset_keys : forall d p v, map fst (dset d p v) =
  if existsb (prop_eqb p) (map fst d) then map fst d else map fst d ++ [p].
Proof.
  induction d as [|[q l] r IH]; simpl; intros p v; auto.
  destruct (prop_eqb p q) eqn:E; simpl.
  - apply prop_eqb_eq in E; now subst.
  - rewrite IH. destruct (existsb (prop_eqb p) (map fst r)); auto.
Qed.
Lemma existsb_prop_In : forall p l, existsb (prop_eqb p) l = true <-> In p l.
Proof.
  intros; rewrite existsb_exists; split.
  - intros (x & H & E). apply prop_eqb_eq in E; now subst.
  - intros H; exists p; split; auto. apply prop_eqb_refl.
Qed.
Lemma dset_NoDup : forall d p v, NoDup (map fst d) -> NoDup (map fst (dset d p v)).
Proof.
  intros d p v H; rewrite dset_keys.
  destruct (existsb (prop_eqb p) (map fst d)) eqn:E; auto.
  apply NoDup_app_remove_r with (l' := []) in H || idtac.
  assert (~ In p (map fst d)) as Hn.
  { intro Hin. apply existsb_prop_In in Hin. congruence. }
  clear E. induction (map fst d) as [|x l IH]; simpl in *.
  - repeat constructor; auto.
  - inversion H; subst. constructor; auto.
    rewrite in_app_iff; simpl; intuition.
Qed.
Lemma ddel_incl : forall d p e, In e (ddel d p) -> In e d.
Proof.
  induction d as [|[q l] r IH]; simpl; intros p e H; auto.
  destruct (prop_eqb p q); simpl in *; intuition eauto.
Qed.
Lemma ddel_NoDup : forall d p, NoDup (map fst d) -> NoDup (map fst (ddel d p)).
Proof.
  induction d as [|[q l] r IH]; simpl; intros p H; auto.
  inversion H; subst. destruct (prop_eqb p q); simpl; auto.
  constructor; auto. intros Hin. apply in_map_iff in Hin as ([x y] & <- & Hin).
  apply ddel_incl in Hin. apply H2. apply in_map_iff. eexists; split; eauto.
Qed.
Lemma dset_Forall : forall P d p v, Forall P d -> P (p, v) -> Forall P (dset d p v).
Proof.
  induction d as [|[q l] r IH]; simpl; intros p v H Hp; auto.
  inversion H; subst. destruct (prop_eqb p q); constructor; auto.
Qed.
Lemma ddel_Forall : forall P d p, Forall P d -> Forall P (ddel d p).
Proof.
  intros P d p H. apply Forall_forall. intros e He. apply ddel_incl in He.
  eapply Forall_forall in H; eauto.
Qed.

Lemma wf_dset : forall d p v, wf d -> ssorted v -> wf (dset d p v).
Proof. intros d p v [H1 H2] Hv; split; [now apply dset_NoDup | now apply dset_Forall]. Qed.
Lemma wf_ddel : forall d p, wf d -> wf (ddel d p).
Proof. intros d p [H1 H2]; split; [now apply ddel_NoDup | now apply ddel_Forall]. Qed.
Lemma wf_nil : wf [].
Proof. split; constructor. Qed.

Lemma dget_In : forall d p l, dget d p = Some l -> In (p, l) d.
Proof.
  induction d as [|[q l'] r IH]; simpl; intros p l H; [discriminate|].
  destruct (prop_eqb p q) eqn:E.
  - apply prop_eqb_eq in E; inversion H; subst; auto.
  - right; auto.
Qed.
Lemma In_dget : forall d p l, NoDup (map fst d) -> In (p, l) d -> dget d p = Some l.
Proof.
  induction d as [|[q l'] r IH]; simpl; intros p l N H; [tauto|].
  inversion N; subst. destruct H as [H|H].
  - inversion H; subst. now rewrite prop_eqb_refl.
  - destruct (prop_eqb p q) eqn:E; auto.
    apply prop_eqb_eq in E; subst. exfalso; apply H2. apply in_map_iff. exists (q, l); auto.
Qed.
Lemma lk_sorted : forall d p, wf d -> ssorted (lk d p).
Proof.
  intros d p [_ H]; unfold lk. destruct (dget d p) eqn:E; [|constructor].
  apply dget_In in E. eapply Forall_forall in H; eauto. auto.
Qed.

Lemma lk_dset : forall d p v q, lk (dset d p v) q = if prop_eqb q p then v else lk d q.
Proof.
  intros; unfold lk. destruct (prop_eqb q p) eqn:E.
  - apply prop_eqb_eq in E; subst. now rewrite dget_dset_eq.
  - apply prop_eqb_neq in E. rewrite dget_dset_ne; auto.
Qed.
Lemma lk_ddel : forall d p q, NoDup (map fst d) ->
  lk (ddel d p) q = if prop_eqb q p then [] else lk d q.
Proof.
  intros; unfold lk. destruct (prop_eqb q p) eqn:E.
  - apply prop_eqb_eq in E; subst. now rewrite dget_ddel_eq.
  - apply prop_eqb_neq in E. rewrite dget_ddel_ne; auto.
Qed.

Lemma dd_get_fst : forall d p, fst (dd_get d p) = lk d p.
Proof. intros; unfold dd_get, lk. destruct (dget d p); auto. Qed.
Lemma dd_get_lk : forall d p q, lk (snd (dd_get d p)) q = lk d q.
Proof.
  intros; unfold dd_get. destruct (dget d p) eqn:E; auto.
  simpl. rewrite lk_dset. destruct (prop_eqb q p) eqn:E2; auto.
  apply prop_eqb_eq in E2; subst. unfold lk. now rewrite E.
Qed.
Lemma dd_get_wf : forall d p, wf d -> wf (snd (dd_get d p)).
Proof.
  intros; unfold dd_get. destruct (dget d p); auto. apply wf_dset; auto. constructor.
Qed.

(* ---- root operations in terms of lk ---- *)
Lemma root_add_lk : forall d p ix q,
  lk (root_add d p ix) q = if prop_eqb q p then union1d (lk d p) ix else lk d q.
Proof.
  intros; unfold root_add. rewrite (surjective_pairing (dd_get d p)).
  rewrite lk_dset, dd_get_fst, dd_get_lk. reflexivity.
Qed.
Lemma root_add_wf : forall d p ix, wf d -> wf (root_add d p ix).
Proof.
  intros; unfold root_add. rewrite (surjective_pairing (dd_get d p)).
  apply wf_dset; [now apply dd_get_wf | apply union1d_sorted].
Qed.
Lemma root_remove_lk : forall d p ix q, wf d ->
  lk (snd (root_remove d p ix)) q = if prop_eqb q p then setdiff1d (lk d p) ix else lk d q.
Proof.
  intros d p ix q [N _]; unfold root_remove.
  destruct (dget d p) as [l|] eqn:E; simpl.
  - assert (lk d p = l) as -> by (unfold lk; now rewrite E).
    destruct (nonempty (setdiff1d l ix)) eqn:En.
    + apply lk_dset.
    + rewrite lk_ddel by auto. destruct (prop_eqb q p); auto.
      destruct (setdiff1d l ix); simpl in En; congruence.
  - destruct (prop_eqb q p) eqn:E2; auto.
    apply prop_eqb_eq in E2; subst. unfold lk; now rewrite E.
Qed.
Lemma root_remove_wf : forall d p ix, wf d -> wf (snd (root_remove d p ix)).
Proof.
  intros d p ix H; unfold root_remove.
  destruct (dget d p) as [l|] eqn:E; simpl; auto.
  destruct (nonempty (setdiff1d l ix)).
  - apply wf_dset; auto. apply setdiff1d_sorted.
    replace l with (lk d p) by (unfold lk; now rewrite E). now apply lk_sorted.
  - now apply wf_ddel.
Qed.
Lemma root_remove_fst : forall d p ix,
  fst (root_remove d p ix) =
    match dget d p with Some l => intersect1d_au l ix | None => [] end.
Proof. intros; unfold root_remove; destruct (dget d p); auto. Qed.

Lemma dget_map : forall f d p,
  dget (map (fun e => (fst e, f (snd e))) d) p = option_map f (dget d p).
Proof.
  induction d as [|[q l] r IH]; simpl; intros p; auto.
  destruct (prop_eqb p q); auto.
Qed.
Lemma root_shift_right_lk : forall d s n q,
  lk (root_shift_right d s n) q = shift_arr_right s n (lk d q).
Proof.
  intros; unfold lk, root_shift_right. rewrite dget_map.
  destruct (dget d q); auto.
Qed.
Lemma shift_arr_right_sorted : forall s n l, 0 <= n -> ssorted l -> ssorted (shift_arr_right s n l).
Proof.
  intros; apply ssorted_map; auto. intros x y _ _ Hxy.
  destruct (s <=? x) eqn:E1, (s <=? y) eqn:E2;
    rewrite ?Z.leb_le, ?Z.leb_gt in *; lia.
Qed.
Lemma root_shift_right_wf : forall d s n, 0 <= n -> wf d -> wf (root_shift_right d s n).
Proof.
  intros d s n Hn [H1 H2]; split; unfold root_shift_right.
  - rewrite map_map; simpl. now rewrite map_ext with (g := fst).
  - rewrite Forall_map; simpl. eapply Forall_impl; [|exact H2]. simpl; intros e He.
    now apply shift_arr_right_sorted.
Qed.
Lemma shift_arr_left_sorted : forall s n l, 0 <= n -> ssorted l -> ssorted (shift_arr_left s n l).
Proof.
  intros; apply ssorted_map; [now apply ssorted_filter|].
  intros x y Hx Hy Hxy. apply filter_In in Hx as [_ Hx]. apply filter_In in Hy as [_ Hy].
  rewrite negb_true_iff, andb_false_iff in *.
  destruct (s <=? x) eqn:E1, (s <=? y) eqn:E2;
    rewrite ?Z.leb_le, ?Z.leb_gt, ?Z.ltb_ge in *; intuition (try congruence; try lia).
Qed.

Lemma filter_keys_NoDup : forall (f : prop * list Z -> bool) (d : list (prop * list Z)),
  NoDup (map fst d) -> NoDup (map fst (filter f d)).
Proof.
  induction d as [|e r IH]; simpl; intros H; auto.
  inversion H; subst. destruct (f e); simpl; auto. constructor; auto.
  intros Hin. apply in_map_iff in Hin as (x & Ex & Hx). apply filter_In in Hx as [Hx _].
  apply H2. rewrite <- Ex. now apply in_map.
Qed.

Lemma shift_left_fold : forall s n es d, 0 <= n -> wf d -> NoDup (map fst es) ->
  (forall e, In e es -> ssorted (snd e)) ->
  let d' := fold_left (root_shift_left_step s n) es d in
  wf d' /\ forall q, lk d' q = match dget es q with
                              | Some l => shift_arr_left s n l
                              | None => lk d q end.
Proof.
  induction es as [|[p l] es IH]; simpl; intros d Hn W N S; [split; auto|].
  inversion N; subst.
  assert (wf (root_shift_left_step s n d (p, l))) as W1.
  { unfold root_shift_left_step; simpl. destruct (nonempty (shift_arr_left s n l)).
    - apply wf_dset; auto. apply shift_arr_left_sorted; auto. apply (S (p, l)); auto.
    - now apply wf_ddel. }
  destruct (IH _ Hn W1 H2) as [W2 L]; auto.
  split; auto. intros q. rewrite L.
  assert (lk (root_shift_left_step s n d (p, l)) q =
          if prop_eqb q p then shift_arr_left s n l else lk d q) as E1.
  { unfold root_shift_left_step; simpl. destruct (nonempty (shift_arr_left s n l)) eqn:En.
    - apply lk_dset.
    - rewrite lk_ddel by apply W. destruct (prop_eqb q p); auto.
      destruct (shift_arr_left s n l); simpl in En; congruence. }
  destruct (prop_eqb q p) eqn:E.
  - apply prop_eqb_eq in E; subst q.
    apply dget_None_notin in H1. rewrite H1. exact E1.
  - destruct (dget es q); auto.
Qed.

Lemma dget_root_items : forall d p, NoDup (map fst d) ->
  dget (root_items d) p = match lk d p with [] => None | l => Some l end.
Proof.
  intros d p N. unfold lk.
  destruct (dget (root_items d) p) as [l|] eqn:E.
  - apply dget_In in E. apply filter_In in E as [E Hn]. apply In_dget in E; auto.
    rewrite E. simpl in Hn. destruct l; simpl in *; congruence.
  - apply dget_None_notin in E.
    destruct (dget d p) as [[|x l]|] eqn:E2; auto.
    exfalso; apply E. apply dget_In in E2. apply in_map_iff. exists (p, x :: l); split; auto.
    apply filter_In; auto.
Qed.

Lemma root_shift_left_spec : forall d s n, 0 <= n -> wf d ->
  wf (root_shift_left d s n) /\
  forall q, lk (root_shift_left d s n) q = shift_arr_left s n (lk d q).
Proof.
  intros d s n Hn W. unfold root_shift_left.
  destruct (shift_left_fold s n (root_items d) d Hn W) as [W2 L].
  - apply filter_keys_NoDup, W.
  - intros e He. apply filter_In in He as [He _]. destruct W as [_ W].
    eapply Forall_forall in W; eauto.
  - split; auto. intros q. rewrite L, dget_root_items by apply W.
    destruct (lk d q); auto.
Qed.

(* ---- reading through views ---- *)
Fixpoint vlk (v : io) (l : list Z) : list Z :=
  match v with
  | Root => l
  | View q off sz => filter_index off sz (vlk q l)
  end.

Lemma getitem_fst : forall v d p, fst (getitem v d p) = vlk v (lk d p).
Proof.
  induction v as [|q IH off sz]; simpl; intros d p.
  - apply dd_get_fst.
  - specialize (IH d p). destruct (getitem q d p) as [l d']. simpl in *. now rewrite IH.
Qed.
Lemma getitem_snd : forall v d p, snd (getitem v d p) = snd (dd_get d p).
Proof.
  induction v as [|q IH off sz]; simpl; intros d p; auto.
  specialize (IH d p). destruct (getitem q d p) as [l d']. simpl in *. auto.
Qed.

Lemma filter_index_In : forall off sz l i,
  In i (filter_index off sz l) <-> In (i + off) l /\ 0 <= i < sz.
Proof.
  intros; unfold filter_index. rewrite in_map_iff. split.
  - intros (x & <- & H). apply filter_In in H as [H E].
    apply andb_true_iff in E as [E1 E2]. rewrite Z.leb_le in E1. rewrite Z.ltb_lt in E2.
    replace (x - off + off) with x by lia. split; auto; lia.
  - intros [H Hi]. exists (i + off). split; [lia|]. apply filter_In; split; auto.
    apply andb_true_iff; rewrite Z.leb_le, Z.ltb_lt; lia.
Qed.
Lemma filter_index_sorted : forall off sz l, ssorted l -> ssorted (filter_index off sz l).
Proof.
  intros; apply ssorted_map; [now apply ssorted_filter|]. intros; lia.
Qed.
Lemma vlk_sorted : forall v l, ssorted l -> ssorted (vlk v l).
Proof. induction v; simpl; intros; auto. apply filter_index_sorted; auto. Qed.
Lemma vlk_In : forall v l i, In i (vlk v l) <-> In (i + base v) l /\ inside v i.
Proof.
  induction v as [|q IH off sz]; simpl; intros l i.
  - rewrite Z.add_0_r; tauto.
  - rewrite filter_index_In, IH. replace (i + off + base q) with (i + (off + base q)) by lia.
    tauto.
Qed.
Lemma vlk_nil : forall v, vlk v [] = [].
Proof. induction v; simpl; auto. now rewrite IHv. Qed.

Lemma carries_lk : forall v d p i, carries v d p i <-> In (i + base v) (lk d p) /\ inside v i.
Proof. intros; unfold carries. rewrite getitem_fst. apply vlk_In. Qed.
Lemma carries_root : forall d p i, carries Root d p i <-> In i (lk d p).
Proof. intros; rewrite carries_lk; simpl. rewrite Z.add_0_r; tauto. Qed.

Lemma items_eq : forall v d, items v d =
  filter (fun e => nonempty (snd e)) (map (fun e => (fst e, vlk v (snd e))) d).
Proof.
  induction v as [|q IH off sz]; simpl; intros d.
  - unfold root_items. f_equal. rewrite <- map_id at 1. apply map_ext. now intros [].
  - rewrite IH. induction d as [|[p l] r IHd]; simpl; auto.
    destruct (vlk q l) as [|x l'] eqn:E; simpl.
    + exact IHd.
    + destruct (nonempty (filter_index off sz (x :: l'))); simpl; [f_equal|]; exact IHd.
Qed.

Lemma items_NoDup : forall v d, NoDup (map fst d) -> NoDup (map fst (items v d)).
Proof.
  intros v d H. rewrite items_eq. apply filter_keys_NoDup. now rewrite map_map; simpl.
Qed.
Lemma items_In : forall v d p l, NoDup (map fst d) ->
  (In (p, l) (items v d) <-> l = vlk v (lk d p) /\ l <> []).
Proof.
  intros v d p l N. rewrite items_eq, filter_In, in_map_iff. simpl. split.
  - intros (([q m] & E & Hin) & Hn). simpl in E. inversion E; subst.
    apply In_dget in Hin; auto. unfold lk; rewrite Hin. split; auto.
    intros E2; rewrite E2 in Hn; discriminate.
  - intros [-> Hn]. split.
    + exists (p, lk d p); split; auto. unfold lk in *. destruct (dget d p) eqn:E.
      * now apply dget_In.
      * exfalso; apply Hn, vlk_nil.
    + destruct (vlk v (lk d p)); simpl; congruence.
Qed.

(* ---- operations through views ---- *)
Lemma plus_off_0 : forall l, plus_off 0 l = l.
Proof. intros; unfold plus_off. rewrite <- map_id. apply map_ext. intros; lia. Qed.
Lemma plus_off_plus : forall a b l, plus_off a (plus_off b l) = plus_off (b + a) l.
Proof. intros; unfold plus_off. rewrite map_map. apply map_ext. intros; lia. Qed.
Lemma plus_off_In : forall o l i, In i (plus_off o l) <-> In (i - o) l.
Proof.
  intros; unfold plus_off; rewrite in_map_iff; split.
  - intros (x & <- & H). now replace (x + o - o) with x by lia.
  - intros H; exists (i - o); split; auto; lia.
Qed.

Lemma add_eq : forall v d p ix, add v d p ix = root_add d p (plus_off (base v) ix).
Proof.
  induction v as [|q IH off sz]; simpl; intros d p ix.
  - now rewrite plus_off_0.
  - now rewrite IH, plus_off_plus.
Qed.
Lemma remove_snd : forall v d p ix,
  snd (remove v d p ix) = snd (root_remove d p (plus_off (base v) ix)).
Proof.
  induction v as [|q IH off sz]; simpl; intros d p ix.
  - now rewrite plus_off_0.
  - specialize (IH d p (plus_off off ix)). destruct (remove q d p (plus_off off ix)).
    simpl in *. now rewrite IH, plus_off_plus.
Qed.
Lemma remove_fst : forall v d p ix,
  fst (remove v d p ix) =
  map (fun i => i - base v) (fst (root_remove d p (plus_off (base v) ix))).
Proof.
  induction v as [|q IH off sz]; simpl; intros d p ix.
  - rewrite plus_off_0. rewrite <- map_id at 1. apply map_ext. intros; lia.
  - specialize (IH d p (plus_off off ix)).
    destruct (remove q d p (plus_off off ix)) as [l d']. simpl in *.
    rewrite plus_off_plus in IH.
    assert ((if nonempty l then map (fun i => i - off) l else l) = map (fun i => i - off) l) as ->
      by (destruct l; auto).
    rewrite IH, map_map. apply map_ext. intros; lia.
Qed.
Lemma shift_right_eq : forall v d s n, shift_right v d s n = root_shift_right d (s + base v) n.
Proof.
  induction v as [|q IH off sz]; simpl; intros.
  - now rewrite Z.add_0_r.
  - rewrite IH. f_equal; lia.
Qed.
Lemma shift_left_eq : forall v d s n, shift_left v d s n = root_shift_left d (s + base v) n.
Proof.
  induction v as [|q IH off sz]; simpl; intros.
  - now rewrite Z.add_0_r.
  - rewrite IH. f_equal; lia.
Qed.

Lemma remove_wf : forall v d p ix, wf d -> wf (snd (remove v d p ix)).
Proof. intros; rewrite remove_snd. now apply root_remove_wf. Qed.
Lemma remove_lk : forall v d p ix q, wf d ->
  lk (snd (remove v d p ix)) q =
  if prop_eqb q p then setdiff1d (lk d p) (plus_off (base v) ix) else lk d q.
Proof. intros; rewrite remove_snd. now apply root_remove_lk. Qed.

Lemma update_spec : forall v src off d, wf d ->
  wf (update v d src off) /\
  forall q i, In i (lk (update v d src off) q) <->
    In i (lk d q) \/ exists l, In (q, l) src /\ In (i - base v - off) l.
Proof.
  intros v src off; unfold update.
  induction src as [|[p l] src IH]; simpl; intros d W.
  - split; auto. intros q i; split; auto. intros [H|(l & [] & _)]; auto.
  - destruct (IH (add v d p (plus_off off l))) as [W1 L].
    { rewrite add_eq. now apply root_add_wf. }
    split; auto. intros q i. rewrite L, add_eq, root_add_lk.
    destruct (prop_eqb q p) eqn:E.
    + apply prop_eqb_eq in E; subst q. rewrite union1d_In, !plus_off_In. split.
      * intros [[H|H]|(l' & H & Hi)]; auto.
        -- right; exists l; split; auto.
        -- right; exists l'; auto.
      * intros [H|(l' & [H|H] & Hi)]; auto.
        -- inversion H; subst. auto.
        -- right; exists l'; auto.
    + apply prop_eqb_neq in E. split.
      * intros [H|(l' & H & Hi)]; auto. right; exists l'; auto.
      * intros [H|(l' & [H|H] & Hi)]; auto.
        -- inversion H; congruence.
        -- right; exists l'; auto.
Qed.

(** Removing, entry by entry, a list of entries with distinct keys. *)
Lemma remove_fold : forall u off es d, wf d -> NoDup (map fst es) ->
  let d' := fold_left (fun d e => snd (remove u d (fst e) (plus_off off (snd e)))) es d in
  wf d' /\ forall q, lk d' q = match dget es q with
                              | Some l => setdiff1d (lk d q) (plus_off (base u) (plus_off off l))
                              | None => lk d q end.
Proof.
  induction es as [|[p l] es IH]; simpl; intros d W N; [split; auto|].
  inversion N; subst.
  destruct (IH (snd (remove u d p (plus_off off l)))) as [W1 L]; auto.
  { now apply remove_wf. }
  split; auto. intros q. rewrite L, remove_lk by auto.
  destruct (prop_eqb q p) eqn:E; auto.
  apply prop_eqb_eq in E; subst q. apply dget_None_notin in H1. now rewrite H1.
Qed.

Lemma dget_items : forall v d q, NoDup (map fst d) ->
  dget (items v d) q = match vlk v (lk d q) with [] => None | l => Some l end.
Proof.
  intros v d q N. destruct (dget (items v d) q) as [l|] eqn:E.
  - apply dget_In in E. apply items_In in E as [-> Hn]; auto.
    destruct (vlk v (lk d q)); congruence.
  - apply dget_None_notin in E. destruct (vlk v (lk d q)) as [|x l] eqn:E2; auto.
    exfalso; apply E. apply in_map_iff. exists (q, x :: l); split; auto.
    apply items_In; auto. split; [auto | congruence].
Qed.

Lemma clear_spec : forall v d, wf d ->
  wf (clear v d) /\
  forall q i, In i (lk (clear v d) q) <-> In i (lk d q) /\ ~ inside v (i - base v).
Proof.
  intros [|u off sz] d W; unfold clear.
  - split; [apply wf_nil|]. simpl. intros q i; unfold lk; simpl. tauto.
  - destruct (remove_fold u off (items (View u off sz) d) d W) as [W1 L].
    { apply items_NoDup, W. }
    split; auto. intros q i. rewrite L, dget_items by apply W.
    set (v := View u off sz).
    assert (In (i - base v) (vlk v (lk d q)) <-> In i (lk d q) /\ inside v (i - base v)) as Hm.
    { rewrite vlk_In. now replace (i - base v + base v) with i by lia. }
    fold v. destruct (vlk v (lk d q)) as [|x l] eqn:E.
    + split; [|tauto]. intros H; split; auto. intros Hi. destruct (proj2 Hm (conj H Hi)).
    + rewrite plus_off_plus. change (off + base u) with (base v).
      rewrite setdiff1d_In, plus_off_In, Hm. tauto.
Qed.

Lemma delitem_spec : forall v d p d', wf d -> delitem v d p = Some d' ->
  wf d' /\ forall q i, In i (lk d' q) <->
    In i (lk d q) /\ ~ (q = p /\ inside v (i - base v)).
Proof.
  intros [|u off sz] d p d' W; unfold delitem.
  - destruct (dget d p) eqn:E; [|discriminate]. intros H; inversion H; subst; clear H.
    split; [now apply wf_ddel|]. intros q i. rewrite lk_ddel by apply W. simpl.
    destruct (prop_eqb q p) eqn:E2.
    + apply prop_eqb_eq in E2. simpl; tauto.
    + apply prop_eqb_neq in E2; tauto.
  - set (v := View u off sz). rewrite (surjective_pairing (getitem v d p)).
    rewrite getitem_fst, getitem_snd. intros H.
    assert (forall a b : dict, Some a = Some b -> a = b) as Hs by (intros; congruence).
    apply Hs in H; subst d'; clear Hs.
    split; [now apply remove_wf, dd_get_wf|].
    intros q i. rewrite remove_lk by now apply dd_get_wf. rewrite !dd_get_lk.
    destruct (prop_eqb q p) eqn:E2.
    + apply prop_eqb_eq in E2; subst q. rewrite setdiff1d_In, plus_off_In, vlk_In.
      replace (i - base v + base v) with i by lia. tauto.
    + apply prop_eqb_neq in E2; tauto.
Qed.

Lemma exec_wf : forall o d, legal o -> wf d -> wf (exec d o).
Proof.
  intros [v p ix|v p ix|v src off|v|v p|v s n|v s n|v p] d L W; simpl in *.
  - rewrite add_eq. now apply root_add_wf.
  - now apply remove_wf.
  - now apply update_spec.
  - now apply clear_spec.
  - destruct (delitem v d p) eqn:E; auto. now apply delitem_spec in E.
  - rewrite shift_right_eq. now apply root_shift_right_wf.
  - rewrite shift_left_eq. now apply root_shift_left_spec.
  - rewrite getitem_snd. now apply dd_get_wf.
Qed.
Lemma run_wf : forall ops d, Forall legal ops -> wf d -> wf (run d ops).
Proof.
  induction ops as [|o ops IH]; simpl; intros d L W; auto.
  inversion L; subst. apply IH; auto. now apply exec_wf.
Qed.
Lemma reachable_wf : forall d, reachable d -> wf d.
Proof. intros d (ops & L & ->). apply run_wf; auto. apply wf_nil. Qed.

(* ---- the property lemmas ---- *)
Lemma sorted_inv : forall v d, reachable d ->
  (forall p, StronglySorted Z.lt (fst (getitem v d p))) /\
  NoDup (properties v d) /\
  (forall p l, In (p, l) (items v d) <-> l = fst (getitem v d p) /\ l <> []).
Proof.
  intros v d R. apply reachable_wf in R. split; [|split].
  - intros p. rewrite getitem_fst. apply vlk_sorted. now apply lk_sorted.
  - apply items_NoDup, R.
  - intros p l. rewrite getitem_fst. apply items_In, R.
Qed.

Lemma add_sem : forall d v p ix q j,
  carries Root (add v d p ix) q j <->
  carries Root d q j \/ (q = p /\ In (j - base v) ix).
Proof.
  intros. rewrite !carries_root, add_eq, root_add_lk.
  destruct (prop_eqb q p) eqn:E.
  - apply prop_eqb_eq in E; subst q. rewrite union1d_In, plus_off_In. tauto.
  - apply prop_eqb_neq in E. tauto.
Qed.

Lemma remove_sem : forall d v p ix q j, reachable d ->
  (carries Root (snd (remove v d p ix)) q j <->
   carries Root d q j /\ ~ (q = p /\ In (j - base v) ix)).
Proof.
  intros d v p ix q j R. apply reachable_wf in R.
  rewrite !carries_root, remove_lk by auto.
  destruct (prop_eqb q p) eqn:E.
  - apply prop_eqb_eq in E; subst q. rewrite setdiff1d_In, plus_off_In. tauto.
  - apply prop_eqb_neq in E. tauto.
Qed.

Lemma NoDup_plus_off : forall o l, NoDup l -> NoDup (plus_off o l).
Proof.
  intros; unfold plus_off. apply FinFun.Injective_map_NoDup; auto. intros x y; lia.
Qed.

Lemma remove_ret : forall d v p ix, reachable d -> NoDup ix ->
  StronglySorted Z.lt (fst (remove v d p ix)) /\
  forall i, In i (fst (remove v d p ix)) <-> carries Root d p (i + base v) /\ In i ix.
Proof.
  intros d v p ix R N. apply reachable_wf in R.
  rewrite remove_fst, root_remove_fst.
  assert (match dget d p with Some l => intersect1d_au l (plus_off (base v) ix) | None => [] end =
          match dget d p with Some l => intersect1d_au (lk d p) (plus_off (base v) ix)
                            | None => [] end) as ->
    by (unfold lk; destruct (dget d p); auto).
  assert (NoDup (lk d p)) as Nl by now apply ssorted_NoDup, lk_sorted.
  assert (NoDup (plus_off (base v) ix)) as Ni by now apply NoDup_plus_off.
  split.
  - destruct (dget d p); [|constructor].
    apply ssorted_map; [now apply intersect1d_au_sorted | intros; lia].
  - intros i. rewrite carries_root, in_map_iff. split.
    + intros (x & <- & H). destruct (dget d p); [|destruct H].
      apply intersect1d_au_In in H as [H1 H2]; auto. apply plus_off_In in H2.
      now replace (x - base v + base v) with x by lia.
    + intros [H1 H2]. exists (i + base v). split; [lia|].
      destruct (dget d p) eqn:E.
      * apply intersect1d_au_In; auto. split; auto. apply plus_off_In.
        now replace (i + base v - base v) with i by lia.
      * unfold lk in H1; rewrite E in H1; destruct H1.
Qed.

Lemma shift_right_sem : forall d v s n q j, 0 <= n ->
  (carries Root (shift_right v d s n) q j <->
   (j < s + base v /\ carries Root d q j) \/
   (s + base v + n <= j /\ carries Root d q (j - n))).
Proof.
  intros d v s n q j Hn. rewrite !carries_root, shift_right_eq, root_shift_right_lk.
  unfold shift_arr_right. rewrite in_map_iff. split.
  - intros (x & <- & H). destruct (s + base v <=? x) eqn:E.
    + apply Z.leb_le in E. right. split; [lia|]. now replace (x + n - n) with x by lia.
    + apply Z.leb_gt in E. auto.
  - intros [[H1 H2]|[H1 H2]].
    + exists j. split; auto. destruct (s + base v <=? j) eqn:E; auto. apply Z.leb_le in E; lia.
    + exists (j - n). split; auto. destruct (s + base v <=? j - n) eqn:E; [lia|].
      apply Z.leb_gt in E; lia.
Qed.

Lemma shift_left_sem : forall d v s n q j, reachable d -> 0 <= n ->
  (carries Root (shift_left v d s n) q j <->
   (j < s + base v /\ carries Root d q j) \/
   (s + base v <= j /\ carries Root d q (j + n))).
Proof.
  intros d v s n q j R Hn. apply reachable_wf in R.
  rewrite !carries_root, shift_left_eq.
  destruct (root_shift_left_spec d (s + base v) n Hn R) as [_ ->].
  unfold shift_arr_left. rewrite in_map_iff. split.
  - intros (x & <- & H). apply filter_In in H as [H E].
    apply negb_true_iff, andb_false_iff in E.
    destruct (s + base v <=? x) eqn:E1.
    + apply Z.leb_le in E1. right. destruct E as [E|E]; [discriminate|].
      apply Z.ltb_ge in E. split; [lia|]. now replace (x - n + n) with x by lia.
    + apply Z.leb_gt in E1. auto.
  - intros [[H1 H2]|[H1 H2]].
    + exists j. split.
      * destruct (s + base v <=? j) eqn:E; auto. apply Z.leb_le in E; lia.
      * apply filter_In; split; auto. apply negb_true_iff, andb_false_iff.
        left; apply Z.leb_gt; lia.
    + exists (j + n). split.
      * destruct (s + base v <=? j + n) eqn:E; [lia|]. apply Z.leb_gt in E; lia.
      * apply filter_In; split; auto. apply negb_true_iff, andb_false_iff.
        right; apply Z.ltb_ge; lia.
Qed.

Lemma shift_roundtrip : forall d v s n w q, reachable d -> 0 <= n ->
  fst (getitem w (shift_left v (shift_right v d s n) s n) q) = fst (getitem w d q).
Proof.
  intros d v s n w q R Hn. apply reachable_wf in R.
  rewrite !getitem_fst. f_equal.
  rewrite shift_right_eq, shift_left_eq.
  destruct (root_shift_left_spec (root_shift_right d (s + base v) n) (s + base v) n Hn) as [W L].
  { now apply root_shift_right_wf. }
  rewrite L, root_shift_right_lk. set (k := s + base v).
  unfold shift_arr_left, shift_arr_right.
  generalize (lk d q) as l. induction l as [|x l IH]; auto.
  simpl. destruct (k <=? x) eqn:E.
  - apply Z.leb_le in E.
    assert ((k <=? x + n) && (x + n <? k + n) = false) as ->.
    { apply andb_false_iff; right; apply Z.ltb_ge; lia. }
    simpl. assert (k <=? x + n = true) as -> by (apply Z.leb_le; lia).
    f_equal; [lia | exact IH].
  - rewrite E. simpl. rewrite E. now f_equal.
Qed.

Lemma view_read : forall v d p i,
  carries v d p i <-> carries Root d p (i + base v) /\ inside v i.
Proof. intros. rewrite carries_root. apply carries_lk. Qed.

Lemma view_add_seen : forall d v p ix w q i,
  carries w (add v d p ix) q i <->
  carries w d q i \/ (q = p /\ inside w i /\ In (i + base w - base v) ix).
Proof.
  intros. rewrite (view_read w (add v d p ix)), (view_read w d), add_sem. tauto.
Qed.
Lemma view_remove_seen : forall d v p ix w q i, reachable d ->
  (carries w (snd (remove v d p ix)) q i <->
   carries w d q i /\ ~ (q = p /\ In (i + base w - base v) ix)).
Proof.
  intros d v p ix w q i R.
  rewrite (view_read w (snd (remove v d p ix))), (view_read w d), remove_sem by assumption. tauto.
Qed.

Lemma clear_sem : forall v d q j, reachable d ->
  (carries Root (clear v d) q j <-> carries Root d q j /\ ~ inside v (j - base v)).
Proof.
  intros v d q j R. apply reachable_wf in R. rewrite !carries_root. now apply clear_spec.
Qed.

Lemma del_sem : forall v d p q j, reachable d -> v <> Root ->
  exists d', delitem v d p = Some d' /\
  (carries Root d' q j <-> carries Root d q j /\ ~ (q = p /\ inside v (j - base v))).
Proof.
  intros v d p q j R Hv. apply reachable_wf in R.
  destruct (delitem v d p) as [d'|] eqn:E.
  - exists d'; split; auto. rewrite !carries_root. now apply delitem_spec in E.
  - destruct v; [congruence|]. unfold delitem in E.
    destruct (getitem (View v off size) d p); discriminate.
Qed.

Lemma copy_fold : forall es acc, NoDup (map fst es) ->
  (forall p, In p (map fst es) -> ~ In p (map fst acc)) ->
  Forall (fun e => ssorted (snd e)) es ->
  fold_left (fun c e => root_add c (fst e) (snd e)) es acc = acc ++ es.
Proof.
  induction es as [|[p l] es IH]; simpl; intros acc N D S.
  - now rewrite app_nil_r.
  - inversion N; subst. inversion S; subst. simpl in *.
    assert (root_add acc p l = acc ++ [(p, l)]) as ->.
    { assert (dget acc p = None) as Hg by (apply dget_None_notin, D; auto).
      unfold root_add, dd_get. rewrite Hg.
      assert (union1d [] l = l) as ->.
      { apply ssorted_ext; auto. apply union1d_sorted. intros x; rewrite union1d_In; simpl; tauto. }
      clear - Hg. induction acc as [|[q m] acc IH]; simpl in *.
      - now rewrite prop_eqb_refl.
      - destruct (prop_eqb p q) eqn:E; [discriminate|]. simpl. rewrite E. now rewrite IH. }
    rewrite IH; auto.
    + now rewrite <- app_assoc.
    + intros q Hq Hin. rewrite map_app, in_app_iff in Hin. simpl in Hin.
      destruct Hin as [Hin|[<-|[]]]; [eapply D; eauto | auto].
Qed.

Lemma copy_items : forall v d, reachable d -> items Root (copy v d) = items v d.
Proof.
  intros v d R. apply reachable_wf in R. unfold copy.
  assert (Forall (fun e => ssorted (snd e)) (items v d)) as S.
  { apply Forall_forall. intros [p l] H. apply items_In in H as [-> _]; [|apply R].
    apply vlk_sorted, lk_sorted, R. }
  rewrite copy_fold; auto.
  - simpl. rewrite items_eq. clear. unfold root_items.
    induction (map (fun e => (fst e, vlk v (snd e))) d) as [|e r IH]; simpl; auto.
    destruct (nonempty (snd e)) eqn:E; simpl; auto. rewrite E. now f_equal.
  - apply items_NoDup, R.
Qed.

Lemma copy_lookup : forall v d p, reachable d ->
  fst (getitem Root (copy v d) p) = fst (getitem v d p).
Proof.
  intros v d p R. pose proof (copy_items v d R) as Hc. apply reachable_wf in R.
  simpl in Hc. rewrite !getitem_fst. simpl.
  assert (wf (copy v d)) as W.
  { unfold copy. generalize (items v d) as es.
    assert (forall es c, wf c -> wf (fold_left (fun c e => root_add c (fst e) (snd e)) es c)) as G.
    { induction es; simpl; intros; auto. apply IHes. now apply root_add_wf. }
    intros; apply G, wf_nil. }
  pose proof (dget_root_items (copy v d) p (proj1 W)) as E1.
  pose proof (dget_items v d p (proj1 R)) as E2. rewrite Hc, E2 in E1.
  destruct (vlk v (lk d p)), (lk (copy v d) p); congruence.
Qed.

(* properties_for *)
Lemma properties_for_sem : forall v d index, reachable d ->
  length (properties_for v d index) = length index /\
  forall k, (k < length index)%nat ->
    NoDup (nth k (properties_for v d index) []) /\
    forall p, In p (nth k (properties_for v d index) []) <-> carries v d p (nth k index 0).
Proof.
  intros v d index R. apply reachable_wf in R. unfold properties_for. rewrite map_length.
  split; auto. intros k Hk.
  set (F := fun i => filter (fun p => zmem i (fst (getitem v d p))) (properties v d)).
  assert (nth k (map F index) [] = F (nth k index 0)) as ->.
  { rewrite nth_indep with (d' := F 0) by now rewrite map_length. apply map_nth. }
  unfold F. split.
  - apply NoDup_filter. apply items_NoDup, R.
  - intros p. rewrite filter_In, zmem_In. unfold carries. split; [tauto|].
    intros H; split; auto. unfold properties. apply in_map_iff.
    exists (p, fst (getitem v d p)); split; auto. apply items_In; [apply R|].
    rewrite <- getitem_fst. split; auto. intros E; rewrite E in H; destruct H.
Qed.

Lemma epi_one_fold : forall i cl acc, NoDup cl -> NoDup (map fst acc) ->
  NoDup (map fst (fold_left (epi_one i) cl acc)) /\
  forall q, lk (fold_left (epi_one i) cl acc) q =
            lk acc q ++ (if existsb (prop_eqb q) cl then [i] else []).
Proof.
  induction cl as [|c cl IH]; simpl; intros acc N K.
  - split; auto. intros; now rewrite app_nil_r.
  - inversion N; subst. destruct (IH (epi_one i acc c)) as [K1 L]; auto.
    { unfold epi_one. now apply dset_NoDup. }
    split; auto. intros q. rewrite L. unfold epi_one at 1. rewrite lk_dset.
    destruct (prop_eqb q c) eqn:E; simpl; auto.
    apply prop_eqb_eq in E; subst q.
    assert (existsb (prop_eqb c) cl = false) as ->.
    { destruct (existsb (prop_eqb c) cl) eqn:E; auto. apply existsb_prop_In in E. tauto. }
    now rewrite app_nil_r.
Qed.

Lemma epi_loop_spec : forall (F : Z -> list prop) index acc,
  (forall i, NoDup (F i)) -> NoDup (map fst acc) ->
  NoDup (map fst (epi_loop index (map F index) acc)) /\
  forall q, lk (epi_loop index (map F index) acc) q =
            lk acc q ++ filter (fun i => existsb (prop_eqb q) (F i)) index.
Proof.
  induction index as [|i index IH]; simpl; intros acc HF K.
  - split; auto. intros; now rewrite app_nil_r.
  - destruct (epi_one_fold i (F i) acc (HF i) K) as [K1 L1].
    destruct (IH _ HF K1) as [K2 L2]. split; auto.
    intros q. rewrite L2, L1. rewrite <- app_assoc.
    destruct (existsb (prop_eqb q) (F i)); auto.
Qed.

Lemma epi_no_empty : forall i cl acc, Forall (fun e => snd e <> []) acc ->
  Forall (fun e : prop * list Z => snd e <> []) (fold_left (epi_one i) cl acc).
Proof.
  induction cl as [|c cl IH]; simpl; intros acc H; auto.
  apply IH. unfold epi_one. apply dset_Forall; auto. simpl.
  destruct (match dget acc c with Some l => l | None => [] end); discriminate.
Qed.
Lemma epi_loop_no_empty : forall index props acc, Forall (fun e => snd e <> []) acc ->
  Forall (fun e : prop * list Z => snd e <> []) (epi_loop index props acc).
Proof.
  induction index as [|i index IH]; intros [|cl props] acc H; simpl; auto.
  apply IH. now apply epi_no_empty.
Qed.

Lemma properties_dict_for_sem : forall v d index, reachable d ->
  NoDup (map fst (properties_dict_for v d index)) /\
  forall p l, In (p, l) (properties_dict_for v d index) <->
    l <> [] /\ l = filter (fun i => zmem i (fst (getitem v d p))) index.
Proof.
  intros v d index R. pose proof (reachable_wf _ R) as W.
  unfold properties_dict_for, extract_properties_to_index.
  set (F := fun i => filter (fun p => zmem i (fst (getitem v d p))) (properties v d)).
  change (properties_for v d index) with (map F index).
  destruct (epi_loop_spec F index []) as [K L].
  - intros i. apply NoDup_filter. apply items_NoDup, W.
  - constructor.
  - pose proof (epi_loop_no_empty index (map F index) [] (Forall_nil _)) as NE.
    set (r := epi_loop index (map F index) []) in *.
    assert (forall p, lk r p = filter (fun i => zmem i (fst (getitem v d p))) index) as L'.
    { intros p. rewrite L. simpl. apply filter_ext. intros i.
      destruct (existsb (prop_eqb p) (F i)) eqn:E.
      - apply existsb_prop_In in E. unfold F in E. apply filter_In in E as [_ E]. now rewrite E.
      - destruct (zmem i (fst (getitem v d p))) eqn:E2; auto.
        assert (In p (F i)) as Hin.
        { unfold F. apply filter_In. split; auto. apply zmem_In in E2. unfold properties.
          apply in_map_iff. exists (p, fst (getitem v d p)). split; auto.
          apply items_In; [apply W|]. rewrite <- getitem_fst. split; auto.
          intros E3; rewrite E3 in E2; destruct E2. }
        apply existsb_prop_In in Hin. congruence. }
    split; auto. intros p l. split.
    + intros H. assert (l <> []) as Hn.
      { eapply Forall_forall in NE; eauto. exact NE. }
      split; auto. rewrite <- L'. unfold lk. apply In_dget in H; auto. now rewrite H.
    + intros [Hn ->]. rewrite <- L' in *. unfold lk in *.
      destruct (dget r p) eqn:E; [now apply dget_In | congruence].
Qed.

(* ---- reading is observably pure ---- *)
Definition lkeq (d d' : dict) : Prop := forall p, lk d p = lk d' p.

Lemma items_perm : forall v d d', wf d -> wf d' -> lkeq d d' ->
  Permutation (items v d) (items v d').
Proof.
  intros v d d' W W' E. apply NoDup_Permutation.
  - apply NoDup_map_inv with (f := fst). apply items_NoDup, W.
  - apply NoDup_map_inv with (f := fst). apply items_NoDup, W'.
  - intros [p l]. rewrite !items_In by (apply W || apply W'). now rewrite E.
Qed.

Lemma exec_lkeq : forall o d d', legal o -> wf d -> wf d' -> lkeq d d' ->
  lkeq (exec d o) (exec d' o).
Proof.
  intros o d d' Lg W W' E.
  pose proof (exec_wf o d Lg W) as Wx. pose proof (exec_wf o d' Lg W') as Wx'.
  intros q. apply ssorted_ext; try now apply lk_sorted.
  intros i. destruct o as [v p ix|v p ix|v src off|v|v p|v s n|v s n|v p]; simpl in *.
  - rewrite !add_eq, !root_add_lk, !E. tauto.
  - rewrite !remove_lk, !E by auto. tauto.
  - destruct (update_spec v src off d W) as [_ ->].
    destruct (update_spec v src off d' W') as [_ ->]. now rewrite E.
  - destruct (clear_spec v d W) as [_ ->]. destruct (clear_spec v d' W') as [_ ->]. now rewrite E.
  - destruct v as [|u off sz].
    + (* Root: KeyError or not, the lookups agree *)
      assert (forall d, wf d ->
        lk (match delitem Root d p with Some d' => d' | None => d end) q =
        if prop_eqb q p then [] else lk d q) as G.
      { intros d0 W0. unfold delitem. destruct (dget d0 p) eqn:Eg.
        - apply lk_ddel, W0.
        - destruct (prop_eqb q p) eqn:E2; auto. apply prop_eqb_eq in E2; subst.
          unfold lk; now rewrite Eg. }
      rewrite !G by auto. now rewrite E.
    + set (v := View u off sz).
      destruct (delitem v d p) eqn:E1; destruct (delitem v d' p) eqn:E2;
        try (unfold v, delitem in E1, E2;
             destruct (getitem (View u off sz) d p), (getitem (View u off sz) d' p); discriminate).
      apply delitem_spec in E1 as [_ ->]; auto. apply delitem_spec in E2 as [_ ->]; auto.
      now rewrite E.
  - rewrite !shift_right_eq, !root_shift_right_lk, E. tauto.
  - rewrite !shift_left_eq.
    destruct (root_shift_left_spec d (s + base v) n Lg W) as [_ ->].
    destruct (root_shift_left_spec d' (s + base v) n Lg W') as [_ ->]. now rewrite E.
  - rewrite !getitem_snd, !dd_get_lk, E. tauto.
Qed.

Lemma run_lkeq : forall ops d d', Forall legal ops -> wf d -> wf d' -> lkeq d d' ->
  lkeq (run d ops) (run d' ops).
Proof.
  induction ops as [|o ops IH]; simpl; intros d d' L W W' E; auto.
  inversion L; subst. apply IH; auto; try now apply exec_wf. now apply exec_lkeq.
Qed.

Lemma read_pure : forall v p d ops w q, reachable d -> Forall legal ops ->
  fst (getitem w (run (snd (getitem v d p)) ops) q) = fst (getitem w (run d ops) q) /\
  Permutation (items w (run (snd (getitem v d p)) ops)) (items w (run d ops)).
Proof.
  intros v p d ops w q R L. apply reachable_wf in R.
  assert (wf (snd (getitem v d p))) as W1 by (rewrite getitem_snd; now apply dd_get_wf).
  assert (lkeq (run (snd (getitem v d p)) ops) (run d ops)) as E.
  { apply run_lkeq; auto. intros r. rewrite getitem_snd. apply dd_get_lk. }
  split.
  - now rewrite !getitem_fst, E.
  - apply items_perm; auto; now apply run_wf.
Qed.

(* ---- update, deletion on a root object, size ---- *)
Lemma update_sem : forall d v src off q j, reachable d ->
  (carries Root (update v d src off) q j <->
   carries Root d q j \/ exists l, In (q, l) src /\ In (j - base v - off) l).
Proof.
  intros d v src off q j R. apply reachable_wf in R. rewrite !carries_root.
  destruct (update_spec v src off d R) as [_ H]. apply H.
Qed.
Lemma del_root_sem : forall d p, reachable d ->
  match delitem Root d p with
  | Some d' => forall q j, carries Root d' q j <-> carries Root d q j /\ q <> p
  | None => forall j, ~ carries Root d p j
  end.
Proof.
  intros d p R. apply reachable_wf in R. destruct (delitem Root d p) as [d'|] eqn:E.
  - intros q j. rewrite !carries_root. destruct (delitem_spec _ _ _ _ R E) as [_ H]. rewrite H. simpl. tauto.
  - intros j. rewrite carries_root. unfold delitem in E. unfold lk. destruct (dget d p); [discriminate | auto].
Qed.
Definition pairs_of (l : list (prop * list Z)) : list (prop * Z) :=
  flat_map (fun e => map (pair (fst e)) (snd e)) l.
Lemma pairs_of_In : forall l p i, In (p, i) (pairs_of l) <-> exists ix, In (p, ix) l /\ In i ix.
Proof.
  intros l p i. unfold pairs_of. rewrite in_flat_map. split.
  - intros ([q ix] & H1 & H2). simpl in H2. apply in_map_iff in H2. destruct H2 as (j & H2 & H3).
    inversion H2; subst. exists ix. auto.
  - intros (ix & H1 & H2). exists (p, ix). split; [assumption|]. simpl. now apply in_map.
Qed.
Lemma pairs_of_NoDup : forall l, NoDup (map fst l) -> Forall (fun e => NoDup (snd e)) l -> NoDup (pairs_of l).
Proof.
  induction l as [|[p ix] l IH]; simpl; intros N F; [constructor|].
  apply NoDup_cons_iff in N. destruct N as [N1 N2]. apply Forall_cons_iff in F. destruct F as [F1 F2].
  assert (Hd : forall x, In x (map (pair p) ix) -> ~ In x (pairs_of l)).
  { intros [q j] H1 H2. apply in_map_iff in H1. destruct H1 as (k & H1 & _). inversion H1; subst.
    apply pairs_of_In in H2. destruct H2 as (iy & H2 & _). apply N1. now apply (in_map fst) in H2. }
  assert (Hn : NoDup (map (pair p) ix)).
  { simpl in F1. clear -F1. induction ix; simpl; [constructor|]. apply NoDup_cons_iff in F1.
    destruct F1 as [F1 F2]. constructor; [|auto]. rewrite in_map_iff. intros (x & H & Hx).
    inversion H; subst. contradiction. }
  specialize (IH N2 F2). revert Hn Hd. generalize (map (pair p) ix) as a.
  induction a as [|x a IHa]; simpl; intros Hn Hd; [assumption|]. apply NoDup_cons_iff in Hn.
  destruct Hn as [Hn1 Hn2]. constructor.
  - rewrite in_app_iff. intros [H|H]; [contradiction|]. apply (Hd x); auto.
  - apply IHa; auto.
Qed.
Lemma pairs_of_length : forall l, Z.of_nat (length (pairs_of l)) =
  fold_right Z.add 0 (map (fun l => Z.of_nat (length l)) (map snd l)).
Proof.
  induction l as [|[p ix] l IH]; simpl; [reflexivity|].
  rewrite app_length, map_length, Nat2Z.inj_add, IH. reflexivity.
Qed.
Lemma size_sem : forall v d, reachable d ->
  exists l, NoDup l /\ (forall p i, In (p, i) l <-> carries v d p i) /\ iosize v d = Z.of_nat (length l).
Proof.
  intros v d R. destruct (sorted_inv v d R) as (S & N & I0). exists (pairs_of (items v d)).
  split; [|split].
  - apply pairs_of_NoDup; [assumption|]. apply Forall_forall. intros [p l] H. apply I0 in H.
    destruct H as [-> _]. simpl. specialize (S p). remember (fst (getitem v d p)) as l eqn:E. clear -S.
    induction S as [|x l S IH F]; constructor; auto. intros Hx. rewrite Forall_forall in F.
    specialize (F _ Hx). lia.
  - intros p i. rewrite pairs_of_In. unfold carries. split.
    + intros (ix & H1 & H2). apply I0 in H1. destruct H1 as [-> _]. assumption.
    + intros H. exists (fst (getitem v d p)). split; [|assumption]. apply I0. split; [reflexivity|].
      intros E. rewrite E in H. destruct H.
  - unfold iosize, indices. now rewrite pairs_of_length.
Qed.
