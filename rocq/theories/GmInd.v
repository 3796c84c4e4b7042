(** Proofs about gradients, part 1: what a call does to links and constraints does not depend on the
    contents of memory. *)
From Coq Require Import List ZArith Bool Lia Arith.
From Verif Require Import NpModel IndexOpsModel PzModel PzSpec CopyModel GmModel.
Import ListNotations.
Open Scope Z_scope.

Section Ind.
Context {V : Type}.
Implicit Types s : @state V.
Notation "a ;; b" := (andthen a b) (at level 61, right associativity).

(** The notification state with other optimizer copies. *)
Definition recop (c : oid -> option (list V)) (n : @ntst V) : @ntst V :=
  mkN (passes n) (updates n) (visited n) c (fresh n) (trace n).
Definition sim s (t : @state V) : Prop := st s = st t /\ ios s = ios t /\ fix_ s = fix_ t /\ exists c, nt t = recop c (nt s).
Lemma recop_id : forall n, recop (copied n) n = n.
Proof. intros []. reflexivity. Qed.
Lemma sim_twin : forall s g, sim s (twin s g).
Proof. intros s g. repeat split. exists (copied (nt s)). cbn. symmetry. apply recop_id. Qed.

Definition rmap {A B : Type} (h : A -> B) (r : res A) : res B := match r with Ok a => Ok (h a) | Er e => Er e end.
Lemma rfold_map : forall (A B : Type) (h : A -> A) (g : B -> A -> res A) l a, (forall b a, g b (h a) = rmap h (g b a)) ->
  rfold g l (h a) = rmap h (rfold g l a).
Proof. intros A B h g l. induction l as [|b l IH]; intros a H; cbn; auto. rewrite H. destruct (g b a); cbn; auto. Qed.

Lemma notify_recop : forall c f t x up n, notify f t x up (recop c n) = rmap (recop c) (notify f t x up n).
Proof.
  intros c f. induction f as [|f IH]; intros t x up n; cbn [notify]; auto. cbn [recop updates].
  destruct (updates n x); auto.
  assert (E : (if is_leaf t x then recop c n else add_trace (set_fresh (recop c n) x false) x)
            = recop c (if is_leaf t x then n else add_trace (set_fresh n x false) x)) by (destruct (is_leaf t x); reflexivity).
  rewrite E. destruct up; auto. cbn [passes recop]. apply rfold_map. intros. apply IH.
Qed.
Lemma trigger_params_recop : forall c f t i x up n, trigger_params f t i x up (recop c n) = rmap (recop c) (trigger_params f t i x up n).
Proof.
  intros c f. induction f as [|f IH]; intros t i x up n; cbn [trigger_params]; auto.
  rewrite (rfold_map _ _ (recop c)).
  - match goal with |- rbind (rmap _ ?r) _ = _ => destruct r end; cbn [rbind rmap]; auto. apply notify_recop.
  - intros b a. destruct (is_fixed (fuel t) t i b) as [[|]|]; cbn; auto.
Qed.
Lemma trigger_recop : forall c t i x up n, trigger_update t i x up (recop c n) = rmap (recop c) (trigger_update t i x up n).
Proof. intros. unfold trigger_update. cbn [recop updates]. destruct (updates n x && negb (in_init t x)); auto. apply trigger_params_recop. Qed.

Definition rc c (a : @ntst V * list oid * option exn) : @ntst V * list oid * option exn := let '(n, l, e) := a in (recop c n, l, e).
Lemma traverse_recop : forall c f t stop x n l, traverse f t stop x (recop c n, l) = rc c (traverse f t stop x (n, l)).
Proof.
  intros c f. induction f as [|f IH]; intros t stop x n l; cbn [traverse]; auto. cbn [recop visited].
  destruct (visited n x); auto. destruct (stop x); auto.
  set (G := fun (a : ntst * list oid * option exn) (c0 : oid) => match a with (s', None) => traverse f t stop c0 s' | _ => a end).
  assert (F : forall ks n l e, fold_left G ks (recop c n, l, e) = rc c (fold_left G ks (n, l, e))).
  { induction ks as [|k ks IHk]; intros n' l' e'; auto. cbn [fold_left]. unfold G at 2 4. destruct e'.
    - apply IHk.
    - rewrite IH. destruct (traverse f t stop k (n', l')) as [[n1 l1] e1]. cbn [rc]. apply IHk. }
  change (set_visited (recop c n) x true) with (recop c (set_visited n x true)). rewrite F.
  destruct (fold_left G (kids t x) (set_visited n x true, x :: l, None)) as [[n1 l1] [e1|]]; reflexivity.
Qed.
Lemma traverse_parents_recop : forall c f t stop x n l, traverse_parents f t stop x (recop c n, l) = rc c (traverse_parents f t stop x (n, l)).
Proof.
  intros c f. induction f as [|f IH]; intros t stop x n l; cbn [traverse_parents]; auto.
  destruct (par t x) as [p|]; auto.
  change (set_visited (recop c n) x true) with (recop c (set_visited n x true)). rewrite IH.
  destruct (traverse_parents f t stop p (set_visited n x true, l)) as [[n1 l1] [e1|]]; cbn [rc]; auto.
  rewrite traverse_recop. destruct (traverse (fuel t) t stop p (n1, l1)) as [[n2 l2] [e2|]]; reflexivity.
Qed.

(** Two runs end alike, if both succeed. *)
Definition alike (a b : @state V * option exn) : Prop := snd a <> None \/ snd b <> None \/ sim (fst a) (fst b).
Definition ind (c : @cmd V) : Prop := forall s t, sim s t -> alike (c s) (c t).

Lemma ind_done : ind done.
Proof. intros s t H. right. right. exact H. Qed.
Lemma ind_andthen : forall a b, ind a -> ind b -> ind (a ;; b).
Proof.
  intros a b Ha Hb s t H. specialize (Ha s t H). unfold andthen. destruct (a s) as [s1 [e1|]], (a t) as [t1 [e2|]]; cbn in *;
    try (left; cbn; congruence); try (right; left; cbn; congruence).
  apply Hb. destruct Ha as [Q|[Q|Q]]; cbn in *; congruence || auto.
Qed.
Lemma ind_fst : forall (a : @cmd V) s t, alike (a s) (a t) -> alike (a s) (a t).
Proof. auto. Qed.
Lemma ind_upd_st : forall g, ind (upd_st g).
Proof. intros g s t (E1 & E2 & E3 & c & E4). right. right. cbn. repeat split; cbn; auto; try (f_equal; auto). exists c. auto. Qed.
Lemma ind_c_ios : forall g : @state V -> iost, (forall s t, sim s t -> g s = g t) -> ind (c_ios g).
Proof. intros g Hg s t H. pose proof (Hg s t H) as E. destruct H as (E1 & E2 & E3 & c & E4). right. right. cbn. repeat split; cbn; auto. exists c. auto. Qed.
Lemma ind_c_nt : forall g, (forall c n, g (recop c n) = recop c (g n)) -> ind (c_nt g).
Proof. intros g Hg s t (E1 & E2 & E3 & c & E4). right. right. cbn. repeat split; cbn; auto. exists c. rewrite E4. apply Hg. Qed.
Lemma ind_lift : forall (A : Type) (get : @state V -> res A) put,
  (forall s t, sim s t -> match get s, get t with Ok a, Ok b => sim (put s a) (put t b) | _, _ => True end) -> ind (lift get put).
Proof.
  intros A get put H s t Hs. specialize (H s t Hs). unfold lift. destruct (get s), (get t); cbn; auto.
  - right. right. auto.
  - right. left. cbn. congruence.
  - left. cbn. congruence.
  - left. cbn. congruence.
Qed.
Lemma ind_get : forall (A : Type) (g : @state V -> res A) k, (forall s t, sim s t -> g s = g t) -> (forall a, ind (k a)) -> ind (get g k).
Proof. intros A g k Hg Hk s t H. unfold get. rewrite (Hg s t H). destruct (g t); [apply Hk; auto | left; cbn; congruence]. Qed.
Lemma ind_pre : forall k : @state V -> @cmd V, (forall s t, sim s t -> k s = k t) -> (forall s, ind (k s)) -> ind (fun s => k s s).
Proof. intros k Hk Hi s t H. cbn. rewrite (Hk s t H). apply Hi; auto. Qed.

Lemma ind_c_notify_parent : forall x, ind (c_notify_parent x).
Proof.
  intros x. apply ind_lift. intros s t (E1 & E2 & E3 & c & E4). rewrite E1, E2, E3. destruct (notify_parent_change (st t) x (ios t, fix_ t)); auto.
  repeat split; cbn; auto. exists c. auto.
Qed.
Lemma ind_c_connect_fixes : forall x, ind (c_connect_fixes x).
Proof.
  intros x. apply ind_lift. intros s t (E1 & E2 & E3 & c & E4). rewrite E1, E2, E3. destruct (connect_fixes (st t) x (ios t, fix_ t)); auto.
  repeat split; cbn; auto. exists c. auto.
Qed.
Lemma ind_c_connect : forall x, ind (c_connect x).
Proof.
  intros x. apply ind_andthen; [apply ind_upd_st|]. apply ind_lift. intros s t (E1 & E2 & E3 & c & E4).
  destruct (connect_mem (st s) x (mem s)), (connect_mem (st t) x (mem t)); auto. repeat split; cbn; auto. exists c. auto.
Qed.
Lemma ind_c_highest : forall x k, (forall h, ind (k h)) -> ind (c_highest x k).
Proof. intros x k H. apply ind_get; auto. intros s t (E1 & _). rewrite E1. auto. Qed.
Lemma ind_c_trigger : forall x up, ind (c_trigger x up).
Proof.
  intros x up. apply ind_lift. intros s t (E1 & E2 & E3 & c & E4). rewrite E4, E1, E2, trigger_recop.
  destruct (trigger_update (st t) (ios t) x up (nt s)); cbn; auto. repeat split; cbn; auto. exists c. auto.
Qed.
Lemma ind_disconnect : forall x, ind (disconnect_parent x).
Proof.
  intros x. unfold disconnect_parent.
  apply ind_andthen; [apply ind_c_ios; intros s t (_ & E & _); rewrite E; auto|].
  apply ind_andthen; [apply ind_upd_st|]. apply ind_andthen; [apply ind_c_connect_fixes | apply ind_c_notify_parent].
Qed.
Lemma ind_add_size : forall x n, ind (lift (fun s : @state V => add_size (fuel (st s)) (st s) (x (st s)) n) with_st).
Proof.
  intros x n. apply ind_lift. intros s t (E1 & E2 & E3 & c & E4). rewrite E1. destruct (add_size (fuel (st t)) (st t) (x (st t)) n); auto.
  repeat split; cbn; auto. exists c. auto.
Qed.
Lemma ind_unlink : forall self param, ind (unlink self param).
Proof.
  intros self param s t H. unfold unlink. pose proof H as (E1 & _). rewrite E1.
  destruct (negb (omem param (kids (st t) self))); [left; cbn; congruence|].
  destruct (pidx (st t) param) as [i|]; [|left; cbn; congruence].
  match goal with |- alike (?a s) (?b t) => enough (Q : ind b) by (apply (Q s t H)) end.
  apply ind_andthen; [apply ind_upd_st|]. apply ind_andthen; [apply ind_c_connect|]. apply ind_andthen; [apply ind_disconnect|].
  apply ind_andthen; [apply ind_c_nt; auto|].
  apply ind_andthen; [apply ind_c_ios; intros s' t' (_ & E & _); rewrite E; auto|].
  apply ind_andthen; [apply ind_c_connect|]. apply ind_andthen; [apply ind_c_notify_parent|].
  apply ind_andthen; [apply (ind_add_size (fun u => par u self))|]. apply ind_c_highest. intros h.
  apply ind_andthen; [apply ind_c_connect|]. apply ind_andthen; [apply ind_c_connect_fixes | apply ind_c_notify_parent].
Qed.
Lemma ind_attach : forall self param index, ind (attach self param index).
Proof.
  intros self param index s t H. unfold attach. pose proof H as (E1 & _). rewrite E1.
  match goal with |- alike (match ?p with (_, _) => _ end) _ => destruct p as [[start off] ix] end.
  match goal with |- alike (?a s) (?b t) => enough (Q : ind b) by (apply (Q s t H)) end.
  apply ind_andthen; [apply ind_c_ios; intros s' t' (_ & E & _); rewrite E; auto|].
  apply ind_andthen; [apply ind_c_ios; intros s' t' (_ & E & _); rewrite E; auto|].
  apply ind_andthen; [apply ind_upd_st|]. apply ind_andthen; [apply ind_upd_st|]. apply ind_andthen; [apply ind_c_nt; auto|].
  apply ind_andthen; [apply (ind_add_size (fun _ => Some self))|]. apply ind_andthen; [apply ind_c_notify_parent|].
  intros s' t' H'. pose proof H' as (E1' & _). rewrite E1'. destruct (in_init (st t') self); [right; right; auto|].
  refine (ind_c_highest self _ _ s' t' H'). intros h s2 t2 H2. pose proof H2 as (E2 & _). rewrite E2.
  destruct (inited (st t2) h) as [[|]|]; [| right; right; auto | left; cbn; congruence].
  refine (ind_andthen _ _ (ind_c_connect h) _ s2 t2 H2). apply ind_andthen; [apply ind_c_notify_parent | apply ind_c_connect_fixes].
Qed.
Lemma ind_link_new : forall self param index, ind (link_new self param index).
Proof.
  intros self param index s t H. unfold link_new. pose proof H as (E1 & E2 & E3 & c & E4). rewrite E1, E4.
  destruct (par (st t) param) as [pp|]; [|apply ind_attach; auto].
  rewrite traverse_parents_recop. destruct (traverse_parents (fuel (st t)) (st t) (Nat.eqb self) param (nt s, [])) as [[n l] [e|]]; cbn [rc]; [left; cbn; congruence|].
  apply ind_andthen; [apply ind_unlink | apply ind_attach |]. repeat split; cbn; auto. exists c. auto.
Qed.
Lemma ind_link : forall self param index, ind (link self param index).
Proof.
  intros self param index s t H. unfold link. pose proof H as (E1 & _). rewrite E1.
  destruct (omem param (kids (st t) self)); [|apply ind_link_new; auto]. destruct index; [|left; cbn; congruence].
  apply ind_andthen; [apply ind_unlink | apply ind_link_new | auto].
Qed.
Lemma ind_bare : ind bare_node.
Proof.
  intros s t (E1 & E2 & E3 & c & E4). right. right. unfold bare_node. cbn. rewrite E4, E1, E2, E3. repeat split; cbn; auto. eexists. reflexivity.
Qed.
Lemma ind_init : forall x, ind (initialize_parameter x).
Proof.
  intros x. unfold initialize_parameter. apply ind_andthen; [apply ind_c_highest, ind_c_notify_parent|].
  apply ind_andthen; [apply ind_c_highest, ind_c_connect|]. apply ind_andthen; [apply ind_c_highest, ind_c_connect_fixes | apply ind_c_trigger].
Qed.
Lemma ind_end : forall x b, ind (end_init x b).
Proof. intros x b. apply ind_andthen; [apply ind_upd_st|]. destruct b; [apply ind_init | apply ind_done]. Qed.
Lemma ind_new_node : forall ps b, ind (new_node ps b).
Proof.
  intros ps b s t H. unfold new_node. pose proof H as (E1 & _). rewrite E1.
  refine (ind_andthen _ _ ind_bare _ s t H). apply ind_andthen.
  - clear. induction ps as [|p ps IH]; cbn [fold_right]; [apply ind_done|]. apply ind_andthen; [apply ind_link | exact IH].
  - apply ind_andthen; [apply ind_upd_st|]. destruct b; [apply ind_init | apply ind_done].
Qed.
Lemma ind_new_leaf : forall vals vals' s t, length vals = length vals' -> sim s t -> alike (new_leaf vals s) (new_leaf vals' t).
Proof.
  intros vals vals' s t L (E1 & E2 & E3 & c & E4). right. right. unfold new_leaf. cbn. rewrite E4, E1, E2, E3, L. repeat split; cbn; auto. eexists. reflexivity.
Qed.

(** Copies. *)
Lemma sim_set_attrs : forall x y pp ks a b s t, sim s t -> sim (set_attrs x y pp ks a s) (set_attrs x y pp ks b t).
Proof. intros x y pp ks a b s t (E1 & E2 & E3 & c & E4). unfold set_attrs. cbn. rewrite E4, E1, E2, E3. repeat split; cbn; auto. eexists. reflexivity. Qed.
Lemma sim_alloc : forall s t, sim s t -> sim (alloc s) (alloc t).
Proof. intros s t (E1 & E2 & E3 & c & E4). unfold alloc. cbn. rewrite E1. repeat split; cbn; auto. exists c. auto. Qed.
Lemma sim_mem : forall s t m m', sim s t -> sim (with_mem s m) (with_mem t m').
Proof. intros s t m m' (E1 & E2 & E3 & c & E4). repeat split; cbn; auto. exists c. auto. Qed.
Lemma sim_copy_leaf : forall x pp s t, sim s t -> sim (copy_leaf x pp s) (copy_leaf x pp t).
Proof.
  intros x pp s t H. unfold copy_leaf. destruct (param_array (st s) (mem s) x) as [m1 a1]. destruct (param_array (st t) (mem t) x) as [m2 a2].
  pose proof H as (E1 & _). rewrite E1. apply sim_set_attrs, sim_alloc, sim_mem. auto.
Qed.
Lemma ind_end_setstate : forall y, ind (end_setstate y).
Proof.
  intros y. apply ind_andthen; [apply ind_c_connect|]. apply ind_andthen; [apply ind_c_connect_fixes|].
  apply ind_andthen; [apply ind_c_notify_parent|]. apply ind_c_nt. reflexivity.
Qed.
Definition alike3 {A : Type} (a b : @state V * A * option exn) : Prop :=
  snd a <> None \/ snd b <> None \/ (sim (fst (fst a)) (fst (fst b)) /\ snd (fst a) = snd (fst b)).
Lemma dcopy_ind : forall f x pp s t, sim s t -> alike3 (dcopy f x pp s) (dcopy f x pp t).
Proof.
  intros f. induction f as [|f IH]; intros x pp s t H; cbn [dcopy]; [left; cbn; congruence|].
  pose proof H as (E1 & _). rewrite E1. destruct (is_leaf (st t) x).
  - right. right. cbn. split; auto. apply sim_copy_leaf. auto.
  - set (y := next (st t)). set (G := fun (a : state * list oid * option exn) c =>
            match a with
            | (s0, l, None) => let '(s0', c', e) := dcopy f c (Some y) s0 in (s0', l ++ [c'], e)
            | _ => a
            end).
    assert (F : forall ks (a b : @state V * list oid * option exn), alike3 a b -> alike3 (fold_left G ks a) (fold_left G ks b)).
    { assert (FE : forall ks (a : @state V * list oid * option exn), snd a <> None -> snd (fold_left G ks a) <> None).
      { induction ks as [|k ks IHk]; intros a Ha; auto. cbn [fold_left]. apply IHk. destruct a as [[a1 a2] [e|]]; cbn in *; congruence. }
      induction ks as [|k ks IHk]; intros a b Hab; auto. cbn [fold_left]. destruct Hab as [Q|[Q|Q]].
      - left. apply FE. destruct a as [[a1 a2] [e|]]; cbn in *; congruence.
      - right. left. apply FE. destruct b as [[a1 a2] [e|]]; cbn in *; congruence.
      - apply IHk. destruct a as [[a1 a2] [e|]]; [left; cbn; congruence|]. destruct b as [[b1 b2] [e|]]; [right; left; cbn; congruence|].
        cbn in Q. destruct Q as [Qs Ql]. specialize (IH k (Some y) a1 b1 Qs). cbn [G].
        destruct (dcopy f k (Some y) a1) as [[s1 c1] e1], (dcopy f k (Some y) b1) as [[s2 c2] e2]. unfold alike3 in *. cbn in *.
        destruct IH as [I|[I|[I1 I2]]]; auto. right. right. split; auto. congruence. }
    specialize (F (kids (st t) x) (alloc s, [], None) (alloc t, [], None)).
    destruct F as [Q|[Q|Q]]; [right; right; cbn; split; auto; apply sim_alloc; auto | | |].
    + destruct (fold_left G (kids (st t) x) (alloc s, [], None)) as [[s1 k1] [e1|]]; cbn in Q; [|congruence]. left. cbn. congruence.
    + destruct (fold_left G (kids (st t) x) (alloc s, [], None)) as [[s1 k1] [e1|]];
      destruct (fold_left G (kids (st t) x) (alloc t, [], None)) as [[s2 k2] [e2|]]; cbn in Q; try congruence; [left; cbn; congruence|].
      right. left. cbn. congruence.
    + destruct (fold_left G (kids (st t) x) (alloc s, [], None)) as [[s1 k1] [e1|]]; [left; cbn; congruence|].
      destruct (fold_left G (kids (st t) x) (alloc t, [], None)) as [[s2 k2] [e2|]]; [right; left; cbn; congruence|].
      cbn in Q. destruct Q as [Qs ->].
      pose proof (ind_end_setstate y _ _ (sim_set_attrs x y pp k2 None None _ _ Qs)) as A.
      destruct (end_setstate y (set_attrs x y pp k2 None s1)) as [s3 e3], (end_setstate y (set_attrs x y pp k2 None s2)) as [s4 e4].
      unfold alike, alike3 in *. cbn in *. tauto.
Qed.
Lemma ind_pickle_copy : forall x, ind (pickle_copy x).
Proof.
  intros x s t H. unfold pickle_copy. pose proof H as (E1 & E2 & E3 & c & E4). rewrite E1, E4, traverse_parents_recop.
  destruct (traverse_parents (fuel (st t)) (st t) (fun _ => false) x (nt s, [])) as [[n l] [e|]]; cbn [rc]; [left; cbn; congruence|].
  pose proof (dcopy_ind (fuel (st t)) x None (with_nt s n) (with_nt t (recop c n))) as A.
  destruct (dcopy (fuel (st t)) x None (with_nt s n)) as [[s1 y1] e1], (dcopy (fuel (st t)) x None (with_nt t (recop c n))) as [[s2 y2] e2].
  destruct A as [A|[A|[A1 A2]]]; [repeat split; cbn; auto; exists c; auto | | |]; cbn [fst snd] in *.
  - destruct e1; [left; cbn; congruence | congruence].
  - destruct e2; [|congruence]. destruct e1; [left; cbn; congruence | right; left; cbn; congruence].
  - subst y2. destruct e1; [left; cbn; congruence|]. destruct e2; [right; left; cbn; congruence|].
    refine (ind_andthen _ _ (ind_upd_st (fun t => set_pidx t y1 None)) _ s1 s2 A1). apply ind_lift. intros s' t' (F1 & F2 & F3 & c' & F4). rewrite F4, F1, F2, trigger_params_recop.
    destruct (trigger_params (fuel (st t')) (st t') (ios t') y1 true (nt s')); cbn; auto. repeat split; cbn; auto. exists c'. auto.
Qed.
Variable tfinv : nat -> V -> V.
Lemma ind_copy : forall x, ind (copy_object tfinv x).
Proof.
  intros x s t H. unfold copy_object. pose proof H as (E1 & _). rewrite E1. destruct (is_leaf (st t) x); [apply ind_pickle_copy; auto|].
  refine (ind_andthen _ _ _ _ s t H).
  - clear. intros s t (E1 & E2 & E3 & c & E4). unfold get_optimizer_array.
    destruct (param_array (st s) (mem s) x) as [m1 a1]. destruct (param_array (st t) (mem t) x) as [m2 a2].
    rewrite E1, E2, E3, E4. cbn [recop fresh]. destruct (nonempty (cons_get (ios t) x Fixed)).
    + destruct (ensure_fixes (st t) (ios t) (fix_ t) x); [|left; cbn; congruence]. right. right. cbn. repeat split; cbn; auto.
      eexists. unfold recop, set_fresh, set_copied. cbn. reflexivity.
    + right. right. cbn. repeat split; cbn; auto. eexists. unfold recop, set_fresh, set_copied. cbn. reflexivity.
  - apply ind_andthen; [apply ind_pickle_copy|]. apply ind_andthen; [apply ind_c_connect|]. apply ind_andthen; [apply ind_c_connect_fixes | apply ind_c_notify_parent].
Qed.
End Ind.
