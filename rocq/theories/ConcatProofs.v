(** Proofs about concatenations of parameters. *)
From Coq Require Import List ZArith Bool Lia Arith Permutation.
From Verif Require Import NpModel NpProofs IndexOpsModel IndexOpsSpec IndexOpsProofs PzModel PzSpec PzTree PzStruct PzLink PzWalk PzMem PzIo PzInv PzConn PzFix PzLinkMem PzPres PzUnlink PzTraverse PzNotify PzNew PzCmd PzInit PzCons PzVal PzOpt PzRandom PzHist PzOrder PzGrad PzKeep ConcatModel ConcatSpec.
Import ListNotations.
Open Scope Z_scope.

(** ** The contents *)
Lemma flattened_in : forall t f tr, swf t -> krep t tr -> (height tr <= f)%nat -> forall p, In p (flattened f t (root tr)) <-> is_leaf t p = true /\ In p (oids tr).
Proof.
  intros t. induction f as [|f IH]; intros [x ts] W K Hh p; [simpl in Hh; lia|].
  cbn [flattened root]. destruct (is_leaf t x) eqn:El.
  - assert (Ek : kids t x = []). { unfold is_leaf in El. destruct (kind t x) as [n|] eqn:Ekd; [|discriminate]. apply (wf_leaf _ W x n Ekd). }
    assert (ts = []) as ->. { rewrite (krep_kids _ _ _ K) in Ek. destruct ts; [auto | discriminate]. }
    cbn. split; [intros [<-|[]]; auto | tauto].
  - rewrite (krep_kids _ _ _ K), in_flat_map. cbn [oids In]. rewrite in_concat.
    assert (Hc : forall c, In c ts -> (height c <= f)%nat).
    { intros c Hc. simpl in Hh. assert (height c <= fold_right Nat.max 0 (map height ts))%nat; [|lia].
      clear - Hc. induction ts as [|d l IHl]; [contradiction|]. simpl. destruct Hc as [->|Hc]; [lia | specialize (IHl Hc); lia]. }
    split.
    + intros (y & Hy & Hp). apply in_map_iff in Hy as (c & <- & Hi). apply IH in Hp as [H1 H2]; auto; [|eapply krep_child; eauto].
      split; auto. right. exists (oids c). split; auto. apply in_map; auto.
    + intros [Hl [->|(l & Hk & Hp)]]; [congruence|]. apply in_map_iff in Hk as (c & <- & Hi). exists (root c). split; [apply in_map; auto|].
      apply IH; auto. eapply krep_child; eauto.
Qed.
Lemma flattened_ok : forall t x p, swf t -> (In p (flattened (fuel t) t x) <-> is_leaf t p = true /\ part t x p).
Proof.
  intros t x p W. destruct (tree_exists t W x) as (tr & <- & R & Nd). rewrite flattened_in; auto; [|apply rep_krep; auto | apply rep_new_height; auto].
  rewrite koids_below; [reflexivity | apply rep_krep; auto].
Qed.
Lemma once_acc : forall l acc, NoDup acc -> NoDup (fold_left (fun acc p => if omem p acc then acc else acc ++ [p]) l acc) /\
  forall p, In p (fold_left (fun acc p => if omem p acc then acc else acc ++ [p]) l acc) <-> In p acc \/ In p l.
Proof.
  induction l as [|a l IH]; intros acc Nd; cbn [fold_left In]; [split; [auto|tauto]|].
  destruct (omem a acc) eqn:E.
  - destruct (IH acc Nd) as [H1 H2]. split; auto. intros p. rewrite H2. apply omem_In in E. split; [tauto|]. intros [H|[<-|H]]; auto.
  - assert (Ha : ~ In a acc) by (intros Q; apply omem_In in Q; congruence).
    destruct (IH (acc ++ [a])) as [H1 H2]; [apply NoDup_app_intro'; auto; [repeat constructor; auto | intros y Hy [<-|[]]; auto]|].
    split; auto. intros p. rewrite H2, in_app_iff. cbn [In]. tauto.
Qed.
Lemma conc_params_ok : forall t xs, swf t -> NoDup (conc_params t xs) /\ forall p, In p (conc_params t xs) <-> is_leaf t p = true /\ exists x, In x xs /\ part t x p.
Proof.
  intros t xs W. destruct (once_acc (flat_map (flattened (fuel t) t) xs) []) as [H1 H2]; [constructor|]. split; auto.
  intros p. unfold conc_params, once. rewrite H2, in_flat_map. cbn [In]. split.
  - intros [[]|(x & Hx & Hp)]. apply flattened_ok in Hp as [A B]; auto. split; auto. exists x; auto.
  - intros [A (x & Hx & Hp)]. right. exists x. split; auto. apply flattened_ok; auto.
Qed.

(** ** The order of the objects above *)
Fixpoint lev (d : list (oid * nat)) (q : oid) : option nat :=
  match d with [] => None | (q', l) :: r => if (q' =? q)%nat then Some l else lev r q end.
Definition lev0 d q : nat := match lev d q with Some l => l | None => 0%nat end.
Lemma put_lev : forall d q l x, lev (put_level d q l) x = if (q =? x)%nat then Some (Nat.max l (lev0 d q)) else lev d x.
Proof.
  induction d as [|[q' l'] d IH]; intros q l x; unfold lev0; cbn [put_level lev].
  - rewrite Nat.max_0_r. auto.
  - destruct (Nat.eqb_spec q' q) as [->|Hne].
    + cbn [lev]. destruct (Nat.eqb_spec q x) as [->|Hx]; auto.
    + cbn [lev]. rewrite IH. destruct (Nat.eqb_spec q' x) as [->|Hx].
      * destruct (Nat.eqb_spec q x); [congruence | auto].
      * unfold lev0. auto.
Qed.
Lemma put_keys : forall d q l, NoDup (map fst d) -> NoDup (map fst (put_level d q l)) /\ forall x, In x (map fst (put_level d q l)) <-> x = q \/ In x (map fst d).
Proof.
  induction d as [|[q' l'] d IH]; intros q l Nd; cbn [put_level map fst]; [split; [repeat constructor; auto | cbn; intros; split; [intros [<-|[]]|intros [->|[]]]; auto]|].
  inversion Nd as [|? ? Hn Nd']; subst. destruct (Nat.eqb_spec q' q) as [->|Hne]; cbn [map fst].
  - split; auto. intros x. cbn [In]. split; [intros [<-|H]; auto | intros [->|[H|H]]; auto].
  - destruct (IH q l Nd') as [H1 H2]. split; [constructor; auto; rewrite H2; intros [Q|Q]; congruence|].
    intros x. cbn [In]. rewrite H2. tauto.
Qed.
Lemma lev_in : forall d q l, NoDup (map fst d) -> (lev d q = Some l <-> In (q, l) d).
Proof.
  induction d as [|[q' l'] d IH]; intros q l Nd; cbn [lev In map fst]; [split; [discriminate | tauto]|].
  inversion Nd as [|? ? Hn Nd']; subst. destruct (Nat.eqb_spec q' q) as [->|Hne].
  - split; [intros H; injection H as ->; auto|]. intros [H|H]; [congruence|]. exfalso. apply Hn. apply in_map_iff. exists (q, l). auto.
  - rewrite IH by auto. split; [auto|]. intros [H|H]; [congruence | auto].
Qed.

(** Going up the list [u] from level [n]. *)
Fixpoint puts (d : list (oid * nat)) (u : list oid) (n : nat) : list (oid * nat) :=
  match u with [] => d | q :: r => puts (put_level d q n) r (S n) end.
Lemma climb_puts : forall t q u, up t q u -> forall f n d, (length u <= f)%nat -> climb f t (Some q) n d = puts d u n.
Proof.
  intros t q u H. induction H as [q Hp|q p l Hp Hu IH]; intros f n d Hf; (destruct f as [|f]; [simpl in Hf; lia|]); cbn [climb puts]; rewrite Hp.
  - destruct f; auto.
  - apply IH. simpl in Hf; lia.
Qed.
Lemma puts_keys : forall u d n, NoDup (map fst d) -> NoDup (map fst (puts d u n)) /\ forall x, In x (map fst (puts d u n)) <-> In x u \/ In x (map fst d).
Proof.
  induction u as [|q u IH]; intros d n Nd; cbn [puts In]; [split; [auto | tauto]|].
  destruct (put_keys d q n Nd) as [H1 H2]. destruct (IH (put_level d q n) (S n) H1) as [H3 H4]. split; auto. intros x. rewrite H4, H2. split; intros H.
  - destruct H as [H|[->|H]]; auto.
  - destruct H as [[->|H]|H]; auto.
Qed.
Lemma puts_out : forall u d n x, ~ In x u -> lev (puts d u n) x = lev d x.
Proof.
  induction u as [|q u IH]; intros d n x Hx; cbn [puts]; auto. rewrite IH by (intros Q; apply Hx; right; auto). rewrite put_lev.
  destruct (Nat.eqb_spec q x) as [->|]; auto. exfalso. apply Hx; left; auto.
Qed.
Lemma puts_in : forall u d n i x, NoDup u -> nth_error u i = Some x -> lev (puts d u n) x = Some (Nat.max (n + i) (lev0 d x)).
Proof.
  induction u as [|q u IH]; intros d n i x Nd E; [destruct i; discriminate|]. inversion Nd as [|? ? Hn Nd']; subst. cbn [puts]. destruct i as [|i].
  - injection E as ->. rewrite puts_out by auto. rewrite put_lev, Nat.eqb_refl. rewrite Nat.add_0_r. auto.
  - cbn in E. rewrite (IH _ _ i x Nd' E). unfold lev0. rewrite put_lev. destruct (Nat.eqb_spec q x) as [->|Hne].
    + exfalso. apply Hn. eapply nth_error_In; eauto.
    + f_equal. lia.
Qed.
(** Who is in has its parent in, at a higher level. *)
Definition leveled (t : struct) (d : list (oid * nat)) : Prop :=
  NoDup (map fst d) /\ forall a b l, par t a = Some b -> lev d a = Some l -> exists l', lev d b = Some l' /\ (l < l')%nat.
Lemma up_next : forall t x u, up t x u -> forall i a b, nth_error u i = Some a -> par t a = Some b -> nth_error u (S i) = Some b.
Proof.
  intros t x u H. induction H as [x Hp|x p l Hp Hu IH]; intros i a b E Hb.
  - destruct i; cbn in E; [injection E as <-; congruence | destruct i; discriminate].
  - destruct i; cbn in E.
    + injection E as <-. rewrite Hp in Hb. injection Hb as <-. cbn. inversion Hu; subst; auto.
    + apply (IH i a b E Hb).
Qed.
Lemma up_first : forall t x u, up t x u -> nth_error u 0 = Some x.
Proof. intros t x u H. inversion H; subst; auto. Qed.
Lemma climb_leveled : forall t p d, swf t -> leveled t d ->
  leveled t (climb (fuel t) t (par t p) 0 d) /\
  forall x, In x (map fst (climb (fuel t) t (par t p) 0 d)) <-> (part t x p /\ x <> p) \/ In x (map fst d).
Proof.
  intros t p d W [Nd Lv]. destruct (par t p) as [q|] eqn:Ep.
  - destruct (wf_up t W q) as [u Hu]. rewrite (climb_puts t q u Hu) by (eapply up_length; eauto).
    pose proof (up_nodup t q u W Hu) as Nu. destruct (puts_keys u d 0 Nd) as [K1 K2].
    assert (Kp : In p (kids t q)) by (apply (PzTree.wf_par t W); auto).
    split; [split; auto|].
    + intros a b l Hab Ha. destruct (in_dec Nat.eq_dec a u) as [Hi|Hi].
      * apply In_nth_error in Hi as [i Hi]. rewrite (puts_in u d 0 i a Nu Hi) in Ha. injection Ha as <-.
        pose proof (up_next t q u Hu i a b Hi Hab) as Hb. exists (Nat.max (0 + S i) (lev0 d b)). split; [apply puts_in; auto|].
        unfold lev0. destruct (lev d a) as [la|] eqn:Ea; [|lia]. destruct (Lv a b la Hab Ea) as (lb & -> & Hlt). lia.
      * rewrite puts_out in Ha by auto. destruct (Lv a b l Hab Ha) as (lb & Eb & Hlt).
        destruct (in_dec Nat.eq_dec b u) as [Hj|Hj].
        -- apply In_nth_error in Hj as [i Hj]. exists (Nat.max (0 + i) (lev0 d b)). split; [apply puts_in; auto|]. unfold lev0. rewrite Eb. lia.
        -- exists lb. rewrite puts_out; auto.
    + intros x. rewrite K2, (up_above t q u x W Hu). split; (intros [H|H]; [left|right; auto]).
      * split; [eapply above_trans; [exact H | apply above_kid; auto]|]. intros ->. exact (no_self_kid t p q W H Kp).
      * destruct H as [H1 H2]. eapply above_par; eauto.
  - assert (E : climb (fuel t) t None 0 d = d) by (unfold fuel; auto). rewrite E. split; [split; auto|]. intros x. split; [auto|].
    intros [[H1 H2]|H]; auto. exfalso. apply H2. eapply above_root; eauto.
Qed.
Lemma levels_ok : forall t ps d, swf t -> leveled t d ->
  let d' := fold_left (fun d p => climb (fuel t) t (par t p) 0 d) ps d in
  leveled t d' /\ forall x, In x (map fst d') <-> over t ps x \/ In x (map fst d).
Proof.
  intros t ps. induction ps as [|p ps IH]; intros d W Hd; cbn [fold_left].
  - split; auto. intros x. split; [auto|]. intros [(p & [] & _)|H]; auto.
  - destruct (climb_leveled t p d W Hd) as [H1 H2]. destruct (IH _ W H1) as [H3 H4]. split; auto. intros x. rewrite H4, H2. split.
    + intros [(p' & A & B)|[[A B]|H]]; auto; left; [exists p'; split; [right|]; auto | exists p; split; [left|]; auto].
    + intros [(p' & [->|A] & B & C)|H]; auto. left. exists p'. auto.
Qed.

Fixpoint sorted_lev (l : list (oid * nat)) : Prop :=
  match l with [] => True | e :: r => (forall e', In e' r -> (snd e <= snd e')%nat) /\ sorted_lev r end.
Lemma insert_perm : forall e l, Permutation (e :: l) (insert_level e l).
Proof.
  intros e l. induction l as [|e' l IH]; cbn [insert_level]; auto. destruct (snd e' <=? snd e)%nat; auto.
  eapply perm_trans; [apply perm_swap | constructor; auto].
Qed.
Lemma insert_sorted : forall e l, sorted_lev l -> sorted_lev (insert_level e l).
Proof.
  intros e l. induction l as [|e' l IH]; cbn [insert_level sorted_lev]; [intros _; split; [intros ? [] | auto]|]. intros [H1 H2].
  destruct (Nat.leb_spec (snd e') (snd e)) as [Hle|Hlt]; cbn [sorted_lev].
  - split; auto. intros x Hx. apply (Permutation_in _ (Permutation_sym (insert_perm e l))) in Hx. destruct Hx as [<-|Hx]; auto.
  - split; auto. intros x [<-|Hx]; [lia|]. specialize (H1 x Hx). lia.
Qed.
Lemma sort_acc : forall l acc, sorted_lev acc -> Permutation (l ++ acc) (fold_left (fun acc e => insert_level e acc) l acc) /\ sorted_lev (fold_left (fun acc e => insert_level e acc) l acc).
Proof.
  induction l as [|e l IH]; intros acc H; cbn [fold_left app]; [split; auto|]. destruct (IH _ (insert_sorted e acc H)) as [H1 H2]. split; auto.
  eapply perm_trans; [|exact H1]. eapply perm_trans; [apply Permutation_middle|]. apply Permutation_app_head, insert_perm.
Qed.
Lemma sorted_before : forall l a la b lb, sorted_lev l -> In (a, la) l -> In (b, lb) l -> (la < lb)%nat -> before (map fst l) a b.
Proof.
  induction l as [|e l IH]; intros a la b lb H Ha Hb Hlt; [destruct Ha|]. destruct H as [H1 H2]. cbn [map]. destruct Ha as [->|Ha].
  - destruct Hb as [Hb|Hb]; [injection Hb as -> ->; lia|]. apply (before_split [a] (map fst l)); [left; auto|]. apply in_map_iff. exists (b, lb). auto.
  - destruct Hb as [->|Hb]; [apply H1 in Ha; cbn in Ha; lia|]. apply (before_app_r (map fst l) [fst e]). eapply IH; eauto.
Qed.
(** The parents are the objects above, each once, what is below first. *)
Lemma conc_parents_ok : forall t ps, swf t -> NoDup (conc_parents t ps) /\ (forall x, In x (conc_parents t ps) <-> over t ps x) /\
  forall a b, In a (conc_parents t ps) -> part t b a -> a <> b -> before (conc_parents t ps) a b.
Proof.
  intros t ps W. unfold conc_parents, sort_levels. set (d := fold_left _ ps []).
  destruct (levels_ok t ps [] W) as [[Nd Lv] Hin]; [split; [constructor | discriminate]|]. fold d in Nd, Lv, Hin.
  destruct (sort_acc d []) as [P Sd]; [exact Logic.I|]. rewrite app_nil_r in P. set (l := fold_left _ d []) in *.
  assert (Pk : Permutation (map fst d) (map fst l)) by (apply Permutation_map; auto).
  split; [eapply Permutation_NoDup; eauto|]. split.
  - intros x. split; intros H.
    + apply (Permutation_in _ (Permutation_sym Pk)) in H. apply Hin in H. destruct H as [H|[]]; auto.
    + apply (Permutation_in _ Pk). apply Hin. auto.
  - intros a b Ha Hab Hne.
    assert (Hlev : forall x, In x (map fst l) -> exists n, lev d x = Some n /\ In (x, n) l).
    { intros x Hx. apply in_map_iff in Hx as ((x', n) & E & Hx). cbn in E. subst x'. exists n. split; auto. apply lev_in; auto. apply (Permutation_in _ (Permutation_sym P)); auto. }
    assert (G : forall a b, above t b a -> forall n, lev d a = Some n -> a <> b -> exists n', lev d b = Some n' /\ (n < n')%nat).
    { clear - W Lv. intros a b H. destruct (wf_up t W a) as [u Hu]. apply (up_above t a u b W Hu) in H. revert b H. induction Hu as [a Hp|a p u Hp Hu IH]; intros b Hb n En Hne.
      - destruct Hb as [<-|[]]. congruence.
      - destruct Hb as [<-|Hb]; [congruence|]. destruct (Lv a p n Hp En) as (n1 & E1 & L1). destruct (Nat.eq_dec p b) as [->|Hpb]; [eauto|].
        destruct (IH b Hb n1 E1 Hpb) as (n2 & E2 & L2). exists n2. split; auto. lia. }
    destruct (Hlev a Ha) as (la & E1 & I1). destruct (G a b Hab la E1 Hne) as (lb & E2 & Hlt).
    eapply sorted_before; eauto. apply (Permutation_in _ P). apply lev_in; auto.
Qed.

(** ** Positions *)
Lemma sum_cons : forall t p l, sum_sizes t (p :: l) = size t p + sum_sizes t l.
Proof. reflexivity. Qed.
Lemma sum_nonneg : forall t l, swf t -> 0 <= sum_sizes t l.
Proof. intros t l W. induction l as [|p l IH]; [cbn; lia|]. rewrite sum_cons. pose proof (size_nonneg t W p). lia. Qed.
Lemma sum_app : forall t l l', sum_sizes t (l ++ l') = sum_sizes t l + sum_sizes t l'.
Proof. intros t l l'. induction l as [|p l IH]; [reflexivity|]. cbn [app]. rewrite !sum_cons. lia. Qed.
Lemma position_range : forall t ps k p j, swf t -> position_of t ps k p j -> 0 <= k < sum_sizes t ps.
Proof.
  intros t ps k p j W (l & r & -> & Hj & ->). rewrite sum_app, sum_cons. pose proof (sum_nonneg t l W). pose proof (sum_nonneg t r W). lia.
Qed.
Lemma position_cons : forall t q ps k p j, position_of t ps k p j -> position_of t (q :: ps) (size t q + k) p j.
Proof. intros t q ps k p j (l & r & -> & Hj & ->). exists (q :: l), r. split; auto. split; auto. rewrite sum_cons. lia. Qed.
Lemma position_first : forall t p ps j, 0 <= j < size t p -> position_of t (p :: ps) j p j.
Proof. intros t p ps j Hj. exists [], ps. auto. Qed.
Lemma position_inv : forall t q ps k p j, swf t -> position_of t (q :: ps) k p j ->
  (k < size t q /\ p = q /\ j = k) \/ (size t q <= k /\ position_of t ps (k - size t q) p j).
Proof.
  intros t q ps k p j W (l & r & E & Hj & ->). destruct l as [|q' l]; cbn [app] in E; injection E as -> ->.
  - left. cbn. split; [lia | auto].
  - right. rewrite sum_cons. pose proof (sum_nonneg t l W). split; [lia|]. exists l, r. split; auto. split; auto. lia.
Qed.
Lemma position_exists : forall t ps k, swf t -> 0 <= k < sum_sizes t ps -> exists p j, position_of t ps k p j.
Proof.
  intros t ps. induction ps as [|q ps IH]; intros k W Hk; [cbn in Hk; lia|]. rewrite sum_cons in Hk.
  destruct (Z_lt_le_dec k (size t q)) as [H|H].
  - exists q, k. apply position_first. lia.
  - destruct (IH (k - size t q) W) as (p & j & P); [lia|]. exists p, j. apply (position_cons t q) in P. replace (size t q + (k - size t q)) with k in P by lia. auto.
Qed.
Lemma position_fun : forall t ps k p j p' j', swf t -> position_of t ps k p j -> position_of t ps k p' j' -> p = p' /\ j = j'.
Proof.
  intros t ps. induction ps as [|q ps IH]; intros k p j p' j' W P P'; [destruct P as ([|? ?] & r & E & _); discriminate|].
  apply position_inv in P; auto. apply position_inv in P'; auto. destruct P as [(A & -> & ->)|[A P]]; destruct P' as [(B & -> & ->)|[B P']]; auto; try lia.
  eapply IH; eauto.
Qed.
Lemma position_in : forall t ps k p j, position_of t ps k p j -> In p ps /\ 0 <= j < size t p.
Proof. intros t ps k p j (l & r & -> & Hj & _). split; auto. apply in_elt. Qed.
Lemma split_unique : forall (A : Type) (l r l' r' : list A) p, NoDup (l ++ p :: r) -> l ++ p :: r = l' ++ p :: r' -> l = l' /\ r = r'.
Proof.
  intros A l. induction l as [|a l IH]; intros r l' r' p Nd E.
  - destruct l' as [|b l']; cbn in E; inversion E; subst; [auto|]. exfalso. cbn in Nd. inversion Nd; subst. apply H1. apply in_elt.
  - destruct l' as [|b l']; cbn in E; inversion E; subst; cbn in Nd; inversion Nd; subst.
    + exfalso. apply H1. apply in_elt.
    + destruct (IH r l' r' p H3 H1) as [-> ->]. auto.
Qed.

Section Values.
Context {V : Type}.
Implicit Types s : @state V.

Definition params s (ps : list oid) : Prop := NoDup ps /\ forall p, In p ps -> (p < next (st s))%nat /\ is_leaf (st s) p = true.

Lemma leaf_vals_ok : forall s p, Inv s -> (p < next (st s))%nat -> is_leaf (st s) p = true ->
  Z.of_nat (length (leaf_vals s p)) = size (st s) p /\ forall k, 0 <= k < size (st s) p -> value s p k = nth_error (leaf_vals s p) (Z.to_nat k).
Proof.
  intros s p H Hp Hl. destruct (store_ok s p H Hp (or_introl Hl)) as (m1 & a & E & Hlen & Hv & _). unfold leaf_vals. rewrite E. auto.
Qed.
Lemma values_len : forall s ps, Inv s -> (forall p, In p ps -> (p < next (st s))%nat /\ is_leaf (st s) p = true) ->
  Z.of_nat (length (flat_map (leaf_vals s) ps)) = sum_sizes (st s) ps.
Proof.
  intros s ps H. induction ps as [|p ps IH]; intros Hp; [reflexivity|]. cbn [flat_map]. rewrite app_length, sum_cons.
  destruct (Hp p) as [A B]; [left; auto|]. destruct (leaf_vals_ok s p H A B) as [L _]. rewrite Nat2Z.inj_add, L, IH; auto. intros; apply Hp; right; auto.
Qed.
Lemma values_nth : forall s ps k p j, Inv s -> (forall p, In p ps -> (p < next (st s))%nat /\ is_leaf (st s) p = true) ->
  position_of (st s) ps k p j -> nth_error (flat_map (leaf_vals s) ps) (Z.to_nat k) = value s p j.
Proof.
  intros s ps. induction ps as [|q ps IH]; intros k p j H Hp P; [destruct P as ([|? ?] & r & E & _); discriminate|]. cbn [flat_map].
  pose proof (inv_st _ H) as W. destruct (Hp q) as [A B]; [left; auto|]. destruct (leaf_vals_ok s q H A B) as [L Lv].
  pose proof (position_range _ _ _ _ _ W P) as Hk.
  apply position_inv in P; auto. destruct P as [(P1 & -> & ->)|[P1 P]].
  - rewrite nth_error_app1 by lia. symmetry. apply Lv. lia.
  - rewrite nth_error_app2 by lia. rewrite <- (IH (k - size (st s) q) p j); auto; [|intros; apply Hp; right; auto]. f_equal. lia.
Qed.

(** ** Writing *)
Lemma skipn_add : forall (A : Type) a b (l : list A), skipn a (skipn b l) = skipn (a + b) l.
Proof.
  intros A a b. revert a. induction b as [|b IH]; intros a l; [rewrite Nat.add_0_r; auto|]. rewrite Nat.add_succ_r. destruct l as [|x l]; [rewrite !skipn_nil; auto|]. cbn [skipn]. apply IH.
Qed.
Lemma rank_le : forall mk k, (rank mk k <= k)%nat.
Proof. intros mk k. revert mk. induction k as [|k IH]; intros [|b mk]; unfold rank in *; cbn; auto with arith. specialize (IH mk). destruct b; cbn; lia. Qed.
Definition write_one (p : oid) (mask : list bool) (vals : list V) : @cmd V := fun s =>
  let n := Z.to_nat (size (st s) p) in
  let (m1, a) := param_array (st s) (mem s) p in
  (with_mem s (write_arr m1 a (put_mask (firstn n mask) (read_arr m1 a) (firstn n vals) 0)), None).
Definition newval (mask : list bool) (vals : list V) (n : nat) (k : Z) (v : V) : V :=
  if nth (Z.to_nat k) (firstn n mask) false then cyc (firstn n vals) (rank (firstn n mask) (Z.to_nat k)) v else v.
Lemma write_one_ok : forall s p mask vals, Inv s -> (p < next (st s))%nat -> is_leaf (st s) p = true -> (Z.to_nat (size (st s) p) <= length mask)%nat ->
  exists s', write_one p mask vals s = (s', None) /\ Inv s' /\ changed s s' p (newval mask vals (Z.to_nat (size (st s) p))) /\ (apart s -> apart s') /\
    st s' = st s /\ ios s' = ios s /\ fix_ s' = fix_ s /\ nt s' = nt s.
Proof.
  intros s p mask vals H Hp Hl Hm. destruct (store_ok s p H Hp (or_introl Hl)) as (m1 & a & Ep & Hlen & _ & St).
  unfold write_one. rewrite Ep. set (n := Z.to_nat (size (st s) p)) in *.
  destruct (St (put_mask (firstn n mask) (read_arr m1 a) (firstn n vals) 0) (newval mask vals n)) as (H' & C & D).
  - apply put_mask_len.
  - intros k Hk. rewrite put_mask_nth by (rewrite firstn_length; lia). unfold newval. rewrite Nat2Z.id. reflexivity.
  - eexists. split; [reflexivity|]. split; [exact H'|]. split; [exact C|]. split; [exact D|]. repeat split.
Qed.

Lemma newval_shift : forall mask vals o n k v, (Z.to_nat k < n)%nat -> (o + n <= length vals)%nat -> 
  newval (skipn o mask) (skipn o vals) n k v =
  if nth (o + Z.to_nat k) mask false then nth (o + rank (firstn n (skipn o mask)) (Z.to_nat k)) vals v else v.
Proof.
  intros mask vals o n k v Hk Hv. unfold newval.
  assert (E : forall (A : Type) (l : list A) d i, (i < n)%nat -> nth i (firstn n (skipn o l)) d = nth (o + i) l d).
  { intros A l d i Hi. rewrite <- (firstn_skipn o l) at 2. destruct (le_lt_dec o (length l)) as [Ho|Ho].
    - rewrite app_nth2; rewrite firstn_length_le by auto; [|lia]. replace (o + i - o)%nat with i by lia.
      rewrite <- (firstn_skipn n (skipn o l)) at 2. destruct (le_lt_dec (length (firstn n (skipn o l))) i) as [Hi'|Hi'].
      + rewrite nth_overflow by auto. symmetry. apply nth_overflow. rewrite firstn_skipn. rewrite firstn_length in Hi'. lia.
      + rewrite app_nth1; auto.
    - rewrite skipn_all2 by lia. rewrite firstn_nil, app_nil_r. rewrite !nth_overflow; auto; [|cbn; lia]. rewrite firstn_length. lia. }
  rewrite E by auto. destruct (nth (o + Z.to_nat k) mask false); auto. unfold cyc.
  pose proof (rank_le (firstn n (skipn o mask)) (Z.to_nat k)) as Hr. assert (Hl : length (firstn n (skipn o vals)) = n) by (rewrite firstn_length, skipn_length; lia).
  rewrite Nat.mod_small by (rewrite Hl; lia). apply E. lia.
Qed.

Lemma write_each_ok : forall ps s mask vals, Inv s -> apart s -> params s ps -> (Z.of_nat (length mask) = sum_sizes (st s) ps) -> (length vals = length mask) ->
  exists s', write_each ps mask vals s = (s', None) /\ Inv s' /\ apart s' /\ st s' = st s /\ ios s' = ios s /\ fix_ s' = fix_ s /\ nt s' = nt s /\
    (forall l p r y j i, ps = l ++ p :: r -> (y < next (st s))%nat -> ready (st s) y -> same_elem (st s) y j p i ->
      value s' y j = option_map (newval (skipn (Z.to_nat (sum_sizes (st s) l)) mask) (skipn (Z.to_nat (sum_sizes (st s) l)) vals) (Z.to_nat (size (st s) p)) i) (value s y j)) /\
    (forall y j, (y < next (st s))%nat -> ready (st s) y -> 0 <= j < size (st s) y -> ~ covers (st s) ps y j -> value s' y j = value s y j).
Proof.
  induction ps as [|p ps IH]; intros s mask vals H Ap [Nd Hps] Hm Hv.
  - exists s. split; [reflexivity|]. do 6 (split; auto). split; [|auto]. intros [|? ?] p r y j i E; discriminate.
  - pose proof (inv_st _ H) as W. inversion Nd as [|? ? Hn Nd']; subst. destruct (Hps p) as [Hp Hl]; [left; auto|]. rewrite sum_cons in Hm.
    pose proof (size_nonneg _ W p) as Hs. pose proof (sum_nonneg _ ps W) as Hss.
    destruct (write_one_ok s p mask vals H Hp Hl) as (s1 & R1 & H1 & [C1 C2] & A1 & E1 & E2 & E3 & E4); [lia|]. specialize (A1 Ap). specialize (C2 Ap).
    set (n := Z.to_nat (size (st s) p)) in *.
    destruct (IH s1 (skipn n mask) (skipn n vals) H1 A1) as (s2 & R2 & H2 & A2 & F1 & F2 & F3 & F4 & D1 & D2).
    { split; auto. intros q Hq. rewrite E1. apply Hps. right; auto. }
    { rewrite skipn_length, E1. lia. }
    { rewrite !skipn_length. lia. }
    assert (Hother : forall y j q i, In q ps -> same_elem (st s) y j q i -> forall k, ~ same_elem (st s) y j p k).
    { intros y j q i Hq Se k Se'. apply Hn. assert (same_elem (st s) q i p k) as Q by (eapply same_elem_trans; [auto | apply same_elem_sym; eauto | auto]).
      apply same_elem_leaf in Q as [<- _]; auto. apply Hps. right; auto. }
    exists s2. split.
    { cbn [write_each]. change (andthen (write_one p mask vals) (fun s0 => write_each ps (skipn (Z.to_nat (size (st s0) p)) mask) (skipn (Z.to_nat (size (st s0) p)) vals) s0) s = (s2, None)).
      rewrite (andthen_ok _ _ _ _ R1). rewrite E1. exact R2. }
    split; auto. split; auto. split; [congruence|]. split; [congruence|]. split; [congruence|]. split; [congruence|]. split.
    + intros l q r y j i E Hy Ry Se. rewrite <- E1 in Hy, Ry. destruct l as [|q' l]; cbn [app] in E; injection E as -> ->.
      * change (sum_sizes (st s) []) with 0. cbn [skipn Z.to_nat]. rewrite D2; auto.
        -- rewrite E1 in *. apply C1; auto.
        -- rewrite E1. apply Se.
        -- intros (p' & i' & Hi & Se'). rewrite E1 in Se'. exact (Hother y j p' i' Hi Se' i Se).
      * rewrite (D1 l q r y j i eq_refl Hy Ry); [|rewrite E1; auto]. rewrite E1 in *.
        rewrite sum_cons. replace (Z.to_nat (size (st s) q' + sum_sizes (st s) l)) with (Z.to_nat (sum_sizes (st s) l) + n)%nat by (pose proof (sum_nonneg _ l W); lia).
        rewrite <- !skipn_add. rewrite C2; auto; [apply Se|]. intros k. apply (Hother y j q i); auto. apply in_elt.
    + intros y j Hy Ry Hj Hc. rewrite D2; rewrite ?E1; auto.
      * apply C2; auto. intros k Se. apply Hc. exists p, k. split; [left|]; auto.
      * intros (q & i & Hq & Se). apply Hc. exists q, i. split; [right|]; auto.
Qed.
End Values.
