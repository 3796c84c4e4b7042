(** Proofs about the hierarchy, part 20: the optimizer array and the update switch. *)
From Coq Require Import List ZArith Bool Lia Arith.
From Verif Require Import NpModel NpProofs IndexOpsModel IndexOpsSpec IndexOpsProofs PzModel PzSpec PzTree PzStruct PzLink PzWalk PzMem PzIo PzInv PzConn PzFix PzLinkMem PzPres PzUnlink PzTraverse PzNotify PzNew PzCmd PzInit PzCons PzVal.
Import ListNotations.
Open Scope Z_scope.

(** ** Lists *)
Definition rank (mk : list bool) (k : nat) : nat := length (filter (fun b : bool => b) (firstn k mk)).

Lemma select_length : forall (A B : Type) (mk : list bool) (l : list A) (l' : list B), length l = length l' -> length (select mk l) = length (select mk l').
Proof.
  intros A B mk. induction mk as [|b mk IH]; intros l l' E; auto. destruct l as [|a l]; destruct l' as [|a' l']; try discriminate; auto.
  injection E as E. specialize (IH l l' E). unfold select in *. destruct b; simpl; auto.
Qed.
Lemma select_nth : forall (A : Type) (mk : list bool) (l : list A) k, length mk = length l -> nth k mk false = true ->
  nth_error (select mk l) (rank mk k) = nth_error l k.
Proof.
  intros A mk. induction mk as [|b mk IH]; intros l k E H; [destruct k; discriminate|]. destruct l as [|a l]; [discriminate|]. injection E as E.
  destruct k as [|k].
  - simpl in H. subst b. reflexivity.
  - simpl in H. specialize (IH l k E H). unfold select, rank in *. destruct b; simpl; auto.
Qed.
Lemma select_In : forall (A : Type) (mk : list bool) (l : list A) i v, length mk = length l -> nth_error (select mk l) i = Some v ->
  exists k, nth k mk false = true /\ nth_error l k = Some v /\ rank mk k = i.
Proof.
  intros A mk. induction mk as [|b mk IH]; intros l i v E H; [destruct i; discriminate|]. destruct l as [|a l]; [discriminate|]. injection E as E.
  destruct b.
  - destruct i as [|i].
    + exists 0%nat. simpl in *. auto.
    + destruct (IH l i v E H) as (k & H1 & H2 & H3). exists (S k). split; auto. split; auto. unfold rank in *. simpl. auto.
  - destruct (IH l i v E H) as (k & H1 & H2 & H3). exists (S k). split; auto.
Qed.
Lemma put_mask_nth : forall (V : Type) (mk : list bool) (l p : list V) c k, length mk = length l ->
  nth_error (put_mask mk l p c) k = option_map (fun v => if nth k mk false then cyc p (c + rank mk k) v else v) (nth_error l k).
Proof.
  intros V mk. induction mk as [|b mk IH]; intros l p c k E; destruct l as [|a l]; try discriminate; [destruct k; auto|]. injection E as E.
  destruct k as [|k].
  - destruct b; simpl; auto. f_equal. f_equal. unfold rank. simpl. lia.
  - destruct b; simpl; rewrite IH by auto; unfold rank; simpl; destruct (nth_error l k); auto. cbn [option_map]. f_equal. destruct (nth k mk false); auto.
    f_equal. lia.
Qed.
Lemma put_mask_len : forall (V : Type) (mk : list bool) (l p : list V) c, length (put_mask mk l p c) = length l.
Proof. intros V mk. induction mk as [|[|] mk IH]; intros [|a l] p c; simpl; auto. Qed.
Lemma cyc_in : forall (V : Type) (p : list V) i v d, nth_error p i = Some v -> cyc p i d = v.
Proof.
  intros V p i v d H. unfold cyc. assert (i < length p)%nat by (apply nth_error_Some; congruence). rewrite Nat.mod_small by auto. apply nth_error_nth; auto.
Qed.
Lemma increasing_unique : forall a b, increasing a -> increasing b -> (forall k, In k a <-> In k b) -> a = b.
Proof.
  induction a as [|x a IH]; intros b Ha Hb H.
  - destruct b as [|y b]; auto. exfalso. apply (H y). simpl; auto.
  - destruct b as [|y b]; [exfalso; apply (H x); simpl; auto|]. destruct Ha as [H1 H2]. destruct Hb as [G1 G2].
    assert (x = y).
    { destruct (proj1 (H x)) as [E|E]; [simpl; auto | auto |]. destruct (proj2 (H y)) as [E'|E']; [simpl; auto | auto |].
      apply G1 in E. apply H1 in E'. lia. }
    subst y. f_equal. apply IH; auto. intros k. split; intros Hk.
    + destruct (proj1 (H k)) as [E|E]; [simpl; auto | | auto]. subst k. apply H1 in Hk. lia.
    + destruct (proj2 (H k)) as [E|E]; [simpl; auto | | auto]. subst k. apply G1 in Hk. lia.
Qed.
Lemma sorted_increasing : forall l, ssorted l -> increasing l.
Proof. induction l as [|a l IH]; intros H; [exact Logic.I|]. destruct (ssorted_cons_inv a l H). split; auto. Qed.
Lemma arange_increasing : forall n, increasing (arange n).
Proof. intros. apply sorted_increasing, arange_sorted. Qed.
Lemma select_sub : forall (A : Type) (mk : list bool) (l : list A) v, In v (select mk l) -> In v l.
Proof.
  intros A mk. induction mk as [|b mk IH]; intros l v H; [destruct H|]. destruct l as [|a l]; [destruct b; destruct H|].
  destruct b; [destruct H as [E|H]; [left; exact E | right; apply IH; exact H] | right; apply IH; exact H].
Qed.
Lemma select_increasing : forall mk l, increasing l -> increasing (select mk l).
Proof.
  induction mk as [|b mk IH]; intros l H; [exact Logic.I|]. destruct l as [|a l]; [destruct b; exact Logic.I|]. destruct H as [H1 H2].
  destruct b; [|apply (IH l); auto]. split; [|apply (IH l); auto]. intros v Hv. apply H1. apply (select_sub _ mk). exact Hv.
Qed.
Lemma arange_nth_error : forall n k, nth_error (arange n) k = if (k <? Z.to_nat n)%nat then Some (Z.of_nat k) else None.
Proof.
  intros n k. destruct (Nat.ltb_spec k (Z.to_nat n)).
  - rewrite (nth_error_nth' _ 0) by (rewrite arange_len; auto). rewrite arange_nth by auto. auto.
  - apply nth_error_None. rewrite arange_len. auto.
Qed.
(** The free elements, given a mask. *)
Lemma mask_free : forall mk n (P : Z -> Prop) ks, Z.of_nat (length mk) = n -> (forall j, 0 <= j < n -> (nth (Z.to_nat j) mk false = true <-> P j)) ->
  increasing ks -> (forall k, In k ks <-> 0 <= k < n /\ P k) -> ks = select mk (arange n).
Proof.
  intros mk n P ks Hl Hm Hi Hk. apply increasing_unique; auto; [apply select_increasing, arange_increasing|].
  assert (El : length mk = length (arange n)) by (rewrite arange_len; lia).
  intros k. rewrite Hk. split.
  - intros [H1 H2]. apply Hm in H2; auto. apply (nth_error_In _ (rank mk (Z.to_nat k))). rewrite select_nth by auto.
    rewrite arange_nth_error. destruct (Nat.ltb_spec (Z.to_nat k) (Z.to_nat n)); [|lia]. f_equal. lia.
  - intros H. destruct (In_nth_error _ _ H) as [i Hi']. destruct (select_In _ _ _ _ _ El Hi') as (q & H1 & H2 & H3).
    rewrite arange_nth_error in H2. destruct (Nat.ltb_spec q (Z.to_nat n)); [|discriminate]. inversion H2; subst k. split; [lia|].
    apply Hm; [lia|]. rewrite Nat2Z.id. auto.
Qed.
Lemma free_pos : forall mk n i k, Z.of_nat (length mk) = n -> nth_error (select mk (arange n)) i = Some k ->
  0 <= k < n /\ nth (Z.to_nat k) mk false = true /\ rank mk (Z.to_nat k) = i.
Proof.
  intros mk n i k Hl H. assert (El : length mk = length (arange n)) by (rewrite arange_len; lia).
  destruct (select_In _ _ _ _ _ El H) as (q & H1 & H2 & H3). rewrite arange_nth_error in H2. destruct (Nat.ltb_spec q (Z.to_nat n)); [|discriminate].
  inversion H2; subst k. rewrite Nat2Z.id. split; [lia | auto].
Qed.

(** ** Transforming elements *)
Definition through {V : Type} (h : nat -> V -> V) (k : Z) (items : list (prop * list Z)) (v : V) : V :=
  fold_left (fun acc e => match fst e with Fixed => acc | Tr n => if zmem k (snd e) then h n acc else acc end) items v.
Lemma through_none : forall (V : Type) (h : nat -> V -> V) k items v, (forall n l, In (Tr n, l) items -> ~ In k l) -> through h k items v = v.
Proof.
  intros V h k items. induction items as [|[p l] items IH]; intros v H; auto. unfold through in *. cbn [fold_left fst snd].
  destruct p as [|n]; [apply IH; intros; apply (H n l0); simpl; auto|].
  destruct (zmem k l) eqn:E; [apply zmem_In in E; exfalso; apply (H n l); simpl; auto|]. apply IH. intros m l' Hi. apply (H m l'). simpl; auto.
Qed.
Lemma through_one : forall (V : Type) (h : nat -> V -> V) k items v n l, NoDup (map fst items) -> In (Tr n, l) items -> In k l ->
  (forall m l', In (Tr m, l') items -> In k l' -> m = n) -> through h k items v = h n v.
Proof.
  intros V h k items. induction items as [|[p l0] items IH]; intros v n l Nd Hi Hk Hu; [destruct Hi|]. inversion Nd; subst.
  unfold through in *. cbn [fold_left fst snd]. destruct Hi as [E|Hi].
  - inversion E; subst. destruct (zmem k l) eqn:Ez; [|apply zmem_false in Ez; contradiction].
    apply (through_none V h). intros m l' Hm Hk'. assert (m = n) by (apply (Hu m l'); simpl; auto). subst m.
    apply H1. change (Tr n) with (fst (Tr n, l')). apply in_map; auto.
  - destruct p as [|m]; [eapply IH; eauto; intros; eapply Hu; simpl; eauto|].
    destruct (zmem k l0) eqn:Ez.
    + apply zmem_In in Ez. assert (m = n) by (apply (Hu m l0); simpl; auto). subst m. exfalso. apply H1.
      change (Tr n) with (fst (Tr n, l)). apply in_map; auto.
    + eapply IH; eauto. intros; eapply Hu; simpl; eauto.
Qed.
Lemma apply_all_nth : forall (V : Type) items (g : nat -> Z -> V -> V) l k,
  nth_error (apply_all items g l) k = option_map (through (fun n => g n (Z.of_nat k)) (Z.of_nat k) items) (nth_error l k) /\ length (apply_all items g l) = length l.
Proof.
  intros V items g. induction items as [|[p idx] items IH]; intros l k; [split; auto; simpl; destruct (nth_error l k); auto|].
  unfold apply_all in *. cbn [fold_left fst snd]. destruct p as [|n].
  - destruct (IH l k) as [E1 E2]. split; auto.
  - match goal with |- nth_error (fold_left _ _ ?l2) _ = _ /\ _ => destruct (IH l2 k) as [E1 E2]; rewrite E1, E2 end.
    rewrite (enum_len l (fun j v => if zmem j idx then g n j v else v)). split; auto.
    destruct (Nat.lt_ge_cases k (length l)) as [L|L].
    + rewrite (enum_map l (fun j v => if zmem j idx then g n j v else v)) by auto. destruct (nth_error l k); auto.
    + rewrite (proj2 (nth_error_None _ k)) by (rewrite (enum_len l (fun j v => if zmem j idx then g n j v else v)); auto).
      rewrite (proj2 (nth_error_None l k)) by auto. auto.
Qed.
Lemma put_all_nth : forall (V : Type) items (g : nat -> V -> V) src dst k sv, nth_error src k = Some sv ->
  nth_error (put_all items g src dst) k = option_map (through (fun n _ => g n sv) (Z.of_nat k) items) (nth_error dst k).
Proof.
  intros V items g src dst k sv Hs. revert dst. induction items as [|[p idx] items IH]; intros dst; [simpl; destruct (nth_error dst k); auto|].
  unfold put_all in *. cbn [fold_left fst snd]. destruct p as [|n]; [rewrite IH; auto|]. rewrite IH.
  set (F := fun j v => if zmem j idx then match nth_error src (Z.to_nat j) with Some w => g n w | None => v end else v).
  destruct (Nat.lt_ge_cases k (length dst)) as [L|L].
  - rewrite (enum_map dst F) by auto. destruct (nth_error dst k); auto. cbn [option_map]. unfold F. rewrite Nat2Z.id, Hs. reflexivity.
  - match goal with |- option_map _ (nth_error ?l2 _) = _ => assert (L2 : length l2 = length dst) by apply (enum_len dst F); rewrite (proj2 (nth_error_None l2 k)) by lia end.
    rewrite (proj2 (nth_error_None dst k)) by auto. auto.
Qed.
Lemma put_all_len : forall (V : Type) items (g : nat -> V -> V) src dst, length (put_all items g src dst) = length dst.
Proof.
  intros V items g src. induction items as [|[p idx] items IH]; intros dst; auto. unfold put_all in *. cbn [fold_left fst snd]. destruct p as [|n]; auto.
  rewrite IH. apply (enum_len dst (fun j v => if zmem j idx then match nth_error src (Z.to_nat j) with Some w => g n w | None => v end else v)).
Qed.

Section Opt.
Context {V : Type}.
Implicit Types s : @state V.
Variables tf tfinv : nat -> V -> V.

Lemma items_has : forall s x p k, Inv s -> (x < next (st s))%nat -> (has s x p k <-> exists l, In (p, l) (cons_items (ios s) x) /\ In k l).
Proof. intros s x p k H Hx. symmetry. apply (items_pairs (snd (iop (ios s) x)) (dicts (ios s) (fst (iop (ios s) x))) p k). apply (dict_of (st s) (ios s) x (inv_st _ H) (inv_io _ H) Hx). Qed.
Lemma items_keys : forall s x, Inv s -> (x < next (st s))%nat -> NoDup (map fst (cons_items (ios s) x)).
Proof. intros s x H Hx. apply items_NoDup. apply (dict_of (st s) (ios s) x (inv_st _ H) (inv_io _ H) Hx). Qed.

Lemma through_items : forall s x k, Inv s -> (x < next (st s))%nat -> one_tr s x -> forall (h : nat -> V -> V) v,
  (forall n, has s x (Tr n) k -> through h k (cons_items (ios s) x) v = h n v) /\
  ((forall n, ~ has s x (Tr n) k) -> through h k (cons_items (ios s) x) v = v).
Proof.
  intros s x k H Hx One h v. split.
  - intros n Hn. destruct (proj1 (items_has s x (Tr n) k H Hx) Hn) as (l & H1 & H2). apply (through_one V h k _ v n l); auto; [apply items_keys; auto|].
    intros m l' H3 H4. apply (One k); auto. apply items_has; eauto.
  - intros Hn. apply through_none. intros n l H1 H2. apply (Hn n). apply items_has; eauto.
Qed.
Lemma through_filter : forall (h : nat -> V -> V) (f : Z -> bool) k items v, 
  through h k (map (fun e => (fst e, filter f (snd e))) items) v = if f k then through h k items v else v.
Proof.
  intros h f k items. induction items as [|[p l] items IH]; intros v; [destruct (f k); auto|]. unfold through in *. cbn [map fold_left fst snd].
  destruct p as [|n]; auto. assert (E : zmem k (filter f l) = f k && zmem k l).
  { destruct (zmem k (filter f l)) eqn:E1.
    - apply zmem_In, filter_In in E1 as [A B]. rewrite B. symmetry. apply zmem_In; auto.
    - destruct (f k) eqn:E2; auto. destruct (zmem k l) eqn:E3; auto. apply zmem_In in E3. apply zmem_false in E1. exfalso. apply E1. apply filter_In; auto. }
  rewrite E, IH. destruct (f k); auto.
Qed.

Lemma fixed_nonempty : forall s x, nonempty (cons_get (ios s) x Fixed) = true <-> exists j, has s x Fixed j.
Proof.
  intros s x. change (has s x Fixed) with (fun j => In j (cons_get (ios s) x Fixed)). destruct (cons_get (ios s) x Fixed) as [|a l]; simpl; split; auto; try discriminate.
  - intros [j []].
  - intros _. exists a. auto.
Qed.

(** The mask the setter uses. *)
Lemma setter_mask : forall s x, Inv s -> (x < next (st s))%nat -> ready (st s) x -> (exists j, has s x Fixed j) ->
  exists mk, (if (match par (st s) x with Some _ => true | None => false end) && nonempty (cons_get (ios s) x Fixed)
           then match mask_set (ones (size (st s) x)) (cons_get (ios s) x Fixed) false with Ok m => Ok (Some m) | Er e => Er e end
           else if nonempty (cons_get (ios s) x Fixed) then Ok (fix_ s x) else Ok None) = Ok (Some mk) /\
    Z.of_nat (length mk) = size (st s) x /\ forall j, 0 <= j < size (st s) x -> (nth (Z.to_nat j) mk false = true <-> ~ has s x Fixed j).
Proof.
  intros s x H Hx Rx Hf. pose proof H as [W I F M N J]. pose proof (size_nonneg _ W x) as Hn. rewrite (proj2 (fixed_nonempty s x) Hf), andb_true_r.
  destruct (par (st s) x) as [q|] eqn:Ep.
  - destruct (mask_set_ok (ones (size (st s) x)) (cons_get (ios s) x Fixed) false) as (m & E & L & Nm).
    { intros j Hj. rewrite ones_len by auto. apply (hasi_range (st s) (ios s) x Fixed j W I Hx). exact Hj. }
    rewrite E. exists m. split; auto. split; [rewrite L; apply ones_len; auto|]. intros j Hj. rewrite Nm by (rewrite ones_len; auto).
    destruct (zmem j (cons_get (ios s) x Fixed)) eqn:Ez.
    + apply zmem_In in Ez. split; [discriminate|]. intros Q; exfalso; apply Q. exact Ez.
    + apply zmem_false in Ez. rewrite ones_nth by auto. split; auto.
  - pose proof (F x Hx Ep Rx) as Mk. unfold mask_ok in Mk. destruct (fix_ s x) as [mk|].
    + destruct Mk as (L & _ & Q). exists mk. auto.
    + exfalso. destruct Hf as [j Hj]. apply (Mk j). exact Hj.
Qed.
(** The mask the getter uses, on a top object or where no other mask has been stored. *)
Definition mask_fresh s (x : oid) : Prop := par (st s) x = None \/ (is_leaf (st s) x = false /\ fix_ s x = None).
Lemma getter_mask : forall s x, Inv s -> (x < next (st s))%nat -> ready (st s) x -> mask_fresh s x -> (exists j, has s x Fixed j) ->
  exists mk, ensure_fixes (st s) (ios s) (fix_ s) x = Ok mk /\
    Z.of_nat (length mk) = size (st s) x /\ forall j, 0 <= j < size (st s) x -> (nth (Z.to_nat j) mk false = true <-> ~ has s x Fixed j).
Proof.
  intros s x H Hx Rx Mf Hf. pose proof H as [W I F M N J]. pose proof (size_nonneg _ W x) as Hn.
  destruct Mf as [Ep|[El Ef]].
  - pose proof (F x Hx Ep Rx) as Mk. unfold mask_ok, ensure_fixes in *. destruct (fix_ s x) as [mk|].
    + destruct Mk as (L & _ & Q). exists mk. rewrite L, Z.eqb_refl. auto.
    + exfalso. destruct Hf as [j Hj]. apply (Mk j). exact Hj.
  - unfold ensure_fixes. rewrite Ef, El. destruct (mask_set_ok (ones (size (st s) x)) (cons_get (ios s) x Fixed) false) as (m & E & L & Nm).
    { intros j Hj. rewrite ones_len by auto. apply (hasi_range (st s) (ios s) x Fixed j W I Hx). exact Hj. }
    exists m. split; auto. split; [rewrite L; apply ones_len; auto|]. intros j Hj. rewrite Nm by (rewrite ones_len; auto).
    destruct (zmem j (cons_get (ios s) x Fixed)) eqn:Ez.
    + apply zmem_In in Ez. split; [discriminate|]. intros Q; exfalso; apply Q. exact Ez.
    + apply zmem_false in Ez. rewrite ones_nth by auto. split; auto.
Qed.

Lemma set_opt_ok : forall s x p ks, Inv s -> (x < next (st s))%nat -> ready (st s) x -> one_tr s x -> free s x ks ->
  exists s' l F, set_optimizer_array tf x p s = (s', None) /\ Inv s' /\ changed s s' x F /\ set_effect tf s x ks p F /\ (apart s -> apart s') /\
    st s' = st s /\ ios s' = ios s /\ fix_ s' = fix_ s /\ ran (set_fresh (nt s) x false) l (nt s') /\
    triggered (st s) (ios s) (nt s) x l.
Proof.
  clear tfinv.
  intros s x p ks H Hx Rx One [Fi Fk]. destruct (store_ok s x H Hx Rx) as (m1 & a & Ep & Hlen & _ & St).
  unfold set_optimizer_array. rewrite Ep.
  set (mk0 := if _ && _ then _ else _).
  assert (Fin : forall vals F, length vals = length (read_arr m1 a) ->
    (forall k, (k < length (read_arr m1 a))%nat -> nth_error vals k = option_map (F (Z.of_nat k)) (nth_error (read_arr m1 a) k)) ->
    set_effect tf s x ks p F ->
    exists s' l F, andthen (fun s0 => (with_nt (with_mem s0 (write_arr m1 a vals)) (set_fresh (nt s0) x false), None)) (c_trigger x true) s = (s', None) /\ Inv s' /\ changed s s' x F /\ set_effect tf s x ks p F /\ (apart s -> apart s') /\
    st s' = st s /\ ios s' = ios s /\ fix_ s' = fix_ s /\ ran (set_fresh (nt s) x false) l (nt s') /\ triggered (st s) (ios s) (nt s) x l).
  { intros vals F L1 L2 Se. destruct (St vals F L1 L2) as ([W1 I1 F1 M1 N1 J1] & C & D).
    set (s1 := with_nt (with_mem s (write_arr m1 a vals)) (set_fresh (nt s) x false)).
    assert (R1 : (fun s0 : state => (with_nt (with_mem s0 (write_arr m1 a vals)) (set_fresh (nt s0) x false), None)) s = (s1, @None exn)) by reflexivity.
    rewrite (andthen_ok _ _ _ _ R1).
    assert (H1 : Inv s1) by (constructor; auto).
    destruct (trigger_full s1 x H1 Hx) as (s2 & l & R2 & O & Tr). exists s2, l, F. split; auto. split; [eapply only_ran_inv; eauto|].
    destruct O as (E1 & E2 & E3 & E4 & E5). split; [eapply changed_mem; eauto|]. split; auto. split; [unfold apart in *; rewrite E1, E4; auto|]. repeat (split; auto). }
  destruct (nonempty (cons_get (ios s) x Fixed)) eqn:Ef.
  - destruct (setter_mask s x H Hx Rx) as (mk & E & Lm & Nm); [apply fixed_nonempty; auto|]. unfold mk0. rewrite Ef in E. rewrite E.
    assert (Lmk : length mk = length (read_arr m1 a)) by lia. rewrite Lmk, Nat.eqb_refl.
    assert (Ek : ks = select mk (arange (size (st s) x))) by (apply (mask_free mk _ (fun j => ~ has s x Fixed j)); auto).
    set (items := map _ _).
    apply (Fin _ (fun k v => through tf k items (if nth (Z.to_nat k) mk false then cyc p (rank mk (Z.to_nat k)) v else v))).
    + rewrite (proj2 (apply_all_nth V items _ _ 0%nat)). apply put_mask_len.
    + intros k Hk. rewrite (proj1 (apply_all_nth V items _ _ k)), put_mask_nth by auto. destruct (nth_error (read_arr m1 a) k); auto.
      cbn [option_map]. rewrite Nat2Z.id. auto.
    + split.
      * intros k v Hk. assert (Hr : 0 <= k < size (st s) x) by (apply (hasi_range (st s) (ios s) x Fixed k (inv_st _ H) (inv_io _ H) Hx); exact Hk).
        assert (En : nth (Z.to_nat k) mk false = false). { destruct (nth (Z.to_nat k) mk false) eqn:E1; auto. apply Nm in E1; auto. contradiction. }
        rewrite En. unfold items. rewrite through_filter, En. auto.
      * intros i k v Hi. rewrite Ek in Hi. destruct (free_pos mk _ i k Lm Hi) as (Hr & En & Er). rewrite En, Er. unfold items.
        destruct (through_items s x k H Hx One tf (cyc p i v)) as [Q1 Q2]. rewrite through_filter, En. split; auto.
  - unfold mk0. rewrite andb_false_r.
    assert (Nof : forall j, ~ has s x Fixed j) by (intros j Hj; rewrite (proj2 (fixed_nonempty s x)) in Ef; [discriminate | eauto]).
    assert (Ek : ks = arange (size (st s) x)).
    { apply increasing_unique; auto; [apply arange_increasing|]. intros k. rewrite Fk, arange_In. split; [tauto | auto]. }
    apply (Fin _ (fun k v => through tf k (cons_items (ios s) x) (cyc p (Z.to_nat k) v))).
    + rewrite (proj2 (apply_all_nth V _ _ _ 0%nat)). apply (enum_len (read_arr m1 a) (fun k v => cyc p (Z.to_nat k) v)).
    + intros k Hk. rewrite (proj1 (apply_all_nth V _ _ _ k)). unfold fill. rewrite (enum_map (read_arr m1 a) (fun k v => cyc p (Z.to_nat k) v)) by auto.
      destruct (nth_error (read_arr m1 a) k); auto.
    + split; [intros k v Hk; exfalso; apply (Nof k); auto|]. intros i k v Hi. rewrite Ek, arange_nth_error in Hi.
      destruct (Nat.ltb_spec i (Z.to_nat (size (st s) x))); [|discriminate]. inversion Hi; subst k. rewrite Nat2Z.id.
      apply (through_items s x (Z.of_nat i) H Hx One tf (cyc p i v)).
Qed.

Lemma pa_ok : forall (t : struct) (m : @memst V) x m1 a, swf t -> meminv t m -> (x < next t)%nat -> ready t x -> param_array t m x = (m1, a) ->
  meminv t m1 /\ (disj t m -> disj t m1) /\ forall y j, (y < next t)%nat -> ready t y -> 0 <= j < size t y -> mval m1 y j = mval m y j.
Proof.
  intros t m x m1 a W M Hx Rx E. destruct (write_mem t m x W M Hx Rx) as (m1' & b & o & E' & _ & Q). rewrite E in E'. inversion E'; subst m1' a.
  destruct (Q (read_arr m1 (b, o, size t x))) as (M' & D' & _); [apply read_len, size_nonneg; auto|].
  split; [|split; auto].
  - destruct M' as [A1 A2 A3 A4 A5]. constructor; auto.
  - intros y j Hy Ry Hj. destruct (pa_spec t m x) as (m2 & b2 & o2 & Ep & Ea & Eo & Ec & En & Ev); [apply leaf_valid; auto|].
    rewrite E in Ep. inversion Ep; subst. destruct Ev as [[_ ->]|(Nv & _)]; auto.
    assert (y <> x). { intros ->. apply Nv. destruct (ready_al t m x W M Hx Rx) as (b & o & A). exists b, o. apply al_self; auto. lia. }
    unfold mval. rewrite Eo by auto. rewrite Ec. auto.
Qed.

(** Reading [x.optimizer_array] changed nothing visible. *)
Definition read_only s s' x : Prop :=
  st s' = st s /\ ios s' = ios s /\ (forall y, y <> x -> fix_ s' y = fix_ s y) /\
  (forall y j, (y < next (st s))%nat -> ready (st s) y -> 0 <= j < size (st s) y -> value s' y j = value s y j) /\
  passes (nt s') = passes (nt s) /\ updates (nt s') = updates (nt s) /\ visited (nt s') = visited (nt s) /\ trace (nt s') = trace (nt s) /\
  (forall y, y <> x -> fresh (nt s') y = fresh (nt s) y /\ copied (nt s') y = copied (nt s) y) /\ (apart s -> apart s').

Lemma get_opt_ok : forall s x ks, Inv s -> (x < next (st s))%nat -> ready (st s) x -> one_tr s x -> free s x ks -> fresh (nt s) x = false ->
  mask_fresh s x \/ (forall j, ~ has s x Fixed j) ->
  exists l s', get_optimizer_array tfinv x s = Ok (l, s') /\ get_spec tfinv s x ks l /\ Inv s' /\ read_only s s' x.
Proof.
  clear tf.
  intros s x ks H Hx Rx One [Fi Fk] Hfr Mf. pose proof H as [W I F M N J]. destruct (store_ok s x H Hx Rx) as (m1 & a & Ep & Hlen & Hval & _).
  destruct (pa_ok (st s) (mem s) x m1 a W M Hx Rx Ep) as (M1 & D1 & V1).
  unfold get_optimizer_array. rewrite Ep, Hfr.
  set (keep := match copied (nt s) x with Some l => _ | None => false end).
  set (m2 := if keep then m1 else mkM (cell m1) (S (nbuf m1)) (arr m1)).
  set (new := put_all (cons_items (ios s) x) tfinv (read_arr m1 a) (read_arr m1 a)).
  assert (M2 : meminv (st s) m2).
  { unfold m2. destruct keep; auto. destruct M1 as [A1 A2 A3 A4 A5]. constructor; auto. intros y b o n E. apply A1 in E. cbn. lia. }
  assert (V2 : forall y j, mval m2 y j = mval m1 y j) by (intros; unfold m2; destruct keep; auto).
  assert (D2 : disj (st s) m1 -> disj (st s) m2) by (unfold m2; destruct keep; auto).
  assert (Ln : length new = length (read_arr m1 a)) by apply put_all_len.
  assert (Hnew : forall k, 0 <= k < size (st s) x -> exists v, value s x k = Some v /\
     (forall n, has s x (Tr n) k -> nth_error new (Z.to_nat k) = Some (tfinv n v)) /\ ((forall n, ~ has s x (Tr n) k) -> nth_error new (Z.to_nat k) = Some v)).
  { intros k Hk. pose proof (Hval k Hk) as Ev. destruct (nth_error (read_arr m1 a) (Z.to_nat k)) as [v|] eqn:En; [|apply nth_error_None in En; lia].
    exists v. split; auto. unfold new. rewrite (put_all_nth V _ tfinv _ _ _ v En), En, Z2Nat.id by lia. cbn [option_map].
    destruct (through_items s x k H Hx One (fun n _ => tfinv n v) v) as [Q1 Q2]. split; intros; f_equal; auto. }
  assert (Fin : forall fx, (forall y, y <> x -> fx y = fix_ s y) -> (par (st s) x = None -> ready (st s) x -> mask_ok (st s) (ios s) fx x) ->
     Inv (with_fix (with_nt (with_mem s m2) (set_fresh (set_copied (nt s) x (Some new)) x true)) fx) /\
     read_only s (with_fix (with_nt (with_mem s m2) (set_fresh (set_copied (nt s) x (Some new)) x true)) fx) x).
  { intros fx E1 E2. split.
    - constructor; auto. intros q Hq Hp Hr. cbn [with_fix fix_ with_nt with_mem st ios]. destruct (Nat.eq_dec q x) as [->|Hne]; auto.
      apply (mask_ok_ext (st s) (ios s) (fix_ s)); auto; try tauto.
    - repeat (split; [auto; fail|]). split; [|repeat (split; [auto; fail|])].
      + intros y j Hy Ry Hj. change (mval m2 y j = mval (mem s) y j). rewrite V2. apply V1; auto.
      + split; [intros y Hne; cbn; rewrite !upd_ne by auto; auto|]. intros Ap. apply D2, D1. exact Ap. }
  assert (Efx : forall (s0 : @state V), with_fix s0 (fix_ s0) = s0) by (intros []; auto).
  destruct (nonempty (cons_get (ios s) x Fixed)) eqn:Ef.
  - pose proof (proj1 (fixed_nonempty s x) Ef) as Hex. destruct Mf as [Mf|Nf]; [|exfalso; destruct Hex as [j Hj]; apply (Nf j); auto].
    destruct (getter_mask s x H Hx Rx Mf Hex) as (mk & E & Lm & Nm). rewrite E.
    assert (Ek : ks = select mk (arange (size (st s) x))) by (apply (mask_free mk _ (fun j => ~ has s x Fixed j)); auto).
    assert (Lmk : length mk = length new) by lia.
    eexists; eexists. split; [reflexivity|]. split.
    + split.
      * rewrite Ek. apply select_length. rewrite arange_len. lia.
      * intros i k Hi. rewrite Ek in Hi. destruct (free_pos mk _ i k Lm Hi) as (Hr & En & Er). destruct (Hnew k Hr) as (v & Hv & Q1 & Q2).
        exists v. split; auto. subst i. rewrite select_nth by auto. split; auto.
    + apply (Fin (upd (fix_ s) x (Some mk))); [intros; apply upd_ne; auto|]. intros _ _. unfold mask_ok. rewrite upd_eq. split; auto.
  - assert (Nof : forall j, ~ has s x Fixed j) by (intros j Hj; rewrite (proj2 (fixed_nonempty s x)) in Ef; [discriminate | eauto]).
    assert (Ek : ks = arange (size (st s) x)).
    { apply increasing_unique; auto; [apply arange_increasing|]. intros k. rewrite Fk, arange_In. split; [tauto | auto]. }
    eexists; eexists. split; [reflexivity|]. split.
    + split; [rewrite Ek, arange_len; lia|]. intros i k Hi. rewrite Ek, arange_nth_error in Hi.
      destruct (Nat.ltb_spec i (Z.to_nat (size (st s) x))); [|discriminate]. inversion Hi; subst k.
      destruct (Hnew (Z.of_nat i)) as (v & Hv & Q1 & Q2); [lia|]. rewrite Nat2Z.id in *. exists v. auto.
    + rewrite <- (Efx (with_nt (with_mem s m2) (set_fresh (set_copied (nt s) x (Some new)) x true))). apply Fin; auto.
Qed.

(** ** The update switch *)
Lemma set_all_spec : forall l (n : @ntst V) on, let n' := fold_left (fun n0 y => set_updates n0 y on) l n in
  (forall y, updates n' y = if omem y l then on else updates n y) /\ passes n' = passes n /\ visited n' = visited n /\ copied n' = copied n /\ fresh n' = fresh n /\ trace n' = trace n.
Proof.
  induction l as [|z l IH]; intros n on; cbn [fold_left]; [repeat split|]. destruct (IH (set_updates n z on) on) as (A1 & A2). split; auto.
  intros y. rewrite A1. cbn [omem existsb set_updates updates]. unfold omem in *. cbn [existsb]. unfold upd. rewrite Nat.eqb_sym. destruct (Nat.eqb z y); cbn [orb]; auto.
  destruct (existsb (Nat.eqb y) l); auto.
Qed.

Lemma update_model_ok : forall s x on, Inv s -> (x < next (st s))%nat ->
  exists s' l r, update_model x on s = (s', None) /\ Inv s' /\ above (st s) r x /\ par (st s) r = None /\
    st s' = st s /\ ios s' = ios s /\ fix_ s' = fix_ s /\ mem s' = mem s /\
    (forall y, updates (nt s') y = if omem y l then on else updates (nt s) y) /\ (forall y, In y l <-> above (st s) r y) /\
    copied (nt s') = copied (nt s) /\
    exists n1 l', (forall y, updates n1 y = updates (nt s') y) /\ nrest (nt s) (mkN (passes n1) (updates (nt s)) (visited n1) (copied n1) (fresh n1) (trace n1)) /\
      ran n1 l' (nt s') /\ triggered (st s) (ios s) (nt s') x l'.
Proof.
  intros s x on H Hx. pose proof H as [W I F M N J]. destruct (root_exists (st s) x W) as (r & o & n & Eh & Hp & B).
  assert (Hr : (r < next (st s))%nat) by (eapply root_lt; eauto).
  unfold update_model. destruct (traverse_wf (st s) (fun _ => false) r (nt s) [] W (proj2 N)) as (tr & E1 & E2 & E3 & E4 & n1 & seen & e & Et & Nr & T1 & _).
  destruct T1 as (-> & -> & Ns); [auto|].
  destruct (set_all_spec (rev (oids tr) ++ []) n1 on) as (A1 & A2 & A3 & A4 & A5 & A6).
  set (n2 := fold_left (fun n0 y => set_updates n0 y on) (rev (oids tr) ++ []) n1) in *.
  destruct Ns as [(B1 & B2 & B3 & B4 & B5) B6].
  set (s1 := with_nt s n2).
  assert (R1 : c_highest x (fun h => set_all_updates h on) s = (s1, None)).
  { unfold c_highest, get. rewrite Eh. unfold set_all_updates. rewrite Et. reflexivity. }
  rewrite (andthen_ok _ _ _ _ R1).
  assert (H1 : Inv s1).
  { constructor; auto. cbn [s1 with_nt nt st]. split; [intros y; rewrite A2, B1; apply N | intros y; rewrite A3, B6; apply N]. }
  assert (Hin : forall y, In y (rev (oids tr) ++ []) <-> above (st s) r y) by (intros y; rewrite app_nil_r, <- in_rev; apply E4).
  destruct (trigger_full s1 x H1 Hx) as (s2 & l2 & R2 & O & Tr).
  exists s2, (rev (oids tr) ++ []), r. split; auto. split; [eapply only_ran_inv; eauto|]. split; [exists o, n; auto|]. split; auto.
  destruct O as (O1 & O2 & O3 & O4 & O5). pose proof O5 as ((P1 & P2 & P3 & P4) & _).
  split; auto. split; auto. split; auto. split; auto. split. { intros y. rewrite P2. cbn [s1 with_nt nt]. rewrite A1, B2. auto. }
  split; auto. split. { rewrite P4. cbn [s1 with_nt nt]. congruence. }
  exists n2, l2. split; [intros; rewrite P2; auto|]. split. { unfold nrest; cbn. repeat split; congruence. }
  split; auto. eapply triggered_ext; [|exact Tr]. auto.
Qed.
End Opt.
