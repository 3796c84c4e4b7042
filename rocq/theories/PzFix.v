(** Proofs about the hierarchy, part 9: fix masks, and the index operations in link and unlink. *)
From Coq Require Import List ZArith Bool Lia Arith Sorting.Sorted.
From Verif Require Import NpModel NpProofs IndexOpsModel IndexOpsSpec IndexOpsProofs PzModel PzSpec PzTree PzStruct PzLink PzWalk PzIo.
Import ListNotations.
Open Scope Z_scope.

(** ** Masks *)
Lemma arange_nth' : forall n k d, (k < Z.to_nat n)%nat -> nth k (arange n) d = Z.of_nat k.
Proof.
  intros. unfold arange. rewrite nth_indep with (d' := Z.of_nat 0) by (rewrite map_length, seq_length; auto).
  rewrite map_nth. rewrite seq_nth by auto. reflexivity.
Qed.
Lemma enum_nth : forall (A B : Type) (g : Z -> A -> B) (l : list A) j d d', 0 <= j < Z.of_nat (length l) ->
  nth (Z.to_nat j) (map (fun e => g (fst e) (snd e)) (combine (arange (Z.of_nat (length l))) l)) d' = g j (nth (Z.to_nat j) l d).
Proof.
  intros A B g l j d d' Hj.
  assert (Hl : length (arange (Z.of_nat (length l))) = length l) by (unfold arange; rewrite map_length, seq_length; lia).
  rewrite nth_indep with (d' := g 0 d).
  2:{ rewrite map_length, combine_length, Hl. lia. }
  change (g 0 d) with ((fun e => g (fst e) (snd e)) (0, d)). rewrite map_nth.
  rewrite combine_nth by auto. simpl. rewrite arange_nth' by lia. f_equal. lia.
Qed.
Lemma enum_length : forall (A B : Type) (g : Z * A -> B) (l : list A),
  length (map g (combine (arange (Z.of_nat (length l))) l)) = length l.
Proof. intros. rewrite map_length, combine_length. unfold arange. rewrite map_length, seq_length. lia. Qed.

Lemma mask_set_ok : forall m idx v, (forall j, In j idx -> 0 <= j < Z.of_nat (length m)) ->
  exists m', mask_set m idx v = Ok m' /\ length m' = length m /\
    forall j d, 0 <= j < Z.of_nat (length m) -> nth (Z.to_nat j) m' d = if zmem j idx then v else nth (Z.to_nat j) m d.
Proof.
  intros m idx v H. unfold mask_set.
  assert (E : forallb (fun i => (0 <=? i) && (i <? Z.of_nat (length m))) idx = true).
  { apply forallb_forall. intros j Hj. specialize (H j Hj). apply andb_true_iff. split; [apply Z.leb_le | apply Z.ltb_lt]; lia. }
  rewrite E. eexists. split; [reflexivity|]. split; [apply enum_length|].
  intros j d Hj. rewrite (enum_nth bool bool (fun j b => if zmem j idx then v else b) m j d d Hj). reflexivity.
Qed.
Lemma ones_len : forall n, 0 <= n -> Z.of_nat (length (ones n)) = n.
Proof. intros. unfold ones. rewrite repeat_length. lia. Qed.
Lemma ones_nth : forall n j d, 0 <= j < n -> nth (Z.to_nat j) (ones n) d = true.
Proof.
  intros. unfold ones. assert (H' : (Z.to_nat j < Z.to_nat n)%nat) by lia. revert H'. generalize (Z.to_nat j). generalize (Z.to_nat n).
  clear. induction n as [|n IH]; intros k Hk; [lia|]. destruct k; simpl; auto. apply IH. lia.
Qed.

Lemma map_true_nth : forall (m : list bool) k d, (k < length m)%nat -> nth k (map (fun _ => true) m) d = true.
Proof. induction m as [|a m IH]; simpl; intros k d Hk; [lia|]. destruct k; auto. apply IH. lia. Qed.

(** ** [_connect_fixes] *)
(** The fix mask of an object agrees with its constraints. *)
Definition mask_ok (t : struct) (i : iost) (fx : fixst) (r : oid) : Prop :=
  match fx r with
  | None => forall j, ~ hasi i r Fixed j
  | Some mk => Z.of_nat (length mk) = size t r /\ (exists j, hasi i r Fixed j) /\
      forall j, 0 <= j < size t r -> (nth (Z.to_nat j) mk false = true <-> ~ hasi i r Fixed j)
  end.
(** Nothing but the order and the empty entries of the index operations differ. *)
Definition io_eq (i i' : iost) : Prop :=
  (forall x, iop i' x = iop i x) /\ nrid i' = nrid i /\
  (forall b p, lk (dicts i' b) p = lk (dicts i b) p) /\ (forall b, dwf (dicts i b) -> dwf (dicts i' b)).
Lemma io_eq_refl : forall i, io_eq i i.
Proof. split; auto. Qed.
Lemma io_eq_trans : forall a b c, io_eq a b -> io_eq b c -> io_eq a c.
Proof. intros a b c (A1 & A2 & A3 & A4) (B1 & B2 & B3 & B4). repeat split; intros; try congruence; auto. all: apply B4, A4; auto. Qed.
Lemma io_eq_has : forall i i' x p j, io_eq i i' -> (hasi i' x p j <-> hasi i x p j).
Proof. intros i i' x p j (A1 & A2 & A3 & A4). unfold hasi. rewrite !carries_lk, A1, A3. tauto. Qed.
Lemma io_eq_inv : forall t i i', io_eq i i' -> ioinv t i -> ioinv t i'.
Proof.
  intros t i i' (A1 & A2 & A3 & A4) H.
  assert (Er : forall x, rid i' x = rid i x) by (intros; unfold rid; rewrite A1; auto).
  constructor.
  - intros. rewrite A1. eapply io_root; eauto.
  - intros. rewrite Er, A2. eapply io_rid; eauto.
  - intros r r'. rewrite !Er. apply (io_inj _ _ H).
  - intros. rewrite A1, Er. eapply io_view; eauto.
  - intros r Hr Hp. unfold dof. rewrite Er. destruct (io_dict _ _ H r Hr Hp) as [D1 D2]. split; [apply A4, D1|].
    intros p j. rewrite A3. apply D2.
Qed.

Lemma nonempty_spec : forall l, nonempty l = true <-> exists j, In j l.
Proof. intros [|a l]; simpl; split; try discriminate; auto. - intros [j []]. - intros _; exists a; auto. Qed.

Lemma nonempty_false : forall l, nonempty l = false -> forall j, ~ In j l.
Proof. intros [|a l]; simpl; [auto | discriminate]. Qed.
Lemma ensure_ok : forall t i fx x, 0 <= size t x -> (forall j, hasi i x Fixed j -> 0 <= j < size t x) ->
  exists m, ensure_fixes t i fx x = Ok m /\ Z.of_nat (length m) = size t x.
Proof.
  intros t i fx x Hn Hr.
  assert (G : exists m, (if is_leaf t x then Ok (ones (size t x)) else mask_set (ones (size t x)) (cons_get i x Fixed) false) = Ok m /\ Z.of_nat (length m) = size t x).
  { destruct (is_leaf t x); [exists (ones (size t x)); split; auto; apply ones_len; auto|].
    destruct (mask_set_ok (ones (size t x)) (cons_get i x Fixed) false) as (m & E & L & _).
    - intros j Hj. rewrite ones_len by auto. apply Hr. exact Hj.
    - exists m. split; auto. rewrite L. apply ones_len; auto. }
  unfold ensure_fixes. destruct (fx x) as [m|]; auto.
  destruct (Z.eqb_spec (Z.of_nat (length m)) (size t x)) as [E|E]; eauto.
Qed.

Lemma connect_fixes_ok : forall t i fx x, 0 <= size t x -> (forall j, hasi i x Fixed j -> 0 <= j < size t x) ->
  dwf (dof i x) ->
  exists i' fx', connect_fixes t x (i, fx) = Ok (i', fx') /\ io_eq i i' /\ (forall y, y <> x -> fx' y = fx y) /\ mask_ok t i' fx' x.
Proof.
  intros t i fx x Hn Hr Hw. unfold connect_fixes. destruct (nonempty (cons_get i x Fixed)) eqn:E.
  - destruct (ensure_ok t i fx x Hn Hr) as (m & Em & Lm). rewrite Em. simpl.
    destruct (mask_set_ok (map (fun _ => true) m) (cons_get i x Fixed) false) as (m' & E' & L' & N').
    { intros j Hj. rewrite map_length, Lm. apply Hr. exact Hj. }
    rewrite map_length in L', N'.
    rewrite E'. simpl. eexists; eexists. split; [reflexivity|]. split; [apply io_eq_refl|]. split; [intros; apply upd_ne; auto|].
    unfold mask_ok. rewrite upd_eq. split; [congruence|]. split; [apply nonempty_spec in E; exact E|].
    intros j Hj. rewrite N' by lia. destruct (zmem j (cons_get i x Fixed)) eqn:Ez.
    + apply zmem_In in Ez. split; [discriminate|]. intros H; exfalso; apply H. exact Ez.
    + apply zmem_false in Ez. split; [intros _; exact Ez | intros _].
      apply map_true_nth. lia.
  - pose proof (nonempty_false _ E) as Hno.
    eexists; eexists. split; [reflexivity|].
    assert (Q : io_eq i (cons_upd i x (fun v d => match delitem v d Fixed with Some d' => d' | None => d end))).
    { unfold cons_upd. set (g := match delitem _ _ _ with Some d' => d' | None => _ end).
      assert (G : dwf g /\ forall p, lk g p = lk (dof i x) p).
      { unfold g. destruct (delitem (snd (iop i x)) (dicts i (fst (iop i x))) Fixed) as [d'|] eqn:Ed; [|auto].
        destruct (delitem_spec _ _ _ _ Hw Ed) as [W' L']. split; auto. intros p. apply ssorted_ext; try (apply lk_sorted; auto).
        intros j. rewrite L'. split; [tauto|]. intros H. split; auto. intros [-> H2]. apply (Hno (j - base (snd (iop i x)))).
        unfold cons_get. apply carries_lk. replace (j - base (snd (iop i x)) + base (snd (iop i x))) with j by lia. auto. }
      destruct G as [G1 G2]. unfold io_eq, set_dict; simpl. split; [auto|]. split; [auto|]. split.
      - intros b p. unfold upd. destruct (Nat.eqb_spec b (fst (iop i x))) as [->|]; auto.
      - intros b Hb. unfold upd. destruct (Nat.eqb_spec b (fst (iop i x))) as [->|]; auto. }
    split; [exact Q|]. split; [intros; apply upd_ne; auto|].
    unfold mask_ok. rewrite upd_eq. intros j Hj. apply (io_eq_has _ _ _ _ _ Q) in Hj. exact (Hno j Hj).
Qed.

(** ** Index operations with well-formed data *)
Lemma copy_spec : forall v d, dwf d -> dwf (copy v d) /\ forall p, lk (copy v d) p = vlk v (lk d p).
Proof.
  intros v d R.
  assert (S : Forall (fun e => ssorted (snd e)) (items v d)).
  { apply Forall_forall. intros [p l] H. apply items_In in H as [-> _]; [|apply R].
    apply vlk_sorted, lk_sorted, R. }
  assert (N : NoDup (map fst (items v d))) by (apply items_NoDup, R).
  assert (E : copy v d = items v d) by (unfold copy; rewrite copy_fold; auto).
  rewrite E. split; [split; auto|].
  intros p. unfold lk at 1. rewrite dget_items by apply R. destruct (vlk v (lk d p)); auto.
Qed.
Lemma items_pairs : forall v d q j, dwf d -> ((exists l, In (q, l) (items v d) /\ In j l) <-> carries v d q j).
Proof.
  intros v d q j W. unfold carries. rewrite getitem_fst. split.
  - intros (l & H1 & H2). apply items_In in H1 as [-> _]; [auto | apply W].
  - intros H. exists (vlk v (lk d q)). split; auto. apply items_In; [apply W|]. split; auto. intros E. rewrite E in H. destruct H.
Qed.
Lemma shift_right_spec : forall v d s n, 0 <= n -> dwf d -> dwf (shift_right v d s n) /\
  forall q j, In j (lk (shift_right v d s n) q) <->
    (j < s + base v /\ In j (lk d q)) \/ (s + base v + n <= j /\ In (j - n) (lk d q)).
Proof.
  intros v d s n Hn W. split; [rewrite shift_right_eq; apply root_shift_right_wf; auto|].
  intros q j. rewrite <- !carries_root. apply shift_right_sem; auto.
Qed.
Lemma shift_left_spec : forall v d s n, 0 <= n -> dwf d -> dwf (shift_left v d s n) /\
  forall q j, In j (lk (shift_left v d s n) q) <->
    (j < s + base v /\ In j (lk d q)) \/ (s + base v <= j /\ In (j + n) (lk d q)).
Proof.
  intros v d s n Hn W. rewrite shift_left_eq. destruct (root_shift_left_spec d (s + base v) n Hn W) as [W' L].
  split; auto. intros q j. rewrite L. unfold shift_arr_left. rewrite in_map_iff. split.
  - intros (k & Hk & Hi). apply filter_In in Hi as [Hi Hf]. apply negb_true_iff in Hf. apply andb_false_iff in Hf.
    destruct (Z.leb_spec (s + base v) k).
    + right. destruct Hf as [Hf|Hf]; [discriminate|]. apply Z.ltb_ge in Hf. split; [lia|]. replace (j + n) with k by lia. auto.
    + left. split; [lia|]. subst; auto.
  - intros [[H1 H2]|[H1 H2]].
    + exists j. destruct (Z.leb_spec (s + base v) j); [lia|]. split; auto. apply filter_In. split; auto.
      apply negb_true_iff, andb_false_iff. left. apply Z.leb_gt. lia.
    + exists (j + n). destruct (Z.leb_spec (s + base v) (j + n)); [|lia]. split; [lia|]. apply filter_In. split; auto.
      apply negb_true_iff, andb_false_iff. right. apply Z.ltb_ge. lia.
Qed.
