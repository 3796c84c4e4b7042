(** Proofs about the hierarchy, part 18: constraining, fixing and their opposites. *)
From Coq Require Import List ZArith Bool Lia Arith.
From Verif Require Import NpModel NpProofs IndexOpsModel IndexOpsSpec IndexOpsProofs PzModel PzSpec PzTree PzStruct PzLink PzWalk PzMem PzIo PzInv PzConn PzFix PzLinkMem PzPres PzUnlink PzTraverse PzNotify PzNew PzCmd PzInit.
Import ListNotations.
Open Scope Z_scope.

(** ** The same element *)
Lemma same_elem_root : forall t r x o n, swf t -> par t r = None -> below t r x o n -> forall y j k,
  (same_elem t y j x k <-> 0 <= j < size t y /\ 0 <= k < size t x /\ exists oy ny, below t r y oy ny /\ j + oy = k + o).
Proof.
  intros t r x o n W Hp B y j k. split.
  - intros (Hj & Hk & q & oy & ny & ox & nx & By & Bx & E). split; auto. split; auto.
    assert (Hrq : above t r q).
    { destruct (root_exists t q W) as (r' & o' & n' & _ & Hr' & B').
      assert (r' = r) as <-; [|exists o', n'; auto]. apply (roots_eq t r r' x); auto; [exists o, n; auto|].
      eexists; eexists; eapply below_trans; eauto. }
    destruct Hrq as [oq [nq Bq]]. assert (Bx' : below t r x (oq + ox) (nq + nx)) by (eapply below_trans; eauto).
    destruct (below_unique _ _ _ _ _ _ _ W B Bx') as [-> ->].
    exists (oq + oy), (nq + ny)%nat. split; [eapply below_trans; eauto | lia].
  - intros (Hj & Hk & oy & ny & By & E). split; auto. split; auto. exists r, oy, ny, o, n. auto.
Qed.
Lemma same_elem_sym : forall t y j x k, same_elem t y j x k -> same_elem t x k y j.
Proof. intros t y j x k (A & B & r & oy & ny & ox & nx & C & D & E). split; auto. split; auto. exists r, ox, nx, oy, ny. auto. Qed.
Lemma same_elem_has : forall t i x k y j p, swf t -> ioinv t i -> (x < next t)%nat -> same_elem t y j x k -> (hasi i y p j <-> hasi i x p k).
Proof.
  intros t i x k y j p W I Hx Se. destruct (root_exists t x W) as (r & o & n & _ & Hp & B).
  assert (Hr : (r < next t)%nat) by (eapply root_lt; eauto).
  destruct (proj1 (same_elem_root t r x o n W Hp B _ _ _) Se) as (Hj & Hk & oy & ny & By & E).
  rewrite (has_below t i r y oy ny p j W I Hr Hp By), (has_below t i r x o n p k W I Hr Hp B). rewrite E. tauto.
Qed.
Lemma same_elem_refl : forall t x k, 0 <= k < size t x -> same_elem t x k x k.
Proof. intros t x k H. split; auto. split; auto. exists x, 0, 0%nat, 0, 0%nat. repeat split; try constructor. Qed.
Lemma same_elem_self : forall t x j k, swf t -> same_elem t x j x k -> j = k.
Proof.
  intros t x j k W (_ & _ & r & oy & ny & ox & nx & C & D & E). destruct (below_unique _ _ _ _ _ _ _ W C D) as [-> _]. lia.
Qed.
Lemma same_elem_outside : forall t r y j x k, swf t -> par t r = None -> above t r x -> ~ above t r y -> ~ same_elem t y j x k.
Proof.
  intros t r y j x k W Hp [o [n B]] Hn Se. destruct (proj1 (same_elem_root t r x o n W Hp B _ _ _) Se) as (_ & _ & oy & ny & By & _). apply Hn. exists oy, ny; auto.
Qed.

(** ** Changing the entries of a top object *)
Section Change.
Variables (t : struct) (i : iost) (r : oid) (d' : dict).
Hypothesis W : swf t.
Hypothesis I : ioinv t i.
Hypothesis Hr : (r < next t)%nat.
Hypothesis Hp : par t r = None.
Hypothesis Dw : dwf d'.
Hypothesis Db : forall p j, In j (lk d' p) -> 0 <= j < size t r.
Let i' := set_dict i (rid i r) d'.

Lemma change_inv : ioinv t i'.
Proof.
  destruct I as [A1 A2 A3 A4 A5]. constructor; auto. intros q Hq Hpq. unfold dof, rid, i', set_dict; cbn [dicts iop]. fold (rid i q). unfold upd.
  destruct (Nat.eqb_spec (rid i q) (rid i r)) as [E|E]; [|apply A5; auto]. split; auto. rewrite (A3 q r); auto.
Qed.
Lemma change_in : forall y o n p j, below t r y o n -> (hasi i' y p j <-> In (j + o) (lk d' p) /\ 0 <= j < size t y).
Proof.
  intros y o n p j B. rewrite (has_below t i' r y o n p j W change_inv Hr Hp B). unfold dof, rid, i', set_dict; cbn [dicts iop]. rewrite upd_eq. tauto.
Qed.
Lemma change_out : forall y p j, (y < next t)%nat -> ~ above t r y -> (hasi i' y p j <-> hasi i y p j).
Proof.
  intros y p j Hy Hn. destruct (root_exists t y W) as (q & o & n & _ & Hq & B).
  assert (Hqt : (q < next t)%nat) by (eapply root_lt; eauto).
  rewrite (has_below t i' q y o n p j W change_inv Hqt Hq B), (has_below t i q y o n p j W I Hqt Hq B).
  unfold dof, rid, i', set_dict; cbn [dicts iop]. unfold upd. fold (rid i q). destruct (Nat.eqb_spec (rid i q) (rid i r)) as [E|E]; [|tauto].
  exfalso. apply Hn. rewrite <- (io_inj _ _ I q r); auto. exists o, n; auto.
Qed.
End Change.

Lemma rid_root : forall t i r x o n, ioinv t i -> (r < next t)%nat -> par t r = None -> swf t -> below t r x o n -> rid i x = rid i r /\ base (snd (iop i x)) = o.
Proof.
  intros t i r x o n I Hr Hp W B. destruct (Nat.eq_dec x r) as [->|Hne].
  - destruct (wf_no_cycle _ _ _ _ W B) as [-> ->]. split; auto. rewrite (io_root _ _ I r Hr Hp). auto.
  - unfold rid. rewrite (io_view _ _ I r x o n Hr Hp B Hne). simpl. split; auto. lia.
Qed.

(** Adding and removing entries through an object. *)
Lemma add_io : forall t i x p idx, swf t -> ioinv t i -> (x < next t)%nat -> (forall j, In j idx -> 0 <= j < size t x) ->
  let i' := cons_upd i x (fun v d => add v d p idx) in
  ioinv t i' /\ forall y q j, (y < next t)%nat -> (hasi i' y q j <-> hasi i y q j \/ (q = p /\ exists k, In k idx /\ same_elem t y j x k)).
Proof.
  intros t i x p idx W I Hx Hidx i'. destruct (root_exists t x W) as (r & o & n & _ & Hp & B).
  assert (Hr : (r < next t)%nat) by (eapply root_lt; eauto).
  destruct (rid_root t i r x o n I Hr Hp W B) as [Er Eb].
  destruct (io_dict _ _ I r Hr Hp) as [Dw Db].
  assert (Ei : i' = set_dict i (rid i r) (root_add (dof i r) p (plus_off o idx))).
  { unfold i', cons_upd. rewrite add_eq, Eb. fold (rid i x). rewrite Er. reflexivity. }
  assert (Dl : forall q j, In j (lk (root_add (dof i r) p (plus_off o idx)) q) <-> In j (lk (dof i r) q) \/ (q = p /\ In (j - o) idx)).
  { intros q j. rewrite root_add_lk. destruct (prop_eqb q p) eqn:E.
    - apply prop_eqb_eq in E; subst q. rewrite union1d_In, plus_off_In. tauto.
    - apply prop_eqb_neq in E. tauto. }
  assert (Dw' : dwf (root_add (dof i r) p (plus_off o idx))) by (apply root_add_wf; auto).
  assert (Db' : forall q j, In j (lk (root_add (dof i r) p (plus_off o idx)) q) -> 0 <= j < size t r).
  { intros q j Hj. apply Dl in Hj as [Hj|[_ Hj]]; [eapply Db; eauto|]. apply Hidx in Hj. destruct (below_range _ _ _ _ _ W B). lia. }
  rewrite Ei. split; [apply change_inv; auto|].
  intros y q j Hy. destruct (above_dec t r y W) as [[oy [ny By]]|Hn].
  - rewrite (change_in t i r _ W I Hr Hp Dw' Db' y oy ny q j By), Dl, (has_below t i r y oy ny q j W I Hr Hp By). split.
    + intros [[A|[-> A]] C]; [left; auto | right]. split; auto. exists (j + oy - o). split; auto.
      apply (same_elem_root t r x o n W Hp B). split; auto. split; [apply Hidx; auto|]. exists oy, ny. split; auto. lia.
    + intros [[A C]|[-> [k [Hk Se]]]]; [tauto|]. destruct (proj1 (same_elem_root t r x o n W Hp B _ _ _) Se) as (Hj & _ & oy' & ny' & By' & E).
      destruct (below_unique _ _ _ _ _ _ _ W By By') as [-> ->]. split; auto. right. split; auto. replace (j + oy' - o) with k by lia. auto.
  - rewrite (change_out t i r _ W I Hr Hp Dw' Db' y q j Hy Hn). split; [tauto|]. intros [A|[_ [k [_ Se]]]]; auto.
    exfalso. apply (same_elem_outside t r y j x k W Hp) in Se; auto. exists o, n; auto.
Qed.

Lemma remove_ret_wf : forall d v p ix, dwf d -> NoDup ix -> NoDup (fst (remove v d p ix)) /\
  forall j, In j (fst (remove v d p ix)) <-> In (j + base v) (lk d p) /\ In j ix.
Proof.
  intros d v p ix R N. rewrite remove_fst, root_remove_fst.
  assert (match dget d p with Some l => intersect1d_au l (plus_off (base v) ix) | None => [] end =
          match dget d p with Some l => intersect1d_au (lk d p) (plus_off (base v) ix)
                            | None => [] end) as ->
    by (unfold lk; destruct (dget d p); auto).
  assert (NoDup (lk d p)) as Nl by now apply ssorted_NoDup, lk_sorted.
  assert (NoDup (plus_off (base v) ix)) as Ni by now apply NoDup_plus_off.
  split.
  - destruct (dget d p); [|constructor]. apply ssorted_NoDup. apply ssorted_map; [now apply intersect1d_au_sorted | intros; lia].
  - intros i. rewrite in_map_iff. split.
    + intros (x & <- & H). destruct (dget d p); [|destruct H].
      apply intersect1d_au_In in H as [H1 H2]; auto. apply plus_off_In in H2.
      now replace (x - base v + base v) with x by lia.
    + intros [H1 H2]. exists (i + base v). split; [lia|].
      destruct (dget d p) eqn:E.
      * apply intersect1d_au_In; auto. split; auto. apply plus_off_In.
        now replace (i + base v - base v) with i by lia.
      * unfold lk in H1; rewrite E in H1; destruct H1.
Qed.
Lemma remove_io : forall t i x p idx, swf t -> ioinv t i -> (x < next t)%nat -> NoDup idx -> (forall j, In j idx -> 0 <= j < size t x) ->
  let rm := remove (snd (iop i x)) (dicts i (fst (iop i x))) p idx in
  let i' := set_dict i (fst (iop i x)) (snd rm) in
  ioinv t i' /\ (forall j, In j (fst rm) <-> In j idx /\ hasi i x p j) /\
  forall y q j, (y < next t)%nat -> (hasi i' y q j <-> hasi i y q j /\ ~ (q = p /\ exists k, In k idx /\ same_elem t y j x k)).
Proof.
  intros t i x p idx W I Hx Nd Hidx rm i'. destruct (root_exists t x W) as (r & o & n & _ & Hp & B).
  assert (Hr : (r < next t)%nat) by (eapply root_lt; eauto).
  destruct (rid_root t i r x o n I Hr Hp W B) as [Er Eb].
  destruct (io_dict _ _ I r Hr Hp) as [Dw Db].
  set (d' := snd rm).
  assert (Ed : dicts i (fst (iop i x)) = dof i r) by (unfold dof; rewrite <- Er; reflexivity).
  assert (Ei : i' = set_dict i (rid i r) d') by (unfold i', d'; rewrite <- Er; reflexivity).
  assert (Dw' : dwf d') by (unfold d', rm; rewrite Ed; apply remove_wf; auto).
  assert (Dl : forall q j, In j (lk d' q) <-> In j (lk (dof i r) q) /\ ~ (q = p /\ In (j - o) idx)).
  { intros q j. unfold d', rm. rewrite Ed, remove_lk by auto. rewrite Eb. destruct (prop_eqb q p) eqn:E.
    - apply prop_eqb_eq in E; subst q. rewrite setdiff1d_In, plus_off_In. tauto.
    - apply prop_eqb_neq in E. tauto. }
  assert (Db' : forall q j, In j (lk d' q) -> 0 <= j < size t r) by (intros q j Hj; apply Dl in Hj as [Hj _]; eapply Db; eauto).
  rewrite Ei. split; [apply change_inv; auto|]. split.
  - intros j. unfold rm. rewrite Ed. rewrite (proj2 (remove_ret_wf _ _ _ _ Dw Nd)), Eb.
    rewrite (has_below t i r x o n p j W I Hr Hp B). split; [intros [A C]; split; auto; split; auto | tauto].
  - intros y q j Hy. destruct (above_dec t r y W) as [[oy [ny By]]|Hn].
    + rewrite (change_in t i r _ W I Hr Hp Dw' Db' y oy ny q j By), Dl, (has_below t i r y oy ny q j W I Hr Hp By). split.
      * intros [[A C] D]. split; auto. intros [-> [k [Hk Se]]]. apply C. split; auto.
        destruct (proj1 (same_elem_root t r x o n W Hp B _ _ _) Se) as (_ & _ & oy' & ny' & By' & E).
        destruct (below_unique _ _ _ _ _ _ _ W By By') as [-> ->]. replace (j + oy' - o) with k by lia. auto.
      * intros [[A C] D]. split; auto. split; auto. intros [-> Hk]. apply D. split; auto. exists (j + oy - o). split; auto.
        apply (same_elem_root t r x o n W Hp B). split; auto. split; [apply Hidx; auto|]. exists oy, ny. split; auto. lia.
    + rewrite (change_out t i r _ W I Hr Hp Dw' Db' y q j Hy Hn). split; [|tauto]. intros A. split; auto. intros [_ [k [_ Se]]].
      exfalso. apply (same_elem_outside t r y j x k W Hp) in Se; auto. exists o, n; auto.
Qed.

(** ** [_set_fixed], [_set_unfixed] *)
Lemma forallb_exists_false : forall m, forallb id m = false -> exists k, (k < length m)%nat /\ nth k m false = false.
Proof.
  induction m as [|a m IH]; cbn [forallb]; intros H; [discriminate|]. destruct a; cbn in H.
  - destruct (IH H) as [k [Hk E]]. exists (S k). cbn. split; auto. lia.
  - exists 0%nat. cbn. split; auto. lia.
Qed.
Lemma offset_root : forall t r x o n, swf t -> below t r x o n -> par t r = None -> offset_for (fuel t) t r x = Ok o.
Proof.
  intros t r x o n W B Hp.
  destruct (Nat.eq_dec x r) as [->|Hne].
    - destruct (wf_no_cycle _ _ _ _ W B) as [-> ->]. unfold fuel. cbn [offset_for]. rewrite Hp. auto.
    - destruct (tree_exists t W r) as [tr [E [R N]]].
      apply (offset_ok n t tr x o (fuel t)) in R; auto; try congruence; rewrite ?E; auto.
      destruct (wf_up t W x) as [l Hl]. pose proof (up_length _ _ _ W Hl).
      enough (n < length l)%nat by lia. clear - W B Hp Hl. revert x o B l Hl. induction n as [|n IH]; intros x o B l Hl; [inversion Hl; simpl; lia|].
      apply below_last in B as [[_ [_ Q]]|[p [k [o' [n' [B' [Hk [_ E]]]]]]]]; [discriminate|]. inversion E; subst n'.
      assert (Hpx : par t x = Some p) by (apply (PzTree.wf_par t W); eapply nth_error_In; eauto).
      inversion Hl as [? Q|? p' l' Q Hl' ]; subst; [congruence|]. assert (p' = p) by congruence. subst p'. simpl. specialize (IH p o' B' l' Hl'). lia.
Qed.
Lemma set_mask_ok : forall t i (fx : fixst) r x o n idx v m, swf t -> below t r x o n -> par t r = None ->
  (forall j, In j idx -> 0 <= j < size t x) -> ensure_fixes t i fx r = Ok m -> Z.of_nat (length m) = size t r ->
  exists fx', set_mask t i fx r x idx v = Ok fx' /\ (forall y, y <> r -> fx' y = fx y) /\
    ((forall j, hasi i r Fixed j -> 0 <= j < size t r) ->
     (forall j, 0 <= j < size t r -> ~ In (j - o) idx -> (nth (Z.to_nat j) m false = true <-> ~ hasi i r Fixed j)) ->
     (forall j, 0 <= j < size t r -> In (j - o) idx -> (v = true <-> ~ hasi i r Fixed j)) -> mask_ok t i fx' r).
Proof.
  intros t i fx r x o n idx v m W B Hp Hidx Em Lm. unfold set_mask. rewrite Em. cbn [rbind].
  assert (Eo : offset_for (fuel t) t r x = Ok o).
  { eapply offset_root; eauto. }
  rewrite Eo. cbn [rbind].
  destruct (mask_set_ok m (plus_off o idx) v) as (m' & E' & L' & N').
  { intros j Hj. apply plus_off_In, Hidx in Hj. destruct (below_range _ _ _ _ _ W B). lia. }
  rewrite E'. cbn [rbind]. eexists. split; [reflexivity|]. split; [intros; apply upd_ne; auto|].
  intros Hrg Hout Hinn.
  assert (Nj : forall j, 0 <= j < size t r -> (nth (Z.to_nat j) m' false = true <-> ~ hasi i r Fixed j)).
  { intros j Hj. rewrite N' by lia. destruct (zmem j (plus_off o idx)) eqn:Ez.
    - apply zmem_In, plus_off_In in Ez. apply Hinn; auto.
    - apply zmem_false in Ez. apply Hout; auto. intros Q. apply Ez, plus_off_In. auto. }
  unfold mask_ok. rewrite upd_eq. destruct (forallb id m') eqn:Ef.
  - intros j Hj. specialize (Hrg j Hj). apply (Nj j Hrg); auto. rewrite forallb_forall in Ef. apply (Ef (nth (Z.to_nat j) m' false)). apply nth_In. lia.
  - split; [congruence|]. split; auto.
    destruct (forallb_exists_false m' Ef) as [k [Hk Hf]].
    exists (Z.of_nat k). assert (Hkr : 0 <= Z.of_nat k < size t r) by lia. specialize (Nj (Z.of_nat k) Hkr). rewrite Nat2Z.id, Hf in Nj.
    assert (D : {In (Z.of_nat k) (cons_get i r Fixed)} + {~ In (Z.of_nat k) (cons_get i r Fixed)}) by (apply in_dec, Z.eq_dec).
    destruct D as [D|D]; [exact D|]. exfalso. assert (false = true); [|discriminate]. apply Nj. exact D.
Qed.

Lemma ensure_val : forall t i0 i (fx : fixst) r (D : Z -> Prop), 0 <= size t r -> mask_ok t i0 fx r ->
  (forall j, hasi i r Fixed j -> 0 <= j < size t r) ->
  (forall j, 0 <= j < size t r -> ~ D j -> (hasi i r Fixed j <-> hasi i0 r Fixed j)) ->
  exists m, ensure_fixes t i fx r = Ok m /\ Z.of_nat (length m) = size t r /\
    forall j, 0 <= j < size t r -> ~ D j -> (nth (Z.to_nat j) m false = true <-> ~ hasi i r Fixed j).
Proof.
  intros t i0 i fx r D Hn M Hr HD. unfold ensure_fixes, mask_ok in *. destruct (fx r) as [mk|].
  - destruct M as (L & _ & Q). exists mk. rewrite L, Z.eqb_refl. split; auto. split; auto.
    intros j Hj Hd. rewrite HD by auto. apply Q; auto.
  - destruct (is_leaf t r).
    + exists (ones (size t r)). split; auto. split; [apply ones_len; auto|]. intros j Hj Hd. rewrite ones_nth by auto. rewrite HD by auto.
      split; auto.
    + destruct (mask_set_ok (ones (size t r)) (cons_get i r Fixed) false) as (m & E & L & Nm).
      { intros j Hj. rewrite ones_len by auto. apply Hr. exact Hj. }
      exists m. split; auto. split; [rewrite L; apply ones_len; auto|]. intros j Hj _. rewrite Nm by (rewrite ones_len; auto).
      destruct (zmem j (cons_get i r Fixed)) eqn:Ez.
      * apply zmem_In in Ez. split; [discriminate|]. intros H; exfalso; apply H. exact Ez.
      * apply zmem_false in Ez. rewrite ones_nth by auto. split; auto.
Qed.

Lemma raveled_In : forall t x sel j, In j (raveled_index t x sel) <-> selected t x sel j.
Proof. intros t x [l|] j; cbn [raveled_index selected]; [tauto | apply arange_In]. Qed.
Lemma raveled_NoDup : forall t x sel, legal_sel t x sel -> NoDup (raveled_index t x sel).
Proof. intros t x [l|] H; cbn [raveled_index legal_sel] in *; [tauto | apply ssorted_NoDup, arange_sorted]. Qed.
Lemma selected_range : forall t x sel j, legal_sel t x sel -> selected t x sel j -> 0 <= j < size t x.
Proof. intros t x [l|] j H Hj; cbn [selected legal_sel] in *; auto. apply H; auto. Qed.

Section ConsCmd.
Context {V : Type}.
Implicit Types s : @state V.

(** Only constraints and fix masks changed. *)
Definition io_only s s' : Prop := st s' = st s /\ mem s' = mem s /\ nt s' = nt s.
Lemma io_only_refl : forall s, io_only s s.
Proof. repeat split. Qed.
Lemma io_only_trans : forall a b c, io_only a b -> io_only b c -> io_only a c.
Proof. intros a b c (A1 & A2 & A3) (B1 & B2 & B3). repeat split; congruence. Qed.

Lemma c_mask_ok : forall s x sel idx v i0, swf (st s) -> ioinv (st s) (ios s) -> (x < next (st s))%nat -> legal_sel (st s) x sel ->
  (forall j, In j idx -> 0 <= j < size (st s) x) ->
  (forall y, (y < next (st s))%nat -> forall j, ~ (exists k, In k idx /\ same_elem (st s) y j x k) -> (hasi (ios s) y Fixed j <-> hasi i0 y Fixed j)) ->
  (forall y, (y < next (st s))%nat -> forall j, (exists k, In k idx /\ same_elem (st s) y j x k) -> (v = true <-> ~ hasi (ios s) y Fixed j)) ->
  fixinv (st s) i0 (fix_ s) ->
  exists s', c_mask x sel idx v s = (s', None) /\ st s' = st s /\ ios s' = ios s /\ mem s' = mem s /\ nt s' = nt s /\ fixinv (st s) (ios s) (fix_ s').
Proof.
  intros s x sel idx v i0 W I Hx Ls Hidx Hout Hinn F.
  destruct (root_exists (st s) x W) as (r & o & n & Eh & Hp & B).
  assert (Hr : (r < next (st s))%nat) by (eapply root_lt; eauto).
  assert (Ec : c_mask x sel idx v s = c_highest x (fun h => lift (fun s => set_mask (st s) (ios s) (fix_ s) h x idx v) with_fix) s).
  { unfold c_mask. destruct sel as [l|]; auto. destruct Ls as (_ & Q & _). destruct (par (st s) x); [auto | congruence]. }
  rewrite Ec. unfold c_highest, get. rewrite Eh. unfold lift.
  assert (Hrg : forall j, hasi (ios s) r Fixed j -> 0 <= j < size (st s) r) by (intros j; apply hasi_range; auto).
  assert (Hse : forall j, 0 <= j < size (st s) r -> ((exists k, In k idx /\ same_elem (st s) r j x k) <-> In (j - o) idx)).
  { intros j Hj. split.
    - intros [k [Hk Se]]. destruct (proj1 (same_elem_root (st s) r x o n W Hp B _ _ _) Se) as (_ & _ & oy & ny & By & E).
      destruct (wf_no_cycle _ _ _ _ W By) as [-> ->]. replace (j - o) with k by lia. auto.
    - intros Hk. exists (j - o). split; auto. apply (same_elem_root (st s) r x o n W Hp B). split; auto. split; [apply Hidx; auto|].
      exists 0, 0%nat. split; [constructor | lia]. }
  assert (Hother : forall fx', (forall y, y <> r -> fx' y = fix_ s y) -> (is_leaf (st s) r = true \/ inited (st s) r = Some true -> mask_ok (st s) (ios s) fx' r) ->
    fixinv (st s) (ios s) fx').
  { intros fx' E Hm q Hq Hpq Hl. destruct (Nat.eq_dec q r) as [->|Hne]; auto.
    apply (mask_ok_ext (st s) i0 (fix_ s)); auto. intros j. apply Hout; auto. intros [k [_ Se]].
    apply (same_elem_outside (st s) r q j x k W Hp) in Se; auto; [exists o, n; auto|]. intros Q. apply Hne. symmetry. apply (above_root (st s) r q W); auto. }
  destruct (match is_leaf (st s) r with true => true | false => match inited (st s) r with Some true => true | _ => false end end) eqn:Ei.
  - assert (Mk : mask_ok (st s) i0 (fix_ s) r).
    { apply F; auto. destruct (is_leaf (st s) r); auto. right. destruct (inited (st s) r) as [[|]|]; congruence. }
    destruct (ensure_val (st s) i0 (ios s) (fix_ s) r (fun j => In (j - o) idx) (size_nonneg _ W r) Mk Hrg) as (m & Em & Lm & Nm).
    { intros j Hj Hd. apply Hout; auto. rewrite Hse; auto. }
    destruct (set_mask_ok (st s) (ios s) (fix_ s) r x o n idx v m W B Hp Hidx Em Lm) as (fx' & E' & U' & M').
    rewrite E'. eexists. split; [reflexivity|]. repeat (split; [reflexivity|]). cbn [with_fix fix_]. apply Hother; auto. intros _. apply M'; auto.
    intros j Hj Hin. apply Hinn; auto. apply Hse; auto.
  - destruct (ensure_ok (st s) (ios s) (fix_ s) r (size_nonneg _ W r) Hrg) as (m & Em & Lm).
    destruct (set_mask_ok (st s) (ios s) (fix_ s) r x o n idx v m W B Hp Hidx Em Lm) as (fx' & E' & U' & M').
    rewrite E'. eexists. split; [reflexivity|]. repeat (split; [reflexivity|]). cbn [with_fix fix_]. apply Hother; auto.
    intros Q. exfalso. destruct (is_leaf (st s) r); [discriminate|]. destruct Q as [Q|Q]; [discriminate|]. rewrite Q in Ei. discriminate.
Qed.

Lemma remove_one_ok : forall s x sel p, Inv s -> (x < next (st s))%nat -> legal_sel (st s) x sel ->
  exists s', remove_one x sel p s = (s', None) /\ Inv s' /\ io_only s s' /\
    forall y q j, (y < next (st s))%nat -> (has s' y q j <-> has s y q j /\ ~ (q = p /\ exists k, selected (st s) x sel k /\ same_elem (st s) y j x k)).
Proof.
  intros s x sel p [W I F M N J] Hx Ls.
  set (idx := raveled_index (st s) x sel).
  assert (Hidx : forall j, In j idx -> 0 <= j < size (st s) x) by (intros j Hj; apply raveled_In in Hj; eapply selected_range; eauto).
  destruct (remove_io (st s) (ios s) x p idx W I Hx (raveled_NoDup _ _ _ Ls) Hidx) as (I1 & Rm & H1).
  unfold remove_one. fold idx.
  set (rm := remove (snd (iop (ios s) x)) (dicts (ios s) (fst (iop (ios s) x))) p idx) in *.
  destruct rm as [removed d] eqn:Erm. cbn [fst snd] in *.
  set (i1 := set_dict (ios s) (fst (iop (ios s) x)) d) in *.
  set (s1 := with_ios s i1).
  assert (Has1 : forall y q j, (y < next (st s))%nat -> (has s1 y q j <-> has s y q j /\ ~ (q = p /\ exists k, selected (st s) x sel k /\ same_elem (st s) y j x k))).
  { intros y q j Hy. unfold has. change (hasi i1 y q j <-> hasi (ios s) y q j /\ ~ (q = p /\ exists k, selected (st s) x sel k /\ same_elem (st s) y j x k)).
    rewrite H1 by auto. split; intros [A C]; split; auto; intros [-> [k [Hk Se]]]; apply C; split; auto; exists k; (split; [apply raveled_In; auto | auto]). }
  assert (R1 : c_ios (fun s0 => set_dict (ios s0) (fst (iop (ios s) x)) d) s = (s1, None)) by reflexivity.
  rewrite (andthen_ok _ _ _ _ R1).
  destruct p as [|nn].
  - destruct (c_mask_ok s1 x sel removed true (ios s)) as (s2 & R2 & E1 & E2 & E3 & E4 & F2); cbn [s1 with_ios st ios fix_ mem nt]; auto.
    + intros j Hj. apply Hidx, Rm; auto.
    + intros y Hy j Hno. rewrite H1 by auto. split; [tauto|]. intros A. split; auto. intros [_ [k [Hk Se]]]. apply Hno. exists k. split; auto. apply Rm.
      split; auto. apply (same_elem_has (st s) (ios s) x k y j Fixed W I Hx Se). auto.
    + intros y Hy j [k [Hk Se]]. rewrite H1 by auto. split; auto. intros _ [_ C]. apply C. split; auto. exists k. split; auto. apply Rm; auto.
    + exists s2. split; auto. split; [|split].
      * constructor; rewrite ?E1, ?E2, ?E3, ?E4; auto.
      * repeat split; auto.
      * intros y q j Hy. rewrite <- Has1 by auto. apply has_ext; auto.
  - exists s1. split; auto. split; [|split; [repeat split; auto | auto]].
    constructor; cbn [s1 with_ios st ios fix_ mem nt]; auto.
    intros q Hq Hpq Hl. apply (mask_ok_ext (st s) (ios s) (fix_ s)); auto. intros j. rewrite H1 by auto. split; [tauto|]. intros A. split; auto. intros [Q _]. discriminate.
Qed.

Lemma remove_all_ok : forall x sel ts s, Inv s -> (x < next (st s))%nat -> legal_sel (st s) x sel ->
  exists s', fold_right (fun t c => andthen (remove_one x sel t) c) done ts s = (s', None) /\ Inv s' /\ io_only s s' /\
    forall y q j, (y < next (st s))%nat -> (has s' y q j <-> has s y q j /\ ~ (In q ts /\ exists k, selected (st s) x sel k /\ same_elem (st s) y j x k)).
Proof.
  intros x sel ts. induction ts as [|p ts IH]; intros s H Hx Ls; cbn [fold_right].
  - exists s. split; auto. split; auto. split; [apply io_only_refl|]. intros y q j Hy. cbn. tauto.
  - destruct (remove_one_ok s x sel p H Hx Ls) as (s1 & R1 & H1 & O1 & Q1). rewrite (andthen_ok _ _ _ _ R1).
    pose proof O1 as (E1 & _).
    destruct (IH s1) as (s2 & R2 & H2 & O2 & Q2); try (rewrite E1; auto); auto.
    exists s2. split; auto. split; auto. split; [eapply io_only_trans; eauto|].
    intros y q j Hy. rewrite Q2 by (rewrite E1; auto). rewrite Q1 by auto. rewrite E1. cbn [In]. split.
    + intros [[A C] D]. split; auto. intros [[->|G] K]; [apply C; auto | apply D; auto].
    + intros [A C]. split; [split; auto; intros [-> K]; apply C; auto | intros [G K]; apply C; auto].
Qed.

(** [unconstrain]: the named properties, or all, are gone from the selected elements, wherever they are looked at. *)
Lemma unconstrain_ok : forall s x sel ts, Inv s -> (x < next (st s))%nat -> legal_sel (st s) x sel ->
  exists s', unconstrain x sel ts s = (s', None) /\ Inv s' /\ io_only s s' /\
    forall y q j, (y < next (st s))%nat -> (has s' y q j <-> has s y q j /\ ~ ((ts = [] \/ In q ts) /\ exists k, selected (st s) x sel k /\ same_elem (st s) y j x k)).
Proof.
  intros s x sel ts H Hx Ls. unfold unconstrain. pose proof (inv_st _ H) as W. pose proof (inv_io _ H) as I.
  set (ts' := match ts with [] => map fst (cons_items (ios s) x) | _ => ts end).
  destruct (remove_all_ok x sel ts' s H Hx Ls) as (s' & R & H' & O & Q).
  exists s'. split; auto. split; auto. split; auto. intros y q j Hy. rewrite Q by auto.
  destruct ts as [|p0 ts0].
  - split; intros [A C]; split; auto; intros [G [k [Hk Se]]]; apply C; (split; [|exists k; auto]); [|auto].
    assert (Hh : has s x q k). { apply (same_elem_has (st s) (ios s) x k y j q W I Hx Se). auto. }
    apply (items_pairs (snd (iop (ios s) x)) (dicts (ios s) (fst (iop (ios s) x))) q k) in Hh; [|apply (dict_of (st s) (ios s) x W I Hx)].
    destruct Hh as [l [Hl _]]. unfold ts'. apply in_map_iff. exists (q, l). auto.
  - split; intros [A C]; split; auto; intros [G K]; apply C; split; auto. destruct G as [G|G]; [discriminate | auto].
Qed.

(** [constraints.add]. *)
Lemma add_cons_ok : forall s x sel n, Inv s -> (x < next (st s))%nat -> legal_sel (st s) x sel ->
  exists s', add_cons x sel (Tr n) s = (s', None) /\ Inv s' /\ io_only s s' /\
    forall y q j, (y < next (st s))%nat -> (has s' y q j <-> has s y q j \/ (q = Tr n /\ exists k, selected (st s) x sel k /\ same_elem (st s) y j x k)).
Proof.
  intros s x sel n [W I F M N J] Hx Ls. set (idx := raveled_index (st s) x sel).
  assert (Hidx : forall j, In j idx -> 0 <= j < size (st s) x) by (intros j Hj; apply raveled_In in Hj; eapply selected_range; eauto).
  destruct (add_io (st s) (ios s) x (Tr n) idx W I Hx Hidx) as (I1 & H1).
  eexists. split; [reflexivity|]. split; [|split; [repeat split|]].
  - constructor; cbn [with_ios st ios fix_ mem nt]; auto.
    intros q Hq Hpq Hl. apply (mask_ok_ext (st s) (ios s) (fix_ s)); auto. intros j. fold idx. rewrite H1 by auto. split; [|tauto]. intros [A|[Q _]]; auto. discriminate.
  - intros y q j Hy. unfold has; cbn [with_ios ios]. fold idx. change (hasi (cons_upd (ios s) x (fun v d => add v d (Tr n) idx)) y q j <-> hasi (ios s) y q j \/ (q = Tr n /\ exists k, selected (st s) x sel k /\ same_elem (st s) y j x k)).
    rewrite H1 by auto. split; (intros [A|[A [k [Hk Se]]]]; [left; auto | right; split; auto; exists k; (split; [apply raveled_In; auto | auto])]).
Qed.

(** Notification of an object and those above it. *)
Lemma notify_cmd : forall s x, Inv s -> exists s' l, c_notify x true s = (s', None) /\ up (st s) x l /\ only_ran s (chain (st s) (nt s) l) s'.
Proof.
  intros s x [W I F M N J]. destruct (wf_up (st s) W x) as [l Hl].
  destruct (notify_up (st s) x l Hl (fuel (st s)) (nt s) (up_length _ _ _ W Hl) N) as (n' & E & R).
  exists (with_nt s n'), l. unfold c_notify, lift. rewrite E. split; auto. split; auto. repeat (split; auto); apply R.
Qed.

(** [fix]. *)
Lemma fix_ok : forall s x sel, Inv s -> (x < next (st s))%nat -> legal_sel (st s) x sel ->
  exists s' l, fix_param x sel s = (s', None) /\ Inv s' /\ st s' = st s /\ mem s' = mem s /\ up (st s) x l /\ ran (nt s) (chain (st s) (nt s) l) (nt s') /\
    forall y q j, (y < next (st s))%nat -> (has s' y q j <-> has s y q j \/ (q = Fixed /\ exists k, selected (st s) x sel k /\ same_elem (st s) y j x k)).
Proof.
  intros s x sel [W I F M N J] Hx Ls. set (idx := raveled_index (st s) x sel).
  assert (Hidx : forall j, In j idx -> 0 <= j < size (st s) x) by (intros j Hj; apply raveled_In in Hj; eapply selected_range; eauto).
  destruct (add_io (st s) (ios s) x Fixed idx W I Hx Hidx) as (I1 & H1).
  unfold fix_param. fold idx. set (i1 := cons_upd (ios s) x (fun v d => add v d Fixed idx)) in *. set (s1 := with_ios s i1).
  assert (R1 : add_cons x sel Fixed s = (s1, None)) by reflexivity.
  rewrite (andthen_ok _ _ _ _ R1).
  destruct (c_mask_ok s1 x sel idx false (ios s)) as (s2 & R2 & E1 & E2 & E3 & E4 & F2); cbn [s1 with_ios st ios fix_ mem nt]; auto.
  { intros y Hy j Hno. rewrite H1 by auto. split; [|tauto]. intros [A|[_ C]]; auto. contradiction. }
  { intros y Hy j Hno. rewrite H1 by auto. split; [discriminate|]. intros Q. exfalso. apply Q. auto. }
  rewrite (andthen_ok _ _ _ _ R2).
  assert (Inv2 : Inv s2) by (constructor; rewrite ?E1, ?E2, ?E3, ?E4; auto).
  destruct (notify_cmd s2 x Inv2) as (s3 & l & R3 & U3 & O3). exists s3, l. split; auto. split; [eapply only_ran_inv; eauto|].
  destruct O3 as (Q1 & Q2 & Q3 & Q4 & Q5). rewrite E1 in *. rewrite E4 in *.
  split; [exact Q1|]. split; [rewrite Q4, E3; reflexivity|]. split; auto. split; auto.
  intros y q j Hy. unfold has. rewrite Q2, E2. change (hasi i1 y q j <-> hasi (ios s) y q j \/ (q = Fixed /\ exists k, selected (st s) x sel k /\ same_elem (st s) y j x k)).
  rewrite H1 by auto. split; (intros [A|[A [k [Hk Se]]]]; [left; auto | right; split; auto; exists k; (split; [apply raveled_In; auto | auto])]).
Qed.

(** [unfix]. *)
Lemma unfix_ok : forall s x sel, Inv s -> (x < next (st s))%nat -> legal_sel (st s) x sel ->
  exists s', unfix_param x sel s = (s', None) /\ Inv s' /\ io_only s s' /\
    forall y q j, (y < next (st s))%nat -> (has s' y q j <-> has s y q j /\ ~ (q = Fixed /\ exists k, selected (st s) x sel k /\ same_elem (st s) y j x k)).
Proof.
  intros s x sel H Hx Ls. set (idx := raveled_index (st s) x sel). pose proof H as [W I F M N J].
  assert (Hidx : forall j, In j idx -> 0 <= j < size (st s) x) by (intros j Hj; apply raveled_In in Hj; eapply selected_range; eauto).
  destruct (remove_io (st s) (ios s) x Fixed idx W I Hx (raveled_NoDup _ _ _ Ls) Hidx) as (_ & Rm & _).
  unfold unfix_param. fold idx. destruct (remove (snd (iop (ios s) x)) (dicts (ios s) (fst (iop (ios s) x))) Fixed idx) as [removed d]. cbn [fst] in Rm.
  destruct (unconstrain_ok s x sel [Fixed] H Hx Ls) as (s1 & R1 & H1 & O1 & Q1). rewrite (andthen_ok _ _ _ _ R1).
  pose proof O1 as (E1 & E2 & E3).
  assert (Q1' : forall y q j, (y < next (st s))%nat -> (has s1 y q j <-> has s y q j /\ ~ (q = Fixed /\ exists k, selected (st s) x sel k /\ same_elem (st s) y j x k))).
  { intros y q j Hy. rewrite Q1 by auto. cbn [In]. split; intros [A C]; split; auto; intros [G K]; apply C; split; auto.
    destruct G as [G|[G|[]]]; [discriminate | auto]. }
  destruct H1 as [W1 I1 F1 M1 N1 J1].
  destruct (c_mask_ok s1 x sel removed true (ios s1)) as (s2 & R2 & G1 & G2 & G3 & G4 & F2); auto.
  { rewrite E1; auto. } { rewrite E1; auto. } { intros j Hj. rewrite E1. apply Hidx, Rm; auto. }
  { tauto. }
  { intros y Hy j [k [Hk Se]]. rewrite E1 in *. split; auto. intros _ Q. apply (Q1' y Fixed j Hy) in Q as [_ Q]. apply Q. split; auto. exists k. split; auto. apply raveled_In, Rm; auto. }
  exists s2. split; auto. split; [|split].
  - constructor; rewrite ?G1, ?G2, ?G3, ?G4; auto.
  - repeat split; congruence.
  - intros y q j Hy. rewrite <- Q1' by auto. apply has_ext; auto.
Qed.
End ConsCmd.
