(** Proofs about saving and loading. *)
From Coq Require Import List ZArith Bool Lia Arith.
From Verif Require Import NpModel NpProofs IndexOpsModel IndexOpsSpec IndexOpsProofs PzModel CopyModel PzSpec PzTree PzStruct PzLink PzWalk PzMem PzIo PzInv PzConn PzFix PzLinkMem PzPres PzUnlink PzTraverse PzNotify PzNew PzCmd PzInit PzHist CopySpec CopyTree CopyDeep CopyJoin CopyConn CopyCall CopyFinal PkModel PkSpec.
Import ListNotations.
Open Scope Z_scope.

Section Load.
Context {V : Type}.
Implicit Types s : @state V.
Notation reader := (@reader V).
Implicit Types r : reader.

Definition dom r := map fst (memo r).
Lemma assoc_none : forall x l, assoc x l = None <-> ~ In x (map fst l).
Proof.
  intros x l. induction l as [|[a b] l IH]; cbn [assoc map fst In]; [tauto|]. destruct (Nat.eqb_spec x a) as [->|Hne].
  - split; [discriminate | tauto].
  - rewrite IH. split; intros H; [intros [Q|Q]; [congruence | tauto] | tauto].
Qed.
Lemma assoc_some : forall x l, In x (map fst l) -> exists y, assoc x l = Some y.
Proof. intros x l H. destruct (assoc x l) as [y|] eqn:E; [eauto|]. apply assoc_none in E. contradiction. Qed.
Lemma assoc_app : forall x l k, ~ In x (map fst l) -> assoc x (l ++ k) = assoc x k.
Proof.
  intros x l k. induction l as [|[a b] l IH]; cbn [app assoc map fst In]; auto. intros H. destruct (Nat.eqb_spec x a) as [->|Hne]; [tauto|]. apply IH. tauto.
Qed.

(** ** Reading a list *)
Lemma each_nil : forall (g : oid -> reader -> reader * outcome) r, each g [] r = (r, Done).
Proof. reflexivity. Qed.
Lemma each_stop : forall (g : oid -> reader -> reader * outcome) l r o, o <> Done -> fold_left (fun (a : reader * outcome) c => match a with (r, Done) => g c r | _ => a end) l (r, o) = (r, o).
Proof. intros g l. induction l as [|c l IH]; intros r o H; cbn [fold_left]; auto. destruct o; auto; congruence. Qed.
Lemma each_cons : forall (g : oid -> reader -> reader * outcome) c l r, each g (c :: l) r = match g c r with (r1, Done) => each g l r1 | q => q end.
Proof.
  intros g c l r. unfold each. cbn [fold_left]. destruct (g c r) as [r1 [| |]]; auto; apply each_stop; discriminate.
Qed.
Lemma each_app : forall (g : oid -> reader -> reader * outcome) l k r, each g (l ++ k) r = match each g l r with (r1, Done) => each g k r1 | q => q end.
Proof.
  intros g l. induction l as [|c l IH]; intros k r; cbn [app]; [rewrite each_nil; auto|]. rewrite !each_cons. destruct (g c r) as [r1 [| |]]; auto.
Qed.
Variables before after : oid -> list oid.
Notation rd := (rd before after).
Notation refs := (refs before after).
Lemma rd_met : forall f d x r, In x (dom r) -> rd f d x r = (r, Done).
Proof. intros f d x r H. apply assoc_some in H as [y E]. destruct f; cbn [PkModel.rd]; rewrite E; auto. Qed.
Lemma each_met : forall f d l r, incl l (dom r) -> each (rd f d) l r = (r, Done).
Proof.
  intros f d l. induction l as [|c l IH]; intros r H; [apply each_nil|]. rewrite each_cons, rd_met by (apply H; left; auto). apply IH. intros z Hz. apply H. right; auto.
Qed.
Lemma rd_new : forall f d x r, ~ In x (dom r) -> rd (S f) d x r =
  match each (rd f d) (refs d x) (mkR (alloc (rs r)) ((x, next (st (rs r))) :: memo r) (built r)) with
  | (r1, Done) => build d x (next (st (rs r))) r1
  | q => q
  end.
Proof. intros f d x r H. apply assoc_none in H. cbn [PkModel.rd]. rewrite H. reflexivity. Qed.

(** ** References that meet nothing new outside the tree being read *)
Fixpoint okr (M : list oid) (t : tree) : Prop :=
  match t with
  | T x ts =>
      incl (before x) (x :: M) /\
      (fix go (M : list oid) (l : list tree) : Prop :=
         match l with [] => True | c :: l' => okr M c /\ go (oids c ++ M) l' end) (x :: M) ts /\
      incl (after x) (oids t ++ M)
  end.
Fixpoint okl (M : list oid) (l : list tree) : Prop :=
  match l with [] => True | c :: l' => okr M c /\ okl (oids c ++ M) l' end.
Lemma okr_T : forall M x ts, okr M (T x ts) <-> incl (before x) (x :: M) /\ okl (x :: M) ts /\ incl (after x) (oids (T x ts) ++ M).
Proof.
  intros M x ts. assert (E : forall l M, (fix go (M : list oid) (l : list tree) : Prop := match l with [] => True | c :: l' => okr M c /\ go (oids c ++ M) l' end) M l <-> okl M l).
  { induction l as [|c l IH]; intros M'; cbn [okl]; [tauto|]. rewrite IH. tauto. }
  cbn [okr]. rewrite E. tauto.
Qed.
Lemma okr_mono : forall t M M', incl M M' -> okr M t -> okr M' t.
Proof.
  induction t as [x ts IH] using tree_ind'. intros M M' Hi H. apply okr_T in H as (H1 & H2 & H3). apply okr_T.
  assert (Ix : incl (x :: M) (x :: M')) by (intros z [Q|Q]; [left | right]; auto).
  split; [eapply incl_tran; eauto|]. split.
  - clear H1 H3. revert H2 IH Ix. generalize (x :: M), (x :: M'). clear. induction ts as [|c ts IHt]; intros A B H IH Hi; cbn [okl] in *; auto.
    destruct H as [H1 H2]. inversion IH as [|? ? Q1 Q2]; subst. split; [eapply Q1; eauto|]. eapply IHt; eauto. intros z Hz. apply in_app_or in Hz as [Hz|Hz]; apply in_or_app; auto.
  - intros z Hz. apply H3 in Hz. apply in_app_or in Hz as [Hz|Hz]; apply in_or_app; auto.
Qed.
Lemma okl_mono : forall l M M', incl M M' -> okl M l -> okl M' l.
Proof.
  induction l as [|c l IH]; intros M M' Hi H; cbn [okl] in *; auto. destruct H as [H1 H2]. split; [eapply okr_mono; eauto|]. eapply IH; eauto.
  intros z Hz. apply in_app_or in Hz as [Hz|Hz]; apply in_or_app; auto.
Qed.

Lemma leaf_is : forall x pp s, build_leaf x (next (st s)) pp (alloc s) = copy_leaf x pp s.
Proof.
  intros x pp s. unfold build_leaf, copy_leaf. change (param_array (st (alloc s)) (mem (alloc s)) x) with (param_array (st s) (mem s) x).
  destruct (param_array (st s) (mem s) x) as [m1 a]. reflexivity.
Qed.

(** Reading an object none of whose parts has been met, its parent having been met. *)
Definition read_as s0 f r r' (tr : tree) (pp : option oid) : Prop :=
  dcopy f (root tr) pp (rs r) = (rs r', next (st (rs r)), None) /\
  (exists l, memo r' = l ++ memo r /\ (forall z, In z (map fst l) <-> In z (oids tr))) /\
  assoc (root tr) (memo r') = Some (next (st (rs r))) /\
  (forall z, In z (built r') <-> In z (oids tr) \/ In z (built r)) /\ ext s0 (rs r') /\ bnd (mem (rs r')).

Lemma forallb_omem : forall l k, incl l k -> forallb (fun c => omem c k) l = true.
Proof. intros l k H. apply forallb_forall. intros c Hc. apply omem_In. auto. Qed.

Lemma rd_sub : forall s0 tr, Inv s0 -> rep (st s0) tr -> NoDup (oids tr) -> forall f r, (root tr < next (st s0))%nat -> ext s0 (rs r) -> bnd (mem (rs r)) ->
  (height tr <= f)%nat -> okr (dom r) tr -> (forall z, In z (oids tr) -> ~ In z (dom r)) ->
  (forall p, par (st s0) (root tr) = Some p -> In p (dom r)) ->
  exists r', rd f s0 (root tr) r = (r', Done) /\ read_as s0 f r r' tr (option_map (stands r) (par (st s0) (root tr))).
Proof.
  intros s0 tr Inv0. induction tr as [x ts IH] using tree_ind'. intros R Nd f r Hx E Bd Hf Ok Nw Hp. cbn [root] in *.
  pose proof (inv_st _ Inv0) as W. set (pp := option_map (stands r) (par (st s0) x)).
  destruct (dcopy_ok s0 (T x ts) Inv0 R Nd f (rs r) pp Hx E Bd Hf) as (s' & tr' & Dc & Ct). cbn [root] in Dc, Ct.
  assert (Es' : ext s0 s') by (eapply ext_trans; [exact E | apply (ct_ext _ _ _ _ _ _ _ Ct)]).
  assert (Bs' : bnd (mem s')) by apply (ct_bnd _ _ _ _ _ _ _ Ct).
  destruct f as [|f]; [simpl in Hf; lia|].
  assert (El : is_leaf (st (rs r)) x = is_leaf (st s0) x).
  { unfold is_leaf. destruct (ex_st _ _ E x (old_out _ _ _ Hx)) as (-> & _). auto. }
  assert (Ek0 : kids (st s0) x = map root ts) by (inversion R; auto).
  assert (Ek : kids (st (rs r)) x = map root ts).
  { destruct (ex_st _ _ E x (old_out _ _ _ Hx)) as (_ & _ & _ & -> & _). auto. }
  assert (Nx : ~ In x (dom r)) by (apply Nw; left; auto).
  apply okr_T in Ok as (Ok1 & Ok2 & Ok3).
  rewrite rd_new by auto. unfold PkModel.refs. rewrite Ek0. set (y := next (st (rs r))) in *.
  set (r0 := mkR (alloc (rs r)) ((x, y) :: memo r) (built r)).
  rewrite each_app, each_met by (intros z Hz; apply Ok1 in Hz; exact Hz).
  rewrite each_app.
  assert (Par : forall r1 l, memo r1 = l ++ (x, y) :: memo r -> (forall z, In z (map fst l) -> In z (oids (T x ts)) /\ z <> x) ->
     incl (match par (st s0) x with Some p => [p] | None => [] end) (dom r1) /\ option_map (stands r1) (par (st s0) x) = pp).
  { intros r1 l Em Hl. destruct (par (st s0) x) as [p|] eqn:Ep; [|split; [intros z []|reflexivity]].
    pose proof (Hp p eq_refl) as Q. split.
    - intros z [<-|[]]. unfold dom. rewrite Em, map_app. apply in_or_app. right. right. auto.
    - cbn [option_map]. unfold pp. cbn [option_map]. unfold stands. rewrite Em, assoc_app.
      + cbn [assoc]. destruct (Nat.eqb_spec p x) as [->|]; [contradiction|]. reflexivity.
      + intros Hq. apply Hl in Hq as [Hq _]. apply (Nw p Hq Q). }
  cbn [dcopy] in Dc. rewrite El in Dc. destruct (is_leaf (st s0) x) eqn:Hl.
  - assert (ts = []). { inversion R as [? ? Q _ _]; subst. rewrite (leaf_kids (st s0) x W Hl) in Q. destruct ts; [auto | discriminate]. } subst ts.
    cbn [map]. rewrite each_nil. destruct (Par r0 []) as [P1 P2]; [reflexivity | intros z [] |].
    rewrite each_app, each_met by exact P1. rewrite each_met by exact Ok3. unfold build. rewrite Hl, P2. cbn [rs r0 memo built].
    replace (build_leaf x y pp (alloc (rs r))) with (copy_leaf x pp (rs r)) by (symmetry; apply leaf_is). injection Dc as Dc. eexists. split; [reflexivity|]. unfold read_as. cbn [rs memo built root oids map concat app]. rewrite Dc. split; [|split; [|split; [|split; [|split]]]]; auto.
    + cbn [dcopy]. rewrite El. rewrite Dc. auto.
    + exists [(x, y)]. split; auto. cbn. tauto.
    + cbn [assoc]. rewrite Nat.eqb_refl. reflexivity.
    + cbn. tauto.
  - (* the children *)
    assert (Fold : forall l r1 k (acc : list oid), (forall c, In c l -> In c ts) -> NoDup (concat (map oids l)) -> memo r1 = k ++ (x, y) :: memo r ->
       (forall z, In z (map fst k) -> In z (oids (T x ts)) /\ z <> x) -> (forall z, In z (concat (map oids l)) -> ~ In z (map fst k)) ->
       okl (dom r1) l -> ext s0 (rs r1) -> bnd (mem (rs r1)) ->
       exists r2 k2, each (rd f s0) (map root l) r1 = (r2, Done) /\ memo r2 = k2 ++ memo r1 /\ (forall z, In z (map fst k2) <-> In z (concat (map oids l))) /\
         (forall z, In z (built r2) <-> In z (concat (map oids l)) \/ In z (built r1)) /\ ext s0 (rs r2) /\ bnd (mem (rs r2)) /\
         fold_left (fun (a : @state V * list oid * option exn) c =>
           match a with
           | (s0, l, None) => let '(s0', c', e) := dcopy f c (Some y) s0 in (s0', l ++ [c'], e)
           | _ => a
           end) (map root l) (rs r1, acc, None) = (rs r2, acc ++ map (stands r2) (map root l), None)).
    { induction l as [|c l IHl]; intros r1 k acc Hin Ndl Em Hk Hkn Okl E1 B1.
      - exists r1, []. cbn [map concat]. rewrite each_nil. split; auto. split; auto. split; [cbn; tauto|]. split; [cbn; tauto|]. split; auto. split; auto. cbn [fold_left]. rewrite app_nil_r. auto.
      - cbn [map concat okl] in *. destruct Okl as [Oc Ol]. assert (Hc : In c ts) by (apply Hin; left; auto).
        assert (Hcx : forall z, In z (oids c) -> In z (oids (T x ts)) /\ z <> x).
        { intros z Hz. split; [eapply in_child; eauto|]. intros ->. inversion Nd as [|? ? Q _]; subst. apply Q. apply in_concat. exists (oids c). split; auto. apply in_map; auto. }
        assert (Hpc : par (st s0) (root c) = Some x).
        { inversion R as [? ? _ Q _]; subst. apply In_nth_error in Hc as [i Hi]. apply (Q i c Hi). }
        assert (Hxk : ~ In x (map fst k)) by (intros Q; apply Hk in Q as [_ Q]; congruence).
        rewrite Forall_forall in IH. destruct (IH c Hc) with (f := f) (r := r1) as (r2 & Rd & Dc2 & (k2 & Em2 & Hk2) & Sd & Bt & E2 & B2); auto.
        { inversion R as [? ? _ _ Q]; subst. rewrite Forall_forall in Q. auto. }
        { eapply nodup_child; eauto. }
        { destruct (kid_lt (st s0) x (root c) W) as [Q1 Q2]; [rewrite Ek0; apply in_map; auto | auto]. }
        { pose proof (height_child x ts c Hc). lia. }
        { intros z Hz Q. unfold dom in Q. rewrite Em, map_app in Q. apply in_app_or in Q as [Q|[Q|Q]].
          - apply (Hkn z); auto. apply in_or_app; auto.
          - destruct (Hcx z Hz). cbn in Q. congruence.
          - apply (Nw z); auto. apply Hcx; auto. }
        { intros p Q. rewrite Hpc in Q. injection Q as <-. unfold dom. rewrite Em, map_app. apply in_or_app. right. left. auto. }
        rewrite each_cons, Rd.
        assert (Sy : stands r1 x = y). { unfold stands. rewrite Em, assoc_app by auto. cbn [assoc]. rewrite Nat.eqb_refl. auto. }
        destruct (IHl r2 (k2 ++ k) (acc ++ [stands r2 (root c)])) as (r3 & k3 & Rl & Em3 & Hk3 & Bt3 & E3 & B3 & Fl); auto.
        { intros c' Hc'. apply Hin. right. auto. }
        { apply (nodup_app _ _ _ Ndl). }
        { rewrite Em2, Em, app_assoc. auto. }
        { intros z Hz. rewrite map_app in Hz. apply in_app_or in Hz as [Hz|Hz]; auto. apply Hcx, Hk2; auto. }
        { intros z Hz Q. rewrite map_app in Q. apply in_app_or in Q as [Q|Q].
          - apply Hk2 in Q. apply (proj2 (proj2 (nodup_app _ _ _ Ndl)) z); auto.
          - apply (Hkn z); auto. apply in_or_app; auto. }
        { eapply okl_mono; [|exact Ol]. intros z Hz. unfold dom. rewrite Em2, map_app. apply in_or_app. apply in_app_or in Hz as [Hz|Hz]; auto. left. apply Hk2; auto. }
        exists r3, (k3 ++ k2). rewrite Rl. split; auto. split; [rewrite Em3, Em2, app_assoc; auto|]. split; [|split; [|split; [|split]]]; auto.
        + intros z. rewrite map_app, !in_app_iff, Hk3, Hk2. tauto.
        + intros z. rewrite Bt3, Bt, in_app_iff. tauto.
        + cbn [fold_left]. rewrite Hpc in Dc2. cbn [option_map] in Dc2. rewrite Sy in Dc2. rewrite Dc2.
          assert (Sc : stands r2 (root c) = next (st (rs r1))) by (unfold stands; rewrite Sd; auto).
          rewrite <- Sc. rewrite Fl. rewrite <- app_assoc. cbn [app]. do 3 f_equal. f_equal. unfold stands. rewrite Em3, assoc_app; auto.
          intros Q. apply Hk3 in Q. apply (proj2 (proj2 (nodup_app _ _ _ Ndl)) (root c)); auto. apply oids_root. }
    destruct (Fold ts r0 [] []) as (r1 & k & Rk & Em & Hk & Bt & E1 & B1 & Fl); auto.
    { inversion Nd; auto. } { intros z []. } { eapply ext_trans; [exact E | apply alloc_ext]. }
    rewrite Rk. change (memo r0) with ((x, y) :: memo r) in Em. change (built r0) with (built r) in Bt. change (rs r0) with (alloc (rs r)) in Fl. cbn [app] in Fl.
    assert (Hkx : forall z, In z (map fst k) -> In z (oids (T x ts)) /\ z <> x).
    { intros z Hz. apply Hk in Hz. split; [right; auto|]. intros ->. inversion Nd; contradiction. }
    destruct (Par r1 k Em Hkx) as [P1 P2].
    rewrite each_app, each_met by exact P1. rewrite each_met.
    2:{ intros z Hz. apply Ok3 in Hz. unfold dom. rewrite Em, map_app. cbn [map fst]. apply in_or_app. apply in_app_or in Hz as [[Hz|Hz]|Hz]; [right; left | left; apply Hk | right; right]; auto. }
    rewrite Ek in Dc. fold y in Dc. rewrite Fl in Dc. unfold build. rewrite Hl, P2, Ek0.
    destruct (end_setstate y (set_attrs x y pp (map (stands r1) (map root ts)) None (rs r1))) as [s2 e2] eqn:Ee.
    injection Dc as -> ->. rewrite forallb_omem.
    2:{ intros z Hz. apply Bt. left. apply in_map_iff in Hz as (c & <- & Hc). apply in_concat. exists (oids c). split; [apply in_map; auto | apply oids_root]. }
    eexists. split; [reflexivity|]. unfold read_as. cbn [rs memo built root]. split; [|split; [|split; [|split; [|split]]]]; auto.
    + cbn [dcopy]. rewrite El, Ek. fold y. rewrite Fl, Ee. auto.
    + exists (k ++ [(x, y)]). split; [rewrite Em, <- app_assoc; auto|]. intros z. rewrite map_app, in_app_iff, Hk. cbn. tauto.
    + rewrite Em, assoc_app; [cbn [assoc]; rewrite Nat.eqb_refl; auto|]. intros Q. apply Hkx in Q. tauto.
    + intros z. cbn. rewrite Bt. tauto.
Qed.

(** ** Tidy references *)
Lemma follow_app : forall t p x q, follow t x (p ++ q) = match follow t x p with Some a => follow t a q | None => None end.
Proof. intros t p. induction p as [|i p IH]; intros x q; cbn [app follow]; auto. destruct (nth_error (kids t x) i); auto. Qed.
Lemma follow_oids : forall t tr k z, krep t tr -> follow t (root tr) k = Some z -> In z (oids tr).
Proof. intros t tr k z K F. apply (koids_below t); auto. apply follow_below in F. exact F. Qed.
Lemma earlier_child : forall p q i, earlier q (p ++ [i]) -> earlier q p \/ q = p \/ exists j k, (j < i)%nat /\ q = p ++ j :: k.
Proof.
  induction p as [|a p IH]; intros q i H.
  - destruct q as [|b q]; [auto|]. cbn [app earlier] in H. right. right. destruct H as [H|[_ H]]; [exists b, q; auto|]. destruct q; destruct H.
  - destruct q as [|b q]; [left; cbn; auto|]. cbn [app earlier] in H. destruct H as [H|[-> H]]; [left; left; auto|].
    apply IH in H as [H|[->|(j & k & H1 & ->)]]; [left; right; auto | auto | right; right; exists j, k; auto].
Qed.
Lemma tidy_okr : forall t m, tidy t before after m -> forall tr path M, krep t tr -> follow t m path = Some (root tr) ->
  (forall q z, follow t m q = Some z -> earlier q path -> In z M) -> okr M tr.
Proof.
  intros t m Td. induction tr as [x ts IH] using tree_ind'. intros path M K F HM. cbn [root] in F. pose proof (krep_kids _ _ _ K) as Ek. apply okr_T.
  split; [|split].
  - intros z Hz. destruct (Td path x z F) as [Q _]. destruct (Q Hz) as (q & Fq & [->|Eq]); [left; congruence | right; eapply HM; eauto].
  - assert (G : forall l pre M', ts = pre ++ l -> incl (x :: M) M' -> incl (concat (map oids pre)) M' -> okl M' l).
    { induction l as [|c l IHl]; intros pre M' Et I1 I2; cbn [okl]; auto.
      assert (Hc : In c ts) by (rewrite Et; apply in_or_app; right; left; auto).
      assert (Hn : nth_error ts (length pre) = Some c) by (rewrite Et, nth_error_app2, Nat.sub_diag by lia; auto).
      split.
      - rewrite Forall_forall in IH. apply (IH c Hc (path ++ [length pre])).
        + eapply krep_child; eauto.
        + rewrite follow_app, F. cbn [follow]. rewrite Ek, nth_error_map, Hn. auto.
        + intros q z Fq Eq. apply earlier_child in Eq as [Eq|[->|(j & k & Hj & ->)]].
          * apply I1. right. eapply HM; eauto.
          * apply I1. left. congruence.
          * apply I2. rewrite follow_app, F in Fq. cbn [follow] in Fq. rewrite Ek, nth_error_map in Fq.
            destruct (nth_error ts j) as [d|] eqn:Ej; cbn [option_map] in Fq; [|discriminate].
            assert (Hd : In d pre) by (rewrite Et, nth_error_app1 in Ej by lia; eapply nth_error_In; eauto).
            apply in_concat. exists (oids d). split; [apply in_map; auto|]. apply (follow_oids t d k z); auto.
            eapply krep_child; eauto. rewrite Et. apply in_or_app; auto.
      - apply (IHl (pre ++ [c])).
        + rewrite Et, <- app_assoc. auto.
        + intros z Hz. apply in_or_app. right. auto.
        + intros z Hz. rewrite map_app, concat_app in Hz. cbn [map concat] in Hz. rewrite app_nil_r in Hz. apply in_or_app. apply in_app_or in Hz as [Hz|Hz]; auto. }
    apply (G ts []); auto; [apply incl_refl | intros z []].
  - intros z Hz. destruct (Td path x z F) as [_ Q]. apply in_or_app. destruct (Q Hz) as (q & Fq & [->|[Eq|[k ->]]]).
    + left. left. congruence.
    + right. eapply HM; eauto.
    + left. rewrite follow_app, F in Fq. apply (follow_oids t (T x ts) k z); auto.
Qed.

(** ** The loaded hierarchy *)
Lemma same_inv : forall s t, Inv s -> same (st s) t -> (forall z, inited t z = inited (st s) z) -> Inv (with_st s t).
Proof.
  intros s t [W I F M N J] S Ei. pose proof S as [Hn Hs].
  assert (Kd : forall z, kind t z = kind (st s) z) by (intros z; apply Hs).
  assert (Lf : forall z, is_leaf t z = is_leaf (st s) z) by (intros z; unfold is_leaf; rewrite Kd; auto).
  assert (Pr : forall z, par t z = par (st s) z) by (intros z; apply Hs).
  assert (Sz : forall z, size t z = size (st s) z) by (intros z; apply Hs).
  assert (In' : forall z, in_init t z = in_init (st s) z) by (intros z; apply Hs).
  assert (Bl : forall a b o n, below t a b o n -> below (st s) a b o n) by (intros a b o n; apply same_below, same_sym; auto).
  constructor; cbn [with_st st ios fix_ mem nt].
  - eapply same_wf; eauto. intros z Hz. rewrite Ei. apply (PzTree.wf_new _ W z Hz).
  - destruct I as [i1 i2 i3 i4 i5]. constructor.
    + intros r Hr Hp. rewrite Hn in Hr. rewrite Pr in Hp. auto.
    + intros r Hr Hp. rewrite Hn in Hr. rewrite Pr in Hp. auto.
    + intros r r' Hr Hp Hr' Hp'. rewrite Hn in Hr, Hr'. rewrite Pr in Hp, Hp'. auto.
    + intros r y o n Hr Hp B Hne. rewrite Hn in Hr. rewrite Pr in Hp. rewrite Sz. eapply i4; eauto.
    + intros r Hr Hp. rewrite Hn in Hr. rewrite Pr in Hp. rewrite Sz. auto.
  - intros r Hr Hp Hl. rewrite Hn in Hr. rewrite Pr in Hp. rewrite Lf, Ei in Hl. apply (mask_ok_ext (st s) (ios s) (fix_ s)); auto. tauto.
  - destruct M as [m1 m2 m3 m4 m5]. constructor; auto.
    + intros x Hx Hk Hi. rewrite Ei in Hi. rewrite Kd in Hk. rewrite Hn in Hx. auto.
    + intros x b o n Hx Ha. rewrite Hn in Hx. rewrite Sz, Kd, (same_kids (st s) t x S). eauto.
    + intros x Hx Hl. rewrite Hn in Hx. rewrite Lf in Hl. auto.
    + intros x Hi. rewrite Ei in Hi. destruct (m5 x Hi) as (b & o & A). exists b, o. intros z k n B Hc. rewrite Sz in *. eapply A; eauto.
  - destruct N as [N1 N2]. split; auto. intros y. rewrite Pr. apply N1.
  - destruct J as [j1 j2 j3 j4]. constructor.
    + intros x Hx. rewrite In'. apply j1. rewrite <- Lf. auto.
    + intros x Hx Hk Hi. rewrite Ei. apply j2; [rewrite <- Hn | rewrite <- Kd | rewrite <- In']; auto.
    + intros x Hx. rewrite In' in Hx. rewrite Pr, Ei. apply j3; auto.
    + intros x y Hi A Hk. rewrite Ei in *. rewrite Kd in Hk. apply (j4 x y); auto. apply (same_above t); auto. apply same_sym; auto.
Qed.

Lemma load_ok : forall s x, Inv s -> (x < next (st s))%nat -> par (st s) x = None -> in_init (st s) x = false ->
  (is_leaf (st s) x = true -> forall j, ~ has s x Fixed j) -> tidy (st s) before after x ->
  exists s', load before after x s = (s', Done) /\ Inv s' /\ copied_ok s s' x (next (st s)) /\
    exists l, trace (nt s') = l ++ trace (nt s) /\ (forall z, In z l -> (next (st s) <= z < next (st s'))%nat) /\
      forall z, (next (st s) <= z < next (st s'))%nat -> kind (st s') z = KNode -> In z l.
Proof.
  intros s x H Hx Hp Hin Hfx Td. pose proof H as [W I F M N J]. destruct (tree_exists (st s) W x) as [tr [Er [R Nd]]].
  destruct (rd_sub s tr H R Nd (fuel (st s)) (mkR s [] [])) as (r' & Rd & Dc & _); cbn [rs memo].
  { rewrite Er. auto. } { apply ext_refl. } { apply M. } { apply (rep_new_height _ _ W R Nd). }
  { apply (tidy_okr (st s) x Td tr []); [apply rep_krep; auto | cbn; congruence |]. intros q z _ Eq. destruct q; destruct Eq. }
  { intros z _ []. } { intros p Q. rewrite Er in Q. congruence. }
  cbn [rs] in Dc. rewrite Er in Rd, Dc. rewrite Hp in Dc. cbn [option_map] in Dc.
  assert (Hh : (height tr <= fuel (st s))%nat) by apply (rep_new_height _ _ W R Nd).
  destruct (dcopy_ok s tr H R Nd (fuel (st s)) s None) as (s1 & tr' & Dc' & Ct); auto; [rewrite Er; auto | apply ext_refl | apply M|].
  rewrite Er in Dc', Ct. rewrite Dc in Dc'. injection Dc' as E1. exists (rs r'). unfold load. rewrite Rd. split; auto. rewrite E1.
  destruct (join_inv s s1 x tr tr' H Hx Er R Hin Hfx Ct) as [H2 Jn].
  set (s2 := with_st s1 (set_pidx (st s1) (next (st s)) None)) in *.
  assert (Ip : pidx (st s1) (next (st s)) = None) by (rewrite (ct_pidx _ _ _ _ _ _ _ Ct); apply (PzTree.wf_root _ W); auto).
  assert (Sm : same (st s2) (st s1)).
  { split; [reflexivity|]. intros z. cbn. split; auto. split; auto. split; [|auto]. unfold upd. destruct (Nat.eqb_spec z (next (st s))) as [->|]; auto. }
  assert (H1 : Inv s1).
  { assert (Q : with_st s2 (st s1) = s1) by (destruct s1; reflexivity). rewrite <- Q. apply same_inv; auto. }
  split; auto.
  pose proof (joined_ok s s2 x tr tr' H H2 Hx Er R Jn) as Co.
  assert (Lt : (next (st s) < next (st s2))%nat) by apply (jn_next _ _ _ _ _ Jn).
  split.
  - apply (calm_after s s2); auto; [lia|]. constructor; auto; intros; try tauto.
  - apply (jn_trace _ _ _ _ _ Jn).
Qed.
End Load.
