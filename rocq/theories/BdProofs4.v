(** Constraints across copies, pickles and processes: the effects of calls. *)
From Coq Require Import List ZArith Bool Arith Lia.
From Verif Require Import NpModel NpProofs IndexOpsModel IndexOpsProofs InstModel InstProofs BdModel BdSpec BdProofs BdProofs2 BdProofs3.
Import ListNotations.
Open Scope Z_scope.

Section Calls.
Variable fl : Z -> Z.
Variable dflt : Z.
Notation bexec := (bexec fl dflt).
Notation bexec1 := (bexec1 fl dflt).
Notation breach := (breach fl dflt).

(** ** One object of each kind *)
Definition uniq (t : tst) : Prop := forall o o' w, alive t o = true -> alive t o' = true -> kind t o = Some w -> kind t o' = Some w -> o = o'.
Definition apart (t : tst) (d : dict) : Prop :=
  forall o o' lo hi, key d o -> key d o' -> kind t o = Some (Bounds lo hi) -> kind t o' = Some (Bounds lo hi) -> o = o'.
Definition U (s : bst) : Prop := uniq (ts s) /\ forall f d, nth_error (files s) f = Some d -> apart (ts s) d.

Lemma apart_ext : forall t t1 d, F t d -> ext t t1 -> apart t d -> apart t1 d.
Proof.
  intros t t1 d HF X A o o' lo hi Ko Ko' K K'. destruct (f_kind t d HF _ Ko) as (x & w & Q & H). injection Q as <-.
  destruct (f_kind t d HF _ Ko') as (x & w' & Q & H'). injection Q as <-. pose proof (e_kind _ _ X _ _ H). pose proof (e_kind _ _ X _ _ H').
  apply (A o o' lo hi); auto; congruence.
Qed.
Lemma uniq_made : forall t t1 o w, made t t1 o w -> uniq t -> uniq t1.
Proof.
  intros t t1 o w (H1 & H2 & H3 & H4 & H5 & H6) Hu x x' v A A' K K'.
  assert (One : forall y, alive t1 y = true -> kind t1 y = Some w -> y = o).
  { intros y Ay Ky. destruct (H5 y w Ay Ky) as [->|[B1 B2]]; [reflexivity|]. destruct H6 as [[C1 C2]|C]; [eapply Hu; eauto | exfalso; eapply C; eauto]. }
  destruct (H5 x v A K) as [->|[B1 B2]].
  - symmetry. apply One; [exact A' | congruence].
  - destruct (H5 x' v A' K') as [->|[B1' B2']]; [apply One; [exact A | congruence] | eapply Hu; eauto].
Qed.
Lemma uniq_only : forall t t1, only t t1 (fun _ => False) -> uniq t -> uniq t1.
Proof.
  intros t t1 H Hu x x' v A A' K K'. destruct (H x v A K) as [[]|[B1 B2]]. destruct (H x' v A' K') as [[]|[B1' B2']]. eapply Hu; eauto.
Qed.
Lemma U_collect : forall s, U s -> U (collect s).
Proof.
  intros s [A B]. split; [|exact B]. intros o o' w H H'. rewrite !kind_collect. apply A; apply alive_collect; assumption.
Qed.
Lemma in_memory : forall s o lo hi, Inv s -> cleaned s -> alive (ts s) o = true -> kind (ts s) o = Some (Bounds lo hi) -> exists m i, held s m i (Bounds lo hi).
Proof.
  intros s o lo hi HI HC A K. destruct (HC o lo hi A K) as (m & d & Hm & Kd). pose proof (i_mods s HI m d Hm) as [HF _].
  apply (key_lk d o (proj1 (f_wf _ _ HF)) (f_full _ _ HF)) in Kd. destruct Kd as (i & Hi). exists m, i, d. split; [exact Hm|].
  apply binds_lk; [apply HF|]. exists o. auto.
Qed.
Lemma in_file : forall s f d o w, Inv s -> nth_error (files s) f = Some d -> key d o -> kind (ts s) o = Some w -> exists i, stored s f i w.
Proof.
  intros s f d o w HI Hf Kd K. pose proof (i_files s HI f d Hf) as HF.
  apply (key_lk d o (proj1 (f_wf _ _ HF)) (f_full _ _ HF)) in Kd. destruct Kd as (i & Hi). exists i, d. split; [exact Hf|].
  apply binds_lk; [apply HF|]. exists o. auto.
Qed.
Lemma twin_back : forall t t1 d d' x v, Forall2 (twin t t1) d d' -> key d' x -> kind t1 x = Some v -> exists o, key d o /\ kind t o = Some v.
Proof.
  intros t t1 d d' x v H Kx Kv. induction H as [|e e' d d' (o & o' & w & E1 & E2 & E3 & E4 & E5 & E6) H IH]; [destruct Kx|].
  destruct Kx as [Q|Q].
  - rewrite E2 in Q. injection Q as ->. exists o. split; [left; exact E1 | congruence].
  - destruct (IH Q) as (o2 & A & B). exists o2. split; [right; exact A | exact B].
Qed.
Lemma U_step : forall s k, Inv s -> cleaned s -> U s -> blegal fl s k -> no_twins s k -> U (fst (bexec1 k s)).
Proof.
  intros s k HI HC [U1 U2] Hl Hn. pose proof HI as [HT HM HF].
  assert (Fx : forall t1, ext (ts s) t1 -> forall f d, nth_error (files s) f = Some d -> apart t1 d).
  { intros t1 X f d H. eapply apart_ext; [eapply HF; eauto | exact X | eapply U2; eauto]. }
  assert (Mk : forall w (g : tst -> nat -> bst * option texn) t1 r, float_what fl w -> make fl dflt w (ts s) = (t1, r) ->
    (forall o, r = inl o -> ts (fst (g t1 o)) = t1 /\ files (fst (g t1 o)) = files s) ->
    U (fst (match r with inr e => (mkB t1 (mods s) (files s), Some e) | inl o => g t1 o end))).
  { intros w g t1 r Hw E Hg. destruct (make_ok fl dflt w (ts s) t1 r HT Hw E) as [(o & -> & M & _)|(lo & hi & _ & _ & -> & H1 & H2 & H3)].
    - destruct (Hg o eq_refl) as [G1 G2]. split; rewrite G1; [eapply uniq_made; eauto|]. rewrite G2. apply Fx. apply M.
    - split; [eapply uniq_only; eauto | apply Fx; exact H2]. }
  destruct k; cbn [BdModel.bexec1].
  - split; [exact U1 | exact U2].
  - destruct Hl as (_ & _ & Hw). destruct (make fl dflt w (ts s)) as [t1 r] eqn:E.
    apply (Mk w (fun t o => (set_model s t m (Some (add Root (strip (model s m) ix) (Tr o) ix)), None)) t1 r Hw E). intros o _. split; reflexivity.
  - destruct Hl as (_ & Hw). destruct (make fl dflt w (ts s)) as [t1 r] eqn:E.
    apply (Mk w (fun t o => (set_model s t m (Some (snd (remove Root (model s m) (Tr o) ix))), None)) t1 r Hw E). intros o _. split; reflexivity.
  - split; [exact U1 | exact U2].
  - split; [exact U1 | exact U2].
  - split; [exact U1|]. cbn [fst files ts]. intros f d H. destruct (Nat.lt_ge_cases f (length (files s))) as [L|L].
    + rewrite nth_error_app1 in H by exact L. eapply U2; exact H.
    + rewrite nth_error_app2 in H by exact L. destruct (f - length (files s))%nat as [|j]; [injection H as <- | destruct j; discriminate].
      pose proof (HM _ _ (exists_is s m Hl)) as [_ Al]. intros o o' lo hi Ko Ko' K K'. apply (U1 o o' (Bounds lo hi)); auto.
  - destruct (load_keys dflt (nth f (files s) []) (ts s)) as [t1 r] eqn:E.
    assert (Nf : nth_error (files s) f = Some (nth f (files s) [])) by (apply nth_error_nth'; exact Hl).
    pose proof (HF _ _ Nf) as Ff. destruct (load_ok dflt _ _ _ _ HT Ff E) as (d' & -> & H1 & H2 & H3 & H4 & H5 & H6 & H7). cbn [fst].
    split; [|apply Fx; exact H2]. cbn [ts]. intros x x' v A A' K K'. destruct v as [c|lo hi].
    { pose proof (t_class _ H1 x c A K). pose proof (t_class _ H1 x' c A' K'). congruence. }
    assert (Old : forall y, key d' y -> kind t1 y = Some (Bounds lo hi) -> forall z, alive (ts s) z = true -> kind (ts s) z = Some (Bounds lo hi) -> False).
    { intros y Ky Kv z Az Kz. destruct (twin_back _ _ _ _ y _ H3 Ky Kv) as (o & Ko & Kw). destruct (in_file s f _ o _ HI Nf Ko Kw) as (i & Hi).
      destruct (in_memory s z lo hi HI HC Az Kz) as (m & j & Hj). exact (Hn i m j lo hi Hi Hj). }
    destruct (H5 x _ A K) as [Kx|[B1 B2]]; destruct (H5 x' _ A' K') as [Kx'|[B1' B2']].
    + eapply (H7 (U2 _ _ Nf)); eauto.
    + exfalso. eapply (Old x); eauto.
    + exfalso. eapply (Old x'); eauto.
    + eapply U1; eauto.
  - split; [exact U1 | exact U2].
  - split; [intros o o' w A; discriminate | exact U2].
Qed.
Lemma breach_uniq : forall s, breach no_twins s -> U s.
Proof.
  intros s H. induction H as [|s k H IH Hl Hok].
  - split; [intros o o' w A; discriminate | intros f d Hf; destruct f; discriminate].
  - destruct (breach_inv fl dflt _ s H) as [HI HC]. rewrite bexec_split. cbn [fst]. apply U_collect. apply U_step; auto.
Qed.

(** ** Effects *)
Lemma held_collect : forall s m i w, held (collect s) m i w <-> held s m i w.
Proof. reflexivity. Qed.
Lemma held_set : forall s t1 m d i w m', Inv s -> ext (ts s) t1 -> exists_model s m ->
  (held (set_model s t1 m (Some d)) m i w <-> binds t1 d i w) /\
  (m' <> m -> (held (set_model s t1 m (Some d)) m' i w <-> held s m' i w)).
Proof.
  intros s t1 m d i w m' HI X Hm. pose proof (exists_lt s m Hm) as L. split.
  - unfold held. rewrite nth_set_model, Nat.eqb_refl by exact L. split; [intros (d' & E & H); injection E as ->; exact H | intros H; exists d; auto].
  - intros N. unfold held. rewrite nth_set_model by exact L. apply Nat.eqb_neq in N. rewrite N.
    split; intros (d' & E & H); exists d'; (split; [exact E|]); (apply (binds_ext (ts s) t1 d' i w (proj1 (i_mods s HI _ _ E)) X); exact H).
Qed.
Lemma held_ext : forall s t1 i w m, Inv s -> ext (ts s) t1 -> (held (mkB t1 (mods s) (files s)) m i w <-> held s m i w).
Proof.
  intros s t1 i w m HI X. unfold held. cbn [mods ts].
  split; intros (d' & E & H); exists d'; (split; [exact E|]); (apply (binds_ext (ts s) t1 d' i w (proj1 (i_mods s HI _ _ E)) X); exact H).
Qed.
Lemma held_new : forall s t1 d i w, Inv s -> ext (ts s) t1 ->
  (held (mkB t1 (mods s ++ [Some d]) (files s)) (length (mods s)) i w <-> binds t1 d i w) /\
  forall m, (m < length (mods s))%nat -> (held (mkB t1 (mods s ++ [Some d]) (files s)) m i w <-> held s m i w).
Proof.
  intros s t1 d i w HI X. unfold held. cbn [mods ts]. split.
  - rewrite nth_error_app2, Nat.sub_diag by lia. cbn. split; [intros (d' & E & H); injection E as ->; exact H | intros H; exists d; auto].
  - intros m L. rewrite nth_error_app1 by exact L. split; intros (d' & E & H); exists d'; (split; [exact E|]); (apply (binds_ext (ts s) t1 d' i w (proj1 (i_mods s HI _ _ E)) X); exact H).
Qed.
Lemma held_model : forall s m i w, exists_model s m -> (held s m i w <-> binds (ts s) (model s m) i w).
Proof.
  intros s m i w Hm. pose proof (exists_is s m Hm) as E. unfold held. split; [intros (d & E2 & H); rewrite E in E2; injection E2 as <-; exact H | intros H; exists (model s m); auto].
Qed.
Lemma proper_float : forall w, proper_what fl w -> float_what fl w.
Proof. intros [c|lo hi]; [auto | intros (A & B & C); split; auto]. Qed.
Lemma make_proper : forall w t t1 r, T t -> proper_what fl w -> make fl dflt w t = (t1, r) -> exists o, r = inl o /\ made t t1 o w.
Proof.
  intros w t t1 r HT Hp E. destruct (make_ok fl dflt w t t1 r HT (proper_float w Hp) E) as [(o & -> & M & _)|(lo & hi & -> & L & _)]; [eauto|].
  destruct Hp as [Hp _]. lia.
Qed.

Lemma constrain_effect : forall s m ix w, breach any_call s -> exists_model s m -> ix <> [] -> proper_what fl w ->
  let s' := fst (bexec (Constrain m ix w) s) in
  snd (bexec (Constrain m ix w) s) = None /\
  (forall i v, held s' m i v <-> (In i ix /\ v = w) \/ (~ In i ix /\ held s m i v)) /\
  forall m' i v, m' <> m -> (held s' m' i v <-> held s m' i v).
Proof.
  intros s m ix w HR Hm Hx Hp. destruct (breach_inv fl dflt _ s HR) as [HI HC]. pose proof HI as [HT HM HF]. rewrite bexec_split. cbn [fst snd].
  cbn [BdModel.bexec1]. destruct (make fl dflt w (ts s)) as [t1 r] eqn:E. destruct (make_proper w (ts s) t1 r HT Hp E) as (o & -> & H1 & H2 & H3 & H4 & _).
  cbn [fst snd]. pose proof (HM _ _ (exists_is s m Hm)) as Dm. pose proof (D_ext _ _ _ Dm H2) as Dm1.
  destruct (D_strip t1 _ ix H1 Dm1) as [S1 S2]. destruct (D_add t1 _ o w ix H1 S1 Hx H3 H4) as [A1 A2].
  split; [reflexivity|]. split.
  - intros i v. rewrite held_collect. rewrite (proj1 (held_set s t1 m _ i v m HI H2 Hm)). rewrite A2, S2, (held_model s m i v Hm).
    rewrite (binds_ext _ _ _ i v (proj1 Dm) H2). tauto.
  - intros m' i v N. rewrite held_collect. apply (proj2 (held_set s t1 m _ i v m' HI H2 Hm) N).
Qed.
Lemma unconstrain_always : forall s m ix w, breach any_call s -> exists_model s m -> proper_what fl w ->
  let s' := fst (bexec (Unconstrain m ix w) s) in
  snd (bexec (Unconstrain m ix w) s) = None /\
  (forall i v, held s' m i v -> held s m i v) /\
  (forall i v, held s m i v -> ~ In i ix \/ v <> w -> held s' m i v) /\
  (uniq (ts s) -> forall i, In i ix -> ~ held s' m i w) /\
  forall m' i v, m' <> m -> (held s' m' i v <-> held s m' i v).
Proof.
  intros s m ix w HR Hm Hp. destruct (breach_inv fl dflt _ s HR) as [HI HC]. pose proof HI as [HT HM HF]. rewrite bexec_split. cbn [fst snd].
  cbn [BdModel.bexec1]. destruct (make fl dflt w (ts s)) as [t1 r] eqn:E. destruct (make_proper w (ts s) t1 r HT Hp E) as (o & -> & Md).
  pose proof Md as (H1 & H2 & H3 & H4 & _).
  cbn [fst snd]. pose proof (HM _ _ (exists_is s m Hm)) as Dm. pose proof (D_ext _ _ _ Dm H2) as Dm1.
  destruct (D_remove t1 _ o w ix H1 Dm1 H3) as (R1 & R2 & R3 & R4).
  assert (Q : forall i v, held (collect (set_model s t1 m (Some (snd (remove Root (model s m) (Tr o) ix))))) m i v <-> binds t1 (snd (remove Root (model s m) (Tr o) ix)) i v).
  { intros i v. rewrite held_collect. apply (proj1 (held_set s t1 m _ i v m HI H2 Hm)). }
  split; [reflexivity|]. split; [|split; [|split]].
  - intros i v H. apply Q, R2 in H. apply (held_model s m i v Hm). apply (binds_ext _ _ _ i v (proj1 Dm) H2). exact H.
  - intros i v H N. apply Q. apply R3; [|exact N]. apply (binds_ext _ _ _ i v (proj1 Dm) H2). apply (held_model s m i v Hm). exact H.
  - intros Hu i Hi H. apply Q in H. revert Hi. apply R4; [|exact H]. intros x Ax Kx. eapply (uniq_made _ _ _ _ Md Hu); eauto.
  - intros m' i v N. rewrite held_collect. apply (proj2 (held_set s t1 m _ i v m' HI H2 Hm) N).
Qed.
Lemma breach_any : forall ok s, breach ok s -> breach any_call s.
Proof. intros ok s H. induction H; [constructor | constructor; auto; exact I]. Qed.
Lemma unconstrain_effect : forall s m ix w, breach no_twins s -> exists_model s m -> proper_what fl w ->
  let s' := fst (bexec (Unconstrain m ix w) s) in
  snd (bexec (Unconstrain m ix w) s) = None /\
  (forall i v, held s' m i v <-> held s m i v /\ ~ (In i ix /\ v = w)) /\
  forall m' i v, m' <> m -> (held s' m' i v <-> held s m' i v).
Proof.
  intros s m ix w HR Hm Hp. destruct (unconstrain_always s m ix w (breach_any _ _ HR) Hm Hp) as (H1 & H2 & H3 & H4 & H5).
  specialize (H4 (proj1 (breach_uniq s HR))). split; [exact H1|]. split; [|exact H5]. intros i v. split.
  - intros H. split; [apply H2; exact H|]. intros [Hi ->]. exact (H4 i Hi H).
  - intros [H N]. apply H3; [exact H|]. destruct (in_dec Z.eq_dec i ix) as [Hi|Hi]; [right; intros ->; apply N; auto | left; exact Hi].
Qed.
Lemma class_effect : forall s m ix c, breach any_call s -> exists_model s m ->
  let s' := fst (bexec (Unconstrain m ix (Class c)) s) in
  forall i v, held s' m i v <-> held s m i v /\ ~ (In i ix /\ v = Class c).
Proof.
  intros s m ix c HR Hm s' i v. destruct (unconstrain_always s m ix (Class c) HR Hm Logic.I) as (H1 & H2 & H3 & _ & _). fold s' in H1, H2, H3. split.
  - intros H. split; [apply H2; exact H|]. intros [Hi ->]. revert H.
    (* the class has one object *)
    destruct (breach_inv fl dflt _ s HR) as [HI HC]. pose proof HI as [HT HM HF]. unfold s'. rewrite bexec_split. cbn [fst].
    cbn [BdModel.bexec1]. destruct (make fl dflt (Class c) (ts s)) as [t1 r] eqn:E. destruct (make_proper (Class c) (ts s) t1 r HT Logic.I E) as (o & -> & Md).
    pose proof Md as (G1 & G2 & G3 & G4 & _). cbn [fst]. rewrite held_collect. rewrite (proj1 (held_set s t1 m _ i (Class c) m HI G2 Hm)).
    pose proof (D_ext _ _ _ (HM _ _ (exists_is s m Hm)) G2) as Dm1. destruct (D_remove t1 _ o (Class c) ix G1 Dm1 G3) as (_ & _ & _ & R4). intros H. revert Hi. apply R4; [|exact H].
    intros x Ax Kx. pose proof (t_class _ G1 x c Ax Kx). pose proof (t_class _ G1 o c G4 G3). congruence.
  - intros [H N]. apply H3; [exact H|]. destruct (in_dec Z.eq_dec i ix) as [Hi|Hi]; [right; intros ->; apply N; auto | left; exact Hi].
Qed.
Lemma all_effect : forall s m ix, breach any_call s -> exists_model s m ->
  let s' := fst (bexec (UnconstrainAll m ix) s) in
  (forall i v, held s' m i v <-> held s m i v /\ ~ In i ix) /\ forall m' i v, m' <> m -> (held s' m' i v <-> held s m' i v).
Proof.
  intros s m ix HR Hm. destruct (breach_inv fl dflt _ s HR) as [HI HC]. pose proof HI as [HT HM HF]. rewrite bexec_split. cbn [fst BdModel.bexec1].
  pose proof (HM _ _ (exists_is s m Hm)) as Dm. destruct (D_strip (ts s) _ ix HT Dm) as [S1 S2]. split.
  - intros i v. rewrite held_collect. rewrite (proj1 (held_set s (ts s) m _ i v m HI (ext_refl _) Hm)). rewrite S2, (held_model s m i v Hm). tauto.
  - intros m' i v N. rewrite held_collect. apply (proj2 (held_set s (ts s) m _ i v m' HI (ext_refl _) Hm) N).
Qed.
Lemma refused_effect : forall s m ix lo hi k, breach any_call s -> exists_model s m -> ix <> [] -> hi <= lo -> fl lo = lo -> fl hi = hi ->
  k = Constrain m ix (Bounds lo hi) \/ k = Unconstrain m ix (Bounds lo hi) ->
  snd (bexec k s) = Some AssertionError /\ forall m' i v, held (fst (bexec k s)) m' i v <-> held s m' i v.
Proof.
  intros s m ix lo hi k HR Hm Hx Hle Fl Fh Hk. destruct (breach_inv fl dflt _ s HR) as [HI HC]. pose proof HI as [HT HM HF].
  destruct (make fl dflt (Bounds lo hi) (ts s)) as [t1 r] eqn:E.
  destruct (make_ok fl dflt (Bounds lo hi) (ts s) t1 r HT (conj Fl Fh) E) as [(o & _ & _ & [Q _])|(l & h & _ & _ & -> & H1 & H2 & _)]; [lia|].
  assert (Eq : bexec1 k s = (mkB t1 (mods s) (files s), Some AssertionError)) by (destruct Hk as [-> | ->]; cbn [BdModel.bexec1]; rewrite E; reflexivity).
  rewrite bexec_split, Eq. cbn [fst snd]. split; [reflexivity|]. intros m' i v. rewrite held_collect. apply held_ext; [exact HI | exact H2].
Qed.
Lemma copy_effect : forall s m, breach any_call s -> exists_model s m ->
  let s' := fst (bexec (CopyModel m) s) in
  (forall i v, held s' (length (mods s)) i v <-> held s m i v) /\
  forall m' i v, (m' < length (mods s))%nat -> (held s' m' i v <-> held s m' i v).
Proof.
  intros s m HR Hm. destruct (breach_inv fl dflt _ s HR) as [HI HC]. pose proof HI as [HT HM HF]. rewrite bexec_split. cbn [fst BdModel.bexec1].
  pose proof (HM _ _ (exists_is s m Hm)) as Dm. rewrite copy_same by apply Dm. split.
  - intros i v. rewrite held_collect, (proj1 (held_new s (ts s) _ i v HI (ext_refl _))). symmetry. apply held_model. exact Hm.
  - intros m' i v L. rewrite held_collect. apply (proj2 (held_new s (ts s) _ i v HI (ext_refl _)) m' L).
Qed.
Lemma load_effect : forall s f, breach any_call s -> (f < length (files s))%nat ->
  let s' := fst (bexec (LoadFile f) s) in
  snd (bexec (LoadFile f) s) = None /\
  (forall i v, held s' (length (mods s)) i v <-> stored s f i v) /\
  forall m' i v, (m' < length (mods s))%nat -> (held s' m' i v <-> held s m' i v).
Proof.
  intros s f HR Hf. destruct (breach_inv fl dflt _ s HR) as [HI HC]. pose proof HI as [HT HM HF]. rewrite bexec_split. cbn [fst snd BdModel.bexec1].
  destruct (load_keys dflt (nth f (files s) []) (ts s)) as [t1 r] eqn:E.
  assert (Nf : nth_error (files s) f = Some (nth f (files s) [])) by (apply nth_error_nth'; exact Hf).
  destruct (load_ok dflt _ _ _ _ HT (HF _ _ Nf) E) as (d' & -> & H1 & H2 & H3 & _). cbn [fst snd]. split; [reflexivity|]. split.
  - intros i v. rewrite held_collect, (proj1 (held_new s t1 _ i v HI H2)). rewrite (twins_binds _ _ _ _ i v H3). unfold stored. split.
    + intros H. exists (nth f (files s) []). auto.
    + intros (d & Q & H). rewrite Nf in Q. injection Q as <-. exact H.
  - intros m' i v L. rewrite held_collect. apply (proj2 (held_new s t1 _ i v HI H2) m' L).
Qed.
(** A pickle holds what the model had, for ever. *)
Lemma stored_step : forall s k f i v, Inv s -> blegal fl s k -> (f < length (files s))%nat -> (stored (fst (bexec k s)) f i v <-> stored s f i v).
Proof.
  intros s k f i v HI Hl Hf. rewrite bexec_split. cbn [fst]. change (stored (collect (fst (bexec1 k s))) f i v) with (stored (fst (bexec1 k s)) f i v).
  assert (Nf : nth_error (files (fst (bexec1 k s))) f = nth_error (files s) f).
  { destruct k; cbn [BdModel.bexec1]; try reflexivity.
    - destruct (make fl dflt w (ts s)) as [t [o|e]]; reflexivity.
    - destruct (make fl dflt w (ts s)) as [t [o|e]]; reflexivity.
    - cbn [fst files]. apply nth_error_app1. exact Hf.
    - destruct (load_keys dflt _ _) as [t [o|e]]; reflexivity. }
  unfold stored. rewrite Nf. destruct (step_ok fl dflt s k HI Hl) as [_ [->|X]].
  - cbn [BdModel.bexec1 fst ts]. split; intros (d & E & H); exists d; (split; [exact E | exact H]).
  - split; intros (d & E & H); exists d; (split; [exact E|]); (apply (binds_ext (ts s) _ d i v (i_files s HI _ _ E) X); exact H).
Qed.
Lemma dump_effect : forall s m, breach any_call s -> exists_model s m ->
  let s' := fst (bexec (Dump m) s) in
  (forall i v, stored s' (length (files s)) i v <-> held s m i v) /\ forall m' i v, held s' m' i v <-> held s m' i v.
Proof.
  intros s m HR Hm. rewrite bexec_split. cbn [fst BdModel.bexec1]. split.
  - intros i v. rewrite (held_model s m i v Hm). unfold stored. cbn [collect files ts]. rewrite nth_error_app2, Nat.sub_diag by lia. cbn [nth_error]. split.
    + intros (d & E & H). injection E as <-. exact H.
    + intros H. exists (model s m). split; [reflexivity | exact H].
  - intros m' i v. reflexivity.
Qed.
Lemma stored_later : forall s s2 f i v, breach any_call s -> (f < length (files s))%nat -> 
  (exists ks, s2 = fold_left (fun s k => fst (bexec k s)) ks s /\ forall n, blegal fl (fold_left (fun s k => fst (bexec k s)) (firstn n ks) s) (nth n ks NewModel)) ->
  (stored s2 f i v <-> stored s f i v).
Proof.
  intros s s2 f i v HR Hf (ks & -> & Hl). revert s HR Hf Hl. induction ks as [|k ks IH]; intros s HR Hf Hl; [reflexivity|]. cbn [fold_left].
  pose proof (Hl 0%nat) as L0. cbn in L0. destruct (breach_inv fl dflt _ s HR) as [HI HC]. rewrite IH.
  - apply stored_step; auto.
  - constructor; auto. exact Logic.I.
  - rewrite bexec_split. cbn [fst collect files]. destruct k; cbn [BdModel.bexec1]; try exact Hf.
    + destruct (make fl dflt w (ts s)) as [t [o|e]]; exact Hf.
    + destruct (make fl dflt w (ts s)) as [t [o|e]]; exact Hf.
    + cbn [fst files]. rewrite app_length. lia.
    + destruct (load_keys dflt _ _) as [t [o|e]]; exact Hf.
  - intros n. exact (Hl (S n)).
Qed.
End Calls.
