(** Constraints across copies, pickles and processes: dictionaries of transformation objects. *)
From Coq Require Import List ZArith Bool Arith Lia.
From Verif Require Import NpModel NpProofs IndexOpsModel IndexOpsProofs InstModel InstProofs BdModel BdSpec BdProofs.
Import ListNotations.
Open Scope Z_scope.

Definition full (d : dict) : Prop := forall p l, In (p, l) d -> l <> [].
Definition key (d : dict) (o : nat) : Prop := In (Tr o) (map fst d).
(** A dict as it is in a pickle, and in a model. *)
Record F (t : tst) (d : dict) : Prop := mkF {
  f_wf : wf d; f_full : full d;
  f_kind : forall p, In p (map fst d) -> exists o w, p = Tr o /\ kind t o = Some w;
  f_class : forall o o' c, key d o -> key d o' -> kind t o = Some (Class c) -> kind t o' = Some (Class c) -> o = o' }.
Definition D (t : tst) (d : dict) : Prop := F t d /\ forall o, key d o -> alive t o = true.

Lemma in_lk : forall d o l, NoDup (map fst d) -> In (Tr o, l) d -> lk d (Tr o) = l.
Proof. intros d o l N H. unfold lk. rewrite (In_dget d (Tr o) l N H). reflexivity. Qed.
Lemma lk_in : forall d p i, In i (lk d p) -> exists l, In (p, l) d /\ In i l.
Proof. intros d p i H. unfold lk in H. destruct (dget d p) as [l|] eqn:E; [|destruct H]. exists l. split; [apply dget_In; exact E | exact H]. Qed.
Lemma binds_lk : forall t d i w, NoDup (map fst d) -> binds t d i w <-> exists o, In i (lk d (Tr o)) /\ kind t o = Some w.
Proof.
  intros t d i w N. split.
  - intros (o & l & H1 & H2 & H3). exists o. rewrite (in_lk d o l N H1). auto.
  - intros (o & H1 & H2). apply lk_in in H1. destruct H1 as (l & H3 & H4). exists o, l. auto.
Qed.
Lemma key_lk : forall d o, NoDup (map fst d) -> full d -> key d o <-> exists i, In i (lk d (Tr o)).
Proof.
  intros d o N Fu. split.
  - intros K. apply in_map_iff in K. destruct K as ([p l] & E & H). cbn in E. subst p. rewrite (in_lk d o l N H). specialize (Fu _ _ H).
    destruct l as [|i l]; [congruence|]. exists i. left. reflexivity.
  - intros (i & H). apply lk_in in H. destruct H as (l & H & _). apply in_map_iff. exists (Tr o, l). auto.
Qed.

Lemma dset_in : forall d p v e, In e (dset d p v) -> e = (p, v) \/ In e d.
Proof.
  induction d as [|[q l] r IH]; cbn [dset]; intros p v e H.
  - destruct H as [<-|[]]. auto.
  - destruct (prop_eqb p q); destruct H as [<-|H]; [left; reflexivity | right; right; exact H | right; left; reflexivity|].
    destruct (IH p v e H) as [E|E]; [left; exact E | right; right; exact E].
Qed.
Lemma full_remove : forall d p ix, full d -> full (snd (root_remove d p ix)).
Proof.
  intros d p ix Fu. unfold root_remove. destruct (dget d p) as [l|]; [|exact Fu]. cbn [snd].
  destruct (setdiff1d l ix) as [|z r] eqn:E; cbn [nonempty].
  - intros q l' H. apply ddel_incl in H. eapply Fu; eauto.
  - intros q l' H. apply dset_in in H. destruct H as [H|H]; [injection H as -> ->; discriminate | eapply Fu; eauto].
Qed.
Lemma keys_remove : forall d p ix q, In q (map fst (snd (root_remove d p ix))) -> In q (map fst d).
Proof.
  intros d p ix q. unfold root_remove. destruct (dget d p) as [l|] eqn:Ed; [|auto]. cbn [snd]. intros H.
  apply in_map_iff in H. destruct H as ([q' l'] & E & H). cbn in E. subst q'. destruct (nonempty _).
  - apply dset_in in H. destruct H as [H|H]; [injection H as -> ->; apply in_map_iff; exists (p, l); split; [reflexivity | apply dget_In; exact Ed] | apply in_map_iff; exists (q, l'); auto].
  - apply ddel_incl in H. apply in_map_iff. exists (q, l'). auto.
Qed.
Lemma full_add : forall d p ix, full d -> ix <> [] -> NoDup (map fst d) -> full (root_add d p ix).
Proof.
  intros d p ix Fu Hx N. unfold root_add. rewrite (surjective_pairing (dd_get d p)). intros q l H.
  assert (U : forall a, union1d a ix <> []).
  { intros a Q. destruct ix as [|z ix]; [congruence|]. assert (In z (union1d a (z :: ix))) by (apply union1d_In; right; left; reflexivity). rewrite Q in H0. destruct H0. }
  destruct (prop_eqb q p) eqn:E.
  - apply prop_eqb_eq in E. subst q.
    assert (N2 : NoDup (map fst (dset (snd (dd_get d p)) p (union1d (fst (dd_get d p)) ix)))).
    { apply dset_NoDup. unfold dd_get. destruct (dget d p); cbn [snd]; [exact N | apply dset_NoDup; exact N]. }
    pose proof (In_dget _ p l N2 H) as G. rewrite dget_dset_eq in G. injection G as <-. apply U.
  - apply prop_eqb_neq in E. apply dset_in in H. destruct H as [H|H]; [injection H as -> _; congruence|].
    unfold dd_get in H. destruct (dget d p); cbn [snd] in H; [eapply Fu; eauto|].
    apply dset_in in H. destruct H as [H|H]; [injection H as -> _; congruence | eapply Fu; eauto].
Qed.
Lemma keys_add : forall d p ix q, In q (map fst (root_add d p ix)) -> q = p \/ In q (map fst d).
Proof.
  intros d p ix q H. unfold root_add in H. rewrite (surjective_pairing (dd_get d p)) in H. apply in_map_iff in H. destruct H as ([q' l'] & E & H). cbn in E. subst q'.
  apply dset_in in H. destruct H as [H|H]; [injection H as -> _; auto|]. unfold dd_get in H. destruct (dget d p); cbn [snd] in H.
  - right. apply in_map_iff. exists (q, l'). auto.
  - apply dset_in in H. destruct H as [H|H]; [injection H as -> _; auto | right; apply in_map_iff; exists (q, l'); auto].
Qed.

Lemma strip_fold : forall ix ps d, wf d -> full d ->
  let d' := fold_left (fun d p => snd (remove Root d p ix)) ps d in
  wf d' /\ full d' /\ (forall q, In q (map fst d') -> In q (map fst d)) /\
  forall q i, In i (lk d' q) <-> In i (lk d q) /\ (In q ps -> ~ In i ix).
Proof.
  intros ix ps. induction ps as [|p ps IH]; intros d W Fu; cbn [fold_left].
  - split; [exact W|]. split; [exact Fu|]. split; [auto|]. intros q i. split; [intros H; split; [exact H | intros []] | intros [H _]; exact H].
  - change (snd (remove Root d p ix)) with (snd (root_remove d p ix)).
    destruct (IH (snd (root_remove d p ix)) (root_remove_wf d p ix W) (full_remove d p ix Fu)) as (H1 & H2 & H3 & H4).
    split; [exact H1|]. split; [exact H2|]. split; [intros q Hq; eapply keys_remove, H3, Hq|].
    intros q i. rewrite H4, (root_remove_lk d p ix q W). destruct (prop_eqb q p) eqn:E.
    + apply prop_eqb_eq in E. subst q. rewrite setdiff1d_In. cbn [In]. tauto.
    + apply prop_eqb_neq in E. cbn [In]. split; intros [A B]; (split; [exact A|]); [intros [Q|Q]; [congruence | auto] | auto].
Qed.
Lemma strip_ok : forall d ix, wf d -> full d -> wf (strip d ix) /\ full (strip d ix) /\
  (forall q, In q (map fst (strip d ix)) -> In q (map fst d)) /\
  forall q i, In i (lk (strip d ix) q) <-> In i (lk d q) /\ ~ In i ix.
Proof.
  intros d ix W Fu. destruct (strip_fold ix (properties Root d) d W Fu) as (H1 & H2 & H3 & H4). fold (strip d ix) in *.
  split; [exact H1|]. split; [exact H2|]. split; [exact H3|]. intros q i. rewrite H4. split; intros [A B]; (split; [exact A|]); [|auto].
  apply B. apply lk_in in A. destruct A as (l & A & A2). unfold properties. apply in_map_iff. exists (q, l). split; [reflexivity|].
  cbn [items]. unfold root_items. apply filter_In. split; [exact A|]. cbn. destruct l; [destruct A2 | reflexivity].
Qed.

(** ** Extending the objects *)
Lemma F_ext : forall t t1 d, F t d -> ext t t1 -> F t1 d.
Proof.
  intros t t1 d [A B C E] X. constructor; auto.
  - intros p Hp. destruct (C p Hp) as (o & w & -> & K). exists o, w. split; [reflexivity | apply (e_kind _ _ X); exact K].
  - intros o o' c Ko Ko' H H'. destruct (C _ Ko) as (x & w & Q & K). injection Q as <-. destruct (C _ Ko') as (x' & w' & Q' & K'). injection Q' as <-.
    pose proof (e_kind _ _ X _ _ K). pose proof (e_kind _ _ X _ _ K'). apply (E o o' c); auto; congruence.
Qed.
Lemma D_ext : forall t t1 d, D t d -> ext t t1 -> D t1 d.
Proof.
  intros t t1 d [A B] X. split; [eapply F_ext; eauto|]. intros o Ko. destruct (f_kind t d A _ Ko) as (x & w & Q & K). injection Q as <-.
  rewrite (e_alive _ _ X); [auto | eapply kind_lt; eauto].
Qed.
Lemma binds_ext : forall t t1 d i w, F t d -> ext t t1 -> (binds t1 d i w <-> binds t d i w).
Proof.
  intros t t1 d i w A X. split; intros (o & l & H1 & H2 & H3); exists o, l.
  - split; [exact H1|]. split; [exact H2|]. destruct (f_kind t d A (Tr o)) as (x & w' & Q & K); [apply in_map_iff; exists (Tr o, l); auto|].
    injection Q as <-. pose proof (e_kind _ _ X _ _ K). congruence.
  - split; [exact H1|]. split; [exact H2|]. apply (e_kind _ _ X). exact H3.
Qed.
Lemma D_of_T : forall t d, T t -> wf d -> full d -> (forall p, In p (map fst d) -> exists o w, p = Tr o /\ kind t o = Some w /\ alive t o = true) -> D t d.
Proof.
  intros t d HT W Fu H. split; [constructor|].
  - exact W.
  - exact Fu.
  - intros p Hp. destruct (H p Hp) as (o & w & E & K & _). eauto.
  - intros o o' c Ko Ko' K K'. destruct (H _ Ko) as (x & w & Q & _ & A). injection Q as <-. destruct (H _ Ko') as (x' & w' & Q' & _ & A'). injection Q' as <-.
    pose proof (t_class t HT o c A K). pose proof (t_class t HT o' c A' K'). congruence.
  - intros o Ko. destruct (H _ Ko) as (x & w & Q & _ & A). injection Q as <-. exact A.
Qed.
Lemma D_key : forall t d p, D t d -> In p (map fst d) -> exists o w, p = Tr o /\ kind t o = Some w /\ alive t o = true.
Proof. intros t d p [A B] Hp. destruct (f_kind t d A p Hp) as (o & w & -> & K). exists o, w. auto. Qed.

(** The effects on one dict. *)
Lemma D_strip : forall t d ix, T t -> D t d -> D t (strip d ix) /\ forall i v, binds t (strip d ix) i v <-> binds t d i v /\ ~ In i ix.
Proof.
  intros t d ix HT HD. pose proof HD as [[A B C E] Al]. destruct (strip_ok d ix A B) as (H1 & H2 & H3 & H4). split.
  - apply D_of_T; auto. intros p Hp. eapply D_key; eauto.
  - intros i v. rewrite !binds_lk by (try apply H1; apply A). split.
    + intros (o & H & K). apply H4 in H. destruct H as [H5 H6]. split; [exists o; auto | exact H6].
    + intros [(o & H & K) N]. exists o. split; [apply H4; auto | exact K].
Qed.
Lemma D_add : forall t d o w ix, T t -> D t d -> ix <> [] -> kind t o = Some w -> alive t o = true ->
  D t (add Root d (Tr o) ix) /\ forall i v, binds t (add Root d (Tr o) ix) i v <-> binds t d i v \/ (In i ix /\ v = w).
Proof.
  intros t d o w ix HT HD Hx K Al. pose proof HD as [[A B C E] Ad]. change (add Root d (Tr o) ix) with (root_add d (Tr o) ix).
  pose proof (root_add_wf d (Tr o) ix A) as W. split.
  - apply D_of_T; auto; [apply full_add; auto; apply A|]. intros p Hp. apply keys_add in Hp. destruct Hp as [->|Hp]; [exists o, w; auto | eapply D_key; eauto].
  - intros i v. rewrite !binds_lk by (try apply W; apply A). split.
    + intros (x & H & Kx). rewrite root_add_lk in H. destruct (prop_eqb (Tr x) (Tr o)) eqn:Q.
      * apply prop_eqb_eq in Q. injection Q as ->. apply union1d_In in H. destruct H as [H|H]; [left; exists o; auto | right; split; [exact H | congruence]].
      * left. exists x. auto.
    + intros [(x & H & Kx)|[H ->]].
      * exists x. split; [|exact Kx]. rewrite root_add_lk. destruct (prop_eqb (Tr x) (Tr o)) eqn:Q; [|exact H].
        apply prop_eqb_eq in Q. injection Q as ->. apply union1d_In. auto.
      * exists o. split; [|exact K]. rewrite root_add_lk, prop_eqb_refl. apply union1d_In. auto.
Qed.
Lemma D_remove : forall t d o w ix, T t -> D t d -> kind t o = Some w ->
  D t (snd (remove Root d (Tr o) ix)) /\
  (forall i v, binds t (snd (remove Root d (Tr o) ix)) i v -> binds t d i v) /\
  (forall i v, binds t d i v -> ~ In i ix \/ v <> w -> binds t (snd (remove Root d (Tr o) ix)) i v) /\
  ((forall x, alive t x = true -> kind t x = Some w -> x = o) -> forall i, binds t (snd (remove Root d (Tr o) ix)) i w -> ~ In i ix).
Proof.
  intros t d o w ix HT HD K. pose proof HD as [[A B C E] Ad]. change (snd (remove Root d (Tr o) ix)) with (snd (root_remove d (Tr o) ix)).
  pose proof (root_remove_wf d (Tr o) ix A) as W. pose proof (full_remove d (Tr o) ix B) as Fu. pose proof (fun q => root_remove_lk d (Tr o) ix q A) as L.
  split; [|split; [|split]].
  - apply D_of_T; auto. intros p Hp. apply keys_remove in Hp. eapply D_key; eauto.
  - intros i v. rewrite !binds_lk by (try apply W; apply A). intros (x & H & Kx). exists x. split; [|exact Kx]. rewrite L in H.
    destruct (prop_eqb (Tr x) (Tr o)) eqn:Q; [|exact H]. apply prop_eqb_eq in Q. injection Q as ->. apply setdiff1d_In in H. apply H.
  - intros i v. rewrite !binds_lk by (try apply W; apply A). intros (x & H & Kx) N. exists x. split; [|exact Kx]. rewrite L.
    destruct (prop_eqb (Tr x) (Tr o)) eqn:Q; [|exact H]. apply prop_eqb_eq in Q. injection Q as ->. apply setdiff1d_In. split; [exact H|].
    destruct N as [N|N]; [exact N | congruence].
  - intros U i. rewrite binds_lk by apply W. intros (x & H & Kx). rewrite L in H.
    assert (x = o) as ->.
    { apply U; [|exact Kx]. apply Ad. apply (key_lk d x (proj1 A) B). destruct (prop_eqb (Tr x) (Tr o)) eqn:Q; [|exists i; exact H].
      apply prop_eqb_eq in Q. injection Q as ->. apply setdiff1d_In in H. exists i. apply H. }
    rewrite prop_eqb_refl in H. apply setdiff1d_In in H. apply H.
Qed.
