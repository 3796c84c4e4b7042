(** The last steps to the theorems about names. *)
From Coq Require Import List NArith Bool String Ascii Arith Lia.
From Verif Require Import NamesModel NamesSpec NamesProofs NamesUnique NamesHalt.
Import ListNotations.
Open Scope list_scope.

Lemma each_distinct : forall f l s, distinct s -> incl l (kids s) -> nm (fst (each (add_name f) l s)) = nm s.
Proof.
  intros f. induction l as [|p l IHl]; intros s D Hl; [reflexivity|]. rewrite each_cons.
  assert (A : alone s p) by (apply distinct_alone; auto; apply Hl; left; auto).
  destruct (add_alone f p s A) as [(e & ->)|(s1 & -> & M & _)]; [reflexivity|].
  rewrite IHl.
  - destruct M as (_ & E & _). auto.
  - eapply more_distinct; eauto.
  - destruct M as (E & _). intros q Hq. rewrite E. apply Hl. right; auto.
Qed.
Lemma connect_distinct : forall f s, distinct s -> nm (fst (connect f s)) = nm s.
Proof. intros. apply each_distinct; auto using incl_refl. Qed.
Lemma unlink_distinct : forall f p s, distinct s -> nm (fst (unlink f p s)) = nm s.
Proof.
  intros f p s D. unfold unlink. destruct (negb (existsb (Nat.eqb p) (kids s))); auto.
  destruct (adjust (nm s p)); auto. rewrite connect_distinct; auto.
  intros a b Ha Hb. cbn in Ha, Hb. apply filter_In in Ha, Hb. apply D; tauto.
Qed.
Lemma unlink_incl : forall f p s q, In q (kids (fst (unlink f p s))) -> In q (kids s).
Proof.
  intros f p s q. unfold unlink. destruct (negb (existsb (Nat.eqb p) (kids s))); auto.
  assert (H : In q (filter (fun q => negb (Nat.eqb q p)) (kids s)) -> In q (kids s)) by (rewrite filter_In; tauto).
  destruct (adjust (nm s p)) as [old|]; auto.
  pose proof (connect_good f (drop_attr (set_kids s (filter (fun q => negb (Nat.eqb q p)) (kids s))) old)) as (K & _).
  rewrite K. auto.
Qed.
Lemma insert_distinct : forall f top p k s, distinct_among s (p :: kids s) -> nm (fst (insert f top p k s)) = nm s.
Proof.
  intros f top p k s D. unfold insert. destruct top; auto. rewrite connect_distinct; auto.
  assert (H : forall a, In a (firstn k (kids s) ++ p :: skipn k (kids s)) -> In a (p :: kids s)).
  { intros a Ha. apply in_app_or in Ha as [Ha|[Ha|Ha]].
    - right. rewrite <- (firstn_skipn k (kids s)). apply in_or_app; auto.
    - left; auto.
    - right. rewrite <- (firstn_skipn k (kids s)). apply in_or_app; auto. }
  intros a b Ha Hb. cbn in Ha, Hb. apply D; auto.
Qed.

Lemma only_conflicts : forall f o s, 
  (forall a b, In a (subject o :: kids s) -> In b (subject o :: kids s) -> a <> b -> wanted o s a <> wanted o s b) ->
  forall q, nm (fst (nrun f o s)) q = wanted o s q.
Proof.
  intros f [top p k|p|p n] s H q; cbn [nrun subject wanted] in *.
  - unfold link. destruct (existsb (Nat.eqb p) (kids s)) eqn:E.
    + destruct k as [k|]; auto.
      assert (D : distinct s). { intros a b Ha Hb. apply H; right; auto. }
      pose proof (unlink_distinct f p s D) as U. pose proof (unlink_incl f p s) as UI.
      destruct (unlink f p s) as [s1 [e|]]; cbn [fst] in *; [rewrite U; auto|].
      rewrite insert_distinct, U; auto. intros a b Ha Hb. rewrite U. apply H.
      * destruct Ha as [Ha|Ha]; [left; auto|right; auto].
      * destruct Hb as [Hb|Hb]; [left; auto|right; auto].
    + rewrite insert_distinct; auto.
  - rewrite unlink_distinct; auto. intros a b Ha Hb. apply H; right; auto.
  - destruct (existsb (Nat.eqb p) (kids s)) eqn:E; [|reflexivity]. unfold rename.
    destruct (adjust (nm s p)) as [old|]; [|reflexivity].
    set (t := drop_attr (set_nm s p n) old).
    assert (D : distinct t). { intros a b Ha Hb Nab. cbn. apply H; auto; right; auto. }
    pose proof (connect_distinct f t D) as C. pose proof (connect_good f t) as (K & _).
    destruct (connect f t) as [s2 [e|]]; cbn [fst] in *; [rewrite C; reflexivity|].
    assert (D2 : distinct s2). { intros a b Ha Hb Nab. rewrite C. rewrite K in Ha, Hb. apply D; auto. }
    assert (A2 : alone s2 p). { apply distinct_alone; auto. rewrite K. apply existsb_in in E. auto. }
    destruct (add_alone f p s2 A2) as [(x & ->)|(s3 & -> & (_ & E3 & _) & _)]; cbn [fst]; [|rewrite E3]; rewrite C; reflexivity.
Qed.
Lemma earlier_keep : forall f p k s q, distinct s -> ~ In p (kids s) -> In q (firstn k (kids s)) ->
  nm (fst (link f true p (Some k) s)) q = nm s q.
Proof.
  intros f p k s q D N1 Hq. unfold link.
  destruct (existsb (Nat.eqb p) (kids s)) eqn:E; [apply existsb_in in E; contradiction|].
  unfold insert. rewrite (connect_keeps f (set_kids s (firstn k (kids s) ++ p :: skipn k (kids s))) (firstn k (kids s)) (p :: skipn k (kids s)) eq_refl); auto.
  assert (H : forall a, In a (firstn k (kids s)) -> In a (kids s)).
  { intros a Ha. rewrite <- (firstn_skipn k (kids s)). apply in_or_app; auto. }
  intros a b Ha Hb. apply D; auto.
Qed.
Lemma others_keep : forall f p s q, distinct s -> ~ In p (kids s) -> In q (kids s) ->
  nm (fst (link f true p None s)) q = nm s q.
Proof.
  intros f p s q D N1 Hq. pose proof (earlier_keep f p (List.length (kids s)) s q D N1) as H.
  rewrite firstn_all in H. rewrite <- (H Hq). unfold link.
  destruct (existsb (Nat.eqb p) (kids s)) eqn:E; [apply existsb_in in E; contradiction|reflexivity].
Qed.
Lemma comes_to_an_end : forall s o, history s -> exists n, forall f, n <= f -> snd (nrun f o s) <> Some RecursionError.
Proof.
  intros s o H. exists (S (room (S (List.length (kids s))))). intros f Hf. apply nrun_fine; auto. apply history_nodup; auto.
Qed.
(** A child is reached by its printing form when no other child shares it. *)
Lemma reached : forall s f o s', history s -> connects o s -> nrun f o s = (s', None) ->
  forall p n, In p (kids s') -> adjust (nm s' p) = Some n -> reserved s' n = false ->
  (forall q, In q (kids s') -> adjust (nm s' q) = Some n -> q = p) -> attribute s' n p.
Proof.
  intros s f o s' H C E p n Ip A R U. destruct (attributes_complete s f o s' H C E p n Ip A R) as (q & At & I1 & A1).
  rewrite <- (U q I1 A1). auto.
Qed.
