(** Proofs about the lifetime of observers. *)
From Coq Require Import List Bool Arith Lia.
From Verif Require Import GcModel GcSpec.
Import ListNotations.

(** What can be reached is alive, and no freed object is reachable. *)
Definition sane (s : heap) : Prop := forall x, freed s x = true -> ~ reachable s x.
Lemma reach_mono : forall s s', (forall x, held s' x = true -> reachable s x) -> (forall x y, In (x, y) (refs s') -> reachable s x -> reachable s y) ->
  (forall x e y, In e (poc s' x) -> bound e = Some y -> reachable s x -> reachable s y) -> forall x, reachable s' x -> reachable s x.
Proof. intros s s' A B C x R. induction R; eauto. Qed.
Lemma in_flush : forall s l e, In e (flush s l) <-> In e l /\ freed s (obs e) = false.
Proof. intros s l e. unfold flush. rewrite filter_In, negb_true_iff. reflexivity. Qed.
Lemma reach_step : forall a s, allowed s a -> forall x, reachable (fst (step a s)) x -> reachable s x.
Proof.
  intros a s L. apply reach_mono.
  - intros x. destruct a; cbn; intros H; try (apply re_held; auto; fail).
    + apply orb_true_iff in H as [H|H]; [apply Nat.eqb_eq in H as ->; exact L | apply re_held; auto].
    + apply andb_true_iff in H as [_ H]. apply re_held; auto.
  - intros x y. destruct a; cbn; intros H R; try (eapply re_ref; eauto; fail).
    + destruct H as [H|H]; [injection H as -> ->; apply L | eapply re_ref; eauto].
    + apply filter_In in H as [H _]. eapply re_ref; eauto.
  - intros x e y. destruct a; cbn [step fst poc set_poc]; intros H B R; try (eapply re_bound; eauto; fail).
    + destruct (Nat.eqb_spec x x0); [subst x0|eapply re_bound; eauto]. apply in_app_or in H as [H|[H|[]]].
      * apply in_flush in H as [H _]. eapply re_bound; eauto.
      * subst e. cbn in B. subst. apply L.
    + destruct (Nat.eqb_spec x x0); [subst x0|eapply re_bound; eauto]. apply filter_In in H as [H _]. apply in_flush in H as [H _]. eapply re_bound; eauto.
    + destruct (Nat.eqb_spec x x0); [subst x0|eapply re_bound; eauto]. apply in_flush in H as [H _]. eapply re_bound; eauto.
Qed.
Lemma sane_step : forall a s, sane s -> allowed s a -> sane (fst (step a s)).
Proof.
  intros a s H L x F R. pose proof (reach_step a s L x R) as R0. destruct a; cbn [step fst freed set_poc] in F; try (apply (H x F R0)).
  apply orb_true_iff in F as [F|F]; [apply Nat.eqb_eq in F as ->; exact (L R0) | apply (H x F R0)].
Qed.
Lemma sane_steps : forall l s, sane s -> program l s -> sane (fst (steps l s)).
Proof.
  induction l as [|a l IH]; intros s H P; auto. cbn [program steps] in *. destruct P as [L P]. pose proof (sane_step a s H L) as H1. destruct (step a s) as [s1 c1]. cbn [fst] in *.
  specialize (IH s1 H1 P). destruct (steps l s1) as [s2 c2]. exact IH.
Qed.
Lemma reach_steps : forall l s, program l s -> forall x, reachable (fst (steps l s)) x -> reachable s x.
Proof.
  induction l as [|a l IH]; intros s P x R; auto. cbn [program steps] in *. destruct P as [L P]. apply (reach_step a s L). destruct (step a s) as [s1 c1]. cbn [fst] in *.
  apply IH; auto. destruct (steps l s1) as [s2 c2]. exact R.
Qed.
Lemma sane_start : sane start.
Proof. intros x F. discriminate. Qed.

Lemma reached_sane : forall s, reached s -> sane s.
Proof. intros s (l & P & ->). apply sane_steps; auto. apply sane_start. Qed.

(** ** Bound callbacks *)
Lemma stays_step : forall a s x o c, sane s -> allowed s a -> reachable (fst (step a s)) x -> a <> Remove x o -> In (mkE o c (Some o)) (poc s x) -> In (mkE o c (Some o)) (poc (fst (step a s)) x).
Proof.
  intros a s x o c H L R N Hi. assert (Ro : reachable s o) by (eapply re_bound; [apply (reach_step a s L); exact R | exact Hi | reflexivity]).
  assert (Fo : freed s o = false) by (destruct (freed s o) eqn:F; auto; destruct (H o F Ro)).
  destruct a; cbn [step fst poc set_poc]; auto; destruct (Nat.eqb_spec x x0); auto; subst x0.
  - apply in_or_app. left. apply in_flush. auto.
  - apply filter_In. split; [apply in_flush; auto|]. apply negb_true_iff, Nat.eqb_neq. cbn. intros ->. auto.
  - apply in_flush. auto.
Qed.
Lemma stays_steps : forall l s x o c, sane s -> program l s -> reachable (fst (steps l s)) x -> keeps x o l -> In (mkE o c (Some o)) (poc s x) -> In (mkE o c (Some o)) (poc (fst (steps l s)) x).
Proof.
  induction l as [|a l IH]; intros s x o c H P R K Hi; auto. cbn [program steps] in *. destruct P as [L P].
  assert (R1 : reachable (fst (step a s)) x). { apply (reach_steps l _ P). destruct (step a s) as [s1 c1]. cbn [fst] in *. destruct (steps l s1). exact R. }
  assert (H1 : sane (fst (step a s))) by (apply sane_step; auto).
  assert (I1 : In (mkE o c (Some o)) (poc (fst (step a s)) x)) by (apply stays_step; auto; intros ->; apply K; left; auto).
  destruct (step a s) as [s1 c1]. cbn [fst] in *. specialize (IH s1 x o c H1 P). destruct (steps l s1) as [s2 c2]. cbn [fst] in *. apply IH; auto. intros Hk. apply K. right. auto.
Qed.
Lemma bound_final : forall s l x o c, reached s -> program (Add x o c (Some o) :: l) s -> keeps x o l ->
  let s' := fst (steps (Add x o c (Some o) :: l) s) in reachable s' x ->
  reachable s' o /\ freed s' o = false /\ 1 <= count o c (snd (step (Notify x) s')).
Proof.
  intros s l x o c Rs P K s' R. assert (H0 : sane s) by (apply reached_sane; auto).
  assert (Hs : sane s') by (apply sane_steps; auto). unfold s' in *. clear s'. cbn [program steps] in *. destruct P as [L P].
  set (s1 := fst (step (Add x o c (Some o)) s)) in *. assert (E1 : step (Add x o c (Some o)) s = (s1, [])) by reflexivity. rewrite E1 in *.
  assert (H1 : sane s1) by (apply (sane_step _ _ H0 L)).
  assert (I1 : In (mkE o c (Some o)) (poc s1 x)). { unfold s1. cbn [step fst poc set_poc]. rewrite Nat.eqb_refl. apply in_or_app. right. left. auto. }
  pose proof (stays_steps l s1 x o c H1 P) as St. destruct (steps l s1) as [s2 c2]. cbn [fst] in *. specialize (St R K I1).
  assert (Ro : reachable s2 o) by (eapply re_bound; eauto; reflexivity). assert (Fo : freed s2 o = false) by (destruct (freed s2 o) eqn:F; auto; destruct (Hs o F Ro)).
  split; auto. split; auto. cbn [step snd]. unfold count.
  assert (I2 : In (o, c) (filter (fun p : nat * nat => Nat.eqb (fst p) o && Nat.eqb (snd p) c) (map (fun e => (obs e, cb e)) (flush s2 (poc s2 x))))).
  { apply filter_In. cbn [fst snd]. rewrite !Nat.eqb_refl. split; auto. apply in_map_iff. exists (mkE o c (Some o)). split; auto. apply in_flush. auto. }
  destruct (filter _ _); [destruct I2 | cbn; lia].
Qed.
(** ** Unbound callbacks *)
Lemma unbound_final : forall s x o c y, reachable (fst (step (Add x o c None) s)) y -> reachable s y.
Proof.
  intros s x o c. apply reach_mono.
  - intros z H. apply re_held. exact H.
  - intros z y H R. eapply re_ref; eauto.
  - intros z e y. cbn [step fst poc set_poc]. intros H B R. destruct (Nat.eqb_spec z x); [subst z|eapply re_bound; eauto]. apply in_app_or in H as [H|[H|[]]].
    + apply in_flush in H as [H _]. eapply re_bound; eauto.
    + subst e. discriminate.
Qed.
Lemma freed_stays : forall l s o, freed s o = true -> freed (fst (steps l s)) o = true.
Proof.
  induction l as [|a l IH]; intros s o F; auto. cbn [steps]. assert (F1 : freed (fst (step a s)) o = true) by (destruct a; cbn; rewrite ?F, ?orb_true_r; auto).
  destruct (step a s) as [s1 c1]. cbn [fst] in *. specialize (IH s1 o F1). destruct (steps l s1). exact IH.
Qed.
Lemma silent_step : forall a s o c, freed s o = true -> count o c (snd (step a s)) = 0.
Proof.
  intros a s o c F. destruct a; auto. cbn [step snd]. unfold count, flush. induction (poc s x) as [|e l IH]; auto. cbn [filter]. destruct (freed s (obs e)) eqn:Fe; cbn [negb]; auto.
  cbn [map filter fst snd]. destruct (Nat.eqb_spec (obs e) o); [congruence|]. cbn [andb]. auto.
Qed.
Lemma freed_final : forall l s o c, freed s o = true -> count o c (snd (steps l s)) = 0.
Proof.
  induction l as [|a l IH]; intros s o c F; auto. cbn [steps]. pose proof (silent_step a s o c F) as S1.
  pose proof (freed_stays [a] s o F) as F1. cbn [steps] in F1. destruct (step a s) as [s1 c1]. cbn [fst snd] in *. specialize (IH s1 o c F1). destruct (steps l s1) as [s2 c2]. cbn [snd] in *.
  unfold count in *. rewrite filter_app, app_length. lia.
Qed.
(** An observer that is reached only through a variable and has unbound callbacks can be freed once it is dropped. *)
Lemma dropped : forall s o, (forall x, reachable s x -> ~ In (x, o) (refs s)) -> (forall x e, reachable s x -> In e (poc s x) -> bound e <> Some o) ->
  ~ reachable (fst (step (Drop o) s)) o.
Proof.
  intros s o Hr Hb R. set (s1 := fst (step (Drop o) s)) in *. assert (M : forall x, reachable s1 x -> reachable s x).
  { apply (reach_step (Drop o) s). exact Logic.I. }
  inversion R as [x Hh|x y Rx Hi|x e y Rx Hi B]; subst.
  - cbn in Hh. rewrite Nat.eqb_refl in Hh. discriminate.
  - apply (Hr x); auto.
  - apply (Hb x e); auto.
Qed.

Lemma weak_final : forall s o, (forall x, reachable s x -> ~ In (x, o) (refs s)) -> (forall x e, reachable s x -> In e (poc s x) -> bound e <> Some o) ->
  program [Drop o; Free o] s /\ forall l c, count o c (snd (steps (Drop o :: Free o :: l) s)) = 0.
Proof.
  intros s o Hr Hb. split; [split; [exact Logic.I|]; split; [apply (dropped s o Hr Hb) | exact Logic.I]|].
  intros l c. cbn [steps step]. set (s1 := mkH _ _ _ (fun y => Nat.eqb y o || _ y)). assert (F : freed s1 o = true) by (cbn; rewrite Nat.eqb_refl; auto).
  pose proof (freed_final l s1 o c F) as Q. destruct (steps l s1) as [s2 c2]. exact Q.
Qed.
(** ** Examples *)
Lemma start_reach : forall x, reachable start x.
Proof. intros x. apply re_held. reflexivity. Qed.
Lemma ex_bound : reached start /\ program (Add 0 1 7 (Some 1) :: [Drop 1; Notify 0; Notify 0]) start /\ keeps 0 1 [Drop 1; Notify 0; Notify 0] /\
  (let r := steps (Add 0 1 7 (Some 1) :: [Drop 1; Notify 0; Notify 0]) start in reachable (fst r) 0 /\ count 1 7 (snd r) = 2).
Proof.
  assert (P : program (Add 0 1 7 (Some 1) :: [Drop 1; Notify 0; Notify 0]) start).
  { cbn [program]. split; [split; [apply start_reach | split; apply start_reach]|]. split; [exact Logic.I|]. split; [apply re_held; reflexivity|]. split; [apply re_held; reflexivity | exact Logic.I]. }
  split; [exists []; split; [exact Logic.I | reflexivity]|]. split; [exact P|]. split; [intros [H|[H|[H|[]]]]; discriminate|]. cbv zeta. split; [apply re_held; reflexivity | reflexivity].
Qed.
Lemma ex_weak : (let s := fst (step (Add 0 1 7 None) start) in (forall x, reachable s x -> ~ In (x, 1) (refs s)) /\ (forall x e, reachable s x -> In e (poc s x) -> bound e <> Some 1) /\
  snd (steps [Notify 0; Drop 1; Notify 0; Free 1; Notify 0] s) = [(1, 7); (1, 7)]).
Proof.
  cbv zeta. split; [intros x _ []|]. split; [|reflexivity]. intros x e _. cbn. destruct (Nat.eqb x 0); [|intros []]. intros [<-|[]]. discriminate.
Qed.
(** The program drops its only variable, and there is no attribute: the observer lives on and is called. *)
Lemma dangling_refuted : exists l x o c, program l start /\ (let s := fst (steps l start) in
  held s o = false /\ (forall y, ~ In (y, o) (refs s)) /\ reachable s x /\ reachable s o /\ ~ allowed s (Free o) /\ count o c (snd (step (Notify x) s)) = 1).
Proof.
  exists [Add 0 1 7 (Some 1); Drop 1], 0, 1, 7.
  assert (R : reachable (fst (steps [Add 0 1 7 (Some 1); Drop 1] start)) 1).
  { apply (re_bound _ 0 (mkE 1 7 (Some 1)) 1); [apply re_held; reflexivity | left; reflexivity | reflexivity]. }
  split; [|cbv zeta; split; [reflexivity|]; split; [intros y []|]; split; [apply re_held; reflexivity|]; split; [exact R|]; split; [intros N; exact (N R) | reflexivity]].
  cbn [program]. split; [split; [apply start_reach | split; apply start_reach]|]. split; exact Logic.I.
Qed.
