(** Proofs about cached methods: switches, executions, hits, binding of arguments. *)
From Coq Require Import List ZArith NArith Bool Lia Permutation.
From Verif Require Import CachingModel CachingSpec CachingProofs CachingProofs2 CachingFinal MethModel MethSpec MethProofs MethProofs2.
Import ListNotations.

(** ** One cacher. *)
Section One.
Variables C V E : Type.
Variable F : list C -> list (nat * C) -> V + E.

Lemma queue_off : forall l lim ig fo (w : world C) (c : cacher V) eq, (fst eq = false -> snd eq = []) ->
  fst (queue F lim ig fo w c eq l) = false -> snd (queue F lim ig fo w c eq l) = [].
Proof.
  induction l as [|e l IH]; intros lim ig fo w c eq H; cbn [queue]; [exact H|].
  apply IH. clear IH. destruct eq as [en q]. destruct e; simpl in *; auto; try discriminate.
  intros ->. unfold queue_call. simpl. apply H. reflexivity.
Qed.
Lemma reached_off : forall sg w c, reached F sg w c -> enabled c = false -> forall ins, ~ retains c ins.
Proof.
  intros sg w c R He ins Hr. pose proof (reached_inv _ _ _ _ _ _ _ R) as H.
  destruct R as (lim & ig & fo & en & x & ol & l & R1 & R2 & R3 & R4 & R5 & R6).
  pose proof (inv_new C V E F sg lim ig fo en x ol R1 R2 R3) as H0.
  pose proof (history_queue C V E F sg l _ _ (en, []) H0 R4 ltac:(split; reflexivity)) as Q.
  rewrite R5 in Q. apply (retains_queue C V E F sg w c _ ins H Q) in Hr.
  rewrite queue_off in Hr; [exact Hr | reflexivity |]. rewrite <- (proj1 Q). exact He.
Qed.
Lemma qrel_exists : forall sg w c, inv C V E F sg w c -> exists q, qrel V c (enabled c, q).
Proof.
  intros sg w c H.
  assert (G : forall l, (forall k, In k l -> c_in c k <> None) -> exists q, map (c_in c) l = map Some q).
  { induction l as [|k l IH]; intros Hl; [exists []; reflexivity|].
    destruct IH as [q Hq]; [intros; apply Hl; right; assumption|].
    destruct (c_in c k) as [i|] eqn:Hk; [|exfalso; eapply Hl; [left; reflexivity | exact Hk]].
    exists (i :: q). simpl. rewrite Hk, Hq. reflexivity. }
  destruct (G (order c)) as [q Hq]; [intros k Hk; apply (i_in _ _ _ _ _ _ _ H); exact Hk|].
  exists q. split; [reflexivity | exact Hq].
Qed.
Lemma again_hit : forall sg w c args kw v, reached F sg w c ->
  has_sig sg args kw -> Forall (fun o => live w o = true) (args ++ map snd kw) ->
  enabled c = true -> cacheable w (force c) kw (combine_inputs (ignore c) args kw) = true ->
  operate F w args kw = inl v ->
  let s1 := call F w c args kw in begin_call (snd (fst s1)) (snd s1) args kw = Hit v.
Proof.
  intros sg w c args kw v R Hs Hl He Hc Ho s1. pose proof (reached_inv _ _ _ _ _ _ _ R) as H.
  destruct (call_spec C V E F sg w c args kw H Hs Hl) as (w' & c' & Hcall & Hro & H' & (Hsl & Hsi & Hsf & Hse)).
  assert (Hec : enabled c && cacheable w (force c) kw (combine_inputs (ignore c) args kw) = true) by (rewrite He, Hc; reflexivity).
  assert (Hf : fresh_entry C V w' c' (combine_inputs (ignore c) args kw)).
  { pose proof (call_fresh C V E F sg w c args kw (combine_inputs (ignore c) args kw) H Hs Hl) as G. cbv zeta in G.
    rewrite Hcall in G. apply G. right. auto. }
  assert (Hr : retains c' (combine_inputs (ignore c) args kw)).
  { destruct (qrel_exists sg w c H) as [q Q].
    pose proof (call_queue C V E F sg w c args kw _ H Hs Hl Q) as Q1. cbv zeta in Q1. rewrite Hcall in Q1. cbn [fst snd] in Q1.
    apply (retains_queue C V E F sg w' c' _ _ H' Q1). cbn [snd]. unfold queue_call. rewrite Hec, Ho.
    destruct (in_dec ins_dec _ q) as [Hi|_]; [exact Hi|]. unfold push.
    destruct (Z.eqb _ _); apply in_or_app; right; left; reflexivity. }
  unfold s1. rewrite Hcall. cbn [fst snd].
  assert (Hl' : Forall (fun o => live w' o = true) (args ++ map snd kw)) by (rewrite Hro; exact Hl).
  assert (Hca' : cacheable w' (force c') kw (combine_inputs (ignore c') args kw) = true).
  { rewrite Hsf, Hsi, Hro. exact Hc. }
  destruct (hit_no_run C V E F sg w' c' args kw H' Hs Hl') as (v' & Hc' & Ho').
  { rewrite Hse, He. exact Hca'. }
  { rewrite Hsi. exact Hf. }
  { rewrite Hsi. exact Hr. }
  assert (v' = v).
  { assert (Ho2 : operate F w' args kw = operate F w args kw) by (rewrite Hro; reflexivity). congruence. }
  subst v'. pose proof (begin_call_spec C V E F sg w' c' args kw H' Hs Hl') as Hb. cbv zeta in Hb.
  pose proof (begin_not_bypass C V w' c' args kw) as Hnb.
  assert (Hen' : enabled c' && cacheable w' (force c') kw (combine_inputs (ignore c') args kw) = true) by (rewrite Hse, He; exact Hca').
  specialize (Hnb Hen'). destruct (begin_call w' c' args kw) as [|v1| |p] eqn:Hbc.
  - congruence.
  - destruct Hb as (_ & _ & _ & Hop). congruence.
  - destruct Hb.
  - exfalso. destruct Hb as (_ & _ & _ & Hch).
    destruct Hr as [k Hk]. pose proof (Hf k Hk) as Hfk.
    destruct (i_entry _ _ _ _ _ _ _ H' _ _ Hk) as [Hke _]. rewrite Hke, <- Hsi in Hfk.
    destruct (p_changed p); congruence.
Qed.
End One.

(** ** Binding. *)
Lemma kwget_in : forall kw x o, NoDup (map fst kw) -> (kwget kw x = Some o <-> In (x, o) kw).
Proof.
  induction kw as [|[y p] kw IH]; intros x o Hn; cbn [kwget]; [split; [discriminate | intros []]|].
  inversion Hn as [|? ? Hy Hn']; subst. destruct (Nat.eqb_spec x y) as [->|Hne].
  - split; [intros [= ->]; left; reflexivity|]. intros [[= ->]|Hin]; [reflexivity|].
    exfalso. apply Hy. apply (in_map fst) in Hin. exact Hin.
  - rewrite IH by assumption. split; [intros Hin; right; exact Hin|]. intros [Hq|Hin]; [injection Hq as Hq _; congruence | exact Hin].
Qed.
Lemma kwget_none : forall kw x, kwget kw x = None <-> ~ In x (map fst kw).
Proof.
  induction kw as [|[y p] kw IH]; intros x; cbn [kwget]; [simpl; tauto|].
  destruct (Nat.eqb_spec x y) as [->|Hne].
  - simpl. split; [discriminate | tauto].
  - rewrite IH. simpl. intuition congruence.
Qed.
Lemma bind_iff : forall ps args kw a, NoDup (map fst kw) ->
  (bind ps args kw = Some a <->
   length a = length ps /\ length args <= length ps /\
   forall i x d, nth_error ps i = Some (x, d) ->
    match nth_error args i with
    | Some o => nth_error a i = Some o /\ ~ In x (map fst kw)
    | None => exists o, nth_error a i = Some o /\ (In (x, o) kw \/ ~ In x (map fst kw) /\ d = Some o)
    end).
Proof.
  intros ps args kw a Hn. revert args a. induction ps as [|[x d] ps IH]; intros [|b args] a; cbn [bind].
  - split.
    + intros [= <-]. split; [reflexivity|]. split; [auto|]. intros [|i] y e Hi; discriminate.
    + intros [Ha _]. destruct a; [reflexivity | discriminate].
  - split; [discriminate|]. intros (_ & Hl & _). simpl in Hl. lia.
  - (* no argument left *)
    assert (Hstep : forall o, (option_map (cons o) (bind ps [] kw) = Some a <->
       exists a', a = o :: a' /\ bind ps [] kw = Some a')).
    { intros o. destruct (bind ps [] kw) as [a'|]; simpl.
      - split; [intros [= <-]; eauto | intros (a2 & -> & [= ->]); reflexivity].
      - split; [discriminate | intros (a2 & _ & ?); discriminate]. }
    assert (Hback : forall o a', bind ps [] kw = Some a' ->
       (In (x, o) kw \/ ~ In x (map fst kw) /\ d = Some o) ->
       length (o :: a') = length ((x, d) :: ps) /\ length (@nil nat) <= length ((x, d) :: ps) /\
       forall i x0 d0, nth_error ((x, d) :: ps) i = Some (x0, d0) ->
       match nth_error (@nil nat) i with
       | Some o1 => nth_error (o :: a') i = Some o1 /\ ~ In x0 (map fst kw)
       | None => exists o1, nth_error (o :: a') i = Some o1 /\ (In (x0, o1) kw \/ ~ In x0 (map fst kw) /\ d0 = Some o1)
       end).
    { intros o a' Hb Ho. apply IH in Hb. destruct Hb as (Hl & _ & Hi). split; [simpl; f_equal; exact Hl|].
      split; [apply Nat.le_0_l|]. intros [|i] x0 d0 Hx.
      - injection Hx as <- <-. exists o. auto.
      - specialize (Hi i x0 d0 Hx). destruct i; exact Hi. }
    assert (Hfor : length a = length ((x, d) :: ps) /\ length (@nil nat) <= length ((x, d) :: ps) /\
       (forall i x0 d0, nth_error ((x, d) :: ps) i = Some (x0, d0) ->
       match nth_error (@nil nat) i with
       | Some o1 => nth_error a i = Some o1 /\ ~ In x0 (map fst kw)
       | None => exists o1, nth_error a i = Some o1 /\ (In (x0, o1) kw \/ ~ In x0 (map fst kw) /\ d0 = Some o1)
       end) -> exists o a', a = o :: a' /\ bind ps [] kw = Some a' /\ (In (x, o) kw \/ ~ In x (map fst kw) /\ d = Some o)).
    { intros (Hl & _ & Hi). destruct a as [|o a']; [discriminate|]. exists o, a'. split; [reflexivity|]. split.
      - apply IH. split; [injection Hl as Hl; exact Hl|]. split; [simpl; apply Nat.le_0_l|]. intros i x0 d0 Hx.
        specialize (Hi (S i) x0 d0 Hx). destruct i; exact Hi.
      - destruct (Hi 0 x d eq_refl) as (o1 & [= <-] & Ho). exact Ho. }
    destruct (kwget kw x) as [o|] eqn:Hk.
    + pose proof Hk as Hk'. apply kwget_in in Hk'; [|exact Hn]. rewrite Hstep. split.
      * intros (a' & -> & Hb). apply Hback; auto.
      * intros H. destruct (Hfor H) as (o1 & a' & -> & Hb & [Ho|[Ho _]]).
        { apply kwget_in in Ho; [|exact Hn]. exists a'. split; [congruence | exact Hb]. }
        { exfalso. apply Ho. apply (in_map fst) in Hk'. exact Hk'. }
    + pose proof Hk as Hk'. apply kwget_none in Hk'. destruct d as [o|].
      * rewrite Hstep. split.
        { intros (a' & -> & Hb). apply Hback; auto. }
        { intros H. destruct (Hfor H) as (o1 & a' & -> & Hb & [Ho|[_ [= ->]]]).
          - exfalso. apply Hk'. apply (in_map fst) in Ho. exact Ho.
          - exists a'. auto. }
      * split; [discriminate|]. intros H. destruct (Hfor H) as (o1 & a' & -> & Hb & [Ho|[_ Ho]]); [|discriminate].
        exfalso. apply Hk'. apply (in_map fst) in Ho. exact Ho.
  - destruct (kwget kw x) as [o|] eqn:Hk.
    + split; [discriminate|]. intros (_ & _ & Hi). specialize (Hi 0 x d eq_refl). simpl in Hi.
      destruct Hi as [_ Hi]. exfalso. apply Hi. apply kwget_in in Hk; [|exact Hn]. apply (in_map fst) in Hk. exact Hk.
    + apply kwget_none in Hk. split.
      * intros H. destruct (bind ps args kw) as [a'|] eqn:Hb; [|discriminate]. injection H as <-.
        apply IH in Hb. destruct Hb as (Hl & Hl2 & Hi). split; [simpl; f_equal; exact Hl|]. split; [apply le_n_S; exact Hl2|].
        intros [|i] x0 d0 Hx; [injection Hx as <- <-; simpl; auto | exact (Hi i x0 d0 Hx)].
      * intros (Hl & Hl2 & Hi). destruct a as [|o a']; [discriminate|].
        assert (Hb : bind ps args kw = Some a').
        { apply IH. split; [injection Hl as Hl; exact Hl|]. split; [apply le_S_n; exact Hl2|]. intros i x0 d0 Hx. exact (Hi (S i) x0 d0 Hx). }
        rewrite Hb. destruct (Hi 0 x d eq_refl) as [[= ->] _]. reflexivity.
Qed.
Lemma bound_args_iff : forall ps args kw a, NoDup (map fst kw) ->
  (bound_args ps args kw = Some a <-> binds ps args kw a).
Proof.
  intros ps args kw a Hn. unfold bound_args, binds.
  assert (Hk : known ps kw = true <-> forall x o, In (x, o) kw -> In x (map fst ps)).
  { unfold known. rewrite forallb_forall. split.
    - intros H x o Hin. specialize (H _ Hin). apply existsb_exists in H. destruct H as (y & Hy & He).
      apply Nat.eqb_eq in He. simpl in He. subst. exact Hy.
    - intros H [x o] Hin. apply existsb_exists. exists x. split; [eapply H; exact Hin | apply Nat.eqb_refl]. }
  destruct (known ps kw).
  - rewrite (bind_iff ps args kw a Hn). split.
    + intros (H1 & H2 & H3). split; [exact H1|]. split; [exact H2|]. split; [apply Hk; reflexivity | exact H3].
    + intros (H1 & H2 & _ & H3). auto.
  - split; [discriminate|]. intros (_ & _ & H & _). apply Hk in H. discriminate.
Qed.
