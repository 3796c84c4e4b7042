(** Removing observers that have an equality of their own: proofs. *)
From Coq Require Import List ZArith Bool Arith Lia.
From Verif Require Import ObserversModel ObserversSpec ObserversProofs OeModel OeSpec.
Import ListNotations.

Section Equality.
Variable eq : nat -> nat -> option bool.

Definition hit (r e : entry) : bool := match same eq r e with Some true => true | _ => false end.
Definition stuck (r e : entry) : bool := match same eq r e with None => true | _ => false end.

Lemma loop_spec : forall n r l, (n <= length l)%nat ->
  (snd (remove_loop_eq eq n r l) = false /\ (forall e, In e (firstn n l) -> stuck r e = false) /\
   fst (remove_loop_eq eq n r l) = filter (fun e => negb (hit r e)) (firstn n l) ++ skipn n l) \/
  (snd (remove_loop_eq eq n r l) = true /\ exists p e q, firstn n l = p ++ e :: q /\ stuck r e = true /\
   fst (remove_loop_eq eq n r l) = (p ++ e :: filter (fun e => negb (hit r e)) q) ++ skipn n l).
Proof.
  induction n as [|i IH]; intros r l H.
  - left. cbn. split; [reflexivity|]. split; [intros e []|reflexivity].
  - cbn [remove_loop_eq]. destruct (nth_error l i) as [e|] eqn:E; [|apply nth_error_None in E; lia].
    pose proof (firstn_S_nth i l e E) as Fe. pose proof (skipn_nth i l e E) as Se. destruct (same eq r e) as [b|] eqn:Sm.
    + assert (St : stuck r e = false) by (unfold stuck; rewrite Sm; reflexivity).
      set (l1 := if b then del_at i l else l).
      assert (L1 : (i <= length l1)%nat).
      { unfold l1. destruct b; [|lia]. rewrite del_at_spec by lia. rewrite app_length, firstn_length. lia. }
      assert (F1 : firstn i l1 = firstn i l).
      { unfold l1. destruct b; [|reflexivity]. rewrite del_at_spec by lia. rewrite firstn_app, firstn_firstn, firstn_length, Nat.min_id.
        replace (i - Nat.min i (length l))%nat with 0%nat by lia. cbn. apply app_nil_r. }
      assert (S1 : skipn i l1 = (if b then [] else [e]) ++ skipn (S i) l).
      { unfold l1. destruct b; [|exact Se]. rewrite del_at_spec by lia. rewrite skipn_app, firstn_length.
        replace (i - Nat.min i (length l))%nat with 0%nat by lia. rewrite skipn_all2 by (rewrite firstn_length; lia). reflexivity. }
      assert (Hb : hit r e = b) by (unfold hit; rewrite Sm; destruct b; reflexivity).
      assert (Tl : filter (fun x => negb (hit r x)) [e] = if b then [] else [e]) by (cbn; rewrite Hb; destruct b; reflexivity).
      destruct (IH r l1 L1) as [(A & B & C)|(A & p & x & q & B & C & D)].
      * left. split; [exact A|]. rewrite Fe. split.
        { intros x Hx. apply in_app_iff in Hx. destruct Hx as [Hx|[<-|[]]]; [apply B; rewrite F1; exact Hx | exact St]. }
        rewrite C, F1, S1, filter_app, Tl, <- app_assoc. reflexivity.
      * right. split; [exact A|]. exists p, x, (q ++ [e]). rewrite Fe, <- F1, B. split; [rewrite <- app_assoc; reflexivity|]. split; [exact C|].
        rewrite D, S1, filter_app, Tl. rewrite <- !app_assoc. cbn [app]. rewrite <- !app_assoc. reflexivity.
    + right. cbn [fst snd]. split; [reflexivity|]. exists (firstn i l), e, []. split; [exact Fe|]. split; [unfold stuck; rewrite Sm; reflexivity|].
      transitivity (firstn i l ++ skipn i l); [symmetry; apply firstn_skipn | rewrite Se, <- app_assoc; reflexivity].
Qed.
Lemma loop_full : forall r l,
  (snd (remove_loop_eq eq (length l) r l) = false /\ (forall e, In e l -> stuck r e = false) /\
   fst (remove_loop_eq eq (length l) r l) = filter (fun e => negb (hit r e)) l) \/
  (snd (remove_loop_eq eq (length l) r l) = true /\ exists p e q, l = p ++ e :: q /\ stuck r e = true /\
   fst (remove_loop_eq eq (length l) r l) = p ++ e :: filter (fun e => negb (hit r e)) q).
Proof.
  intros r l. destruct (loop_spec (length l) r l (le_n _)) as [(A & B & C)|(A & p & x & q & B & C & D)]; rewrite firstn_all in *; rewrite skipn_all, app_nil_r in *.
  - left. auto.
  - right. split; [exact A|]. exists p, x, q. auto.
Qed.

Lemma part_refl {A} (g : A -> Prop) : forall l, part g l l.
Proof. induction l; constructor; auto. Qed.
Lemma part_filter {A} (g : A -> Prop) (f : A -> bool) : forall l, (forall x, In x l -> f x = false -> g x) -> part g l (filter f l).
Proof.
  induction l as [|x l IH]; intros H; cbn; [constructor|]. destruct (f x) eqn:E.
  - constructor. apply IH. intros; apply H; cbn; auto.
  - constructor; [apply H; cbn; auto|]. apply IH. intros; apply H; cbn; auto.
Qed.
Lemma part_app {A} (g : A -> Prop) : forall l l' k k', part g l l' -> part g k k' -> part g (l ++ k) (l' ++ k').
Proof. intros l l' k k' H H'. induction H; cbn; auto; constructor; auto. Qed.
Lemma part_trans {A} (g : A -> Prop) : forall l k m, part g l k -> part g k m -> part g l m.
Proof.
  intros l k m H. revert m. induction H as [|x l k H IH|x l k G H IH]; intros m H'.
  - exact H'.
  - inversion H'; subst; constructor; auto.
  - constructor; auto.
Qed.
Lemma part_in {A} (g : A -> Prop) : forall l k, part g l k -> forall x, In x k -> In x l.
Proof. intros l k H. induction H; intros y Hy; [destruct Hy | destruct Hy as [->|Hy]; cbn; auto | cbn; auto]. Qed.
Lemma part_lost {A} (g : A -> Prop) : forall l k, part g l k -> forall x, In x l -> ~ g x -> In x k.
Proof.
  intros l k H. induction H; intros y Hy N; [destruct Hy | destruct Hy as [->|Hy]; cbn; auto | destruct Hy as [->|Hy]; [contradiction | auto]].
Qed.
Lemma part_of_filter {A} (g : A -> Prop) (f : A -> bool) : forall l k, part g l k -> (forall x, In x k -> f x = true) -> (forall x, g x -> f x = false) ->
  (forall x, In x l -> f x = false -> g x) -> k = filter f l.
Proof.
  intros l k H. induction H; intros H1 H2 H3; cbn.
  - reflexivity.
  - rewrite (H1 x) by (cbn; auto). f_equal. apply IHpart; auto; intros; [apply H1 | apply H3]; cbn; auto.
  - rewrite (H2 x) by assumption. apply IHpart; auto. intros; apply H3; cbn; auto.
Qed.

Lemma ol_spec : forall s r, let s' := fst (ol_remove_eq eq s r) in let b := snd (ol_remove_eq eq s r) in
  alive s' = alive s /\ part (fun e => hit r e = true) (registered s) (registered s') /\
  (b = true <-> exists e, In e (registered s) /\ stuck r e = true) /\
  (b = false -> registered s' = filter (fun e => negb (hit r e)) (registered s)).
Proof.
  intros s r. unfold ol_remove_eq. set (s1 := flush (flush s)).
  assert (L : lists s1 (cur s1) = registered s) by (unfold s1; rewrite flush_poc, registered_flush; reflexivity). rewrite L.
  pose proof (loop_full r (registered s)) as H. destruct (remove_loop_eq eq (length (registered s)) r (registered s)) as [l' b] eqn:E. cbn [fst snd] in *.
  assert (Al : forall e, In e (registered s) -> alive s1 (e_obs e) = true) by (intros e He; exact (registered_alive s e He)).
  assert (P : part (fun e => hit r e = true) (registered s) l').
  { destruct H as [(_ & _ & ->)|(_ & p & x & q & -> & _ & ->)].
    - apply part_filter. intros x _ Hx. apply negb_false_iff in Hx. exact Hx.
    - apply part_app; [apply part_refl|]. constructor. apply part_filter. intros y _ Hy. apply negb_false_iff in Hy. exact Hy. }
  assert (Rg : registered (set_poc s1 l') = l') by (apply registered_set_poc; intros e He; apply Al; eapply part_in; eauto).
  split; [reflexivity|]. rewrite Rg. split; [exact P|]. split.
  - destruct H as [(-> & B & _)|(-> & p & x & q & Q & C & _)].
    + split; [discriminate|]. intros (e & He & St). rewrite (B e He) in St. discriminate.
    + split; [|reflexivity]. intros _. exists x. rewrite Q. split; [apply in_elt | exact C].
  - intros ->. destruct H as [(_ & _ & C)|(Q & _)]; [exact C | discriminate].
Qed.
Lemma part_mono {A} (g g' : A -> Prop) : (forall x, g x -> g' x) -> forall l k, part g l k -> part g' l k.
Proof. intros H l k P. induction P; constructor; auto. Qed.

Lemma all_spec : forall rs s, let s' := fst (ol_remove_all eq s rs) in let b := snd (ol_remove_all eq s rs) in
  alive s' = alive s /\ part (fun e => exists r, In r rs /\ hit r e = true) (registered s) (registered s') /\
  (b = false -> registered s' = filter (fun e => negb (existsb (fun r => hit r e) rs)) (registered s)) /\
  (b = true -> exists r e, In r rs /\ In e (registered s) /\ stuck r e = true) /\
  (b = false -> forall r e, In r rs -> In e (registered s') -> stuck r e = false) /\
  (forall o, (forall r, In r rs -> e_obs r = o) -> b = false -> forall r e, In r rs -> In e (registered s) -> stuck r e = false).
Proof.
  induction rs as [|r rs IH]; intros s; cbn [ol_remove_all].
  - cbn. split; [reflexivity|]. split; [apply part_refl|]. split; [intros _; symmetry; apply filter_all; reflexivity|]. repeat split; intros; contradiction || discriminate.
  - pose proof (ol_spec s r) as H. destruct (ol_remove_eq eq s r) as [s1 b1]. cbn [fst snd] in H. destruct H as (A & P & W & C).
    destruct b1.
    + cbn [fst snd]. split; [exact A|]. split; [eapply part_mono; [|exact P]; intros x Hx; exists r; cbn; auto|]. split; [discriminate|].
      split; [intros _; destruct (proj1 W eq_refl) as (e & He & St); exists r, e; cbn; auto | split; [discriminate | intros o _; discriminate]].
    + specialize (IH s1). destruct (ol_remove_all eq s1 rs) as [s2 b2]. cbn [fst snd] in *. destruct IH as (A2 & P2 & F2 & W2 & N2 & O2). specialize (C eq_refl).
      assert (W1 : forall e, In e (registered s) -> stuck r e = false).
      { intros e He. destruct (stuck r e) eqn:St; [|reflexivity]. assert (false = true) by (apply W; eauto). discriminate. }
      split; [congruence|]. split.
      { eapply part_trans; [eapply part_mono; [|exact P] | eapply part_mono; [|exact P2]].
        - intros x Hx. exists r. cbn; auto.
        - intros x (r' & R1 & R2). exists r'. cbn; auto. }
      split.
      { intros Hb. rewrite (F2 Hb), C, filter_filter. apply filter_ext. intros e. cbn [existsb]. rewrite negb_orb. reflexivity. }
      split.
      { intros Hb. destruct (W2 Hb) as (r' & e & R1 & R2 & R3). exists r', e. split; [cbn; auto|]. split; [eapply part_in; eauto | exact R3]. }
      split.
      { intros Hb r' e [<-|R1] He; [apply W1; eapply part_in; [exact P|]; eapply part_in; [exact P2|]; exact He | apply N2; auto]. }
      intros o Ho Hb r' e [<-|R1] He; [apply W1; exact He|]. destruct (stuck r' e) eqn:St; [|reflexivity]. exfalso.
      assert (In e (registered s1)).
      { rewrite C. apply filter_In. split; [exact He|]. apply negb_true_iff. unfold stuck, same in St. unfold hit, same.
        destruct (prio_eqb (e_prio r') (e_prio e)); [|discriminate]. rewrite (Ho r') in St by (cbn; auto). rewrite (Ho r) by (cbn; auto).
        destruct (eq o (e_obs e)) as [[|]|]; [discriminate | discriminate |]. destruct (prio_eqb (e_prio r) (e_prio e)); reflexivity. }
      assert (Q : stuck r' e = false) by (apply (O2 o); auto; intros; apply Ho; cbn; auto). congruence.
Qed.

Lemma meant_match : forall o c e, rm_match o c e = true <-> meant o c e.
Proof.
  intros o [k|] e; unfold rm_match, meant; [rewrite andb_true_iff, !Nat.eqb_eq; intuition congruence | rewrite Nat.eqb_eq; intuition].
Qed.
Lemma hit_true : forall r e, hit r e = true <-> e_prio r = e_prio e /\ eq (e_obs r) (e_obs e) = Some true /\ e_cb r = e_cb e.
Proof.
  intros r e. unfold hit, same. destruct (prio_eqb (e_prio r) (e_prio e)) eqn:E.
  - apply prio_eqb_eq in E. destruct (eq (e_obs r) (e_obs e)) as [[|]|].
    + destruct (Nat.eqb_spec (e_cb r) (e_cb e)); split; intros; intuition (auto; discriminate || congruence).
    + split; intros; intuition discriminate.
    + split; intros; intuition discriminate.
  - split; [discriminate|]. intros (H & _). apply prio_eqb_eq in H. congruence.
Qed.
Lemma stuck_true : forall r e, stuck r e = true <-> e_prio r = e_prio e /\ eq (e_obs r) (e_obs e) = None.
Proof.
  intros r e. unfold stuck, same. destruct (prio_eqb (e_prio r) (e_prio e)) eqn:E.
  - apply prio_eqb_eq in E. destruct (eq (e_obs r) (e_obs e)) as [[|]|]; split; intros; intuition discriminate.
  - split; [discriminate|]. intros (H & _). apply prio_eqb_eq in H. congruence.
Qed.

(** What [remove_observer] does. *)
Lemma removal : forall s o c, let s' := fst (remove_observer_eq eq s o c) in let b := snd (remove_observer_eq eq s o c) in
  (b = true <-> exists e, in_the_way eq s o c e) /\
  part (looks_meant eq s o c) (registered s) (registered s') /\
  (b = false -> forall e, In e (registered s') -> ~ looks_meant eq s o c e).
Proof.
  intros s o c. unfold remove_observer_eq. rewrite flush_poc. pose proof (all_spec (filter (rm_match o c) (registered s)) (flush s)) as H.
  destruct (ol_remove_all eq (flush s) (filter (rm_match o c) (registered s))) as [s' b]. cbn [fst snd] in *. destruct H as (A & P & F & W & N & O).
  rewrite registered_flush in *.
  assert (Rs : forall r, In r (filter (rm_match o c) (registered s)) <-> In r (registered s) /\ meant o c r) by (intros r; rewrite filter_In, meant_match; tauto).
  assert (Hit : forall e, (exists r, In r (filter (rm_match o c) (registered s)) /\ hit r e = true) <-> looks_meant eq s o c e).
  { intros e. unfold looks_meant. split.
    - intros (r & R1 & R2). apply Rs in R1. apply hit_true in R2. destruct R1 as [R1 R3]. pose proof R3 as [Q _]. rewrite Q in R2. split; [tauto|]. exists r. tauto.
    - intros (E & r & R1 & R2 & R3 & R4). exists r. split; [apply Rs; auto|]. apply hit_true. destruct R2 as [-> _]. auto. }
  split; [|split].
  - split.
    + intros Hb. destruct (W Hb) as (r & e & R1 & R2 & R3). apply Rs in R1. apply stuck_true in R3. destruct R1 as [R1 R4]. exists e. split; [exact R2|].
      pose proof R4 as [Q _]. rewrite Q in R3. split; [tauto|]. exists r. tauto.
    + intros (e & E1 & E2 & r & R1 & R2 & R3). destruct b; [reflexivity|].
      assert (St : stuck r e = false).
      { apply (O o); auto; [|apply Rs; auto]. intros r' Hr. apply Rs in Hr. destruct Hr as [_ [Q _]]. exact Q. }
      assert (stuck r e = true) by (apply stuck_true; destruct R2 as [-> _]; auto). congruence.
  - eapply part_mono; [|exact P]. intros e He. apply Hit. exact He.
  - intros Hb e He L. apply Hit in L. destruct L as (r & R1 & R2). rewrite (F Hb) in He. apply filter_In in He. destruct He as [_ He].
    apply negb_true_iff in He. assert (T : existsb (fun r => hit r e) (filter (rm_match o c) (registered s)) = true) by (apply existsb_exists; eauto). congruence.
Qed.
Lemma removal_sane : forall s o c, (forall e, In e (registered s) -> eq o (e_obs e) = Some (Nat.eqb o (e_obs e))) ->
  snd (remove_observer_eq eq s o c) = false /\
  registered (fst (remove_observer_eq eq s o c)) =
  filter (fun e => negb (Nat.eqb (e_obs e) o && match c with Some k => Nat.eqb (e_cb e) k | None => true end)) (registered s).
Proof.
  intros s o c H. destruct (removal s o c) as (A & B & C).
  assert (Nb : snd (remove_observer_eq eq s o c) = false).
  { destruct (snd (remove_observer_eq eq s o c)); [|reflexivity]. destruct (proj1 A eq_refl) as (e & E1 & E2 & _). rewrite (H e E1) in E2. discriminate. }
  split; [exact Nb|]. specialize (C Nb). set (l := registered s) in *. set (k := registered (fst (remove_observer_eq eq s o c))) in *.
  assert (Cond : forall e, In e l -> (looks_meant eq s o c e <-> meant o c e)).
  { intros e He. unfold looks_meant. rewrite (H e He). split.
    - intros (E & r & R1 & [R2 R3] & R4 & R5). injection E as E. apply Nat.eqb_eq in E. split; [auto|]. destruct c; [congruence | exact I].
    - intros M. pose proof M as [Q _]. rewrite Q, Nat.eqb_refl. split; [reflexivity|]. exists e. auto. }
  assert (Bl : forall e, negb (Nat.eqb (e_obs e) o && match c with Some k => Nat.eqb (e_cb e) k | None => true end) = false <-> meant o c e).
  { intros e. rewrite negb_false_iff, andb_true_iff, Nat.eqb_eq. unfold meant. destruct c; [rewrite Nat.eqb_eq|]; intuition. }
  assert (Q : part (meant o c) l k).
  { assert (G : forall l' k', part (looks_meant eq s o c) l' k' -> (forall x, In x l' -> In x l) -> part (meant o c) l' k').
    { intros l' k' P. induction P as [|x l' k' P IH|x l' k' G P IH]; intros Hin; [constructor | constructor; apply IH; intros; apply Hin; cbn; auto |].
      constructor; [apply Cond; [apply Hin; cbn; auto | exact G] | apply IH; intros; apply Hin; cbn; auto]. }
    apply G; auto. }
  apply (part_of_filter _ _ _ _ Q).
  - intros x Hx. destruct (negb _) eqn:E; [reflexivity|]. apply Bl in E. exfalso. apply (C x Hx). apply Cond; [eapply part_in; eauto | exact E].
  - intros x Hx. apply Bl. exact Hx.
  - intros x _ Hx. apply Bl. exact Hx.
Qed.
Lemma change_fails : forall s o c p, snd (change_priority_eq eq s o c p) = snd (remove_observer_eq eq s o (Some c)).
Proof. intros s o c p. unfold change_priority_eq. destruct (remove_observer_eq eq s o (Some c)) as [s1 []]; reflexivity. Qed.
End Equality.

(** ** Arrays *)
Lemma np_self : forall vals other o v, vals o = Some v -> (2 <= length v)%nat -> np_eq vals other o o = None.
Proof.
  intros vals other o v E L. unfold np_eq. rewrite E, Nat.eqb_refl. destruct v as [|x [|y v]]; cbn in L; try lia. reflexivity.
Qed.
Lemma np_object : forall vals other o a v, vals o = None -> vals a = Some v -> (2 <= length v)%nat -> np_eq vals other o a = None.
Proof. intros vals other o a v E1 E2 L. unfold np_eq. rewrite E1, E2. destruct v as [|x [|y v]]; cbn in L; try lia. reflexivity. Qed.

Lemma array_error : forall vals other s o c v r, vals o = Some v -> (2 <= length v)%nat -> In r (registered s) -> meant o c r ->
  snd (remove_observer_eq (np_eq vals other) s o c) = true.
Proof.
  intros vals other s o c v r E L R M. apply (removal (np_eq vals other) s o c). exists r. split; [exact R|]. split.
  - destruct M as [-> _]. eapply np_self; eauto.
  - exists r. auto.
Qed.
Lemma beside_error : forall vals other s o c a v r e, vals o = None -> vals a = Some v -> (2 <= length v)%nat ->
  In r (registered s) -> meant o c r -> In e (registered s) -> e_obs e = a -> e_prio e = e_prio r ->
  snd (remove_observer_eq (np_eq vals other) s o c) = true.
Proof.
  intros vals other s o c a v r e E1 E2 L R M He Ha Hp. apply (removal (np_eq vals other) s o c). exists e. split; [exact He|]. split.
  - rewrite Ha. eapply np_object; eauto.
  - exists r. auto.
Qed.
Lemma removal_at_most : forall eq s o c, part (looks_meant eq s o c) (registered s) (registered (fst (remove_observer_eq eq s o c))).
Proof. intros eq s o c. apply (removal eq s o c). Qed.
Lemma removal_when : forall eq s o c, snd (remove_observer_eq eq s o c) = true <-> exists e, in_the_way eq s o c e.
Proof. intros eq s o c. apply (removal eq s o c). Qed.
Lemma removal_done : forall eq s o c, snd (remove_observer_eq eq s o c) = false ->
  forall e, In e (registered (fst (remove_observer_eq eq s o c))) -> ~ looks_meant eq s o c e.
Proof. intros eq s o c. apply (removal eq s o c). Qed.
Lemma insert_part {A} : forall k (x : A) l, part (fun e => e = x) (list_insert k x l) l /\ length (list_insert k x l) = S (length l).
Proof.
  intros k x l. unfold list_insert. split.
  - assert (H : part (fun e => e = x) (firstn k l ++ x :: skipn k l) (firstn k l ++ skipn k l)).
    { apply part_app; [apply part_refl|]. apply part_drop; [reflexivity | apply part_refl]. }
    rewrite firstn_skipn in H. exact H.
  - rewrite <- (firstn_skipn k l) at 3. rewrite !app_length. cbn. lia.
Qed.
Lemma change_effect : forall eq s o c p, alive s o = true ->
  snd (change_priority_eq eq s o c p) = snd (remove_observer_eq eq s o (Some c)) /\
  (snd (change_priority_eq eq s o c p) = true -> registered (fst (change_priority_eq eq s o c p)) = registered (fst (remove_observer_eq eq s o (Some c)))) /\
  (snd (change_priority_eq eq s o c p) = false -> 
   part (fun e => e = mkE p o c) (registered (fst (change_priority_eq eq s o c p))) (registered (fst (remove_observer_eq eq s o (Some c)))) /\
   length (registered (fst (change_priority_eq eq s o c p))) = S (length (registered (fst (remove_observer_eq eq s o (Some c)))))).
Proof.
  intros eq s o c p Al. split; [apply change_fails|]. unfold change_priority_eq. pose proof (all_spec eq (filter (rm_match o (Some c)) (registered s)) (flush s)) as H.
  unfold remove_observer_eq. rewrite flush_poc. destruct (ol_remove_all eq (flush s) _) as [s1 b]. cbn [fst snd] in H. destruct H as (A & _).
  destruct b; cbn [fst snd]; [split; [reflexivity | discriminate]|]. split; [discriminate|]. intros _.
  assert (R : registered (add_observer s1 p o c) = list_insert (ins_pos p (registered s1)) (mkE p o c) (registered s1)).
  { unfold add_observer. rewrite flush_poc. rewrite registered_set_poc; [reflexivity|]. intros e He. unfold list_insert in He.
    apply in_app_iff in He. rewrite flush_alive. destruct He as [He|[<-|He]].
    - apply registered_alive. rewrite <- (firstn_skipn (ins_pos p (registered s1))). apply in_app_iff. auto.
    - cbn. rewrite A. exact Al.
    - apply registered_alive. rewrite <- (firstn_skipn (ins_pos p (registered s1))). apply in_app_iff. auto. }
  rewrite R. apply insert_part.
Qed.
