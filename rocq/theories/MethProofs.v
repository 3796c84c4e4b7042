(** Proofs about cached methods: every cacher of every object behaves as a cacher of its own. *)
From Coq Require Import List ZArith NArith Bool Lia Permutation.
From Verif Require Import CachingModel CachingSpec CachingProofs CachingFinal MethModel MethSpec.
Import ListNotations.

(** ** Dictionaries. *)
Lemma key_is_eq : forall a b, key_is a b = true <-> a = b.
Proof.
  intros [a1 a2] [b1 b2]. unfold key_is; simpl. rewrite andb_true_iff, Bool.eqb_true_iff, Nat.eqb_eq.
  split; [intros [-> ->]; reflexivity | intros [= -> ->]; auto].
Qed.
Lemma key_is_neq : forall a b, a <> b -> key_is a b = false.
Proof. intros a b H. destruct (key_is a b) eqn:K; [|reflexivity]. apply key_is_eq in K. contradiction. Qed.
Lemma key_is_refl : forall a, key_is a a = true.
Proof. intros. apply key_is_eq. reflexivity. Qed.
Lemma dkey_dec : forall a b : dkey, {a = b} + {a <> b}.
Proof. decide equality; [apply Nat.eq_dec | apply Bool.bool_dec]. Qed.

Section D.
Variable V : Type.
Lemma dget_dset : forall (l : list (dkey * entry V)) k e k',
  dget (dset l k e) k' = if key_is k' k then Some e else dget l k'.
Proof.
  induction l as [|[a b] l IH]; intros k e k'; simpl; [reflexivity|].
  destruct (key_is k a) eqn:Ha; simpl.
  - apply key_is_eq in Ha. subst a. destruct (key_is k' k); reflexivity.
  - rewrite IH. destruct (key_is k' a) eqn:Hk; [|reflexivity].
    apply key_is_eq in Hk. subst a. destruct (key_is k' k) eqn:Hkk; [|reflexivity].
    apply key_is_eq in Hkk. subst. rewrite key_is_refl in Ha. discriminate.
Qed.
Lemma dget_map : forall (f : entry V -> entry V) l k, dget (on_ents f l) k = option_map f (dget l k).
Proof.
  induction l as [|[a b] l IH]; intros k; simpl; [reflexivity|]. destruct (key_is k a); [reflexivity | apply IH].
Qed.
End D.

Section P.
Variables C V E : Type.
Variable wrap : ierr -> E.
Variables typeerr recerr : E.
Variable def : nat -> mdef.
Variable body : nat -> list C -> prog V E.
Notation sys := (sys C V).
Notation world := (world C).
Notation arity := (arity def).
Notation plain := (plain recerr body).
Notation callm := (callm wrap typeerr recerr def body).
Notation through := (through wrap).

Lemma get_set_same : forall (s : sys) o k e f, caches s o = Some f -> get_entry (set_entry s o k e) o k = Some e.
Proof.
  intros s o k e f H. unfold get_entry, set_entry. rewrite H. simpl. unfold upd1. rewrite Nat.eqb_refl. simpl.
  rewrite dget_dset, key_is_refl. reflexivity.
Qed.
Lemma get_set_other : forall (s : sys) o k e o' k', (o', k') <> (o, k) ->
  get_entry (set_entry s o k e) o' k' = get_entry s o' k'.
Proof.
  intros s o k e o' k' H. unfold get_entry, set_entry. destruct (caches s o) as [f|] eqn:Hf; [|reflexivity].
  simpl. unfold upd1. destruct (Nat.eqb_spec o' o) as [->|Hn]; [|reflexivity].
  simpl. rewrite dget_dset, key_is_neq by congruence. rewrite Hf. reflexivity.
Qed.
Lemma get_some_cache : forall (s : sys) o k e, get_entry s o k = Some e -> exists f, caches s o = Some f.
Proof. intros s o k e H. unfold get_entry in H. destruct (caches s o); [eauto | discriminate]. Qed.
Lemma sw_set : forall (s : sys) o k e, sw (set_entry s o k e) = sw s.
Proof. intros. unfold set_entry. destruct (caches s o); reflexivity. Qed.
(** The switch of an object's cache. *)
Definition fon_of (s : sys) (o : nat) : option bool := option_map fon (caches s o).
Lemma fon_set : forall (s : sys) o k e o', fon_of (set_entry s o k e) o' = fon_of s o'.
Proof.
  intros. unfold fon_of, set_entry. destruct (caches s o) as [f|] eqn:Hf; [|reflexivity]. simpl. unfold upd1.
  destruct (Nat.eqb_spec o' o) as [->|]; [|reflexivity]. rewrite Hf. reflexivity.
Qed.

(** ** Reached states of one cacher. *)
Lemma reached_step : forall F sg (w : world) (c : cacher V) ev x w' c', reached F sg w c ->
  legal_event sg w c ev -> step (E:=E) F w c ev = (x, w', c') -> reached F sg w' c'.
Proof.
  intros F sg w c ev x w' c' (lim & ig & fo & en & y & ol & l & H1 & H2 & H3 & H4 & H5 & H6) Hl Hs.
  exists lim, ig, fo, en, y, ol, (l ++ [ev]). split; [exact H1|]. split; [exact H2|]. split; [exact H3|].
  destruct (history_snoc C V E F l (new_world y ol) (new_cacher lim ig fo en) ev) as [Hw Hc].
  rewrite H5, H6, Hs in Hw, Hc. split; [|split; assumption].
  apply legal_app; [exact H4|]. rewrite H5, H6. simpl. auto.
Qed.
Lemma reached_okw : forall F sg (w : world) (c : cacher V), reached (E:=E) F sg w c -> okw C w.
Proof. intros F sg w c H. apply reached_inv in H. apply H. Qed.

(** Cachers that have not been used. *)
Definition blank (w : world) : Prop := forall (F : list C -> list (nat * C) -> V + E) sg lim ig fo en,
  (1 <= lim)%Z -> respects_ignore F ig ->
  reached F sg (view w (blank_entry (@new_cacher V lim ig fo en))) (new_cacher lim ig fo en).

Lemma blank_init : forall x ol, (forall a b : nat, ol a = ol b -> a = b) -> blank (new_world x ol).
Proof.
  intros x ol Hol F sg lim ig fo en H1 H2. exists lim, ig, fo, en, x, ol, []. repeat split; auto; apply H2.
Qed.
Lemma deliver_blank : forall (w : world) lim ig fo en notes,
  fold_left (deliver w) notes (@new_cacher V lim ig fo en) = new_cacher lim ig fo en.
Proof.
  intros w lim ig fo en. assert (H : forall n, deliver w (@new_cacher V lim ig fo en) n = new_cacher lim ig fo en).
  { intros n. unfold deliver. destruct (upd w (fst n)); [|reflexivity].
    induction (regs w (olist w (fst n))) as [|k IH]; simpl; [reflexivity|]. rewrite IH. reflexivity. }
  induction notes as [|n notes IH]; simpl; [reflexivity|]. rewrite H. exact IH.
Qed.
Lemma not_held_blank : forall lim ig fo en o, ~ held (@new_cacher V lim ig fo en) o.
Proof. intros lim ig fo en o (ins & [k Hk] & _). discriminate. Qed.

(** ** The invariant of the system. *)
Definition Fm (m : nat) : list C -> list (nat * C) -> V + E := fun xs _ => plain m xs.
Definition Fb (m : nat) (x : C) : list C -> list (nat * C) -> V + E := fun xs _ => plain m (x :: xs).
(** The cacher is configured as declared. *)
Definition conf (m : nat) (c : cacher V) : Prop :=
  limit c = mlim (def m) /\ ignore c = mig (def m) /\ force c = mfo (def m).
Lemma conf_step : forall F sg (w : world) (c : cacher V) ev x w' c' m, reached F sg w c ->
  legal_event sg w c ev -> step (E:=E) F w c ev = (x, w', c') -> conf m c -> conf m c'.
Proof.
  intros F sg w c ev x w' c' m Hr Hl Hs (H1 & H2 & H3).
  destruct (step_spec C V E F sg w c ev (reached_inv _ _ _ _ _ _ _ Hr) Hl) as (y & w1 & c1 & Hs1 & _ & _ & E1 & E2 & E3).
  rewrite Hs in Hs1. injection Hs1 as _ _ <-. unfold conf. rewrite E1, E2, E3. auto.
Qed.
Definition fits (w : world) (k : dkey) (e : entry V) : Prop :=
  if fst k then selfless recerr body (snd k) /\
                forall x, reached (Fb (snd k) x) (pred (arity (snd k)), []) (view w e) (ec e)
  else reached (Fm (snd k)) (arity (snd k), []) (view w e) (ec e) /\ conf (snd k) (ec e).
Record SI (s : sys) : Prop := {
  si_blank : blank (sw s);
  si_ent : forall o k e, get_entry s o k = Some e -> fits (sw s) k e }.

(** One event, seen by all cachers. *)
Lemma fits_step : forall w w' k e e' ev, fits w k e ->
  (forall sg, legal_event sg (view w e) (ec e) ev) ->
  (forall F : list C -> list (nat * C) -> V + E, exists x, step F (view w e) (ec e) ev = (x, view w' e', ec e')) ->
  fits w' k e'.
Proof.
  intros w w' [[|] m] e e' ev H Hl Hs; unfold fits in *; simpl in *.
  - destruct H as [Hsl H]. split; [exact Hsl|]. intros x. destruct (Hs (Fb m x)) as [r Hr].
    eapply reached_step; eauto.
  - destruct (Hs (Fm m)) as [r Hr]. destruct H as [H Hc]. split; [eapply reached_step | eapply conf_step]; eauto.
Qed.

Lemma view_reset : forall (w : world) (e : entry V) (c : cacher V) w' c', reset (view w e) c = (w', c') ->
  view w (entry_of w' c') = w'.
Proof.
  intros w e c w' c' H. unfold reset in H. injection H as H _.
  pose proof (rem_fold_regs C (c_ids c) (view w e)) as Hr. unfold regs_only in Hr. rewrite H in Hr.
  rewrite Hr. reflexivity.
Qed.
Lemma fits_reset : forall w k e, fits w k e -> fits w k (e_reset w e).
Proof.
  intros w k e H. eapply (fits_step w w k e _ EReset); [exact H | intros; exact Logic.I |].
  intros F. unfold e_reset. cbn [step]. destruct (reset (view w e) (ec e)) as [w' c'] eqn:Hr.
  exists None. rewrite (view_reset _ _ _ _ _ Hr). reflexivity.
Qed.
Lemma fits_off : forall w k e, fits w k e -> fits w k (e_off w e).
Proof.
  intros w k e H. eapply (fits_step w w k e _ EDisable); [exact H | intros; exact Logic.I |].
  intros F. unfold e_off. cbn [step]. destruct (reset (view w e) _) as [w' c'] eqn:Hr.
  exists None. rewrite (view_reset _ _ _ _ _ Hr). reflexivity.
Qed.
Lemma fits_on : forall w k e, fits w k e -> fits w k (e_on e).
Proof.
  intros w k e H. eapply (fits_step w w k e _ EEnable); [exact H | intros; exact Logic.I |].
  intros F. exists None. reflexivity.
Qed.

(** ** What calls leave alone: [t] is a bound on the methods concerned. *)
Record ext (t : nat) (s s' : sys) : Prop := {
  x_sw : sw s' = sw s;
  x_fon : forall o b, fon_of s o = Some b -> fon_of s' o = Some b;
  x_new : forall o, fon_of s o = None -> fon_of s' o = None \/ fon_of s' o = Some true;
  x_keep : forall o k, fst k = true \/ t <= snd k -> get_entry s' o k = get_entry s o k;
  x_ent : forall o k e, get_entry s o k = Some e ->
     exists e', get_entry s' o k = Some e' /\ enabled (ec e') = enabled (ec e);
  x_made : forall o k e', get_entry s' o k = Some e' -> get_entry s o k = None ->
     fon_of s' o = Some (enabled (ec e')) }.
Lemma ext_refl : forall t s, ext t s s.
Proof. intros. constructor; intros; eauto; congruence. Qed.
Lemma ext_trans : forall t a b c, ext t a b -> ext t b c -> ext t a c.
Proof.
  intros t a b c [A1 A2 A3 A4 A5 A6] [B1 B2 B3 B4 B5 B6]. constructor; intros.
  - congruence.
  - auto.
  - destruct (A3 _ H) as [H'|H']; [auto | right; auto].
  - rewrite B4, A4; auto.
  - destruct (A5 _ _ _ H) as (e1 & H1 & E1). destruct (B5 _ _ _ H1) as (e2 & H2 & E2).
    exists e2. split; [exact H2 | congruence].
  - destruct (get_entry b o k) as [e1|] eqn:H1; [|eauto].
    destruct (B5 _ _ _ H1) as (e2 & H2 & E2). rewrite H in H2. injection H2 as <-. rewrite E2.
    apply B2. eauto.
Qed.
Lemma ext_mono : forall t t' a b, ext t a b -> t <= t' -> ext t' a b.
Proof. intros t t' a b [A1 A2 A3 A4 A5 A6] Ht. constructor; auto. intros o k [H|H]; apply A4; [auto | right; lia]. Qed.

Lemma SI_set : forall s o k e, SI s -> fits (sw s) k e -> SI (set_entry s o k e).
Proof.
  intros s o k e [B H] He. constructor; rewrite sw_set; [exact B|]. intros o' k' e' Hg.
  destruct (caches s o) as [f|] eqn:Hf.
  - destruct (Nat.eq_dec o' o) as [->|Ho]; [destruct (dkey_dec k' k) as [->|Hk]|].
    + rewrite (get_set_same _ _ _ _ _ Hf) in Hg. injection Hg as <-. exact He.
    + rewrite get_set_other in Hg by congruence. eauto.
    + rewrite get_set_other in Hg by congruence. eauto.
  - unfold set_entry in Hg. rewrite Hf in Hg. eauto.
Qed.
(** Replacing an entry that was there. *)
Lemma ext_set : forall t s o m e0 e, get_entry s o (false, m) = Some e0 -> m < t ->
  enabled (ec e) = enabled (ec e0) -> ext t s (set_entry s o (false, m) e).
Proof.
  intros t s o m e0 e Hg Hm He. destruct (get_some_cache _ _ _ _ Hg) as [f Hf].
  assert (Hcase : forall o' k', get_entry (set_entry s o (false, m) e) o' k' = get_entry s o' k' \/
     o' = o /\ k' = (false, m)).
  { intros o' k'. destruct (Nat.eq_dec o' o) as [->|Ho]; [destruct (dkey_dec k' (false, m)) as [->|Hk]|]; auto;
    left; apply get_set_other; congruence. }
  constructor; intros.
  - apply sw_set.
  - rewrite fon_set. assumption.
  - rewrite fon_set. auto.
  - destruct (Hcase o0 k) as [->|[-> ->]]; [reflexivity|]. simpl in H. destruct H; [discriminate | lia].
  - destruct (Hcase o0 k) as [->|[-> ->]]; [eauto|]. rewrite (get_set_same _ _ _ _ _ Hf). exists e.
    split; [reflexivity | congruence].
  - destruct (Hcase o0 k) as [Hk|[-> ->]]; congruence.
Qed.

(** ** One call through a cacher. *)
Lemma operate_nil : forall (F : list C -> list (nat * C) -> V + E) (w : world) args,
  operate F w args [] = F (map (content w) args) [].
Proof. reflexivity. Qed.
Lemma outcome_to : forall r : V + E, outcome wrap (to_result r) = r.
Proof. intros [v|e]; reflexivity. Qed.

Lemma end_call_runs : forall (w0 w0' : world) (c0 c0' : cacher V) r0 p0 x0, end_call (E:=E) w0 c0 p0 r0 = (x0, w0', c0') -> runs w0' = runs w0.
Proof.
  intros w0 w0' c0 c0' r0 p0 x0 H. unfold end_call in H. destruct r0 as [v|x1].
      - destruct (p_changed p0); [injection H as _ <- _; reflexivity|].
        unfold ensure_cache_length in H.
        assert (Hadd : forall (w1 : world) (c1 : cacher V) cid ins v0 w2 c2, add_to_cache w1 c1 cid ins v0 = (w2, c2) -> runs w2 = runs w1).
        { clear. intros w1 c1 cid ins v0 w2 c2 H. unfold add_to_cache in H.
          destruct (acquire cid ins w1 (c_ids c1)) as [w3 ids3] eqn:Ha. injection H as <- _.
          revert w1 ids3 w3 Ha. generalize (c_ids c1). induction ins as [|a ins IH]; intros ids w1 ids3 w3 Ha; cbn [acquire] in Ha.
          - injection Ha as <- _. reflexivity.
          - destruct (kindof w1 a).
            + destruct (match iget ids (oid_key w1 a) with Some v => v | None => (a, []) end) as [r l].
              apply IH in Ha. rewrite Ha. destruct (Nat.eqb _ _); reflexivity.
            + eapply IH; eauto.
            + destruct (match iget ids (oid_key w1 a) with Some v => v | None => (a, []) end) as [r l].
              apply IH in Ha. rewrite Ha. destruct (Nat.eqb _ _); reflexivity. }
        assert (Hrel : forall cid ins w1 ids w2 ids2, release (C:=C) cid ins w1 ids = Some (w2, ids2) -> runs w2 = runs w1).
        { clear. intros cid ins. induction ins as [|a ins IH]; intros w1 ids w2 ids2 H; cbn [release] in H.
          - injection H as <- _. reflexivity.
          - destruct (iget ids (oid_key w1 a)) as [[r l]|]; [|eauto].
            destruct (_ && _); [apply IH in H; exact H|].
            destruct (list_remove1 cid l); [eauto | discriminate]. }
        destruct (Z.eqb _ _).
        + destruct (order c0) as [|cid rest]; [injection H as _ <- _; reflexivity|].
          destruct (c_in c0 cid) as [ins|]; [|injection H as _ <- _; reflexivity].
          destruct (release cid ins w0 (c_ids c0)) as [[w1 ids1]|] eqn:Hrl; [|injection H as _ <- _; reflexivity].
          destruct (add_to_cache w1 _ _ _ v) as [w2 c2] eqn:Ha. injection H as _ <- _.
          rewrite (Hadd _ _ _ _ _ _ _ Ha). eauto.
        + destruct (add_to_cache w0 c0 _ _ v) as [w2 c2] eqn:Ha. injection H as _ <- _. eauto.
      - destruct (reset w0 c0) as [w1 c1] eqn:Hrs. injection H as _ <- _. unfold reset in Hrs.
        injection Hrs as <- _. generalize (c_ids c0). intros l. revert w0.
        induction l as [|a l IH]; intros w0; cbn [fold_left]; [reflexivity|]. rewrite IH.
        destruct (live w0 _); reflexivity.
Qed.

(** The outcome of a call through a cacher, and the entry afterwards. *)
Lemma through_spec : forall F n (s s2 : sys) o k e args (run : sys -> (V + E) * sys), get_entry s o k = Some e ->
  reached (E:=E) F (n, []) (view (sw s) e) (ec e) -> length args = n -> Forall (fun a => live (sw s) a = true) args ->
  run s = (F (map (content (sw s)) args) [], s2) -> get_entry s2 o k = Some e -> sw s2 = sw s ->
  exists w' c',
    step F (view (sw s) e) (ec e) (ECall args []) = (Some (to_result (F (map (content (sw s)) args) [])), w', c') /\
    view (sw s) (entry_of w' c') = w' /\ enabled c' = enabled (ec e) /\
    ((exists v, begin_call (view (sw s) e) (ec e) args [] = Hit v /\
      through s o k args run = (F (map (content (sw s)) args) [], s)) \/
     ((begin_call (view (sw s) e) (ec e) args [] = Bypass \/
       exists p, begin_call (view (sw s) e) (ec e) args [] = Compute p) /\
      runs w' = S (eruns e) /\
      through s o k args run = (F (map (content (sw s)) args) [], set_entry s2 o k (entry_of w' c')))).
Proof.
  intros F n s s2 o k e args run Hg Hr Hn Hl Hrun Hg2 Hsw.
  assert (Hi := reached_inv _ _ _ _ _ _ _ Hr).
  destruct (call_spec C V E F (n, []) (view (sw s) e) (ec e) args [] Hi) as (w' & c' & Hc & Hro & Hinv & Hsc).
  { split; [exact Hn | constructor]. }
  { simpl. rewrite app_nil_r. exact Hl. }
  rewrite operate_nil in Hc. change (content (view (sw s) e)) with (content (sw s)) in Hc.
  exists w', c'. cbn [step]. rewrite Hc. split; [reflexivity|].
  assert (Hv : view (sw s) (entry_of w' c') = w') by (rewrite Hro; reflexivity).
  split; [exact Hv|]. split; [apply Hsc|].
  assert (Hb := begin_call_spec C V E F (n, []) (view (sw s) e) (ec e) args [] Hi
    (conj Hn (perm_nil _)) ltac:(simpl; rewrite app_nil_r; exact Hl)). cbv zeta in Hb.
  unfold call in Hc. unfold through, MethModel.through. rewrite Hg.
  rewrite operate_nil in Hc. change (content (view (sw s) e)) with (content (sw s)) in Hc.
  destruct (begin_call (view (sw s) e) (ec e) args []) as [|v| |p].
  - right. injection Hc as <- <-. split; [auto|]. split; [reflexivity|]. rewrite Hrun.
    unfold count_run. rewrite Hg2. reflexivity.
  - left. exists v. split; [reflexivity|]. injection Hc as Hv' _ _.
    destruct (F (map (content (sw s)) args) []) as [v'|x]; [|discriminate]. injection Hv' as ->. reflexivity.
  - destruct Hb.
  - right. rewrite Hrun, Hg2, Hsw, Hc, outcome_to. split; [eauto|].
    rewrite (end_call_runs _ _ _ _ _ _ _ Hc). split; reflexivity.
Qed.
End P.
