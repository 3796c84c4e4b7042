(** Proofs about cached methods: calls, histories, switches. *)
From Coq Require Import List ZArith NArith Bool Lia Permutation.
From Verif Require Import CachingModel CachingSpec CachingProofs CachingFinal MethModel MethSpec MethProofs.
Import ListNotations.

Section P.
Variables C V E : Type.
Variable wrap : ierr -> E.
Variables typeerr recerr : E.
Variable def : nat -> mdef.
Variable body : nat -> list C -> prog V E.
Hypothesis good : good_methods recerr def body.
Notation sys := (sys C V).
Notation world := (world C).
Notation arity := (arity def).
Notation plain := (plain recerr body).
Notation callm := (callm wrap typeerr recerr def body).
Notation through := (through wrap).
Notation SI := (SI C V E recerr def body).
Notation ext := (ext C V).
Notation fits := (fits C V E recerr def body).
Notation Fm := (Fm C V E recerr body).
Notation Fb := (Fb C V E recerr body).

(** ** What is computed. *)
Lemma at_pos : forall (f : nat -> C) args ps, Forall (fun i => i < length args) ps ->
  at_positions (map f args) ps = map f (map (fun i => nth i args 0) ps).
Proof.
  intros f args ps. induction ps as [|i ps IH]; intros H; [reflexivity|]. inversion H; subst.
  cbn [map]. rewrite <- IH by assumption. unfold at_positions. cbn [flat_map].
  rewrite nth_error_map, (nth_error_nth' args 0) by assumption. reflexivity.
Qed.
Lemma at_pos_length : forall (xs : list C) ps, Forall (fun i => i < length xs) ps ->
  length (at_positions xs ps) = length ps.
Proof.
  intros xs ps. induction ps as [|i ps IH]; intros H; [reflexivity|]. inversion H; subst.
  unfold at_positions. cbn [flat_map]. rewrite app_length. fold (at_positions xs ps). rewrite IH by assumption.
  destruct (nth_error xs i) eqn:Hn; [reflexivity|]. apply nth_error_None in Hn. lia.
Qed.
Lemma computes_ext : forall c1 c2 (xs : list C) m p, sound def (length xs) m p ->
  (forall m' ys, m' < m -> length ys = arity m' -> c1 m' ys = c2 m' ys) ->
  computes c1 xs p = computes (V:=V) (E:=E) c2 xs p.
Proof.
  intros c1 c2 xs m p H Hc. induction H as [|m' ps k Hm Hl Hp Hk IH]; [reflexivity|].
  cbn [computes]. rewrite Hc; [apply IH | exact Hm | rewrite at_pos_length; auto].
Qed.
Lemma uncached_enough : forall n m xs, m < n -> length xs = arity m -> uncached recerr body n m xs = plain m xs.
Proof.
  intros n. induction n as [n IH] using lt_wf_ind. intros m xs Hm Hl.
  destruct n as [|n]; [lia|]. unfold MethSpec.plain. cbn [uncached].
  apply computes_ext with (m := m); [rewrite Hl; apply good; exact Hl|].
  intros m' ys Hm' Hy. rewrite (IH n) by lia. destruct (Nat.eq_dec m n) as [->|Hne].
  - rewrite (IH n) by lia. reflexivity.
  - rewrite (IH m) by lia. reflexivity.
Qed.
Lemma plain_eq : forall m xs, length xs = arity m -> plain m xs = computes plain xs (body m xs).
Proof.
  intros m xs Hl. unfold MethSpec.plain at 1. cbn [uncached].
  apply computes_ext with (m := m); [rewrite Hl; apply good; exact Hl|].
  intros m' ys Hm' Hy. apply uncached_enough; assumption.
Qed.

(** ** Calls. *)
Lemma fits_new : forall w m en, blank C V E w ->
  fits w (false, m) (blank_entry (new_cacher (mlim (def m)) (mig (def m)) (mfo (def m)) en)).
Proof. intros w m en B. split; [apply B; apply good | repeat split]. Qed.

Lemma ensure_spec : forall s o m, SI s -> let s1 := ensure_entry def (ensure_cache s o) o m in
  SI s1 /\ ext (S m) s s1 /\ (exists e, get_entry s1 o (false, m) = Some e) /\
  (get_entry s o (false, m) = None -> exists b,
     get_entry s1 o (false, m) = Some (blank_entry (new_cacher (mlim (def m)) (mig (def m)) (mfo (def m)) b))).
Proof.
  intros s o m H. cbv zeta. set (s0 := ensure_cache s o).
  assert (H0 : SI s0 /\ sw s0 = sw s /\ (forall o' k, get_entry s0 o' k = get_entry s o' k) /\
     (exists f, caches s0 o = Some f) /\
     (forall o' b, fon_of C V s o' = Some b -> fon_of C V s0 o' = Some b) /\
     (forall o', fon_of C V s o' = None -> fon_of C V s0 o' = None \/ fon_of C V s0 o' = Some true)).
  { unfold s0, ensure_cache. destruct (caches s o) as [f|] eqn:Hf.
    - split; [exact H|]. split; [reflexivity|]. split; [reflexivity|]. split; [eauto|]. auto.
    - assert (Hg : forall o' k, get_entry (set_cache s o (Some (mkF true []))) o' k = get_entry s o' k).
      { intros o' k. unfold get_entry, set_cache; simpl. unfold upd1.
        destruct (Nat.eqb_spec o' o) as [->|]; [rewrite Hf|]; reflexivity. }
      split; [|split; [reflexivity|]; split; [exact Hg|]; split;
               [simpl; unfold upd1; rewrite Nat.eqb_refl; eauto|]].
      + destruct H as [B H]. constructor; [exact B|]. intros o' k e Hge. rewrite Hg in Hge. eapply H; eauto.
      + unfold fon_of, set_cache; simpl. unfold upd1. split; intros o'; destruct (Nat.eqb_spec o' o) as [->|]; auto.
        rewrite Hf. discriminate. }
  clearbody s0. destruct H0 as (HS & Hsw & Hge & [f Hf] & Hfon & Hfn).
  assert (X0 : ext (S m) s s0).
  { constructor; auto.
    - intros o' k e Hg. exists e. rewrite Hge. auto.
    - intros o' k e Hg Hn. rewrite Hge in Hg. congruence. }
  unfold ensure_entry. rewrite Hf. destruct (get_entry s0 o (false, m)) as [e|] eqn:Hg.
  - split; [exact HS|]. split; [exact X0|]. split; [eauto|]. intros Hn. rewrite <- Hge in Hn. congruence.
  - set (e := blank_entry _). split; [apply SI_set; [exact HS | apply fits_new; apply HS]|].
    split; [|split; [rewrite (get_set_same _ _ _ _ _ _ _ Hf); eauto|
                     intros _; rewrite (get_set_same _ _ _ _ _ _ _ Hf); unfold e; eauto]].
    eapply ext_trans; [exact X0|].
    assert (Hcase : forall o' k', get_entry (set_entry s0 o (false, m) e) o' k' = get_entry s0 o' k' \/
     o' = o /\ k' = (false, m)).
    { intros o' k'. destruct (Nat.eq_dec o' o) as [->|Ho]; [destruct (dkey_dec k' (false, m)) as [->|Hk]|]; auto;
      left; apply get_set_other; congruence. }
    constructor; intros.
    + apply sw_set.
    + rewrite fon_set. assumption.
    + rewrite fon_set. auto.
    + destruct (Hcase o0 k) as [->|[-> ->]]; [reflexivity|]. simpl in H0. destruct H0; [discriminate | lia].
    + destruct (Hcase o0 k) as [->|[-> ->]]; [eauto|]. congruence.
    + destruct (Hcase o0 k) as [Hk|[-> ->]]; [congruence|]. rewrite (get_set_same _ _ _ _ _ _ _ Hf) in H0.
      injection H0 as <-. rewrite fon_set. unfold fon_of. rewrite Hf. reflexivity.
Qed.

Definition call_ok (call : sys -> nat -> list nat -> (V + E) * sys) (m : nat) : Prop :=
  forall s args, SI s -> length args = arity m -> Forall (fun a => live (sw s) a = true) args ->
  exists s', call s m args = (plain m (map (content (sw s)) args), s') /\ SI s' /\ ext (S m) s s'.

Lemma run_spec : forall call m args p s, sound def (length args) m p ->
  (forall m', m' < m -> call_ok call m') -> SI s -> Forall (fun a => live (sw s) a = true) args ->
  exists s', run_prog call args p s = (computes plain (map (content (sw s)) args) p, s') /\ SI s' /\ ext m s s'.
Proof.
  intros call m args p s Hp Hc. revert s.
  induction Hp as [r|m' ps k Hm Hl Hps Hk IH]; intros s HS Hlive; cbn [run_prog computes].
  - exists s. split; [reflexivity|]. split; [exact HS | apply ext_refl].
  - destruct (Hc m' Hm s (map (fun i => nth i args 0) ps) HS) as (s1 & H1 & HS1 & X1).
    { rewrite map_length. exact Hl. }
    { rewrite Forall_forall in *. intros a Ha. apply in_map_iff in Ha. destruct Ha as (i & <- & Hi).
      apply Hlive. apply nth_In. apply Hps. exact Hi. }
    rewrite H1. rewrite at_pos by exact Hps.
    destruct (IH (plain m' (map (content (sw s)) (map (fun i => nth i args 0) ps))) s1 HS1) as (s2 & H2 & HS2 & X2).
    { rewrite (x_sw _ _ _ _ _ X1). exact Hlive. }
    rewrite (x_sw _ _ _ _ _ X1) in H2. exists s2. split; [exact H2|]. split; [exact HS2|].
    eapply ext_trans; [eapply ext_mono; [exact X1 | lia] | exact X2].
Qed.


(** A call through a cacher of an operation that is executed correctly. *)
Lemma through_ok : forall F n s o k e args run t, SI s -> get_entry s o k = Some e ->
  reached (E:=E) F (n, []) (view (sw s) e) (ec e) -> length args = n ->
  Forall (fun a => live (sw s) a = true) args -> fst k = true \/ t <= snd k ->
  (exists s2, run s = (F (map (content (sw s)) args) [], s2) /\ SI s2 /\ ext t s s2) ->
  (forall w' c', step F (view (sw s) e) (ec e) (ECall args []) =
     (Some (to_result (F (map (content (sw s)) args) [])), w', c') ->
     view (sw s) (entry_of w' c') = w' -> fits (sw s) k (entry_of w' c')) ->
  exists s', through s o k args run = (F (map (content (sw s)) args) [], s') /\ SI s' /\
    (s' = s \/ exists s2 e', ext t s s2 /\ get_entry s2 o k = Some e /\ s' = set_entry s2 o k e' /\
       enabled (ec e') = enabled (ec e) /\ eruns e' = S (eruns e)).
Proof.
  intros F n s o k e args run t HS Hg Hr Hn Hl Ht (s2 & Hrun & HS2 & X) Hfit.
  assert (Hg2 : get_entry s2 o k = Some e) by (rewrite (x_keep _ _ _ _ _ X); assumption).
  assert (Hsw := x_sw _ _ _ _ _ X).
  destruct (through_spec C V E wrap F n s s2 o k e args run Hg Hr Hn Hl Hrun Hg2 Hsw)
    as (w' & c' & Hstep & Hv & Hen & [(v & Hb & Hth) | (Hb & Hruns & Hth)]).
  - exists s. auto.
  - exists (set_entry s2 o k (entry_of w' c')). split; [exact Hth|]. split.
    + apply SI_set; [exact HS2|]. rewrite Hsw. apply Hfit; assumption.
    + right. exists s2, (entry_of w' c'). auto.
Qed.

Lemma callm_ok : forall n m, m < n -> call_ok (callm n) m.
Proof.
  induction n as [|n IH]; intros m Hm s args HS Hlen Hlive; [lia|].
  destruct args as [|o args]; [pose proof (proj1 (good m)); simpl in Hlen; lia|].
  cbn [MethModel.callm]. destruct (ensure_spec s o m HS) as (HS1 & X1 & [e He] & _).
  set (s1 := ensure_entry def (ensure_cache s o) o m) in *.
  assert (Hsw := x_sw _ _ _ _ _ X1).
  assert (Hr := si_ent _ _ _ _ _ _ _ HS1 _ _ _ He). unfold MethProofs.fits in Hr. simpl in Hr. destruct Hr as [Hr Hcf].
  assert (Hl1 : Forall (fun a => live (sw s1) a = true) (o :: args)) by (rewrite Hsw; exact Hlive).
  assert (Hrun : exists s2, (fun s2 => run_prog (callm n) (o :: args) (body m (map (content (sw s2)) (o :: args))) s2) s1
     = (Fm m (map (content (sw s1)) (o :: args)) [], s2) /\ SI s2 /\ ext m s1 s2).
  { destruct (run_spec (callm n) m (o :: args) (body m (map (content (sw s1)) (o :: args))) s1) as (s2 & H2 & HS2 & X2).
    - rewrite Hlen. apply good. rewrite map_length. exact Hlen.
    - intros m' Hm'. apply IH. lia.
    - exact HS1.
    - exact Hl1.
    - exists s2. rewrite H2. split; [|auto]. unfold MethProofs.Fm. rewrite <- plain_eq; [reflexivity|].
      rewrite map_length. exact Hlen. }
  destruct (through_ok (Fm m) (arity m) s1 o (false, m) e (o :: args) _ m HS1 He Hr Hlen Hl1 (or_intror (le_n m)) Hrun)
    as (s' & Hth & HS' & Hs').
  { intros w' c' Hs Hv. unfold MethProofs.fits; simpl. rewrite Hv.
    assert (Hle : legal_event (arity m, []) (view (sw s1) e) (ec e) (ECall (C:=C) (o :: args) [])).
    { split; [split; [exact Hlen | constructor]|]. simpl. rewrite app_nil_r. exact Hl1. }
    split; [eapply reached_step | eapply conf_step]; eassumption. }
  exists s'. rewrite Hsw in Hth. split; [exact Hth|]. split; [exact HS'|].
  eapply ext_trans; [exact X1|]. destruct Hs' as [->|(s2 & e' & X2 & Hg2 & -> & Hen & _)]; [apply ext_refl|].
  eapply ext_trans; [eapply ext_mono; [exact X2 | lia]|]. eapply ext_set; [exact Hg2 | lia | exact Hen].
Qed.

Notation sstep := (sstep wrap typeerr recerr def body).
Notation shistory := (shistory wrap typeerr recerr def body).
Notation slegal := (slegal wrap typeerr recerr def body).
Notation sideal := (sideal typeerr recerr def body).
Notation slegal_event := (slegal_event recerr def body).
Notation blank := (blank C V E).

Lemma bound_ok : forall s o m args, SI s -> slegal_event s (SBound o m args) ->
  exists s', bound_call wrap typeerr recerr def body s o m args =
    (plain m (map (content (sw s)) (o :: args)), s') /\ SI s' /\
    (s' = s \/ exists s2 e e', ext m s s2 /\ get_entry s2 o (true, m) = Some e /\
       s' = set_entry s2 o (true, m) e' /\ enabled (ec e') = enabled (ec e)).
Proof.
  intros s o m args HS (He & Hlen & Hlive). destruct (get_entry s o (true, m)) as [e|] eqn:Hg; [|congruence].
  assert (Hf := si_ent _ _ _ _ _ _ _ HS _ _ _ Hg). unfold MethProofs.fits in Hf. simpl in Hf. destruct Hf as [Hsl Hr].
  set (x0 := content (sw s) o).
  assert (Hlive' : Forall (fun a => live (sw s) a = true) args) by (inversion Hlive; assumption).
  assert (Hrun : exists s2, (fun s2 => run_prog (callm m) (o :: args) (body m (map (content (sw s2)) (o :: args))) s2) s
     = (Fb m x0 (map (content (sw s)) args) [], s2) /\ SI s2 /\ ext m s s2).
  { destruct (run_spec (callm m) m (o :: args) (body m (map (content (sw s)) (o :: args))) s) as (s2 & H2 & HS2 & X2).
    - simpl length. rewrite Hlen. apply good. rewrite map_length. exact Hlen.
    - intros m' Hm'. apply callm_ok. exact Hm'.
    - exact HS.
    - exact Hlive.
    - exists s2. rewrite H2. split; [|auto]. unfold MethProofs.Fb. rewrite <- plain_eq; [reflexivity|].
      rewrite map_length. exact Hlen. }
  assert (Hn : length args = pred (arity m)) by lia.
  destruct (through_ok (Fb m x0) (pred (arity m)) s o (true, m) e args _ m HS Hg (Hr x0) Hn Hlive' (or_introl eq_refl) Hrun)
    as (s' & Hth & HS' & Hs').
  { intros w' c' Hs Hv. unfold MethProofs.fits; simpl. split; [exact Hsl|]. intros x.
    rewrite Hv. eapply (reached_step C V E (Fb m x) _ _ _ (ECall args [])); [exact (Hr x) | | ].
    - split; [split; [exact Hn | constructor]|]. simpl. rewrite app_nil_r. exact Hlive'.
    - rewrite <- Hs. cbn [step]. unfold call, operate, MethProofs.Fb. rewrite (Hsl x x0). reflexivity. }
  exists s'. split; [exact Hth|]. split; [exact HS'|].
  destruct Hs' as [->|(s2 & e' & X2 & Hg2 & -> & Hen & _)]; [auto|]. right. exists s2, e, e'. auto.
Qed.

Lemma blank_step : forall w w' ev, blank w ->
  (forall sg lim ig fo en, legal_event sg (view w (blank_entry (@new_cacher V lim ig fo en))) (@new_cacher V lim ig fo en) ev) ->
  (forall (F : list C -> list (nat * C) -> V + E) lim ig fo en, exists x,
     step F (view w (blank_entry (@new_cacher V lim ig fo en))) (new_cacher lim ig fo en) ev =
     (x, view w' (blank_entry (@new_cacher V lim ig fo en)), new_cacher lim ig fo en)) -> blank w'.
Proof.
  intros w w' ev B Hl Hs F sg lim ig fo en H1 H2. destruct (Hs F lim ig fo en) as [x Hx].
  exact (reached_step C V E F sg _ _ ev x _ _ (B F sg lim ig fo en H1 H2) (Hl sg lim ig fo en) Hx).
Qed.

Lemma SI_on_object : forall s o b f, SI s -> (forall k e, fits (sw s) k e -> fits (sw s) k (f e)) ->
  SI (on_object s o b f).
Proof.
  intros s o b f [B H] Hf. unfold on_object. destruct (caches s o) as [c|] eqn:Hc; [|constructor; assumption].
  constructor; [exact B|]. intros o' k e Hg. unfold get_entry, set_cache in Hg; simpl in Hg. unfold upd1 in Hg.
  destruct (Nat.eqb_spec o' o) as [->|Hne].
  - simpl in Hg. rewrite dget_map in Hg. destruct (dget (ents c) k) as [e0|] eqn:H0; [|discriminate].
    injection Hg as <-. apply Hf. apply (H o). unfold get_entry. rewrite Hc. exact H0.
  - apply (H o'). exact Hg.
Qed.
(** The objects change, the caches of all but [o] stay. *)
Lemma SI_world : forall s w' o f ev, SI s ->
  (forall lim ig fo en sg, legal_event sg (view (sw s) (blank_entry (@new_cacher V lim ig fo en))) (@new_cacher V lim ig fo en) ev) ->
  (forall o' k e, o' <> o -> get_entry s o' k = Some e -> forall sg, legal_event sg (view (sw s) e) (ec e) ev) ->
  (forall (F : list C -> list (nat * C) -> V + E) e, exists x, step F (view (sw s) e) (ec e) ev = (x, view w' e, ec e)) ->
  (blank w' -> forall c k e, f = Some c -> dget (ents c) k = Some e -> fits w' k e) ->
  SI (mkSys w' (upd1 (caches s) o f)).
Proof.
  intros s w' o f ev [B H] Hlb Hl Hs Hf.
  assert (B' : blank w').
  { eapply blank_step; [exact B | intros; apply Hlb |]. intros F lim ig fo en.
    apply (Hs F (blank_entry (new_cacher lim ig fo en))). }
  constructor; [exact B'|].
  intros o' k e Hg. unfold get_entry in Hg; simpl in Hg. unfold upd1 in Hg.
  destruct (Nat.eqb_spec o' o) as [->|Hne].
  - destruct f as [c|]; [|discriminate]. eapply Hf; eauto.
  - eapply fits_step; [apply (H o' k); exact Hg | eapply Hl; eauto | intros F; apply Hs].
Qed.

Lemma sstep_ok : forall s ev, SI s -> slegal_event s ev ->
  exists x s', sstep s ev = (x, s') /\ SI s' /\
    match ev with
    | SCall m args kw =>
        x = Some match bound_args (params (def m)) args kw with
                 | Some a => plain m (map (content (sw s)) a)
                 | None => inr typeerr
                 end /\ content (sw s') = content (sw s)
    | SBound o m args => x = Some (plain m (map (content (sw s)) (o :: args))) /\ content (sw s') = content (sw s)
    | SChange l _ => x = None /\ content (sw s') = assign (content (sw s)) l
    | SNew o _ _ y _ _ => x = None /\ content (sw s') = upd1 (content (sw s)) o y
    | SCopy o o' _ _ => x = None /\ content (sw s') = upd1 (content (sw s)) o' (content (sw s) o)
    | _ => x = None /\ content (sw s') = content (sw s)
    end.
Proof.
  intros s ev HS Hl.
  destruct ev as [m args kw|o m lim ig fo en|o m args|l notes|o k none y a p|o o' a p|o|o b|o|o|o|o k b];
    cbn [MethModel.sstep].
  - unfold method_call. destruct (bound_args (params (def m)) args kw) as [a|] eqn:Hb.
    + assert (Hlen : length a = arity m).
      { unfold bound_args in Hb. destruct (known _ _); [|discriminate]. unfold MethSpec.arity.
        clear Hl. revert args a Hb. induction (params (def m)) as [|[x d] ps IH]; intros [|a0 args] a Hb; cbn [bind] in Hb.
        - injection Hb as <-. reflexivity.
        - discriminate.
        - destruct (kwget kw x); [|destruct d; [|discriminate]];
            destruct (bind ps [] kw) eqn:Hp; try discriminate; injection Hb as <-; simpl; f_equal; eauto.
        - destruct (kwget kw x); [discriminate|]. destruct (bind ps args kw) eqn:Hp; [|discriminate].
          injection Hb as <-. simpl. f_equal. eauto. }
      destruct (callm_ok (S m) m (Nat.lt_succ_diag_r m) s a HS Hlen (Hl a Hb)) as (s' & Hc & HS' & X).
      rewrite Hc. eexists _, s'. split; [reflexivity|]. split; [exact HS'|]. split; [reflexivity|].
      rewrite (x_sw _ _ _ _ _ X). reflexivity.
    + eexists _, s. split; [reflexivity|]. auto.
  - eexists _, _. split; [reflexivity|]. destruct Hl as (Hlive & Hlim & Hsl & Hri). unfold bind_cacher.
    assert (HS1 : SI (ensure_cache s o)).
    { unfold ensure_cache. destruct (caches s o) as [f|] eqn:Hf; [exact HS|].
      destruct HS as [B H]. constructor; [exact B|]. intros o' k e Hg. unfold get_entry, set_cache in Hg; simpl in Hg.
      unfold upd1 in Hg. destruct (Nat.eqb_spec o' o) as [->|]; [discriminate|]. eapply H. exact Hg. }
    assert (Hsw : sw (ensure_cache s o) = sw s) by (unfold ensure_cache; destruct (caches s o); reflexivity).
    destruct (caches (ensure_cache s o) o) as [f|] eqn:Hf; [|split; [exact HS1|]; rewrite Hsw; auto].
    split; [|rewrite sw_set, Hsw; auto]. apply SI_set; [exact HS1|]. unfold MethProofs.fits; simpl.
    split; [exact Hsl|]. intros x. apply (si_blank _ _ _ _ _ _ _ HS1); [exact Hlim|]. apply Hri.
  - destruct (bound_ok s o m args HS Hl) as (s' & Hc & HS' & Hs'). rewrite Hc. eexists _, s'.
    split; [reflexivity|]. split; [exact HS'|]. split; [reflexivity|].
    destruct Hs' as [->|(s2 & e & e' & X & _ & -> & _)]; [reflexivity|]. rewrite sw_set, (x_sw _ _ _ _ _ X). reflexivity.
  - eexists _, _. split; [reflexivity|]. split; [|auto]. unfold on_all. set (w' := set_content _ _).
    destruct HS as [B H]. constructor; simpl.
    + eapply (blank_step (sw s) w' (EChange l notes)); [exact B | intros; exact Hl|]. intros F lim ig fo en. exists None.
      cbn [step]. rewrite deliver_blank. reflexivity.
    + intros o k e Hg. unfold get_entry in Hg; simpl in Hg. destruct (caches s o) as [f|] eqn:Hf; [|discriminate].
      simpl in Hg. rewrite dget_map in Hg. destruct (dget (ents f) k) as [e0|] eqn:H0; [|discriminate].
      injection Hg as <-. eapply (fits_step C V E recerr def body (sw s) w' k e0 _ (EChange l notes)).
      * apply (H o). unfold get_entry. rewrite Hf. exact H0.
      * intros; exact Hl.
      * intros F. exists None. reflexivity.
  - eexists _, _. split; [reflexivity|]. split; [|auto].
    apply (SI_world s (with_new (sw s) o k none y a) o _ (ENew o k none y a) HS).
    + intros; exact Hl.
    + intros; exact Hl.
    + intros F e. exists None. reflexivity.
    + intros _ c k0 e Hc Hd. destruct p; [|discriminate]. injection Hc as <-. discriminate.
  - eexists _, _. split; [reflexivity|]. split; [|auto]. destruct Hl as (Ho & Ho' & Ha & Hp).
    apply (SI_world s (with_new (sw s) o' (kindof (sw s) o) (isnone (sw s) o) (content (sw s) o) a) o' _
             (ENew o' (kindof (sw s) o) (isnone (sw s) o) (content (sw s) o) a) HS).
    + intros. split; assumption.
    + intros. split; assumption.
    + intros F e. exists None. reflexivity.
    + intros B' c k0 e Hc Hd. destruct p; [injection Hc as <-; discriminate|].
      destruct (caches s o) as [f|] eqn:Hf; [|discriminate]. injection Hc as <-. simpl in Hd.
      rewrite dget_map in Hd. destruct (dget (ents f) k0) as [e0|] eqn:H0; [|discriminate].
      injection Hd as <-. assert (Hg : get_entry s o k0 = Some e0) by (unfold get_entry; rewrite Hf; exact H0).
      destruct k0 as [[|] m]; [rewrite Hp in Hg by reflexivity; discriminate|].
      assert (Hfi := si_ent _ _ _ _ _ _ _ HS _ _ _ Hg). unfold MethProofs.fits in *; simpl in *.
      destruct Hfi as [Hfi Hcf]. apply reached_inv in Hfi. split; [apply B'; apply Hfi | exact Hcf].
  - eexists _, _. split; [reflexivity|]. split; [|auto]. destruct Hl as (Ho & Hh).
    apply (SI_world s (with_dead (sw s) o) o _ (EDie o) HS).
    + intros. split; [exact Ho | apply not_held_blank].
    + intros o' k e Hne Hg sg. split; [exact Ho | eapply Hh; eauto].
    + intros F e. exists None. reflexivity.
    + discriminate.
  - eexists _, _. split; [reflexivity|]. split; [|auto]. destruct HS as [B H]. constructor; simpl.
    + eapply (blank_step (sw s) _ (ESetUpd o b)); [exact B | intros; exact Logic.I|].
      intros F lim ig fo en. exists None. reflexivity.
    + intros o' k e Hg. eapply (fits_step C V E recerr def body (sw s) _ k e _ (ESetUpd o b)).
      * apply (H o'). exact Hg.
      * intros; exact Logic.I.
      * intros F. exists None. reflexivity.
  - eexists _, _. split; [reflexivity|]. split; [|unfold on_object; destruct (caches s o); auto].
    apply SI_on_object; [exact HS|]. intros; apply fits_reset; assumption.
  - eexists _, _. split; [reflexivity|]. split; [|unfold on_object; destruct (caches s o); auto].
    apply SI_on_object; [exact HS|]. intros; apply fits_off; assumption.
  - eexists _, _. split; [reflexivity|]. split; [|unfold on_object; destruct (caches s o); auto].
    apply SI_on_object; [exact HS|]. intros; eapply fits_on; eassumption.
  - eexists _, _. split; [reflexivity|]. destruct (get_entry s o k) as [e|] eqn:Hg; [|auto].
    assert (Hf := si_ent _ _ _ _ _ _ _ HS _ _ _ Hg).
    split; [|rewrite sw_set; auto]. apply SI_set; [exact HS|].
    destruct b as [[|]|]; [eapply fits_on | apply fits_off | apply fits_reset]; eassumption.
Qed.

Lemma shistory_ok : forall l s, SI s -> slegal s l ->
  exists xs s', shistory s l = (xs, s') /\ SI s' /\ xs = sideal (content (sw s)) l.
Proof.
  induction l as [|ev l IH]; intros s HS Hl; cbn [MethModel.shistory MethSpec.sideal].
  - exists [], s. auto.
  - destruct Hl as [Hev Hl]. destruct (sstep_ok s ev HS Hev) as (x & s1 & H1 & HS1 & Hx).
    rewrite H1 in *. destruct (IH s1 HS1 Hl) as (xs & s2 & H2 & HS2 & Hxs). rewrite H2.
    eexists _, s2. split; [reflexivity|]. split; [exact HS2|]. subst xs.
    destruct ev; destruct Hx as [-> ->]; reflexivity.
Qed.
Lemma SI_init : forall x ol, (forall a b : nat, ol a = ol b -> a = b) -> SI (new_sys x ol).
Proof. intros x ol H. constructor; [apply blank_init; exact H | discriminate]. Qed.

Lemma methods_transparent : forall x ol l, (forall a b : nat, ol a = ol b -> a = b) -> slegal (new_sys x ol) l ->
  fst (shistory (new_sys x ol) l) = sideal (fun _ => x) l.
Proof.
  intros x ol l Hol Hl. destruct (shistory_ok l _ (SI_init x ol Hol) Hl) as (xs & s' & H & _ & ->).
  rewrite H. reflexivity.
Qed.
Lemma arises_SI : forall l s, arises wrap typeerr recerr def body l s -> SI s.
Proof.
  intros l s (x & ol & Hol & Hl & ->). destruct (shistory_ok l _ (SI_init x ol Hol) Hl) as (xs & s' & H & HS & _).
  rewrite H. exact HS.
Qed.
Lemma methods_separate : forall l s o m e, arises wrap typeerr recerr def body l s ->
  get_entry s o (false, m) = Some e ->
  reached (fun xs _ => plain m xs) (arity m, []) (view (sw s) e) (ec e) /\
  limit (ec e) = mlim (def m) /\ ignore (ec e) = mig (def m) /\ force (ec e) = mfo (def m).
Proof. intros l s o m e Ha Hg. apply arises_SI in Ha. exact (si_ent _ _ _ _ _ _ _ Ha _ _ _ Hg). Qed.
End P.
