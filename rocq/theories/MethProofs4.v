(** Proofs about cached methods: switches, executions and hits of systems. *)
From Coq Require Import List ZArith NArith Bool Lia Permutation.
From Verif Require Import CachingModel CachingSpec CachingProofs CachingProofs2 CachingFinal MethModel MethSpec MethProofs MethProofs2 MethProofs3.
Import ListNotations.

Section P.
Variables C V E : Type.
Variable wrap : ierr -> E.
Variables typeerr recerr : E.
Variable def : nat -> mdef.
Variable body : nat -> list C -> prog V E.
Hypothesis good : good_methods recerr def body.
Notation sys := (sys C V).
Notation world := (world C).
Notation arity := (arity def).
Notation plain := (plain recerr body).
Notation callm := (callm wrap typeerr recerr def body).
Notation SI := (SI C V E recerr def body).
Notation ext := (ext C V).
Notation fits := (fits C V E recerr def body).
Notation sstep := (sstep wrap typeerr recerr def body).
Notation shistory := (shistory wrap typeerr recerr def body).
Notation slegal := (slegal wrap typeerr recerr def body).
Notation slegal_event := (slegal_event recerr def body).
Notation arises := (arises wrap typeerr recerr def body).
Notation all_by_object := (all_by_object wrap typeerr recerr def body).
Notation fon_of := (fon_of C V).

Lemma bound_length : forall m args kw a, bound_args (params (def m)) args kw = Some a -> length a = arity m.
Proof.
  intros m args kw a Hba. unfold bound_args in Hba. destruct (known _ _); [|discriminate]. unfold MethSpec.arity.
  revert args a Hba. induction (params (def m)) as [|[x d] ps IH]; intros [|a0 args] a Hba; cbn [bind] in Hba.
  - injection Hba as <-. reflexivity.
  - discriminate.
  - destruct (kwget kw x); [|destruct d; [|discriminate]];
      destruct (bind ps [] kw) eqn:Hp; try discriminate; injection Hba as <-; simpl; f_equal; eauto.
  - destruct (kwget kw x); [discriminate|]. destruct (bind ps args kw) eqn:Hp; [|discriminate].
    injection Hba as <-. simpl. f_equal. eauto.
Qed.

(** [sb] says for each object whether caching is on. *)
Record flags (sb : nat -> bool) (s : sys) : Prop := {
  f_some : forall o b, fon_of s o = Some b -> b = sb o;
  f_none : forall o, fon_of s o = None -> sb o = true;
  f_ent : forall o k e, get_entry s o k = Some e -> enabled (ec e) = sb o }.

Lemma flags_ext : forall sb t s s', flags sb s -> ext t s s' -> flags sb s'.
Proof.
  intros sb t s s' [F1 F2 F3] [X1 X2 X3 X4 X5 X6].
  assert (F1' : forall o b, fon_of s' o = Some b -> b = sb o).
  { intros o b H. destruct (fon_of s o) as [b0|] eqn:H0.
    - pose proof (X2 _ _ H0) as H1. rewrite H1 in H. injection H as <-. eauto.
    - destruct (X3 _ H0) as [H1|H1]; rewrite H1 in H; [discriminate|]. injection H as <-. symmetry. auto. }
  constructor; [exact F1'| |].
  - intros o H. destruct (fon_of s o) as [b0|] eqn:H0; [|auto]. rewrite (X2 _ _ H0) in H. discriminate.
  - intros o k e H. destruct (get_entry s o k) as [e0|] eqn:H0.
    + destruct (X5 _ _ _ H0) as (e1 & H1 & E1). rewrite H1 in H. injection H as <-. rewrite E1. eauto.
    + apply F1'. eauto.
Qed.
Lemma flags_set : forall sb s o k e, flags sb s -> enabled (ec e) = sb o -> flags sb (set_entry s o k e).
Proof.
  intros sb s o k e [F1 F2 F3] He. constructor.
  - intros o' b. rewrite fon_set. apply F1.
  - intros o'. rewrite fon_set. apply F2.
  - intros o' k' e' Hg. destruct (caches s o) as [f|] eqn:Hf.
    + destruct (Nat.eq_dec o' o) as [->|Ho]; [destruct (dkey_dec k' k) as [->|Hk]|].
      * rewrite (get_set_same _ _ _ _ _ _ _ Hf) in Hg. injection Hg as <-. exact He.
      * rewrite get_set_other in Hg by congruence. eauto.
      * rewrite get_set_other in Hg by congruence. eauto.
    + unfold set_entry in Hg. rewrite Hf in Hg. eauto.
Qed.
Lemma flags_upd : forall sb s w' o f b, flags sb s ->
  (forall k e c, f = Some c -> dget (ents c) k = Some e -> enabled (ec e) = b) ->
  (forall c, f = Some c -> fon c = b) -> (f = None -> b = true) ->
  flags (fun x => if Nat.eqb x o then b else sb x) (mkSys w' (upd1 (caches s) o f)).
Proof.
  intros sb s w' o f b [F1 F2 F3] H1 H2 H3. constructor.
  - intros o' b'. unfold MethProofs.fon_of; simpl. unfold upd1. destruct (Nat.eqb_spec o' o) as [->|]; [|apply F1].
    destruct f as [c|]; [|discriminate]. simpl. intros [= <-]. auto.
  - intros o'. unfold MethProofs.fon_of; simpl. unfold upd1. destruct (Nat.eqb_spec o' o) as [->|]; [|apply F2].
    destruct f as [c|]; [discriminate | auto].
  - intros o' k e. unfold get_entry; simpl. unfold upd1. destruct (Nat.eqb_spec o' o) as [->|]; [|apply F3].
    destruct f as [c|]; [|discriminate]. eauto.
Qed.
Lemma flags_eq : forall sb sb' s, flags sb s -> (forall o, sb o = sb' o) -> flags sb' s.
Proof. intros sb sb' s [F1 F2 F3] H. constructor; intros; rewrite <- H; eauto. Qed.

Lemma flags_on_object : forall sb s o b f, flags sb s -> (forall c, caches s o = Some c -> True) ->
  caches s o <> None -> (forall k e, get_entry s o k = Some e -> enabled (ec (f e)) = match b with Some b => b | None => sb o end) ->
  flags (fun x => if Nat.eqb x o then match b with Some b => b | None => sb o end else sb x) (on_object s o b f).
Proof.
  intros sb s o b f F _ Hn Hf. unfold on_object. destruct (caches s o) as [c|] eqn:Hc; [|congruence].
  apply flags_upd.
  - exact F.
  - intros k e c0 [= <-] Hd. simpl in Hd. rewrite dget_map in Hd.
    destruct (dget (ents c) k) as [e0|] eqn:H0; [|discriminate]. injection Hd as <-. apply (Hf k).
    unfold get_entry. rewrite Hc. exact H0.
  - intros c0 [= <-]. simpl. destruct b; [reflexivity|]. apply (f_some _ _ F). unfold MethProofs.fon_of. rewrite Hc. reflexivity.
  - discriminate.
Qed.

Lemma reset_enabled : forall (w : world) (c : cacher V), enabled (snd (reset w c)) = enabled c.
Proof. reflexivity. Qed.
Lemma e_reset_enabled : forall (w : world) (e : entry V), enabled (ec (e_reset w e)) = enabled (ec e).
Proof. reflexivity. Qed.
Lemma e_off_enabled : forall (w : world) (e : entry V), enabled (ec (e_off w e)) = false.
Proof. reflexivity. Qed.

Lemma sstep_flags : forall s ev l, SI s -> slegal_event s ev -> by_object s ev ->
  flags (switched l) s -> flags (switched (l ++ [ev])) (snd (sstep s ev)).
Proof.
  intros s ev l HS Hl Hb F.
  assert (Hsw : forall o, switched (l ++ [ev]) o = switch o (switched l o) ev).
  { intros o. unfold switched. rewrite fold_left_app. reflexivity. }
  apply flags_eq with (sb := fun o => switch o (switched l o) ev); [|intros; symmetry; apply Hsw]. clear Hsw.
  set (sb := switched l) in *. clearbody sb.
  destruct ev as [m args kw|o m lim ig fo en|o m args|ch notes|o k none y a p|o o' a p|o|o b|o|o|o|o k b];
    cbn [MethModel.sstep switch].
  - apply flags_eq with (sb := sb); [|reflexivity].
    unfold method_call. destruct (bound_args (params (def m)) args kw) as [a|] eqn:Hba; [|exact F].
    assert (Hlen := bound_length _ _ _ _ Hba).
    destruct (callm_ok C V E wrap typeerr recerr def body good (S m) m (Nat.lt_succ_diag_r m) s a HS Hlen (Hl a Hba))
      as (s' & Hc & _ & X). rewrite Hc. eapply flags_ext; eauto.
  - apply flags_eq with (sb := sb); [|reflexivity]. cbn [snd]. unfold bind_cacher. simpl in Hb. subst en.
    assert (F1 : flags sb (ensure_cache s o)).
    { unfold ensure_cache. destruct (caches s o) as [f|] eqn:Hf; [exact F|].
      assert (Ho : sb o = true) by (apply (f_none _ _ F); unfold MethProofs.fon_of; rewrite Hf; reflexivity).
      apply flags_eq with (sb := fun x => if Nat.eqb x o then true else sb x).
      - apply flags_upd; [exact F | | | discriminate].
        + intros k e c [= <-]. discriminate.
        + intros c [= <-]. reflexivity.
      - intros x. destruct (Nat.eqb_spec x o) as [->|]; auto. }
    destruct (caches (ensure_cache s o) o) as [f|] eqn:Hf; [|exact F1].
    apply flags_set; [exact F1|]. simpl. apply (f_some _ _ F1). unfold MethProofs.fon_of. rewrite Hf. reflexivity.
  - apply flags_eq with (sb := sb); [|reflexivity].
    destruct (bound_ok C V E wrap typeerr recerr def body good s o m args HS Hl) as (s' & Hc & _ & Hs'). rewrite Hc. cbn [snd].
    destruct Hs' as [->|(s2 & e & e' & X & Hg & -> & Hen)]; [exact F|].
    pose proof (flags_ext _ _ _ _ F X) as F2. apply flags_set; [exact F2|]. rewrite Hen. eapply (f_ent _ _ F2). exact Hg.
  - apply flags_eq with (sb := sb); [|reflexivity]. cbn [snd]. destruct F as [F1 F2 F3]. constructor.
    + intros o b. unfold MethProofs.fon_of; simpl. intros H. apply F1. unfold MethProofs.fon_of.
      destruct (caches s o); exact H.
    + intros o. unfold MethProofs.fon_of; simpl. intros H. apply F2. unfold MethProofs.fon_of.
      destruct (caches s o); [discriminate | reflexivity].
    + intros o k e. unfold get_entry; simpl. destruct (caches s o) as [f|] eqn:Hf; [|discriminate]. simpl.
      rewrite dget_map. destruct (dget (ents f) k) as [e0|] eqn:H0; [|discriminate]. intros [= <-].
      assert (Hg : get_entry s o k = Some e0) by (unfold get_entry; rewrite Hf; exact H0).
      rewrite <- (F3 o k e0 Hg). unfold e_deliver; simpl.
      assert (Hfit := si_ent _ _ _ _ _ _ _ HS _ _ _ Hg).
      assert (Hk : exists F sg, inv C V E F sg (view (sw s) e0) (ec e0)).
      { unfold MethProofs.fits in Hfit. destruct (fst k).
        - destruct Hfit as [_ Hr]. specialize (Hr (content (sw s) 0)). apply reached_inv in Hr. eauto.
        - destruct Hfit as [Hr _]. apply reached_inv in Hr. eauto. }
      destruct Hk as (G & sg & Hi).
      destruct (deliver_all C V (view (set_content (sw s) (assign (content (sw s)) ch)) e0) notes (ec e0)) as [M _].
      { eapply inv_tbl_keys. exact Hi. }
      apply (marks_in _ _ _ M).
  - cbn [snd]. apply flags_eq with (sb := fun x => if Nat.eqb x o then true else sb x); [|reflexivity].
    apply flags_upd; [exact F | | | auto].
    + intros k0 e c Hc. destruct p; [|discriminate]. injection Hc as <-. discriminate.
    + intros c Hc. destruct p; [|discriminate]. injection Hc as <-. reflexivity.
  - cbn [snd]. simpl in Hb. subst p. apply flags_eq with (sb := fun x => if Nat.eqb x o' then true else sb x); [|reflexivity].
    apply flags_upd; [exact F | | | auto].
    + intros k0 e c [= <-]. discriminate.
    + intros c [= <-]. reflexivity.
  - cbn [snd]. apply flags_eq with (sb := fun x => if Nat.eqb x o then true else sb x); [|reflexivity].
    apply flags_upd; [exact F | discriminate | discriminate | auto].
  - apply flags_eq with (sb := sb); [|reflexivity]. cbn [snd]. destruct F as [F1 F2 F3]. constructor; assumption.
  - apply flags_eq with (sb := fun x => if Nat.eqb x o then sb o else sb x).
    2:{ intros x. destruct (Nat.eqb_spec x o) as [->|]; reflexivity. }
    cbn [snd]. destruct (caches s o) as [c|] eqn:Hc.
    + apply (flags_on_object sb s o None); [exact F | auto | congruence |]. intros k e Hg.
      rewrite e_reset_enabled. eapply (f_ent _ _ F). exact Hg.
    + unfold on_object. rewrite Hc. apply flags_eq with (sb := sb); [exact F|].
      intros x. destruct (Nat.eqb_spec x o) as [->|]; reflexivity.
  - cbn [snd]. apply flags_eq with (sb := fun x => if Nat.eqb x o then false else sb x); [|reflexivity].
    apply (flags_on_object sb s o (Some false)); [exact F | auto | exact Hb |]. intros; apply e_off_enabled.
  - cbn [snd]. apply flags_eq with (sb := fun x => if Nat.eqb x o then true else sb x); [|reflexivity].
    destruct (caches s o) as [c|] eqn:Hc.
    + apply (flags_on_object sb s o (Some true)); [exact F | auto | congruence |]. intros; reflexivity.
    + unfold on_object. rewrite Hc. apply flags_eq with (sb := sb); [exact F|].
      intros x. destruct (Nat.eqb_spec x o) as [->|]; [|reflexivity].
      apply (f_none _ _ F). unfold MethProofs.fon_of. rewrite Hc. reflexivity.
  - destruct b as [b|]; [destruct Hb|]. apply flags_eq with (sb := sb); [|reflexivity]. cbn [snd].
    destruct (get_entry s o k) as [e|] eqn:Hg; [|exact F]. apply flags_set; [exact F|].
    rewrite e_reset_enabled. eapply (f_ent _ _ F). exact Hg.
Qed.

Lemma shistory_flags : forall l l0 s, SI s -> slegal s l -> all_by_object s l -> flags (switched l0) s ->
  flags (switched (l0 ++ l)) (snd (shistory s l)).
Proof.
  induction l as [|ev l IH]; intros l0 s HS Hl Hb F; [rewrite app_nil_r; exact F|].
  destruct Hl as [Hev Hl]. destruct Hb as [Hbe Hb]. cbn [MethModel.shistory].
  pose proof (sstep_flags s ev l0 HS Hev Hbe F) as F1.
  destruct (sstep_ok C V E wrap typeerr recerr def body good s ev HS Hev) as (x & s1 & H1 & HS1 & _).
  rewrite H1 in *. cbn [snd] in *.
  specialize (IH (l0 ++ [ev]) s1 HS1 Hl Hb F1). rewrite <- app_assoc in IH. simpl in IH.
  destruct (shistory s1 l) as [xs s2]. exact IH.
Qed.
Lemma arises_flags : forall x ol l, (forall a b : nat, ol a = ol b -> a = b) -> slegal (new_sys x ol) l ->
  all_by_object (new_sys x ol) l ->
  let s := snd (shistory (new_sys x ol) l) in SI s /\ flags (switched l) s.
Proof.
  intros x ol l Hol Hl Hb s. split.
  - apply (arises_SI C V E wrap typeerr recerr def body good l). exists x, ol. auto.
  - apply (shistory_flags l [] (new_sys x ol)); auto.
    + apply SI_init. exact Hol.
    + constructor; intros; try discriminate. reflexivity.
Qed.

Lemma switch_exact : forall x ol l o k e, (forall a b : nat, ol a = ol b -> a = b) -> slegal (new_sys x ol) l ->
  all_by_object (new_sys x ol) l ->
  get_entry (snd (shistory (new_sys x ol) l)) o k = Some e ->
  enabled (ec e) = switched l o /\ (switched l o = false -> forall ins, ~ retains (ec e) ins).
Proof.
  intros x ol l o k e Hol Hl Hb Hg. destruct (arises_flags x ol l Hol Hl Hb) as [HS F].
  pose proof (f_ent _ _ F _ _ _ Hg) as He. split; [exact He|]. intros Hoff. rewrite Hoff in He.
  pose proof (si_ent _ _ _ _ _ _ _ HS _ _ _ Hg) as Hfit. unfold MethProofs.fits in Hfit. destruct (fst k).
  - destruct Hfit as [_ Hr]. eapply reached_off; [exact (Hr x) | exact He].
  - destruct Hfit as [Hr _]. eapply reached_off; [exact Hr | exact He].
Qed.

(** ** Executions. *)
Lemma callm_entry : forall s m o args, SI s -> length (o :: args) = arity m ->
  Forall (fun a => live (sw s) a = true) (o :: args) ->
  exists e s2, get_entry (ensure_entry def (ensure_cache s o) o m) o (false, m) = Some e /\
    SI (ensure_entry def (ensure_cache s o) o m) /\ ext (S m) s (ensure_entry def (ensure_cache s o) o m) /\
    eruns e = executions s o m /\
    reached (MethProofs.Fm C V E recerr body m) (arity m, []) (view (sw s) e) (ec e) /\ conf V def m (ec e) /\
    get_entry s2 o (false, m) = Some e /\ sw s2 = sw s /\
    run_prog (callm m) (o :: args) (body m (map (content (sw s)) (o :: args)))
       (ensure_entry def (ensure_cache s o) o m) = (plain m (map (content (sw s)) (o :: args)), s2).
Proof.
  intros s m o args HS Hlen Hlive.
  destruct (MethProofs2.ensure_spec C V E recerr def body good s o m HS) as (HS1 & X1 & [e He] & Hnew).
  set (s1 := ensure_entry def (ensure_cache s o) o m) in *.
  assert (Hsw := x_sw _ _ _ _ _ X1).
  destruct (run_spec C V E recerr def body (callm m) m (o :: args) (body m (map (content (sw s)) (o :: args))) s1)
    as (s2 & H2 & HS2 & X2).
  - rewrite Hlen. apply good. rewrite map_length. exact Hlen.
  - intros m' Hm'. apply callm_ok; assumption.
  - exact HS1.
  - rewrite Hsw. exact Hlive.
  - exists e, s2. split; [exact He|]. split; [exact HS1|]. split; [exact X1|]. split.
    { unfold executions. destruct (get_entry s o (false, m)) as [e0|] eqn:H0.
      - assert (He0 : get_entry s1 o (false, m) = Some e0).
        { destruct (MethProofs2.ensure_spec C V E recerr def body good s o m HS) as (_ & _ & _ & _).
          unfold s1. unfold ensure_cache. destruct (caches s o) as [f|] eqn:Hf.
          - unfold ensure_entry. rewrite H0. exact H0.
          - unfold get_entry in H0. rewrite Hf in H0. discriminate. }
        congruence.
      - destruct (Hnew eq_refl) as [b Hb]. rewrite Hb in He. injection He as <-. reflexivity. }
    pose proof (si_ent _ _ _ _ _ _ _ HS1 _ _ _ He) as Hfit. unfold MethProofs.fits in Hfit. simpl in Hfit.
    rewrite Hsw in Hfit. destruct Hfit as [Hr Hcf]. split; [exact Hr|]. split; [exact Hcf|].
    split; [rewrite (x_keep _ _ _ _ _ X2); [exact He | right; simpl; lia]|].
    split; [rewrite (x_sw _ _ _ _ _ X2); exact Hsw|]. rewrite H2, Hsw. rewrite <- (plain_eq C V E recerr def body good); [reflexivity|].
    rewrite map_length. exact Hlen.
Qed.

(** One call, in detail. *)
Lemma callm_detail : forall s m o args s', SI s -> length (o :: args) = arity m ->
  Forall (fun a => live (sw s) a = true) (o :: args) ->
  snd (callm (S m) s m (o :: args)) = s' ->
  exists e e' s2, eruns e = executions s o m /\ get_entry s' o (false, m) = Some e' /\
    reached (MethProofs.Fm C V E recerr body m) (arity m, []) (view (sw s) e) (ec e) /\ conf V def m (ec e) /\
    (get_entry (ensure_entry def (ensure_cache s o) o m) o (false, m) = Some e) /\
    (exists w' c', call (MethProofs.Fm C V E recerr body m) (view (sw s) e) (ec e) (o :: args) [] =
       (to_result (plain m (map (content (sw s)) (o :: args))), w', c') /\ e' = entry_of w' c' /\ view (sw s) e' = w') /\
    ((exists v, begin_call (view (sw s) e) (ec e) (o :: args) [] = Hit v /\ e' = e /\
       s' = ensure_entry def (ensure_cache s o) o m) \/
     ((begin_call (view (sw s) e) (ec e) (o :: args) [] = Bypass \/
       exists p, begin_call (view (sw s) e) (ec e) (o :: args) [] = Compute p) /\
      eruns e' = S (eruns e) /\ s' = set_entry s2 o (false, m) e')).
Proof.
  intros s m o args s' HS Hlen Hlive Hs'.
  destruct (callm_entry s m o args HS Hlen Hlive) as (e & s2 & He & HS1 & X1 & Hex & Hr & Hcf & Hg2 & Hsw2 & Hrun).
  set (s1 := ensure_entry def (ensure_cache s o) o m) in *. assert (Hsw := x_sw _ _ _ _ _ X1).
  assert (Hr1 := Hr). rewrite <- Hsw in Hr1.
  assert (Hl1 : Forall (fun a => live (sw s1) a = true) (o :: args)) by (rewrite Hsw; exact Hlive).
  destruct (through_spec C V E wrap (MethProofs.Fm C V E recerr body m) (arity m) s1 s2 o (false, m) e (o :: args)
     (fun s2 => run_prog (callm m) (o :: args) (body m (map (content (sw s2)) (o :: args))) s2) He Hr1 Hlen Hl1)
     as (w' & c' & Hstep & Hv & Hen & Hcase).
  { rewrite Hsw. exact Hrun. }
  { exact Hg2. }
  { congruence. }
  rewrite Hsw in *. cbn [MethModel.callm] in Hs'. fold s1 in Hs'.
  assert (Hcall : call (MethProofs.Fm C V E recerr body m) (view (sw s) e) (ec e) (o :: args) [] =
       (to_result (plain m (map (content (sw s)) (o :: args))), w', c')).
  { cbn [step] in Hstep. destruct (call _ _ _ _ _) as [[r w1] c1]. injection Hstep as -> -> ->. reflexivity. }
  exists e, (entry_of w' c'), s2. split; [exact Hex|].
  destruct Hcase as [(v & Hb & Hth) | (Hb & Hruns & Hth)].
  - rewrite Hth in Hs'. cbn [snd] in Hs'. subst s'.
    assert (Hee : entry_of w' c' = e).
    { unfold call in Hcall. rewrite Hb in Hcall. injection Hcall as _ <- <-. destruct e; reflexivity. }
    split; [rewrite Hee; exact He|]. split; [exact Hr|]. split; [exact Hcf|]. split; [exact He|].
    split; [exists w', c'; auto|]. left. exists v. auto.
  - rewrite Hth in Hs'. cbn [snd] in Hs'. subst s'.
    destruct (get_some_cache _ _ _ _ _ _ Hg2) as [f Hf].
    split; [rewrite (get_set_same _ _ _ _ _ _ _ Hf); reflexivity|]. split; [exact Hr|]. split; [exact Hcf|].
    split; [exact He|].
    split; [exists w', c'; auto|]. right. auto.
Qed.

(** Switched off: every call executes the method once. *)
Lemma off_executes : forall x ol l m args kw o a, (forall a b : nat, ol a = ol b -> a = b) ->
  slegal (new_sys x ol) l -> all_by_object (new_sys x ol) l ->
  let s := snd (shistory (new_sys x ol) l) in
  slegal_event s (SCall m args kw) -> bound_args (params (def m)) args kw = Some (o :: a) ->
  switched l o = false ->
  executions (snd (sstep s (SCall m args kw))) o m = S (executions s o m).
Proof.
  intros x ol l m args kw o a Hol Hl Hb s Hle Hba Hoff.
  destruct (arises_flags x ol l Hol Hl Hb) as [HS F]. fold s in HS, F.
  cbn [MethModel.sstep]. unfold method_call. rewrite Hba.
  destruct (callm (S m) s m (o :: a)) as [r s'] eqn:Hc. cbn [snd].
  destruct (callm_detail s m o a s' HS (bound_length _ _ _ _ Hba) (Hle _ Hba)) as
    (e & e' & s2 & Hex & Hg' & Hr & Hcf & Hge & Hcall & Hcase); [rewrite Hc; reflexivity|].
  assert (Hen : enabled (ec e) = false).
  { destruct (MethProofs2.ensure_spec C V E recerr def body good s o m HS) as (_ & X1 & _).
    pose proof (flags_ext _ _ _ _ F X1) as F1. rewrite (f_ent _ _ F1 _ _ _ Hge). exact Hoff. }
  unfold executions at 1. rewrite Hg'. destruct Hcase as [(v & Hbc & _)|(_ & Hru & _)]; [|congruence].
  unfold begin_call in Hbc. rewrite Hen in Hbc. discriminate.
Qed.
(** A call executes the method at most once. *)
Lemma executes_once : forall l s m args kw o a, arises l s ->
  slegal_event s (SCall m args kw) -> bound_args (params (def m)) args kw = Some (o :: a) ->
  executions s o m <= executions (snd (sstep s (SCall m args kw))) o m <= S (executions s o m).
Proof.
  intros l s m args kw o a Ha Hle Hba. pose proof (arises_SI C V E wrap typeerr recerr def body good l s Ha) as HS.
  cbn [MethModel.sstep]. unfold method_call. rewrite Hba.
  destruct (callm (S m) s m (o :: a)) as [r s'] eqn:Hc. cbn [snd].
  destruct (callm_detail s m o a s' HS (bound_length _ _ _ _ Hba) (Hle _ Hba)) as
    (e & e' & s2 & Hex & Hg' & Hr & Hcf & Hge & Hcall & Hcase); [rewrite Hc; reflexivity|].
  unfold executions at 2 3. rewrite Hg'. destruct Hcase as [(v & _ & -> & _)|(_ & Hru & _)]; lia.
Qed.

(** Switched on: a call that returned is not executed again. *)
Lemma again : forall l s m args kw o a v s', arises l s ->
  slegal_event s (SCall m args kw) -> bound_args (params (def m)) args kw = Some (o :: a) ->
  sstep s (SCall m args kw) = (Some (inl v), s') ->
  (forall e, get_entry s' o (false, m) = Some e -> enabled (ec e) = true) ->
  Forall (fun x => kindof (sw s) x <> KOther) (kept (mig (def m)) (o :: a)) ->
  sstep s' (SCall m args kw) = (Some (inl v), s').
Proof.
  intros l s m args kw o a v s' Ha Hle Hba Hst Hen Hk.
  pose proof (arises_SI C V E wrap typeerr recerr def body good l s Ha) as HS.
  cbn [MethModel.sstep] in *. unfold method_call in *. rewrite Hba in *.
  assert (Hlen := bound_length _ _ _ _ Hba). assert (Hlive := Hle _ Hba).
  destruct (callm_ok C V E wrap typeerr recerr def body good (S m) m (Nat.lt_succ_diag_r m) s (o :: a) HS Hlen Hlive)
    as (s1' & Hc & HS' & X). rewrite Hc in Hst. injection Hst as Hv ->.
  destruct (callm_detail s m o a s' HS Hlen Hlive) as
    (e & e' & s2 & Hex & Hg' & Hr & (Hcl & Hci & Hcf) & Hge & (w' & c' & Hcall & Hee & Hvw) & Hcase); [rewrite Hc; reflexivity|].
  assert (Hsw := x_sw _ _ _ _ _ X).
  specialize (Hen e' Hg').
  assert (Hlive2 : Forall (fun x => live (sw s') x = true) (o :: a)) by (rewrite Hsw; exact Hlive).
  assert (Hse : enabled (ec e) = true).
  { destruct (call_spec C V E _ _ _ _ (o :: a) [] (reached_inv _ _ _ _ _ _ _ Hr)) as (w1 & c1 & Hc1 & _ & _ & (_ & _ & _ & He1)).
    - split; [exact Hlen | constructor].
    - simpl. rewrite app_nil_r. exact Hlive.
    - rewrite Hcall in Hc1. injection Hc1 as _ <-. subst e'. simpl in Hen. congruence. }
  assert (Hh := again_hit C V E _ _ _ _ (o :: a) [] v Hr (conj Hlen (perm_nil _))).
  simpl app in Hh. rewrite app_nil_r in Hh. specialize (Hh Hlive Hse). cbv zeta in Hh. rewrite Hcall in Hh. cbn [fst snd] in Hh.
  assert (Hhit : begin_call w' c' (o :: a) [] = Hit v).
  { apply Hh.
    - unfold cacheable. simpl. apply forallb_forall. intros z Hz. rewrite Forall_forall in Hk.
      change (kindof (view (sw s) e) z) with (kindof (sw s) z).
      destruct (kindof (sw s) z) eqn:Hkz; [reflexivity | reflexivity|].
      exfalso. apply (Hk z); [|exact Hkz]. rewrite kept_drop. rewrite Hci in Hz. unfold combine_inputs in Hz.
      simpl app in Hz. rewrite app_nil_r in Hz. exact Hz.
    - exact Hv. }
  (* the second call *)
  cbn [MethModel.callm].
  assert (Hens : ensure_entry def (ensure_cache s' o) o m = s').
  { destruct (get_some_cache _ _ _ _ _ _ Hg') as [f Hf]. unfold ensure_cache. rewrite Hf. unfold ensure_entry.
    rewrite Hg'. reflexivity. }
  rewrite Hens. unfold through. rewrite Hg'. rewrite Hsw, Hvw, Hee. cbn [ec entry_of]. rewrite Hhit. reflexivity.
Qed.
(** Calls leave alone the cachers of other methods that their method does not use, in particular those
    of methods declared later, and those of the same method of other objects. *)
Lemma untouched : forall l s m args kw o a o' m' e, arises l s ->
  slegal_event s (SCall m args kw) -> bound_args (params (def m)) args kw = Some (o :: a) ->
  get_entry s o' (false, m') = Some e -> m < m' \/ m' = m /\ o' <> o ->
  get_entry (snd (sstep s (SCall m args kw))) o' (false, m') = Some e.
Proof.
  intros l s m args kw o a o' m' e Ha Hle Hba Hg Hm.
  pose proof (arises_SI C V E wrap typeerr recerr def body good l s Ha) as HS.
  cbn [MethModel.sstep]. unfold method_call. rewrite Hba.
  assert (Hlen := bound_length _ _ _ _ Hba). assert (Hlive := Hle _ Hba).
  destruct Hm as [Hm|[-> Hne]].
  - destruct (callm_ok C V E wrap typeerr recerr def body good (S m) m (Nat.lt_succ_diag_r m) s (o :: a) HS Hlen Hlive)
      as (s1' & Hc & HS' & X). rewrite Hc. cbn [snd]. rewrite (x_keep _ _ _ _ _ X); [exact Hg | right; simpl; lia].
  - destruct (MethProofs2.ensure_spec C V E recerr def body good s o m HS) as (HS1 & X1 & [e1 He1] & _).
    set (s1 := ensure_entry def (ensure_cache s o) o m) in *. assert (Hsw := x_sw _ _ _ _ _ X1).
    assert (Hg1 : get_entry s1 o' (false, m) = Some e).
    { unfold s1, ensure_entry, ensure_cache. destruct (caches s o) as [f|] eqn:Hf.
      - destruct (get_entry s o (false, m)); [exact Hg|]. rewrite Hf. rewrite get_set_other by congruence. exact Hg.
      - assert (Hg0 : get_entry (set_cache s o (Some (mkF true []))) o' (false, m) = Some e).
        { unfold get_entry, set_cache; simpl. unfold upd1. rewrite (proj2 (Nat.eqb_neq o' o)) by exact Hne. exact Hg. }
        destruct (get_entry (set_cache s o (Some (mkF true []))) o (false, m)); [exact Hg0|].
        destruct (caches (set_cache s o (Some (mkF true []))) o); [|exact Hg0].
        rewrite get_set_other by congruence. exact Hg0. }
    destruct (run_spec C V E recerr def body (callm m) m (o :: a) (body m (map (content (sw s1)) (o :: a))) s1)
      as (s2 & H2 & HS2 & X2).
    { rewrite Hlen. apply good. rewrite map_length. exact Hlen. }
    { intros m1 Hm1. apply callm_ok; assumption. }
    { exact HS1. }
    { rewrite Hsw. exact Hlive. }
    assert (Hg2 : get_entry s2 o' (false, m) = Some e).
    { rewrite (x_keep _ _ _ _ _ X2); [exact Hg1 | right; simpl; lia]. }
    cbn [MethModel.callm]. fold s1. unfold through. rewrite He1.
    destruct (begin_call _ _ _ _).
    + rewrite H2. unfold count_run. destruct (get_entry s2 o (false, m)); [|exact Hg2].
      cbn [snd]. rewrite get_set_other by congruence. exact Hg2.
    + exact Hg1.
    + exact Hg1.
    + rewrite H2. destruct (get_entry s2 o (false, m)) as [e2|]; [|exact Hg2].
      destruct (end_call _ _ _ _) as [[r w1] c1]. cbn [snd]. rewrite get_set_other by congruence. exact Hg2.
Qed.
End P.
