(** Cached methods: the lemmas behind MethProps. *)
From Coq Require Import List ZArith NArith Bool Lia Permutation.
From Verif Require Import CachingModel CachingSpec CachingProofs MethModel MethSpec MethProofs MethProofs2 MethProofs3 MethProofs4 MethEx.
Import ListNotations.

Lemma again_on : forall C V E (wrap : ierr -> E) typeerr recerr def (body : nat -> list C -> prog V E),
  good_methods recerr def body ->
  forall x ol l m args kw o a v s', (forall a b : nat, ol a = ol b -> a = b) ->
  slegal wrap typeerr recerr def body (new_sys x ol) l ->
  all_by_object wrap typeerr recerr def body (new_sys x ol) l ->
  let s := snd (shistory wrap typeerr recerr def body (new_sys x ol) l) in
  slegal_event recerr def body s (SCall m args kw) ->
  bound_args (params (def m)) args kw = Some (o :: a) -> switched l o = true ->
  Forall (fun i => kindof (sw s) i <> KOther) (kept (mig (def m)) (o :: a)) ->
  sstep wrap typeerr recerr def body s (SCall m args kw) = (Some (inl v), s') ->
  sstep wrap typeerr recerr def body s' (SCall m args kw) = (Some (inl v), s').
Proof.
  intros C V E wrap typeerr recerr def body good x ol l m args kw o a v s' Hol Hl Hb s Hle Hba Hon Hk Hst.
  destruct (arises_flags C V E wrap typeerr recerr def body good x ol l Hol Hl Hb) as [HS F]. fold s in HS, F.
  eapply again; [exact good | | exact Hle | exact Hba | exact Hst | | exact Hk].
  - exists x, ol. split; [exact Hol|]. split; [exact Hl | reflexivity].
  - intros e He. pose proof (sstep_flags C V E wrap typeerr recerr def body good s (SCall m args kw) l HS Hle Logic.I F) as F'.
    rewrite Hst in F'. cbn [snd] in F'. rewrite (f_ent _ _ _ _ F' _ _ _ He). unfold switched. rewrite fold_left_app. simpl.
    exact Hon.
Qed.

(** Two ways to write a call. *)
Lemma same_call : forall C V E (wrap : ierr -> E) typeerr recerr def (body : nat -> list C -> prog V E)
    (s : sys C V) m args kw args' kw' a, NoDup (map fst kw) -> NoDup (map fst kw') ->
  binds (params (def m)) args kw a -> binds (params (def m)) args' kw' a ->
  sstep wrap typeerr recerr def body s (SCall m args kw) = sstep wrap typeerr recerr def body s (SCall m args' kw').
Proof.
  intros C V E wrap typeerr recerr def body s m args kw args' kw' a H1 H2 B1 B2.
  apply (proj2 (bound_args_iff _ _ _ _ H1)) in B1. apply (proj2 (bound_args_iff _ _ _ _ H2)) in B2.
  cbn [sstep]. unfold method_call. rewrite B1, B2. reflexivity.
Qed.
Lemma wrong_call : forall C V E (wrap : ierr -> E) typeerr recerr def (body : nat -> list C -> prog V E)
    (s : sys C V) m args kw, NoDup (map fst kw) -> (forall a, ~ binds (params (def m)) args kw a) ->
  sstep wrap typeerr recerr def body s (SCall m args kw) = (Some (inr typeerr), s).
Proof.
  intros C V E wrap typeerr recerr def body s m args kw H B. cbn [sstep]. unfold method_call.
  destruct (bound_args (params (def m)) args kw) as [a|] eqn:Ha; [|reflexivity].
  apply (bound_args_iff _ _ _ _ H) in Ha. destruct (B a Ha).
Qed.

(** An object with a cacher that is switched off on its own. *)
Definition l_single : list (sevent nat) := l_objects ++ [SCall 0 [1; 2] []; SOne 1 (false, 0) (Some false)].
Lemma single_switch : exists l l', slegal0 s0 (l ++ l') /\ l' = [SDisable 1; SEnable 1] /\
  (exists e, get_entry (snd (shistory0 s0 l)) 1 (false, 0) = Some e /\ enabled (ec e) = false) /\
  (exists e, get_entry (snd (shistory0 s0 (l ++ l'))) 1 (false, 0) = Some e /\ enabled (ec e) = true).
Proof.
  exists l_single, [SDisable 1; SEnable 1]. split.
  { unfold l_single, l_objects. simpl app. snew. snew. snew. snew. scall. striv. striv. striv. exact Logic.I. }
  split; [reflexivity|]. split; eexists; (split; [vm_compute; reflexivity | reflexivity]).
Qed.

(** A copy of an object whose caching is off. *)
Definition l_copied : list (sevent nat) :=
  l_objects ++ [SDisable 1; SCall 0 [1; 2] []; SCopy 1 4 400%N true].
Lemma copy_on : exists l, slegal0 s0 l /\ let s := snd (shistory0 s0 l) in
  (exists f, caches s 1 = Some f /\ fon f = false) /\
  executions (snd (shistory0 s0 (l ++ [SCall 0 [1; 2] []; SCall 0 [1; 2] []]))) 1 0 = S (S (executions s 1 0)) /\
  content (sw s) 4 = content (sw s) 1 /\
  executions (snd (shistory0 s0 (l ++ [SCall 0 [4; 2] []; SCall 0 [4; 2] []]))) 4 0 = 1.
Proof.
  exists l_copied. split.
  { unfold l_copied, l_objects. simpl app. snew. snew. snew. snew. striv. scall.
    split. { split; [vm_compute; reflexivity|]. split; [vm_compute; reflexivity|]. split; [addr_fresh | discriminate]. }
    exact Logic.I. }
  cbv zeta. split; [eexists; split; [vm_compute; reflexivity | reflexivity]|]. split; [vm_compute; reflexivity|].
  split; vm_compute; reflexivity.
Qed.

(** [copy.deepcopy] of an object (not parameterized) whose caching is off. *)
Definition l_deep : list (sevent nat) :=
  l_objects ++ [SCall 0 [1; 2] []; SDisable 1; SCopy 1 4 400%N false].
Lemma deep_copy_mixed : exists l, slegal0 s0 l /\ exists f e,
  caches (snd (shistory0 s0 l)) 4 = Some f /\ fon f = false /\
  get_entry (snd (shistory0 s0 l)) 4 (false, 0) = Some e /\ enabled (ec e) = true.
Proof.
  exists l_deep. split.
  { unfold l_deep, l_objects. simpl app. snew. snew. snew. snew. scall. striv.
    split.
    { split; [vm_compute; reflexivity|]. split; [vm_compute; reflexivity|]. split; [addr_fresh|].
      intros _ m. vm_compute. destruct m; reflexivity. }
    exact Logic.I. }
  eexists _, _. split; [vm_compute; reflexivity|]. split; [reflexivity|]. split; [vm_compute; reflexivity | reflexivity].
Qed.

(** [force_kwargs] of a decorated method. *)
Lemma force_ignored : exists l, slegal0 s0 (l ++ [SCall 3 [1] [(1, 2)]]) /\
  In 1 (mfo (def0 3)) /\ isnone (sw (snd (shistory0 s0 l))) 2 = false /\
  executions (snd (shistory0 s0 l)) 1 3 = 1 /\
  executions (snd (shistory0 s0 (l ++ [SCall 3 [1] [(1, 2)]]))) 1 3 = 1.
Proof.
  exists (l_objects ++ [SCall 3 [1] [(1, 2)]]). split.
  { unfold l_objects. simpl app. snew. snew. snew. snew. scall. scall. exact Logic.I. }
  split; [left; reflexivity|]. split; [vm_compute; reflexivity|]. split; vm_compute; reflexivity.
Qed.

(** A cacher made for a bound method. *)
Definition l_bound : list (sevent nat) :=
  l_objects ++ [SBind 1 0 5 [] [] true; SBound 1 0 [2]; SChange [(1, 4)] [(1, 1)]; SBound 1 0 [2]].
Lemma bound_stale : exists l,
  (* legal but for the demand that the method does not look at its object *)
  l = l_objects ++ [SBind 1 0 5 [] [] true; SBound 1 0 [2]; SChange [(1, 4)] [(1, 1)]; SBound 1 0 [2]] /\
  fst (shistory0 s0 l) = [inl 3; inl 3] /\ sideal0 (fun _ => 0) l = [inl 3; inl 6].
Proof. exists l_bound. split; [reflexivity|]. split; vm_compute; reflexivity. Qed.
