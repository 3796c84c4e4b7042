(** Properties C83-C89: cached methods (the decorator Cache_this). The programs and histories of the
    examples are in MethEx and MethFinal. *)
From Coq Require Import List ZArith NArith Bool.
From Verif Require Import CachingModel CachingSpec MethModel MethSpec MethProofs2 MethProofs3 MethProofs4 MethEx MethFinal.
Import ListNotations.

(** C83: every call of a cached method gives what the methods compute without any caching from the
    present contents of the arguments. *)
Theorem C83_transparent : forall C V E (wrap : ierr -> E) typeerr recerr def (body : nat -> list C -> prog V E),
  good_methods recerr def body -> forall x ol l, (forall a b : nat, ol a = ol b -> a = b) ->
  slegal wrap typeerr recerr def body (new_sys x ol) l ->
  fst (shistory wrap typeerr recerr def body (new_sys x ol) l) = sideal typeerr recerr def body (fun _ => x) l.
Proof. exact methods_transparent. Qed.
Print Assumptions C83_transparent.
Example C83_example : good_methods 2 def0 body0 /\ (forall a b : nat, ol0 a = ol0 b -> a = b) /\
  slegal0 (new_sys 0 ol0) l_ex /\
  sideal0 (fun _ => 0) l_ex =
  [inl 6; inl 6; inl 6; inr 1; inl 305; inl 305; inl 810; inl 8; inl 4; inl 8; inl 8; inl 8; inl 8; inl 8; inl 8; inl 208].
Proof. split; [exact good0|]. split; [exact ol0_inj|]. split; [exact ex_slegal | vm_compute; reflexivity]. Qed.

(** C84: the cache of one object for one method is a cacher as in C12-C20, with the limit and the
    ignored and forcing arguments of the declaration, whatever happens to the other caches. *)
Theorem C84_separate : forall C V E (wrap : ierr -> E) typeerr recerr def (body : nat -> list C -> prog V E),
  good_methods recerr def body -> forall l s o m e, arises wrap typeerr recerr def body l s ->
  get_entry s o (false, m) = Some e ->
  reached (fun xs _ => plain recerr body m xs) (arity def m, []) (view (sw s) e) (ec e) /\
  limit (ec e) = mlim (def m) /\ ignore (ec e) = mig (def m) /\ force (ec e) = mfo (def m).
Proof. exact methods_separate. Qed.
Print Assumptions C84_separate.
(** A call leaves alone the caches of the same method of other objects, and of all methods that are
    declared later (the method cannot use those). *)
Theorem C84_untouched : forall C V E (wrap : ierr -> E) typeerr recerr def (body : nat -> list C -> prog V E),
  good_methods recerr def body -> forall l s m args kw o a o' m' e, arises wrap typeerr recerr def body l s ->
  slegal_event recerr def body s (SCall m args kw) -> bound_args (params (def m)) args kw = Some (o :: a) ->
  get_entry s o' (false, m') = Some e -> m < m' \/ m' = m /\ o' <> o ->
  get_entry (snd (sstep wrap typeerr recerr def body s (SCall m args kw))) o' (false, m') = Some e.
Proof. exact untouched. Qed.
Print Assumptions C84_untouched.
Example C84_example : arises wrap0 1 2 def0 body0 l_ex (snd (shistory0 s0 l_ex)) /\
  (forall o m, In (o, m) [(1, 0); (1, 1); (1, 2); (2, 0); (4, 0); (4, 1)] ->
     exists e, get_entry (snd (shistory0 s0 l_ex)) o (false, m) = Some e) /\
  slegal_event 2 def0 body0 (snd (shistory0 s0 l_ex)) (SCall 0 [2; 3] []) /\
  bound_args (params (def0 0)) [2; 3] [] = Some [2; 3].
Proof.
  split; [exists 0, ol0; split; [exact ol0_inj | split; [exact ex_slegal | reflexivity]]|]. split.
  - intros o m H. simpl in H. repeat (destruct H as [[= <- <-]|H]; [eexists; vm_compute; reflexivity|]). destruct H.
  - split; [args_live | reflexivity].
Qed.

(** C85: when only the switches of objects are used, all cachers of an object are on or off as the
    last switch of the object says, and hold nothing when off; a call of a method of an object whose
    caching is off executes the method. *)
Theorem C85_switch : forall C V E (wrap : ierr -> E) typeerr recerr def (body : nat -> list C -> prog V E),
  good_methods recerr def body -> forall x ol l o k e, (forall a b : nat, ol a = ol b -> a = b) ->
  slegal wrap typeerr recerr def body (new_sys x ol) l ->
  all_by_object wrap typeerr recerr def body (new_sys x ol) l ->
  get_entry (snd (shistory wrap typeerr recerr def body (new_sys x ol) l)) o k = Some e ->
  enabled (ec e) = switched l o /\ (switched l o = false -> forall ins, ~ retains (ec e) ins).
Proof. exact switch_exact. Qed.
Print Assumptions C85_switch.
Theorem C85_off_executes : forall C V E (wrap : ierr -> E) typeerr recerr def (body : nat -> list C -> prog V E),
  good_methods recerr def body -> forall x ol l m args kw o a, (forall a b : nat, ol a = ol b -> a = b) ->
  slegal wrap typeerr recerr def body (new_sys x ol) l ->
  all_by_object wrap typeerr recerr def body (new_sys x ol) l ->
  let s := snd (shistory wrap typeerr recerr def body (new_sys x ol) l) in
  slegal_event recerr def body s (SCall m args kw) -> bound_args (params (def m)) args kw = Some (o :: a) ->
  switched l o = false ->
  executions (snd (sstep wrap typeerr recerr def body s (SCall m args kw))) o m = S (executions s o m).
Proof. exact off_executes. Qed.
Print Assumptions C85_off_executes.
Example C85_example : slegal0 s0 l_ex /\ all_by_object wrap0 1 2 def0 body0 s0 l_ex /\
  switched l_ex 4 = false /\ switched l_ex 1 = true /\
  slegal_event 2 def0 body0 (snd (shistory0 s0 l_ex)) (SCall 1 [4; 4; 2] []) /\
  bound_args (params (def0 1)) [4; 4; 2] [] = Some [4; 4; 2] /\
  executions (snd (shistory0 s0 l_ex)) 4 1 = 1.
Proof.
  split; [exact ex_slegal|]. split; [exact ex_by_object|]. split; [reflexivity|]. split; [reflexivity|].
  split; [args_live|]. split; [reflexivity | vm_compute; reflexivity].
Qed.

(** C85 for cachers switched off on their own: switching the object off and on again switches them
    on. *)
Theorem C85_single_refuted : exists l l', slegal0 s0 (l ++ l') /\ l' = [SDisable 1; SEnable 1] /\
  (exists e, get_entry (snd (shistory0 s0 l)) 1 (false, 0) = Some e /\ enabled (ec e) = false) /\
  (exists e, get_entry (snd (shistory0 s0 (l ++ l'))) 1 (false, 0) = Some e /\ enabled (ec e) = true).
Proof. exact single_switch. Qed.
Print Assumptions C85_single_refuted.
(** C85 for copies: a copy caches although caching is off for its original. *)
Theorem C85_copy_refuted : exists l, slegal0 s0 l /\ let s := snd (shistory0 s0 l) in
  (exists f, caches s 1 = Some f /\ fon f = false) /\
  executions (snd (shistory0 s0 (l ++ [SCall 0 [1; 2] []; SCall 0 [1; 2] []]))) 1 0 = S (S (executions s 1 0)) /\
  content (sw s) 4 = content (sw s) 1 /\
  executions (snd (shistory0 s0 (l ++ [SCall 0 [4; 2] []; SCall 0 [4; 2] []]))) 4 0 = 1.
Proof. exact copy_on. Qed.
Print Assumptions C85_copy_refuted.
(** C85 for deep copies of objects that are not parameterized: the cache of the copy says that caching
    is off, its cachers are on. *)
Theorem C85_deepcopy_refuted : exists l, slegal0 s0 l /\ exists f e,
  caches (snd (shistory0 s0 l)) 4 = Some f /\ fon f = false /\
  get_entry (snd (shistory0 s0 l)) 4 (false, 0) = Some e /\ enabled (ec e) = true.
Proof. exact deep_copy_mixed. Qed.
Print Assumptions C85_deepcopy_refuted.

(** C86: a call executes its method at most once, and a call that returned is answered from the cache
    when it is made again: the same result, and nothing at all changes. *)
Theorem C86_once : forall C V E (wrap : ierr -> E) typeerr recerr def (body : nat -> list C -> prog V E),
  good_methods recerr def body -> forall l s m args kw o a, arises wrap typeerr recerr def body l s ->
  slegal_event recerr def body s (SCall m args kw) -> bound_args (params (def m)) args kw = Some (o :: a) ->
  executions s o m <= executions (snd (sstep wrap typeerr recerr def body s (SCall m args kw))) o m <= S (executions s o m).
Proof. exact executes_once. Qed.
Print Assumptions C86_once.
Theorem C86_again : forall C V E (wrap : ierr -> E) typeerr recerr def (body : nat -> list C -> prog V E),
  good_methods recerr def body -> forall x ol l m args kw o a v s', (forall a b : nat, ol a = ol b -> a = b) ->
  slegal wrap typeerr recerr def body (new_sys x ol) l ->
  all_by_object wrap typeerr recerr def body (new_sys x ol) l ->
  let s := snd (shistory wrap typeerr recerr def body (new_sys x ol) l) in
  slegal_event recerr def body s (SCall m args kw) ->
  bound_args (params (def m)) args kw = Some (o :: a) -> switched l o = true ->
  Forall (fun i => kindof (sw s) i <> KOther) (kept (mig (def m)) (o :: a)) ->
  sstep wrap typeerr recerr def body s (SCall m args kw) = (Some (inl v), s') ->
  sstep wrap typeerr recerr def body s' (SCall m args kw) = (Some (inl v), s').
Proof. exact again_on. Qed.
Print Assumptions C86_again.
Example C86_example : let s := snd (shistory0 s0 l_ex) in
  slegal_event 2 def0 body0 s (SCall 1 [1; 2; 3] []) /\
  bound_args (params (def0 1)) [1; 2; 3] [] = Some [1; 2; 3] /\ switched l_ex 1 = true /\
  Forall (fun i => kindof (sw s) i <> KOther) (kept (mig (def0 1)) [1; 2; 3]) /\
  fst (sstep0 s (SCall 1 [1; 2; 3] [])) = Some (inl 810) /\
  executions s 1 1 = 2 /\ executions (snd (sstep0 s (SCall 1 [1; 2; 3] []))) 1 1 = 3.
Proof.
  split; [args_live|]. split; [reflexivity|]. split; [reflexivity|].
  split; [repeat (apply Forall_cons; [vm_compute; discriminate|]); apply Forall_nil|].
  split; [vm_compute; reflexivity|]. split; vm_compute; reflexivity.
Qed.

(** C87: how the arguments are written (by position, by keyword, left to the default) makes no
    difference; arguments that do not fit the parameters are a TypeError and change nothing. *)
Theorem C87_same_call : forall C V E (wrap : ierr -> E) typeerr recerr def (body : nat -> list C -> prog V E)
    (s : sys C V) m args kw args' kw' a, NoDup (map fst kw) -> NoDup (map fst kw') ->
  binds (params (def m)) args kw a -> binds (params (def m)) args' kw' a ->
  sstep wrap typeerr recerr def body s (SCall m args kw) = sstep wrap typeerr recerr def body s (SCall m args' kw').
Proof. exact same_call. Qed.
Print Assumptions C87_same_call.
Theorem C87_wrong_call : forall C V E (wrap : ierr -> E) typeerr recerr def (body : nat -> list C -> prog V E)
    (s : sys C V) m args kw, NoDup (map fst kw) -> (forall a, ~ binds (params (def m)) args kw a) ->
  sstep wrap typeerr recerr def body s (SCall m args kw) = (Some (inr typeerr), s).
Proof. exact wrong_call. Qed.
Print Assumptions C87_wrong_call.
Theorem C87_binding : forall ps args kw a, NoDup (map fst kw) ->
  (bound_args ps args kw = Some a <-> binds ps args kw a).
Proof. exact bound_args_iff. Qed.
Print Assumptions C87_binding.
Example C87_example : bound_args (params (def0 1)) [1; 2] [(2, 3)] = Some [1; 2; 3] /\
  bound_args (params (def0 1)) [1] [(2, 3); (1, 2)] = Some [1; 2; 3] /\
  bound_args (params (def0 0)) [1] [] = Some [1; 9] /\
  bound_args (params (def0 0)) [1; 2] [(1, 2)] = None /\ NoDup (map fst [(2, 3); (1, 2)]).
Proof.
  repeat (split; [reflexivity|]). constructor; [|constructor; [intros []|constructor]].
  intros [H|[]]. discriminate H.
Qed.

(** C88 (an argument named in [force_kwargs] that is not None makes the method run, not so for
    decorated methods: the decorator passes all arguments by position). *)
Theorem C88_force_refuted : exists l, slegal0 s0 (l ++ [SCall 3 [1] [(1, 2)]]) /\
  In 1 (mfo (def0 3)) /\ isnone (sw (snd (shistory0 s0 l))) 2 = false /\
  executions (snd (shistory0 s0 l)) 1 3 = 1 /\
  executions (snd (shistory0 s0 (l ++ [SCall 3 [1] [(1, 2)]]))) 1 3 = 1.
Proof. exact force_ignored. Qed.
Print Assumptions C88_force_refuted.

(** C89 (a cacher made for a bound method sees changes of the object of the method: it does not). *)
Theorem C89_bound_refuted : exists l,
  (* legal but for the demand that the method does not look at its object *)
  l = l_objects ++ [SBind 1 0 5 [] [] true; SBound 1 0 [2]; SChange [(1, 4)] [(1, 1)]; SBound 1 0 [2]] /\
  fst (shistory0 s0 l) = [inl 3; inl 3] /\ sideal0 (fun _ => 0) l = [inl 3; inl 6].
Proof. exact bound_stale. Qed.
Print Assumptions C89_bound_refuted.
