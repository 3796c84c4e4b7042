(** Properties C12-C20, C62, C63: caching. The histories of the examples are in CachingEx. *)
From Coq Require Import List ZArith NArith Bool Ascii Lia Permutation Sorted.
From Verif Require Import CachingModel CachingSpec CachingProofs2 CachingFinal CachingEx.
Import ListNotations.

(** C12: the retained argument lists are those of the first-in first-out queue of the history,
    which never has more than [lim] elements. *)
Theorem C12_fifo_within_limit : forall C V E (F : list C -> list (nat * C) -> V + E)
    sg lim ig fo en x ol l, (1 <= lim)%Z -> respects_ignore F ig ->
  (forall a b : nat, ol a = ol b -> a = b) ->
  let w0 := new_world x ol in let c0 := new_cacher lim ig fo en in
  legal F sg w0 c0 l ->
  let c := snd (history F w0 c0 l) in
  let q := snd (queue F lim ig fo w0 c0 (en, []) l) in
  (forall ins, retains c ins <-> In ins q) /\ NoDup q /\ (Z.of_nat (length q) <= lim)%Z.
Proof. exact retained_fifo. Qed.
Print Assumptions C12_fifo_within_limit.
Example C12_example : legal ex_F ex_sig ex_w0 ex_c0 ex_l1 /\
  snd (queue ex_F 2 [0] [] ex_w0 ex_c0 (true, []) ex_l1) = [[2; 4]; [3; 3]].
Proof. split; [exact ex_legal1 | vm_compute; reflexivity]. Qed.

(** C62 (any integer limit gives a working cacher): with a negative limit entries pile up without
    bound, with limit 0 the first call fails inside the cacher although the operation succeeds. *)
Theorem C62_negative_limit_refuted : forall n, exists lim l sg,
  (lim < 0)%Z /\ legal ex_F sg ex_w0 (new_cacher lim [] [] true) l /\
  length (order (snd (history ex_F ex_w0 (new_cacher lim [] [] true) l))) = n.
Proof. exact negative_limit. Qed.
Print Assumptions C62_negative_limit_refuted.
Theorem C62_zero_limit_refuted : exists l sg,
  legal ex_F sg ex_w0 (new_cacher 0 [] [] true) l /\
  fst (fst (history ex_F ex_w0 (new_cacher 0 [] [] true) l)) = [Internal IndexErr] /\
  ideal ex_F (content ex_w0) l = [Ret 1].
Proof. exact zero_limit. Qed.
Print Assumptions C62_zero_limit_refuted.

(** C13: every call of a history gives what calling the operation directly gives. *)
Theorem C13_transparent : forall C V E (F : list C -> list (nat * C) -> V + E)
    sg lim ig fo en x ol l, (1 <= lim)%Z -> respects_ignore F ig ->
  (forall a b : nat, ol a = ol b -> a = b) ->
  legal F sg (new_world x ol) (new_cacher lim ig fo en) l ->
  fst (fst (history F (new_world x ol) (new_cacher lim ig fo en) l)) = ideal F (fun _ => x) l.
Proof. exact transparent. Qed.
Print Assumptions C13_transparent.
Example C13_example : legal ex_F ex_sig ex_w0 ex_c0 (ex_l1 ++ EDie 1 :: ex_l2) /\
  ideal ex_F (fun _ => 0) (ex_l1 ++ EDie 1 :: ex_l2) =
    [Ret 3; Ret 3; Ret 6; Ret 21; Ret 6; Ret 24; Ret 80; Exc 110; Ret 24; Ret 24; Ret 24; Ret 6].
Proof. split; [exact ex_legal | vm_compute; reflexivity]. Qed.

(** C63 (changes made while the updates of an input are off are seen later). *)
Theorem C63_updates_off_refuted : exists l : list (event nat),
  (* everything is legal up to the change of object 1, whose updates are off at that time *)
  l = [ENew 1 KObs false 1 26%N; ECall [1] []; ESetUpd 1 false; EChange [(1, 2)] [(1, 1)];
       ESetUpd 1 true; ECall [1] []] /\
  fst (fst (history (fun xs _ => inl (total xs) : nat + nat) ex_w0 (new_cacher 5 [] [] true) l)) = [Ret 1; Ret 1] /\
  ideal (fun xs _ => inl (total xs) : nat + nat) (fun _ => 0) l = [Ret 1; Ret 2].
Proof. eexists. split; [reflexivity|]. split; vm_compute; reflexivity. Qed.
Print Assumptions C63_updates_off_refuted.

(** C14: after a call through the cache, as long as nothing notifies about its arguments and its
    result is retained, calling again does not run the operation (the world, including its run
    counter, is unchanged) ... *)
Theorem C14_hit_does_not_run : forall C V E (F : list C -> list (nat * C) -> V + E)
    sg w c args kw l args' kw', reached F sg w c ->
  has_sig sg args kw -> Forall (fun o => live w o = true) (args ++ map snd kw) ->
  let ins := combine_inputs (ignore c) args kw in
  enabled c = true -> cacheable w (force c) kw ins = true ->
  let s1 := call F w c args kw in
  legal F sg (snd (fst s1)) (snd s1) l -> Forall (leaves_alone ins) l ->
  let s2 := history F (snd (fst s1)) (snd s1) l in
  let w2 := snd (fst s2) in let c2 := snd s2 in
  has_sig sg args' kw' -> Forall (fun o => live w2 o = true) (args' ++ map snd kw') ->
  combine_inputs (ignore c2) args' kw' = ins ->
  enabled c2 = true -> cacheable w2 (force c2) kw' ins = true -> retains c2 ins ->
  exists v, call F w2 c2 args' kw' = (Ret v, w2, c2) /\ operate F w2 args' kw' = inl v.
Proof. exact hit_later. Qed.
Print Assumptions C14_hit_does_not_run.
(** ... and a new result is retained at least until [limit] further calls. *)
Theorem C14_not_evicted_early : forall C V E (F : list C -> list (nat * C) -> V + E)
    sg w c args kw l v, reached F sg w c ->
  has_sig sg args kw -> Forall (fun o => live w o = true) (args ++ map snd kw) ->
  let ins := combine_inputs (ignore c) args kw in
  enabled c = true -> cacheable w (force c) kw ins = true -> ~ retains c ins ->
  let s1 := call F w c args kw in
  fst (fst s1) = Ret v ->
  legal F sg (snd (fst s1)) (snd s1) l -> Forall no_reset l ->
  Forall (fun r => match r with Exc _ => False | _ => True end) (ideal F (content w) l) ->
  (Z.of_nat (calls l) < limit c)%Z ->
  retains (snd (history F (snd (fst s1)) (snd s1) l)) ins.
Proof. exact not_evicted. Qed.
Print Assumptions C14_not_evicted_early.
(** After the first five events: call (1,2), then another call, then (1,2) again. *)
Example C14_example :
  let w := snd (fst (history ex_F ex_w0 ex_c0 (firstn 5 ex_l1))) in
  let c := snd (history ex_F ex_w0 ex_c0 (firstn 5 ex_l1)) in
  let s1 := call ex_F w c [0; 1] [(5, 2)] in
  let l := [ECall [0; 3] [(5, 4)]; EChange [(3, 30)] [(3, 3)]] in
  let s2 := history ex_F (snd (fst s1)) (snd s1) l in
  reached ex_F ex_sig w c /\ ~ retains c [1; 2] /\ fst (fst s1) = Ret 3 /\
  legal ex_F ex_sig (snd (fst s1)) (snd s1) l /\ Forall (leaves_alone [1; 2]) l /\
  Forall no_reset l /\ (Z.of_nat (calls l) < limit c)%Z /\
  fst (fst (call ex_F (snd (fst s2)) (snd s2) [0; 1] [(5, 2)])) = Ret 3 /\
  runs (snd (fst (call ex_F (snd (fst s2)) (snd s2) [0; 1] [(5, 2)]))) = runs (snd (fst s2)).
Proof. exact ex_hit. Qed.

(** C15. *)
Theorem C15_keys_injective : forall C V E (F : list C -> list (nat * C) -> V + E) sg w c l1 l2,
  reached F sg w c ->
  Forall (fun o => live w o = true) l1 -> Forall (fun o => live w o = true) l2 ->
  (prepare_cache_id (map (addr w) l1) = prepare_cache_id (map (addr w) l2) <-> l1 = l2).
Proof. exact keys_iff. Qed.
Print Assumptions C15_keys_injective.
Example C15_example :
  reached ex_F ex_sig (snd (fst (history ex_F ex_w0 ex_c0 ex_l1))) (snd (history ex_F ex_w0 ex_c0 ex_l1)) /\
  prepare_cache_id [10; 255; 4096]%N =
    ["0"; "x"; "a"; "0"; "x"; "f"; "f"; "0"; "x"; "1"; "0"; "0"; "0"]%char.
Proof. split; [exact ex_reached1 | vm_compute; reflexivity]. Qed.

(** The inputs that make up a key: positional arguments, then keyword arguments in the order of their
    names, without those at ignored positions. *)
Theorem C15_inputs_exact : forall ig args kw, exists kws, Permutation kws kw /\
  StronglySorted le (map fst kws) /\ combine_inputs ig args kw = kept ig (args ++ map snd kws).
Proof. exact inputs_exact. Qed.
Print Assumptions C15_inputs_exact.
Example C15_inputs_example : combine_inputs [1; 3] [10; 11] [(7, 14); (3, 12); (5, 13)] = [10; 12; 14].
Proof. reflexivity. Qed.

(** C16. *)
Theorem C16_registrations_exact : forall C V E (F : list C -> list (nat * C) -> V + E) sg w c o,
  reached F sg w c ->
  (kindof w o = KObs /\ held c o -> registered_with w o = 1%nat) /\
  (~ (kindof w o = KObs /\ held c o) -> registered_with w o = 0%nat).
Proof. exact registrations. Qed.
Print Assumptions C16_registrations_exact.
Theorem C16_reset_releases : forall C V E (F : list C -> list (nat * C) -> V + E) sg w c,
  reached F sg w c ->
  (forall o, registered_with (fst (reset w c)) o = 0%nat) /\ forall ins, ~ retains (snd (reset w c)) ins.
Proof. exact reset_clean. Qed.
Print Assumptions C16_reset_releases.
Example C16_example :
  let w := snd (fst (history ex_F ex_w0 ex_c0 ex_l1)) in let c := snd (history ex_F ex_w0 ex_c0 ex_l1) in
  reached ex_F ex_sig w c /\ map (registered_with w) [0; 1; 2; 3; 4] = [0; 0; 1; 1; 0].
Proof. split; [exact ex_reached1 | vm_compute; reflexivity]. Qed.

(** C17: the cacher after a failure is a new cacher. *)
Theorem C17_failure_leaves_new_cacher : forall C V E (F : list C -> list (nat * C) -> V + E)
    sg w c args kw e, reached F sg w c -> has_sig sg args kw ->
  Forall (fun o => live w o = true) (args ++ map snd kw) ->
  enabled c = true -> cacheable w (force c) kw (combine_inputs (ignore c) args kw) = true ->
  operate F w args kw = inr e ->
  exists w', call F w c args kw = (Exc e, w', new_cacher (limit c) (ignore c) (force c) true) /\
    (forall o, registered_with w' o = 0%nat) /\ content w' = content w.
Proof. exact failure_clean. Qed.
Print Assumptions C17_failure_leaves_new_cacher.
Example C17_example :
  let l := ex_l1 ++ EDie 1 :: firstn 3 ex_l2 in
  let w := snd (fst (history ex_F ex_w0 ex_c0 l)) in let c := snd (history ex_F ex_w0 ex_c0 l) in
  legal ex_F ex_sig ex_w0 ex_c0 (l ++ skipn 3 ex_l2) /\
  order c <> [] /\ cacheable w (force c) [(5, 2)] (combine_inputs (ignore c) [0; 6] [(5, 2)]) = true /\
  operate ex_F w [0; 6] [(5, 2)] = inr 110.
Proof. split; [exact ex_legal | vm_compute; repeat split; discriminate]. Qed.

(** C18: the order in which keyword arguments are given does not matter ... *)
Theorem C18_keyword_order : forall C V E (F : list C -> list (nat * C) -> V + E) (w : world C) (c : cacher V)
    args kw kw', by_name F -> Permutation kw kw' -> NoDup (map fst kw) ->
  call F w c args kw = call F w c args kw'.
Proof. exact kw_order. Qed.
Print Assumptions C18_keyword_order.
Example C18_example : by_name ex_F /\ Permutation [(1, 10); (0, 11)] [(0, 11); (1, 10)] /\
  NoDup (map fst [(1, 10); (0, 11)]).
Proof. split; [exact ex_F_named|]. split; [constructor | repeat constructor; simpl; intuition discriminate]. Qed.
(** ... but calls that bind different keyword names are confused: f(a=o) then f(b=o). *)
Theorem C18_keyword_names_refuted : exists l : list (event nat),
  let F := fun (_ : list nat) (kx : list (nat * nat)) => inl (total (map fst kx)) : nat + nat in
  fst (fst (history F ex_w0 (new_cacher 5 [] [] true) l)) = [Ret 7; Ret 7] /\
  ideal F (fun _ => 0) l = [Ret 7; Ret 8].
Proof.
  exists [ENew 1 KObs false 1 26%N; ECall [] [(7, 1)]; ECall [] [(8, 1)]]. split; vm_compute; reflexivity.
Qed.
Print Assumptions C18_keyword_names_refuted.

(** C19: object 2 is a slice of object 1 (they share an observer list): writing through it changes
    object 1 too and notifies as object 2; the cached result for object 1 is returned unchanged. *)
Theorem C19_slice_write_refuted : exists (ol : nat -> nat) (l : list (event nat)),
  let F := fun (xs : list nat) (_ : list (nat * nat)) => inl (total xs) : nat + nat in
  ol 1 = ol 2 /\
  l = [ENew 1 KObs false 1 26%N; ENew 2 KObs false 1 42%N; ECall [1] []; EChange [(1, 5); (2, 5)] [(2, 2)]; ECall [1] []] /\
  fst (fst (history F (new_world 0 ol) (new_cacher 5 [] [] true) l)) = [Ret 1; Ret 1] /\
  ideal F (fun _ => 0) l = [Ret 1; Ret 5].
Proof.
  exists (fun o => if Nat.eqb o 2 then 1 else o). eexists. split; [reflexivity|]. split; [reflexivity|].
  split; vm_compute; reflexivity.
Qed.
Print Assumptions C19_slice_write_refuted.

(** C20: a recomputation of (1) during which another call evicts its entry leaves an entry that is
    neither counted nor invalidated: two results are held with limit 1, and the last two calls,
    which do not overlap with anything, return an outdated result. *)
Theorem C20_overlap_refuted : exists l : list (oevent nat),
  let F := fun (xs : list nat) (_ : list (nat * nat)) => inl (total xs) : nat + nat in
  let s := ohistory F (ex_w0, new_cacher 1 [] [] true, []) l in
  l = [OOther (ENew 1 KObs false 1 26%N); OOther (ENew 2 KObs false 2 42%N); OOther (ECall [1] []);
       OOther (EChange [(1, 10)] [(1, 1)]);
       OBegin 0 [1] []; OBegin 1 [2] []; OEnd 1; OEnd 0;
       OOther (EChange [(1, 100)] [(1, 1)]); OOther (ECall [1] [])] /\
  fst s = [Ret 1; Ret 2; Ret 10; Ret 10] /\ content (fst (fst (snd s))) 1 = 100 /\
  length (filter (fun k => match c_out (snd (fst (snd s))) k with Some _ => true | None => false end)
                 [hex 26; hex 42]) = 2 /\ limit (snd (fst (snd s))) = 1%Z.
Proof. eexists. split; [reflexivity|]. vm_compute. repeat split. Qed.
Print Assumptions C20_overlap_refuted.
