(** Constraints asked for by name (constrain_bounded, unconstrain_bounded, constrain_positive, ...)
    across copies, pickles and processes: C129. *)
From Coq Require Import List ZArith Bool Arith Lia.
From Verif Require Import NpModel IndexOpsModel InstModel BdModel BdSpec BdProofs BdProofs2 BdProofs3 BdProofs4 BdEx.
Import ListNotations.
Open Scope Z_scope.

(** *** C129: what constrain_... and unconstrain_... do to each element, whatever was done before. *)
Theorem C129_constrain : forall fl dflt s m ix w, breach fl dflt any_call s -> exists_model s m -> ix <> [] -> proper_what fl w ->
  let s' := fst (bexec fl dflt (Constrain m ix w) s) in
  snd (bexec fl dflt (Constrain m ix w) s) = None /\
  (forall i v, held s' m i v <-> (In i ix /\ v = w) \/ (~ In i ix /\ held s m i v)) /\
  forall m' i v, m' <> m -> (held s' m' i v <-> held s m' i v).
Proof. exact constrain_effect. Qed.
Print Assumptions C129_constrain.

Theorem C129_unconstrain : forall fl dflt s m ix w, breach fl dflt no_twins s -> exists_model s m -> proper_what fl w ->
  let s' := fst (bexec fl dflt (Unconstrain m ix w) s) in
  snd (bexec fl dflt (Unconstrain m ix w) s) = None /\
  (forall i v, held s' m i v <-> held s m i v /\ ~ (In i ix /\ v = w)) /\
  forall m' i v, m' <> m -> (held s' m' i v <-> held s m' i v).
Proof. exact unconstrain_effect. Qed.
Print Assumptions C129_unconstrain.

(** Of the transformations without bounds this holds without any condition on what is loaded. *)
Theorem C129_class : forall fl dflt s m ix c, breach fl dflt any_call s -> exists_model s m ->
  let s' := fst (bexec fl dflt (Unconstrain m ix (Class c)) s) in
  forall i v, held s' m i v <-> held s m i v /\ ~ (In i ix /\ v = Class c).
Proof. exact class_effect. Qed.
Print Assumptions C129_class.

(** Whatever was loaded, at most what was asked for is removed. *)
Theorem C129_at_most : forall fl dflt s m ix w, breach fl dflt any_call s -> exists_model s m -> proper_what fl w ->
  let s' := fst (bexec fl dflt (Unconstrain m ix w) s) in
  snd (bexec fl dflt (Unconstrain m ix w) s) = None /\
  (forall i v, held s' m i v -> held s m i v) /\
  (forall i v, held s m i v -> ~ In i ix \/ v <> w -> held s' m i v) /\
  forall m' i v, m' <> m -> (held s' m' i v <-> held s m' i v).
Proof.
  exact (fun fl dflt s m ix w HR Hm Hp => match unconstrain_always fl dflt s m ix w HR Hm Hp with
    | conj A (conj B (conj C (conj _ E))) => conj A (conj B (conj C E)) end).
Qed.
Print Assumptions C129_at_most.

Theorem C129_all : forall fl dflt s m ix, breach fl dflt any_call s -> exists_model s m ->
  let s' := fst (bexec fl dflt (UnconstrainAll m ix) s) in
  (forall i v, held s' m i v <-> held s m i v /\ ~ In i ix) /\ forall m' i v, m' <> m -> (held s' m' i v <-> held s m' i v).
Proof. exact all_effect. Qed.
Print Assumptions C129_all.

Theorem C129_refused : forall fl dflt s m ix lo hi k, breach fl dflt any_call s -> exists_model s m -> ix <> [] -> hi <= lo -> fl lo = lo -> fl hi = hi ->
  k = Constrain m ix (Bounds lo hi) \/ k = Unconstrain m ix (Bounds lo hi) ->
  snd (bexec fl dflt k s) = Some AssertionError /\ forall m' i v, held (fst (bexec fl dflt k s)) m' i v <-> held s m' i v.
Proof. exact refused_effect. Qed.
Print Assumptions C129_refused.

Theorem C129_copy : forall fl dflt s m, breach fl dflt any_call s -> exists_model s m ->
  let s' := fst (bexec fl dflt (CopyModel m) s) in
  (forall i v, held s' (length (mods s)) i v <-> held s m i v) /\
  forall m' i v, (m' < length (mods s))%nat -> (held s' m' i v <-> held s m' i v).
Proof. exact copy_effect. Qed.
Print Assumptions C129_copy.

Theorem C129_dump : forall fl dflt s m, breach fl dflt any_call s -> exists_model s m ->
  let s' := fst (bexec fl dflt (Dump m) s) in
  (forall i v, stored s' (length (files s)) i v <-> held s m i v) /\ forall m' i v, held s' m' i v <-> held s m' i v.
Proof. exact dump_effect. Qed.
Print Assumptions C129_dump.

(** A pickle keeps what it holds, whatever is done afterwards. *)
Theorem C129_kept : forall fl dflt s s2 f i v, breach fl dflt any_call s -> (f < length (files s))%nat ->
  (exists ks, s2 = fold_left (fun s k => fst (bexec fl dflt k s)) ks s /\
    forall n, blegal fl (fold_left (fun s k => fst (bexec fl dflt k s)) (firstn n ks) s) (nth n ks NewModel)) ->
  (stored s2 f i v <-> stored s f i v).
Proof. exact stored_later. Qed.
Print Assumptions C129_kept.

Theorem C129_load : forall fl dflt s f, breach fl dflt any_call s -> (f < length (files s))%nat ->
  let s' := fst (bexec fl dflt (LoadFile f) s) in
  snd (bexec fl dflt (LoadFile f) s) = None /\
  (forall i v, held s' (length (mods s)) i v <-> stored s f i v) /\
  forall m' i v, (m' < length (mods s))%nat -> (held s' m' i v <-> held s m' i v).
Proof. exact load_effect. Qed.
Print Assumptions C129_load.

(** A model loaded while a model with the same bounds lives in the process keeps bounds that it is
    told to give up. *)
Theorem C129_loaded_refuted : exists s m ix w i, breach (fun x => x) 0 any_call s /\ exists_model s m /\ proper_what (fun x => x) w /\ In i ix /\
  snd (bexec (fun x => x) 0 (Unconstrain m ix w) s) = None /\
  held s m i w /\ held (fst (bexec (fun x => x) 0 (Unconstrain m ix w) s)) m i w.
Proof. exact twin_kept. Qed.
Print Assumptions C129_loaded_refuted.

(** The hypotheses of C129_unconstrain: a model loaded in a new process and its copy; the bounds of
    elements 0 and 3 of the loaded model are given up, element 1 and the copy keep theirs. *)
Example C129_unconstrain_case : breach (fun x => x) 0 no_twins there /\ exists_model there 1 /\ proper_what (fun x => x) (Bounds 1 5) /\
  let s' := fst (bexec (fun x => x) 0 (Unconstrain 1 [0; 3] (Bounds 1 5)) there) in
  map (found there 1) [0; 1; 2; 3] = [[Bounds 1 5]; [Bounds 1 5]; [Class 0]; [Bounds 1 5]] /\
  map (found s' 1) [0; 1; 2; 3] = [[]; [Bounds 1 5]; [Class 0]; []] /\
  map (found s' 2) [0; 1; 2; 3] = [[Bounds 1 5]; [Bounds 1 5]; [Class 0]; [Bounds 1 5]].
Proof.
  split; [exact there_reach|]. split; [vm_compute; eexists; reflexivity|]. split; [cbn; lia|]. split; [|split]; vm_compute; reflexivity.
Qed.
(** Of C129_constrain, C129_class, C129_at_most and C129_all: the same model; element 0 gets other
    bounds, element 2 is freed by either call. *)
Example C129_constrain_case : breach (fun x => x) 0 any_call there /\ exists_model there 1 /\ proper_what (fun x => x) (Bounds 2 9) /\
  map (found (run1 there (Constrain 1 [0; 2] (Bounds 2 9))) 1) [0; 1; 2; 3] = [[Bounds 2 9]; [Bounds 1 5]; [Bounds 2 9]; [Bounds 1 5]] /\
  map (found (run1 there (Unconstrain 1 [0; 2] (Class 0))) 1) [0; 1; 2; 3] = [[Bounds 1 5]; [Bounds 1 5]; []; [Bounds 1 5]] /\
  map (found (run1 there (UnconstrainAll 1 [0; 2])) 1) [0; 1; 2; 3] = [[]; [Bounds 1 5]; []; [Bounds 1 5]].
Proof.
  split; [exact there_any|]. split; [vm_compute; eexists; reflexivity|]. split; [cbn; lia|]. split; [|split]; vm_compute; reflexivity.
Qed.
(** Of C129_refused. *)
Example C129_refused_case : breach (fun x => x) 0 any_call there /\ exists_model there 1 /\ 5 <= 5 /\
  snd (bexec (fun x => x) 0 (Constrain 1 [0; 2] (Bounds 5 5)) there) = Some AssertionError.
Proof. split; [exact there_any|]. split; [vm_compute; eexists; reflexivity|]. split; [lia | vm_compute; reflexivity]. Qed.
(** Of C129_copy, C129_dump, C129_kept and C129_load: the copy is pickled, the process ends, the
    pickle is loaded. *)
Example C129_load_case : breach (fun x => x) 0 any_call there /\ exists_model there 2 /\ length (files there) = 1%nat /\
  (exists ks, fold_left run1 [Dump 2; NewProcess] there = fold_left (fun s k => fst (bexec (fun x => x) 0 k s)) ks there /\
    (forall n, blegal (fun x => x) (fold_left (fun s k => fst (bexec (fun x => x) 0 k s)) (firstn n ks) there) (nth n ks NewModel))) /\
  map (found (fold_left run1 [Dump 2; NewProcess; LoadFile 1] there) 3) [0; 1; 2; 3] = [[Bounds 1 5]; [Bounds 1 5]; [Class 0]; [Bounds 1 5]].
Proof.
  split; [exact there_any|]. split; [vm_compute; eexists; reflexivity|]. split; [vm_compute; reflexivity|]. split; [|vm_compute; reflexivity].
  exists [Dump 2; NewProcess]. split; [reflexivity|]. intros [|[|[|n]]]; [vm_compute; eexists; reflexivity | exact Logic.I | exact Logic.I | ].
  replace (nth (S (S (S n))) [Dump 2; NewProcess] NewModel) with NewModel by (destruct n; reflexivity). exact Logic.I.
Qed.
