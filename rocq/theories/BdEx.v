(** Constraints across copies, pickles and processes: a concrete program. *)
From Coq Require Import List ZArith Bool Arith Lia.
From Verif Require Import NpModel IndexOpsModel InstModel BdModel BdSpec BdProofs BdProofs2 BdProofs3 BdProofs4.
Import ListNotations.
Open Scope Z_scope.

Definition run1 (s : bst) (k : bcall) : bst := fst (bexec (fun x => x) 0 k s).
Definition runs (ks : list bcall) : bst := fold_left run1 ks bstart.
(** A model bounded on elements 0, 1, 3 and positive on 2; pickled. *)
Definition calls1 : list bcall := [NewModel; Constrain 0 [0; 1; 3] (Bounds 1 5); Constrain 0 [2] (Class 0); Dump 0].
(** It is loaded while it lives, or in another process. *)
Definition here : bst := runs (calls1 ++ [LoadFile 0]).
Definition there : bst := runs (calls1 ++ [NewProcess; LoadFile 0; CopyModel 1]).

Lemma bstep : forall ok s k, breach (fun x => x) 0 ok s -> blegal (fun x => x) s k -> ok s k -> breach (fun x => x) 0 ok (run1 s k).
Proof. intros. unfold run1. constructor; auto. Qed.
Lemma calls1_reach : forall ok, (forall s k, match k with LoadFile _ => True | _ => ok s k end) -> breach (fun x => x) 0 ok (runs calls1).
Proof.
  intros ok H. unfold runs, calls1. cbn [fold_left].
  apply bstep; [|vm_compute; eexists; reflexivity | exact (H _ (Dump 0))].
  apply bstep; [|split; [vm_compute; eexists; reflexivity | split; [discriminate | exact Logic.I]] | exact (H _ (Constrain 0 [2] (Class 0)))].
  apply bstep; [|split; [vm_compute; eexists; reflexivity | split; [discriminate | split; reflexivity]] | exact (H _ (Constrain 0 [0; 1; 3] (Bounds 1 5)))].
  apply bstep; [constructor | exact Logic.I | exact (H _ NewModel)].
Qed.
Lemma here_reach : breach (fun x => x) 0 any_call here.
Proof.
  unfold here, runs. rewrite fold_left_app. cbn [fold_left]. apply bstep; [apply calls1_reach; intros s []; exact Logic.I | vm_compute; lia | exact Logic.I].
Qed.
Lemma there_reach : breach (fun x => x) 0 no_twins there.
Proof.
  unfold there, runs. rewrite fold_left_app. cbn [fold_left].
  apply bstep; [|vm_compute; eexists; reflexivity | exact Logic.I].
  apply bstep; [|vm_compute; lia |].
  - apply bstep; [apply calls1_reach; intros s []; exact Logic.I | exact Logic.I | exact Logic.I].
  - intros i m j lo hi _ (d & E & _). vm_compute in E. destruct m as [|[|m]]; discriminate.
Qed.
Lemma there_any : breach (fun x => x) 0 any_call there.
Proof. exact (breach_any _ _ _ _ there_reach). Qed.
(** What an element is held by, for the examples. *)
Definition found (s : bst) (m : nat) (i : Z) : list what :=
  flat_map (fun e => match fst e with Tr o => if existsb (Z.eqb i) (snd e) then match kind (ts s) o with Some w => [w] | None => [] end else [] | Fixed => [] end) (model s m).
Lemma found_held : forall s m i w, exists_model s m -> (In w (found s m i) <-> held s m i w).
Proof.
  intros s m i w Hm. rewrite held_model by exact Hm. unfold found, binds. rewrite in_flat_map. split.
  - intros ([p l] & Hin & H). cbn [fst snd] in H. destruct p as [|o]; [destruct H|]. destruct (existsb (Z.eqb i) l) eqn:Ex; [|destruct H].
    apply existsb_exists in Ex. destruct Ex as (j & Hj & Q). apply Z.eqb_eq in Q. subst j. destruct (kind (ts s) o) as [v|] eqn:K; [|destruct H].
    destruct H as [->|[]]. exists o, l. auto.
  - intros (o & l & H1 & H2 & H3). exists (Tr o, l). split; [exact H1|]. cbn [fst snd]. replace (existsb (Z.eqb i) l) with true.
    + rewrite H3. left. reflexivity.
    + symmetry. apply existsb_exists. exists i. split; [exact H2 | apply Z.eqb_refl].
Qed.
Lemma twin_kept : exists s m ix w i, breach (fun x => x) 0 any_call s /\ exists_model s m /\ proper_what (fun x => x) w /\ In i ix /\
  snd (bexec (fun x => x) 0 (Unconstrain m ix w) s) = None /\
  held s m i w /\ held (fst (bexec (fun x => x) 0 (Unconstrain m ix w) s)) m i w.
Proof.
  exists here, 1%nat, [0; 1; 3], (Bounds 1 5), 1. split; [exact here_reach|]. assert (E : exists_model here 1) by (vm_compute; eexists; reflexivity).
  split; [exact E|]. split; [cbn; lia|]. split; [cbn; auto|]. split; [vm_compute; reflexivity|]. split.
  - apply found_held; [exact E|]. vm_compute. auto.
  - apply found_held; [vm_compute; eexists; reflexivity|]. vm_compute. auto.
Qed.
