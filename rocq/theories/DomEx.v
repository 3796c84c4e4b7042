(** Concrete histories for C77. *)
From Coq Require Import List ZArith Bool Lia Arith.
From Verif Require Import NpModel NpProofs IndexOpsModel IndexOpsSpec PzModel CopyModel PzSpec PzTree PzStruct PzLink PzInv PzPres PzTraverse PzCmd PzVal PzOpt PzRandom PzHist PzKeep PzOrder PzGrad PzCheck PzFinal PzEx DomSpec DomProofs.
Import ListNotations.
Open Scope Z_scope.

(** Both methods of every transformation take the absolute value; the domain is what is not negative;
    fresh memory contains -5. *)
Definition pos_f (n : nat) (v : Z) : Z := Z.abs v.
Definition pos (n : nat) (v : Z) : Prop := 0 <= v.
Definition dom_junk (b : nat) (i : Z) : Z := -5.
Notation pos_ok := (fun s c => careful s c /\ respects pos_f pos_f pos_f pos s c).

(** A decision procedure for the side conditions of calls. *)
Definition valb (a b : option Z) : bool := match a, b with Some u, Some v => u =? v | None, None => true | _, _ => false end.
Lemma valb_ok : forall a b, valb a b = true -> a = b.
Proof. intros [u|] [v|] E; auto; try discriminate. apply Z.eqb_eq in E. congruence. Qed.
Definition sparesb (s : @state Z) (c : @call Z) : bool :=
  forallb (fun y => negb (is_leaf (st s) y) || forallb (fun j => valb (value (fst (exec pos_f pos_f pos_f c s)) y j) (value s y j)) (arange (size (st s) y))) (seq 0 (next (st s))).
Lemma sparesb_ok : forall s c, sparesb s c = true -> spares pos_f pos_f pos_f s c.
Proof.
  intros s c E s' e Ex y j Hy Hl Hj. unfold sparesb in E. rewrite forallb_forall in E. specialize (E y). rewrite Hl, Ex in E. cbn [negb orb fst] in E.
  rewrite forallb_forall in E by (apply in_seq; lia). apply valb_ok. apply E; [apply in_seq; lia | apply arange_In; auto].
Qed.
Definition respectsb (s : @state Z) (c : @call Z) : bool :=
  match c with
  | Assign x g => forallb (fun k => match value s x k with Some v => 0 <=? g k v | None => true end) (arange (size (st s) x))
  | NewNode _ _ | End _ _ | Link _ _ _ | Unlink _ _ | Initialize _ => sparesb s c
  | _ => true
  end.
Lemma respectsb_ok : forall s c, Inv s -> legal s c -> respectsb s c = true -> respects pos_f pos_f pos_f pos s c.
Proof.
  intros s c H L E. destruct c; cbn [respects respectsb] in *; auto using sparesb_ok.
  intros n k v Hn Hv. rewrite forallb_forall in E. specialize (E k). rewrite Hv in E. apply Z.leb_le, E. apply arange_In. apply (has_range s x (Tr n)); auto. apply L.
Qed.
Lemma play_pos : forall cs s, reach pos_f pos_f pos_f pos_ok dom_junk s -> played pos_f pos_f pos_f (fun s c => carefulb s c && respectsb s c) cs s = true ->
  reach pos_f pos_f pos_f pos_ok dom_junk (play pos_f pos_f pos_f cs s).
Proof.
  induction cs as [|c cs IH]; intros s R E; cbn [play played] in *; auto. apply andb_true_iff in E as [A B]. apply andb_true_iff in A as [A1 A2].
  apply IH; auto. destruct (exec pos_f pos_f pos_f c s) as [s' e] eqn:Ex. eapply reach_call; eauto.
  assert (H : Inv s) by (apply (reach_inv pos_f pos_f pos_f pos_ok dom_junk s); auto; intros s0 c0 [[Q _] _]; exact Q).
  assert (C : careful s c) by (apply carefulb_ok; auto). split; auto. apply respectsb_ok; auto. apply C.
Qed.
Lemma play_hist : forall (tinit tf tfinv : nat -> Z -> Z) (ok : @state Z -> @call Z -> Prop) okb cs s, (forall s c, ok s c -> legal s c) -> Inv s -> one s -> (forall s c, Inv s -> okb s c = true -> ok s c) ->
  played tinit tf tfinv okb cs s = true -> hist tinit tf tfinv ok s (play tinit tf tfinv cs s).
Proof.
  intros tinit tf tfinv ok okb cs. induction cs as [|c cs IH]; intros s Hl H O Hok E; cbn [play played] in *; [constructor|]. apply andb_true_iff in E as [A B].
  destruct (exec_ok tinit tf tfinv s c H O (Hl s c (Hok s c H A))) as (s' & e & Ex & H' & O' & _). rewrite Ex in *. cbn [fst] in *.
  apply (hist_call tinit tf tfinv ok s c s' e); auto.
Qed.

(** 3 = [0, 1] with a constrained and a fixed element; an optimizer sets negative values; the copy 5
    gets a new Param; element 0 of 1 is assigned. *)
Definition dom_build : list (@call Z) :=
  [NewParam [-1; 2]; NewParam [-3]; NewNode [0;1]%nat true; Constrain 0%nat None 1; Fix 0%nat (Some [1])].
Definition dom_tune : list (@call Z) :=
  [ReadOptimizer 2%nat; SetOptimizer 2%nat [-8; -9]; Updates 2%nat false; SetOptimizer 0%nat [-6]; Randomize 2%nat (fun i => - 7); Updates 2%nat true; Trigger 2%nat].
Definition dom_more : list (@call Z) :=
  [Copy 2%nat; NewParam [-20]; Link 3%nat 6%nat (Some 0); Constrain 6%nat None 2; Assign 3%nat (fun k v => v + 100); Unlink 2%nat 1%nat].
Definition dom_start : @state Z := play pos_f pos_f pos_f dom_build (init_state dom_junk).
Definition dom_end : @state Z := play pos_f pos_f pos_f dom_tune dom_start.
Definition dom_last : @state Z := play pos_f pos_f pos_f dom_more dom_end.
Lemma dom_reach0 : reach pos_f pos_f pos_f pos_ok dom_junk dom_start.
Proof. apply play_pos; [constructor | vm_compute; reflexivity]. Qed.
Lemma dom_reach1 : reach pos_f pos_f pos_f pos_ok dom_junk dom_end.
Proof. apply play_pos; [exact dom_reach0 | vm_compute; reflexivity]. Qed.
Lemma dom_reach2 : reach pos_f pos_f pos_f pos_ok dom_junk dom_last.
Proof. apply play_pos; [exact dom_reach1 | vm_compute; reflexivity]. Qed.
Lemma reach_pos : forall s, reach pos_f pos_f pos_f pos_ok dom_junk s -> reach pos_f pos_f pos_f careful dom_junk s.
Proof. intros s. apply reach_mono. intros s0 c [Q _]. exact Q. Qed.
Lemma pos_inv : forall s, reach pos_f pos_f pos_f pos_ok dom_junk s -> Inv s /\ one s.
Proof. intros s R. apply (reach_inv pos_f pos_f pos_f careful dom_junk s); [intros s0 c [Q _]; exact Q | apply reach_pos; auto]. Qed.
Lemma play_app : forall (tinit tf tfinv : nat -> Z -> Z) a b s, play tinit tf tfinv (a ++ b) s = play tinit tf tfinv b (play tinit tf tfinv a s).
Proof. intros tinit tf tfinv a. induction a as [|c a IH]; intros b s; cbn [app play]; auto. Qed.
Lemma dom_hist : hist pos_f pos_f pos_f pos_ok dom_start dom_last.
Proof.
  unfold dom_last, dom_end. rewrite <- play_app.
  destruct (pos_inv _ dom_reach0) as [H O]. apply (play_hist pos_f pos_f pos_f pos_ok (fun s c => carefulb s c && respectsb s c)).
  - intros s c [[Q _] _]. exact Q.
  - exact H.
  - exact O.
  - intros s c Hs A. apply andb_true_iff in A as [A1 A2]. assert (C : careful s c) by (apply carefulb_ok; auto). split; auto. apply respectsb_ok; auto. apply C.
  - vm_compute. reflexivity.
Qed.
Definition tuningb (c : @call Z) : bool := match c with SetOptimizer _ _ | ReadOptimizer _ | Randomize _ _ | Updates _ _ | Trigger _ => true | _ => false end.
Lemma dom_tuning : hist pos_f pos_f pos_f (fun s c => legal s c /\ tuning c) dom_start dom_end.
Proof.
  destruct (pos_inv _ dom_reach0) as [H O]. apply (play_hist pos_f pos_f pos_f _ (fun s c => legalb s c && tuningb c)).
  - intros s c [Q _]. exact Q.
  - exact H.
  - exact O.
  - intros s c Hs A. apply andb_true_iff in A as [A1 A2]. split; [apply legalb_ok; auto|]. destruct c; try discriminate; exact Logic.I.
  - vm_compute. reflexivity.
Qed.
Lemma dom_case : (forall n v, pos n (pos_f n v)) /\ reach pos_f pos_f pos_f careful dom_junk dom_start /\ inside pos dom_start /\ hist pos_f pos_f pos_f pos_ok dom_start dom_last /\
  has dom_start 2 (Tr 1) 0 /\ value dom_start 2 0 = Some 1 /\ value dom_last 2 0 = Some 7 /\ has dom_last 3 (Tr 2) 0 /\ value dom_last 3 0 = Some 120 /\
  (* an unconstrained one *) value dom_last 1 0 = Some (-7).
Proof.
  split; [intros n v; unfold pos, pos_f; lia|]. split; [apply reach_pos, dom_reach0|].
  split; [apply (inside_always pos_f pos_f pos_f pos) with (junk := dom_junk); try (intros; unfold pos, pos_f; lia); exact dom_reach0|].
  split; [exact dom_hist|]. split; [hs|]. split; [vm_compute; reflexivity|]. split; [vm_compute; reflexivity|]. split; [hs|]. split; vm_compute; reflexivity.
Qed.
Lemma tune_case : reach pos_f pos_f pos_f careful dom_junk dom_start /\ hist pos_f pos_f pos_f (fun s c => legal s c /\ tuning c) dom_start dom_end /\
  has dom_start 2 Fixed 1 /\ has dom_start 2 (Tr 1) 1 /\ value dom_start 2 1 = Some 2 /\ has dom_start 2 (Tr 1) 0 /\ value dom_start 2 0 = Some 1 /\ value dom_end 2 0 = Some 7.
Proof.
  split; [apply reach_pos, dom_reach0|]. split; [exact dom_tuning|]. split; [hs|]. split; [hs|]. split; [vm_compute; reflexivity|]. split; [hs|]. split; vm_compute; reflexivity.
Qed.

(** Assigning does not look at the constraints. *)
Lemma assign_refuted : exists s s', reach pos_f pos_f pos_f pos_ok dom_junk s /\ assign 0 (fun _ _ => -4) s = (s', None) /\ has s' 0 (Tr 1) 0 /\ value s' 0 0 = Some (-4).
Proof.
  exists dom_start, (fst (assign 0 (fun _ _ => -4) dom_start)). split; [exact dom_reach0|]. split; [apply pair_is; vm_compute; reflexivity|]. split; [hs | vm_compute; reflexivity].
Qed.
(** Linking two levels below the top replaces values by what is in fresh memory. *)
Definition dom_deep : @state Z :=
  play pos_f pos_f pos_f [NewParam [1]; NewNode [0]%nat true; NewNode [1]%nat true; NewNode [2]%nat true; NewParam [5]; Constrain 0%nat None 1] (init_state dom_junk).
Lemma link_refuted : exists s s', reach pos_f pos_f pos_f pos_ok dom_junk s /\ careful s (Link 1 4 None) /\ link 1 4 None s = (s', None) /\
  has s' 0 (Tr 1) 0 /\ value s 0 0 = Some 1 /\ value s' 0 0 = Some (-5).
Proof.
  assert (R : reach pos_f pos_f pos_f pos_ok dom_junk dom_deep) by (apply play_pos; [constructor | vm_compute; reflexivity]).
  exists dom_deep, (fst (link 1 4 None dom_deep)). split; [exact R|].
  split; [apply carefulb_ok; [apply (pos_inv _ R) | vm_compute; reflexivity]|].
  split; [apply pair_is; vm_compute; reflexivity|]. split; [hs|]. split; vm_compute; reflexivity.
Qed.
