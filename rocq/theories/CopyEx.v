(** Concrete copies used as examples beside the properties, and as witnesses. *)
From Coq Require Import List ZArith Bool Lia Arith.
From Verif Require Import NpModel NpProofs IndexOpsModel IndexOpsSpec PzModel CopyModel PzSpec PzTree PzStruct PzLink PzInv PzPres PzTraverse PzCmd PzVal PzOpt PzRandom CopySpec PzHist PzKeep PzOrder PzGrad PzCheck PzFinal PzEx CopyFinal.
Import ListNotations.
Open Scope Z_scope.

Lemma not_together : forall (s : @state Z) r x z, Inv s -> In r (roots s x) -> partb s r z = false -> ~ together (st s) x z.
Proof.
  intros s r x z H Hr Hp T. apply top_is in Hr; auto. pose proof (together_top s x z r H Hr T) as Q. apply (partb_no s r z H Hp Q).
Qed.
Definition elsewhereb (s : @state Z) (x : oid) (c : @call Z) : bool :=
  match c with
  | NewParam _ | Begin | ReadOptimizer _ | Copy _ => true
  | Constrain z _ _ | Unconstrain z _ _ | Fix z _ | Unfix z _ | Assign z _ | SetOptimizer z _ | Updates z _ | Trigger z
  | Randomize z _ => match roots s x with [] => false | r :: _ => negb (partb s r z) end
  | _ => false
  end.
Lemma elsewhereb_ok : forall s x c, Inv s -> elsewhereb s x c = true -> elsewhere s x c.
Proof.
  intros s x c H E. destruct c; cbn [elsewhereb elsewhere] in *; auto; try discriminate;
    (destruct (roots s x) as [|r rs] eqn:Er; [discriminate|]; apply negb_true_iff in E; apply (not_together s r); auto; rewrite Er; left; auto).
Qed.
Lemma play_hist : forall x cs s, ex_reach s -> played ex_init ex_f ex_finv (fun s c => legalb s c && elsewhereb s x c) cs s = true ->
  hist ex_init ex_f ex_finv (fun s c => legal s c /\ elsewhere s x c) s (play ex_init ex_f ex_finv cs s).
Proof.
  intros x cs. induction cs as [|c cs IH]; intros s R P; cbn [played play] in *; [constructor|].
  apply andb_true_iff in P as [P1 P2]. apply andb_true_iff in P1 as [P0 P1]. pose proof (reach_Inv s R) as H. apply legalb_ok in P0; auto.
  destruct (exec ex_init ex_f ex_finv c s) as [s1 e] eqn:E. cbn [fst] in *.
  apply (hist_call _ _ _ _ s c s1 e); auto; [split; auto; apply elsewhereb_ok; auto|]. apply IH; auto. apply (reach_call _ _ _ legal ex_junk s c s1 e); auto.
Qed.

(** The copy of 4 in [ex] is 8 = [9 = [10, 11], 12]. *)
Notation ex_copy := (fst (copy_object ex_finv 4 ex)).
Lemma ex_legal_copy : legal ex (Copy 4).
Proof. apply legalb_ok; [exact ex_Inv | vm_compute; reflexivity]. Qed.
Lemma ex_copy_is : copy_object ex_finv 4 ex = (ex_copy, None).
Proof. apply pair_is. vm_compute. reflexivity. Qed.
Lemma ex_copy_reach : ex_reach ex_copy.
Proof. apply (reach_call _ _ _ legal ex_junk ex (Copy 4) ex_copy None); [exact ex_reachable | exact ex_legal_copy | exact ex_copy_is]. Qed.
Lemma ex_copied : ex_reach ex /\ legal ex (Copy 4) /\ next (st ex) = 8%nat /\ follow (st ex) 4 [0;1]%nat = Some 1%nat /\ follow (st ex_copy) 8 [0;1]%nat = Some 11%nat /\
  map (value ex_copy 8) [0;1;2;3;4] = [Some 1; Some 2; Some 3; Some 4; Some 5] /\ has ex 1 Fixed 0 /\ has ex_copy 11 Fixed 0 /\ has ex_copy 10 (Tr 7) 0 /\
  legal ex (Copy 0) /\ legal ex (Copy 2).
Proof.
  split; [exact ex_reachable|]. split; [exact ex_legal_copy|]. split; [vm_compute; reflexivity|]. split; [vm_compute; reflexivity|]. split; [vm_compute; reflexivity|].
  split; [vm_compute; reflexivity|]. split; [hs|]. split; [hs|]. split; [hs|]. split; apply legalb_ok; try exact ex_Inv; vm_compute; reflexivity.
Qed.
(** Work on the original, then on the copy. *)
Definition ex_work (x p : oid) : list (@call Z) := [Assign x (fun k _ => 50 + k); Constrain x None 3; Fix p None; SetOptimizer x [8]; Updates x false; NewParam [1]].
Lemma ex_apart : reach ex_init ex_f ex_finv careful ex_junk ex /\ legal ex (Copy 4) /\ exec ex_init ex_f ex_finv (Copy 4) ex = (ex_copy, None) /\
  (let s2 := play ex_init ex_f ex_finv (ex_work 4 0) ex_copy in
   hist ex_init ex_f ex_finv (fun s c => legal s c /\ elsewhere s 8 c) ex_copy s2 /\ value s2 4 2 <> value ex_copy 4 2 /\ value s2 8 2 = Some 3) /\
  (let s2 := play ex_init ex_f ex_finv (ex_work 8 10) ex_copy in
   hist ex_init ex_f ex_finv (fun s c => legal s c /\ elsewhere s 4 c) ex_copy s2 /\ value s2 8 2 <> value ex_copy 8 2 /\ value s2 4 2 = Some 3).
Proof.
  split; [exact ex_careful|]. split; [exact ex_legal_copy|]. split; [exact ex_copy_is|].
  split; (split; [apply play_hist; [exact ex_copy_reach | vm_compute; reflexivity]|]; split; vm_compute; congruence).
Qed.
Lemma ex_elsewhere : reach ex_init ex_f ex_finv careful ex_junk ex /\ (4 < next (st ex))%nat /\
  (let s2 := play ex_init ex_f ex_finv (ex_work 6 5) ex in
   hist ex_init ex_f ex_finv (fun s c => legal s c /\ elsewhere s 4 c) ex s2 /\ value s2 6 0 <> value ex 6 0 /\ value s2 4 2 = Some 3 /\ together (st ex) 4 0).
Proof.
  split; [exact ex_careful|]. split; [vm_compute; lia|]. split; [apply play_hist; [exact ex_reachable | vm_compute; reflexivity]|].
  split; [vm_compute; congruence|]. split; [vm_compute; congruence|]. exists 4%nat. split; pt ex_reachable.
Qed.

(** A fixed Param: the copy reports its element as fixed and lets the optimizer change it. *)
Lemma fixed_copy_refuted : exists s x s1 s2 p, ex_reach s /\ (x < next (st s))%nat /\ ready (st s) x /\ in_init (st s) x = false /\ has s x Fixed 0 /\
  copy_object ex_finv x s = (s1, None) /\ has s1 (next (st s)) Fixed 0 /\ value s1 (next (st s)) 0 = value s x 0 /\
  set_optimizer_array ex_f (next (st s)) p s1 = (s2, None) /\ value s2 (next (st s)) 0 <> value s1 (next (st s)) 0.
Proof.
  exists ex, 1%nat, (fst (copy_object ex_finv 1 ex)), (fst (set_optimizer_array ex_f 8 [99] (fst (copy_object ex_finv 1 ex)))), [99].
  split; [exact ex_reachable|]. split; [vm_compute; lia|]. split; [rd|]. split; [vm_compute; reflexivity|]. split; [hs|].
  split; [apply pair_is; vm_compute; reflexivity|]. split; [apply has_is; vm_compute; reflexivity|]. split; [vm_compute; reflexivity|].
  split; [apply pair_is; vm_compute; reflexivity | vm_compute; congruence].
Qed.
(** Copying an object whose updates are off runs updates of the copy. *)
Lemma silent_copy_refuted : exists s x s1, ex_reach s /\ legal s (Copy x) /\ (forall y, together (st s) x y -> updates (nt s) y = false) /\
  copy_object ex_finv x s = (s1, None) /\ updates (nt s1) (next (st s)) = false /\ In (next (st s)) (trace (nt s1)).
Proof.
  assert (R : ex_reach (from_start (ex_calls ++ [Updates 4%nat false]))) by (apply start_reach; vm_compute; reflexivity).
  exists (from_start (ex_calls ++ [Updates 4%nat false])), 4%nat, (fst (copy_object ex_finv 4 (from_start (ex_calls ++ [Updates 4%nat false])))).
  split; [exact R|]. split; [apply legalb_ok; [apply reach_Inv, R | vm_compute; reflexivity]|]. split.
  - intros y T. apply (together_top _ 4%nat y 4%nat (reach_Inv _ R)) in T; [|apply top_is; [apply reach_Inv, R | vm_compute; auto]].
    assert (Hy : (y < 8)%nat) by (change 8%nat with (next (st (from_start (ex_calls ++ [Updates 4%nat false])))); destruct T as (o & n & B); eapply PzIo.below_lt; eauto; [apply (inv_st _ (reach_Inv _ R)) | vm_compute; lia]).
    apply partb_ok in T; [|apply reach_Inv, R].
    do 8 (destruct y as [|y]; [first [vm_compute; reflexivity | vm_compute in T; discriminate]|]). lia.
  - split; [apply pair_is; vm_compute; reflexivity|]. split; [vm_compute; reflexivity | vm_compute; auto 20].
Qed.
