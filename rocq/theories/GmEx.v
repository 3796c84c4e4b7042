(** Concrete gradients, as examples beside the properties and as witnesses. *)
From Coq Require Import List ZArith Bool Lia Arith.
From Verif Require Import NpModel NpProofs IndexOpsModel IndexOpsSpec PzModel PzSpec PzTree PzStruct PzLink PzIo PzInv PzPres PzTraverse PzCmd PzVal PzOpt PzRandom PzHist PzKeep PzOrder PzGrad PzCheck PzFinal PzEx GmModel GmSpec GmProofs GmFinal.
Import ListNotations.
Open Scope Z_scope.

(** The gradient factor of every transformation at [v] is [v + 10]. *)
Definition ex_grad (n : nat) (v d : Z) : Z := d * (v + 10).
Definition ex_gjunk (b : nat) (i : Z) : Z := 55.
Notation ex_greach := (greach ex_init ex_f ex_finv ex_grad glegal ex_junk ex_gjunk).
Notation ex_gcareful := (greach ex_init ex_f ex_finv ex_grad gcareful ex_junk ex_gjunk).
Notation ex_run := (gexec ex_init ex_f ex_finv ex_grad).

Fixpoint gplay (cs : list (@gcall Z)) (q : @gstate Z) : gstate :=
  match cs with [] => q | c :: r => gplay r (fst (ex_run c q)) end.
Definition glegalb (q : @gstate Z) (c : @gcall Z) : bool :=
  match c with
  | Call c => legalb (base q) c
  | SetGradient x _ | EditGradient x _ => (x <? next (st (base q)))%nat && readyb (st (base q)) x
  | TakeGradient x => (x <? next (st (base q)))%nat && readyb (st (base q)) x && negb (is_some (par (st (base q)) x))
  end.
Definition gcarefulb (q : @gstate Z) (c : @gcall Z) : bool := glegalb q c && match c with Call (Link _ _ _) => false | _ => true end.
Fixpoint gplayed (ok : @gstate Z -> @gcall Z -> bool) (cs : list gcall) (q : gstate) : bool :=
  match cs with [] => true | c :: r => ok q c && gplayed ok r (fst (ex_run c q)) end.
Lemma glegalb_ok : forall q c, Inv (base q) -> glegalb q c = true -> glegal q c.
Proof.
  intros q c H E. destruct c as [c|x f|x f|x]; cbn [glegalb glegal] in *.
  - apply legalb_ok; auto.
  - apply andb_true_iff in E as [A B]. apply Nat.ltb_lt in A. apply readyb_ok in B. auto.
  - apply andb_true_iff in E as [A B]. apply Nat.ltb_lt in A. apply readyb_ok in B. auto.
  - apply andb_true_iff in E as [A C]. apply andb_true_iff in A as [A B]. apply Nat.ltb_lt in A. apply readyb_ok in B.
    split; auto. split; auto. destruct (par (st (base q)) x); [discriminate | auto].
Qed.
Lemma gcarefulb_ok : forall q c, Inv (base q) -> gcarefulb q c = true -> gcareful q c.
Proof.
  intros q c H E. apply andb_true_iff in E as [A B]. split; [apply glegalb_ok; auto|]. destruct c as [c|x f|x f|x]; auto. destruct c; auto. discriminate.
Qed.
Lemma gplay_legal : forall cs q, ex_greach q -> gplayed glegalb cs q = true -> ex_greach (gplay cs q).
Proof.
  induction cs as [|c cs IH]; intros q R E; cbn [gplay gplayed] in *; auto. apply andb_true_iff in E as [A B]. apply IH; auto.
  destruct (ex_run c q) as [q' e] eqn:Ex. eapply greach_call; eauto. apply glegalb_ok; auto. apply (reach_ginv ex_init ex_f ex_finv ex_grad ex_junk ex_gjunk q R).
Qed.
Lemma gplay_careful : forall cs q, ex_gcareful q -> gplayed gcarefulb cs q = true -> ex_gcareful (gplay cs q).
Proof.
  induction cs as [|c cs IH]; intros q R E; cbn [gplay gplayed] in *; auto. apply andb_true_iff in E as [A B]. apply IH; auto.
  destruct (ex_run c q) as [q' e] eqn:Ex. eapply greach_call; eauto. apply gcarefulb_ok; auto. apply (careful_ginv ex_init ex_f ex_finv ex_grad ex_junk ex_gjunk q R).
Qed.
Lemma gplay_still : forall cs q, ex_greach q -> gplayed glegalb cs q = true -> Forall still cs ->
  ghist ex_init ex_f ex_finv ex_grad (fun q c => glegal q c /\ still c) q (gplay cs q).
Proof.
  assert (T : forall a b c, ghist ex_init ex_f ex_finv ex_grad (fun q c => glegal q c /\ still c) a b -> ghist ex_init ex_f ex_finv ex_grad (fun q c => glegal q c /\ still c) b c ->
    ghist ex_init ex_f ex_finv ex_grad (fun q c => glegal q c /\ still c) a c) by (intros a b c A B; induction B; [auto | eapply ghist_call; eauto]).
  induction cs as [|c cs IH]; intros q R E F; cbn [gplay gplayed] in *; [constructor|]. apply andb_true_iff in E as [A B]. inversion F as [|? ? F1 F2]; subst.
  pose proof (reach_ginv ex_init ex_f ex_finv ex_grad ex_junk ex_gjunk q R) as G. apply (glegalb_ok q c (gi_base _ G)) in A.
  destruct (ex_run c q) as [q' e] eqn:Ex. cbn [fst] in *. apply (T q q'); [eapply ghist_call; eauto; constructor|]. apply IH; auto. eapply greach_call; eauto.
Qed.
Definition gstart (cs : list (@gcall Z)) : @gstate Z := gplay cs (ginit ex_junk ex_gjunk).
Lemma gstart_reach : forall cs, gplayed glegalb cs (ginit ex_junk ex_gjunk) = true -> ex_greach (gstart cs).
Proof. intros cs E. apply gplay_legal; auto. constructor. Qed.
Lemma gstart_careful : forall cs, gplayed gcarefulb cs (ginit ex_junk ex_gjunk) = true -> ex_gcareful (gstart cs).
Proof. intros cs E. apply gplay_careful; auto. constructor. Qed.
Lemma greach_Inv : forall q, ex_greach q -> Inv (base q).
Proof. intros q R. apply (reach_ginv ex_init ex_f ex_finv ex_grad ex_junk ex_gjunk q R). Qed.
Ltac gtops R := let r := fresh in let Q := fresh in intros r Q; eapply top_only in Q; [|apply greach_Inv, R | vm_compute; reflexivity]; subst r.

(** The hierarchy of the other examples with gradients in the Params 0, 1 and 3. *)
Definition ex_store : list (@gcall Z) := [SetGradient 0%nat (fun j _ => 100 + j); SetGradient 1%nat (fun j _ => 200 + j); SetGradient 3%nat (fun j _ => 300 + j)].
Notation gx := (gstart (map Call ex_calls ++ ex_store)).
Lemma gx_reach : ex_greach gx.
Proof. apply gstart_reach. vm_compute. reflexivity. Qed.
Lemma gx_careful : ex_gcareful gx.
Proof. apply gstart_careful. vm_compute. reflexivity. Qed.

Lemma ex_one_gradient : ex_greach gx /\ ready (st (base gx)) 4 /\ ready (st (base gx)) 2 /\ ready (st (base gx)) 1 /\
  same_elem (st (base gx)) 1 0 4 2 /\ same_elem (st (base gx)) 2 2 4 2 /\
  gradient gx 1 0 = Some 200 /\ gradient gx 2 2 = Some 200 /\ map (gradient gx 4) [0;1;2;3;4] = [Some 100; Some 101; Some 200; Some 300; Some 301].
Proof.
  split; [exact gx_reach|]. split; [rd|]. split; [rd|]. split; [rd|].
  split; [apply (walk_same _ [0;1]%nat 4 1 2 2 0); vm_compute; [reflexivity | split; congruence | split; congruence]|].
  split; [apply (walk_same _ [0]%nat 4 2 0 1 2); vm_compute; [reflexivity | split; congruence | split; congruence]|].
  split; [|split]; vm_compute; reflexivity.
Qed.
Lemma ex_set : ex_greach gx /\ ex_gcareful gx /\ (2 < next (st (base gx)))%nat /\ ready (st (base gx)) 2 /\ 0 < size (st (base gx)) 2 /\
  (let q' := fst (ex_run (SetGradient 2%nat (fun j d => d + j)) gx) in
   map (gradient q' 4) [0;1;2;3;4] = [Some 100; Some 102; Some 202; Some 300; Some 301] /\ gradient q' 1 0 = Some 202 /\ value (base q') 1 0 = value (base gx) 1 0).
Proof.
  split; [exact gx_reach|]. split; [exact gx_careful|]. split; [vm_compute; lia|]. split; [rd|]. split; [vm_compute; reflexivity|].
  cbn zeta. split; [|split]; vm_compute; reflexivity.
Qed.
Notation gempty := (gstart [Call (NewNode [] true)]).
Lemma empty_refuted : exists q x f q', ex_gcareful q /\ ready (st (base q)) x /\ size (st (base q)) x = 0 /\
  ex_run (SetGradient x f) q = (q', Some AttributeError) /\ snd (ex_run (EditGradient x f) q) = None.
Proof.
  exists gempty, 0%nat, (fun _ d => d), gempty. split; [apply gstart_careful; vm_compute; reflexivity|]. split; [rd|].
  split; [vm_compute; reflexivity|]. split; [apply pair_is; vm_compute; reflexivity | reflexivity].
Qed.

Lemma ex_glink : ex_greach gx /\ legal_link (base gx) 2 5 None /\ groomy gx 2 5 /\ (exists n, depth (st (base gx)) 2 n /\ (n <= 1)%nat) /\ ready (st (base gx)) 5 /\
  (forall pp, par (st (base gx)) 5 = Some pp -> (exists n, depth (st (base gx)) pp n /\ (n <= 2)%nat) /\ forall r, top (st (base gx)) r pp -> inited (st (base gx)) r = Some true) /\
  (let q' := fst (ex_run (Call (Link 2 5 None)) gx) in map (gradient q' 4) [0;1;2;3;4;5] = [Some 100; Some 101; Some 200; Some 55; Some 300; Some 301]).
Proof.
  split; [exact gx_reach|]. split; [apply linkb_ok; [apply greach_Inv, gx_reach | vm_compute; reflexivity]|].
  split; [left; exists 0%nat; split; [vm_compute; auto | congruence]|].
  split; [exists 1%nat; split; auto; exists 4%nat, 0; split; [apply (walk_below _ [0]%nat)|]; vm_compute; reflexivity|].
  split; [rd|]. split.
  - intros pp E. vm_compute in E. injection E as <-. split.
    + exists 0%nat. split; auto. exists 6%nat, 0. split; [constructor | vm_compute; reflexivity].
    + gtops gx_reach. vm_compute; reflexivity.
  - cbn zeta. vm_compute. reflexivity.
Qed.
Lemma ex_gunlink : ex_greach gx /\ In 1%nat (kids (st (base gx)) 2) /\ (exists n, depth (st (base gx)) 2 n /\ (n <= 2)%nat) /\
  (forall r, top (st (base gx)) r 2 -> in_init (st (base gx)) r = false /\ inited (st (base gx)) r = Some true) /\
  (let q' := fst (ex_run (Call (Unlink 2 1)) gx) in map (gradient q' 4) [0;1;2;3] = [Some 100; Some 101; Some 300; Some 301] /\ gradient q' 1 0 = Some 200).
Proof.
  split; [exact gx_reach|]. split; [vm_compute; auto|].
  split; [exists 1%nat; split; auto; exists 4%nat, 0; split; [apply (walk_below _ [0]%nat)|]; vm_compute; reflexivity|].
  split; [gtops gx_reach; split; vm_compute; reflexivity|]. cbn zeta. split; vm_compute; reflexivity.
Qed.
Notation gdeep := (gstart (map Call [NewParam [1]; NewNode [0]%nat true; NewNode [1]%nat true; NewNode [2]%nat true; NewParam [5]] ++ [SetGradient 0%nat (fun _ _ => 9); SetGradient 4%nat (fun _ _ => 8)])).
Lemma gdeep_refuted : exists q q', ex_gcareful q /\ legal_link (base q) 1 4 None /\ groomy q 1 4 /\ depth (st (base q)) 1 2 /\ ready (st (base q)) 4 /\
  ex_run (Call (Link 1 4 None)) q = (q', None) /\ gradient q 0 0 = Some 9 /\ gradient q' 0 0 = Some (ex_gjunk 0 0).
Proof.
  assert (R : ex_gcareful gdeep) by (apply gstart_careful; vm_compute; reflexivity).
  exists gdeep, (fst (ex_run (Call (Link 1 4 None)) gdeep)). split; auto.
  split; [apply linkb_ok; [apply (careful_ginv ex_init ex_f ex_finv ex_grad ex_junk ex_gjunk _ R) | vm_compute; reflexivity]|].
  split; [left; exists 0%nat; split; [vm_compute; auto | congruence]|]. split; [exists 3%nat, 0; split; [apply (walk_below _ [0;0]%nat)|]; vm_compute; reflexivity|].
  split; [rd|]. split; [apply pair_is; vm_compute; reflexivity|]. split; vm_compute; reflexivity.
Qed.

Definition ex_taken (x : oid) (q : @gstate Z) : @gstate Z * list Z :=
  match take_gradient ex_grad x q with Ok (q', r) => (q', look q' r) | Er _ => (q, []) end.
Lemma taken_look : forall x q l, snd (ex_taken x q) = l -> l <> [] -> exists q1 r, take_gradient ex_grad x q = Ok (q1, r) /\ look q1 r = l.
Proof. intros x q l E Hl. unfold ex_taken in E. destruct (take_gradient ex_grad x q) as [[q1 r]|]; [exists q1, r; auto | cbn in E; congruence]. Qed.
Lemma ex_take : ex_greach gx /\ ready (st (base gx)) 4 /\ par (st (base gx)) 4 = None /\ free (base gx) 4 [0;1;3] /\
  has (base gx) 4 (Tr 7) 0 /\ value (base gx) 4 0 = Some 1 /\
  snd (ex_taken 4 gx) = [100 * 11; 101; 300] /\ map (gradient (fst (ex_taken 4 gx)) 0) [0;1] = [Some (100 * 11); Some 101].
Proof.
  split; [exact gx_reach|]. split; [rd|]. split; [vm_compute; reflexivity|]. split; [fr|]. split; [hs|]. split; [|split]; vm_compute; reflexivity.
Qed.
Notation gbare := (gstart (map Call ex_calls)).
Lemma ex_stored : ex_greach gbare /\ (4 < next (st (base gbare)))%nat /\ ready (st (base gbare)) 4 /\ par (st (base gbare)) 4 = None /\ free (base gbare) 4 [0;1;3] /\
  (forall y, In y [0;1;3]%nat -> part (st (base gbare)) 4 y /\ is_leaf (st (base gbare)) y = true) /\
  (forall y, part (st (base gbare)) 4 y -> is_leaf (st (base gbare)) y = true -> 0 < size (st (base gbare)) y -> In y [0;1;3]%nat).
Proof.
  assert (R : ex_greach gbare) by (apply gstart_reach; vm_compute; reflexivity).
  split; auto. split; [vm_compute; lia|]. split; [rd|]. split; [vm_compute; reflexivity|]. split; [fr|]. split.
  - intros y Hy. repeat (destruct Hy as [<-|Hy]; [split; [apply partb_ok; [apply greach_Inv, R | vm_compute; reflexivity] | vm_compute; reflexivity]|]). destruct Hy.
  - intros y Py Ly Hs. pose proof (greach_Inv _ R) as H. pose proof Py as (o & n & B).
    assert (Hl : (y < next (st (base gbare)))%nat) by (apply (below_lt _ 4%nat y o n (inv_st _ H) B); vm_compute; lia).
    apply partb_ok in Py; auto. assert (E : next (st (base gbare)) = 8%nat) by (vm_compute; reflexivity). rewrite E in Hl.
    assert (A : forallb (fun y => negb (partb (base gbare) 4 y && is_leaf (st (base gbare)) y) || omem y [0;1;3]%nat) (seq 0 8) = true) by (vm_compute; reflexivity).
    rewrite forallb_forall in A. specialize (A y (proj2 (in_seq 8 0 y) (conj (Nat.le_0_l y) Hl))). rewrite Py, Ly in A. apply omem_In. exact A.
Qed.

Lemma again_ex : exists q1 r1 q2 r2, ex_greach gx /\ ready (st (base gx)) 4 /\ par (st (base gx)) 4 = None /\
  take_gradient ex_grad 4 gx = Ok (q1, r1) /\ take_gradient ex_grad 4 q1 = Ok (q2, r2) /\ 0 <= 0 < size (st (base gx)) 4 /\ gradient q2 4 0 = Some (100 * 11 * 11).
Proof.
  destruct (take_gradient ex_grad 4 gx) as [[q1 r1]|] eqn:E1; [|vm_compute in E1; discriminate].
  destruct (take_gradient ex_grad 4 q1) as [[q2 r2]|] eqn:E2.
  - exists q1, r1, q2, r2. split; [exact gx_reach|]. split; [rd|]. split; [vm_compute; reflexivity|]. split; auto. split; auto. split; [vm_compute; split; congruence|].
    assert (Q : gradient (match take_gradient ex_grad 4 gx with Ok (q1, _) => match take_gradient ex_grad 4 q1 with Ok (q2, _) => q2 | Er _ => gx end | Er _ => gx end) 4 0 = Some (100 * 11 * 11)) by (vm_compute; reflexivity).
    rewrite E1, E2 in Q. exact Q.
  - exfalso. assert (Q : match take_gradient ex_grad 4 gx with Ok (q1, _) => match take_gradient ex_grad 4 q1 with Ok _ => true | Er _ => false end | Er _ => false end = true) by (vm_compute; reflexivity).
    rewrite E1, E2 in Q. discriminate.
Qed.
Lemma all_times_refuted : exists q x k, ex_gcareful q /\ (x < next (st (base q)))%nat /\ ready (st (base q)) x /\ par (st (base q)) x = None /\
  gradient q x k = Some 100 /\ (exists q' r, take_gradient ex_grad x q = Ok (q', r) /\ gradient q' x k = Some 1100) /\
  (exists q1 r1 q2 r2, take_gradient ex_grad x q = Ok (q1, r1) /\ take_gradient ex_grad x q1 = Ok (q2, r2) /\ base q2 = base q /\
    nth_error (look q1 r1) 0 = Some 1100 /\ nth_error (look q2 r2) 0 = Some 12100).
Proof.
  exists gx, 4%nat, 0. split; [exact gx_careful|]. split; [vm_compute; lia|]. split; [rd|]. split; [vm_compute; reflexivity|]. split; [vm_compute; reflexivity|].
  assert (Q : match take_gradient ex_grad 4 gx with
    | Ok (q1, r1) => gradient q1 4 0 = Some 1100 /\ nth_error (look q1 r1) 0 = Some 1100 /\
       match take_gradient ex_grad 4 q1 with Ok (q2, r2) => nth_error (look q2 r2) 0 = Some 12100 | Er _ => False end
    | Er _ => False end) by (vm_compute; repeat split; reflexivity).
  destruct (free_exists (base gx) 4%nat (greach_Inv _ gx_reach)) as [ks Hks]; [vm_compute; lia|].
  pose proof (reach_ginv ex_init ex_f ex_finv ex_grad ex_junk ex_gjunk gx gx_reach) as [H O M].
  destruct (take_ok ex_grad gx 4%nat ks H O M) as (q1 & r1 & E1 & Eb1 & M1 & _); [vm_compute; lia | rd | vm_compute; reflexivity | exact Hks |].
  rewrite E1 in Q. destruct Q as (Q1 & Q2 & Q3). split; [exists q1, r1; auto|].
  assert (E2 : exists q2 r2, take_gradient ex_grad 4 q1 = Ok (q2, r2) /\ base q2 = base q1).
  { destruct (take_ok ex_grad q1 4%nat ks) as (q2 & r2 & E2 & Eb2 & _); rewrite ?Eb1; [exact H | exact O | exact M1 | vm_compute; lia | rd | vm_compute; reflexivity | exact Hks | exists q2, r2; split; [exact E2 | congruence]]. }
  destruct E2 as (q2 & r2 & E2 & Eb2). rewrite E2 in Q3. exists q1, r1, q2, r2. split; auto. split; auto. split; [congruence | auto].
Qed.

(** Nothing fixed: 6 = [5], with gradients. *)
Notation gfree := (gstart (map Call ex_calls ++ [SetGradient 5%nat (fun _ _ => 40)])).
Lemma alias_refuted : exists q x q1 r c q2, ex_gcareful q /\ (x < next (st (base q)))%nat /\ ready (st (base q)) x /\ par (st (base q)) x = None /\
  take_gradient ex_grad x q = Ok (q1, r) /\ look q1 r = [40] /\ glegal q1 c /\ ex_run c q1 = (q2, None) /\ look q2 r = [41].
Proof.
  assert (R : ex_greach gfree) by (apply gstart_reach; vm_compute; reflexivity).
  pose proof (reach_ginv ex_init ex_f ex_finv ex_grad ex_junk ex_gjunk gfree R) as [H O M].
  destruct (free_exists (base gfree) 6%nat H) as [ks Hks]; [vm_compute; lia|].
  destruct (take_ok ex_grad gfree 6%nat ks H O M) as (q1 & r & E1 & Eb1 & _); [vm_compute; lia | rd | vm_compute; reflexivity | exact Hks |].
  assert (Q : match take_gradient ex_grad 6 gfree with Ok (q1, r) => look q1 r = [40] /\ snd (ex_run (SetGradient 5%nat (fun _ _ => 41)) q1) = None /\ look (fst (ex_run (SetGradient 5%nat (fun _ _ => 41)) q1)) r = [41] | Er _ => False end) by (vm_compute; repeat split; reflexivity).
  rewrite E1 in Q. destruct Q as (Q1 & Q2 & Q3).
  exists gfree, 6%nat, q1, r, (SetGradient 5%nat (fun _ _ => 41)), (fst (ex_run (SetGradient 5%nat (fun _ _ => 41)) q1)).
  split; [apply gstart_careful; vm_compute; reflexivity|]. split; [vm_compute; lia|]. split; [rd|]. split; [vm_compute; reflexivity|].
  split; auto. split; auto. split; [cbn [glegal]; rewrite Eb1; split; [vm_compute; lia | rd]|]. split; auto. rewrite <- Q2. apply surjective_pairing.
Qed.
Lemma ex_alias : ex_greach gfree /\ ready (st (base gfree)) 6 /\ par (st (base gfree)) 6 = None /\ (forall j, ~ has (base gfree) 6 Fixed j) /\ 0 < size (st (base gfree)) 6 /\
  ghist ex_init ex_f ex_finv ex_grad (fun q c => glegal q c /\ still c) gfree
    (gplay [TakeGradient 6; SetGradient 5%nat (fun _ _ => 41); Call (NewParam [1]); Call (Assign 5%nat (fun _ v => v + 1)); EditGradient 6%nat (fun _ d => d * 2)] gfree).
Proof.
  assert (R : ex_greach gfree) by (apply gstart_reach; vm_compute; reflexivity).
  split; auto. split; [rd|]. split; [vm_compute; reflexivity|]. split.
  { intros j Hj. assert (E : cons_get (ios (base gfree)) 6 Fixed = []) by (vm_compute; reflexivity). change (In j (cons_get (ios (base gfree)) 6 Fixed)) in Hj. rewrite E in Hj. destruct Hj. }
  split; [vm_compute; reflexivity|]. apply gplay_still; [exact R | vm_compute; reflexivity | repeat constructor].
Qed.
Lemma ex_fresh : ex_greach gx /\ ready (st (base gx)) 4 /\ par (st (base gx)) 4 = None /\ (exists j, has (base gx) 4 Fixed j) /\
  exists q1 r, take_gradient ex_grad 4 gx = Ok (q1, r) /\ look q1 r = [1100; 101; 300].
Proof.
  split; [exact gx_reach|]. split; [rd|]. split; [vm_compute; reflexivity|]. split; [exists 2; hs|].
  apply taken_look; [vm_compute; reflexivity | discriminate].
Qed.

Lemma ex_gcopy : ex_greach gx /\ legal (base gx) (Copy 4) /\
  (let q' := fst (ex_run (Call (Copy 4)) gx) in map (gradient q' 4) [0;1;2;3;4] = [Some 100; Some 101; Some 200; Some 300; Some 301] /\
   exists c, (next (st (base gx)) <= c)%nat /\ (c < next (st (base q')))%nat /\ map (gradient q' c) [0;1;2;3;4] = [Some 55; Some 55; Some 55; Some 55; Some 55]).
Proof.
  split; [exact gx_reach|]. split; [apply legalb_ok; [apply greach_Inv, gx_reach | vm_compute; reflexivity]|].
  cbv zeta. split; [vm_compute; reflexivity|]. exists (next (st (base gx))). split; [apply le_n|]. split; [vm_compute; repeat constructor | vm_compute; reflexivity].
Qed.
