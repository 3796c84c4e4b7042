(** The properties of observers of a hierarchy, for every reachable state. *)
From Coq Require Import List ZArith Bool Lia Arith.
From Verif Require Import NpModel IndexOpsModel IndexOpsSpec PzModel PzSpec PzInv PzKeep PzOrder HkModel HkSpec HkProofs HkInv HkFinal HkCalls HkWatch HkMain HkRuns.
Import ListNotations.
Open Scope Z_scope.

Section Last.
Context {V : Type}.
Variables tinit tf tfinv : nat -> V -> V.
Variable junk : nat -> Z -> V.
Notation hexec := (hexec tinit tf tfinv).
Notation reached := (hreach tinit tf tfinv hlegal junk).
Notation carefully := (hreach tinit tf tfinv hcareful junk).
Implicit Types q : @hstate V.

Lemma reached_inv : forall q, reached q -> hinv q.
Proof. intros q R. apply (hreach_inv tinit tf tfinv hlegal junk q hlegal_id R). Qed.
Lemma carefully_inv : forall q, carefully q -> hinv q.
Proof. intros q R. apply (hreach_inv tinit tf tfinv hcareful junk q hcareful_legal R). Qed.
Lemma carefully_apart : forall q, carefully q -> apart (base q).
Proof. apply hcareful_apart. Qed.

Lemma notify_final : forall q c x, reached q -> hlegal q (Base c) -> notify_call (base q) x c -> awake (base q) x ->
  exists q' ev, hexec (Base c) q = (q', Ok ev) /\ told_above q x ev /\ ordered q ev /\ bottom_up (base q) (base q') (runs ev) /\
    forall y, In y (runs ev) <-> kind (st (base q)) y = KNode /\ part (st (base q)) y x.
Proof. intros q c x R. apply notify_call_ok, reached_inv, R. Qed.
Lemma trigger_final : forall q c x, reached q -> hlegal q (Base c) -> trigger_call (base q) x c -> in_init (st (base q)) x = false ->
  exists q' ev, hexec (Base c) q = (q', Ok ev) /\ told q q' x ev /\ ordered q ev /\ bottom_up (base q) (base q') (runs ev) /\
    (forall y, In y (runs ev) <-> kind (st (base q)) y = KNode /\ (woken (base q') x y \/ part (st (base q)) y x)).
Proof. intros q c x R. apply trigger_call_ok, reached_inv, R. Qed.
Lemma twice_final : forall q x sel n, reached q -> hlegal q (Base (Constrain x sel n)) -> is_leaf (st (base q)) x = true -> all_on (base q) x ->
  exists q' ev, hexec (Base (Constrain x sel n)) q = (q', Ok ev) /\
    forall y o, (part (st (base q)) y x -> times y o ev = 2 * registered q y o)%nat /\ (~ part (st (base q)) y x -> times y o ev = 0%nat).
Proof.
  intros q x sel n R L El A. destruct (constrain_leaf_ok tinit tf tfinv q x sel n (reached_inv _ R) L El A) as (q' & e1 & e2 & E & T1 & T2 & _).
  exists q', (e1 ++ e2). split; auto. intros y o. rewrite times_app. destruct (T1 y o) as [A1 B1], (T2 y o) as [A2 B2]. split; intros P; [rewrite A1, A2 by auto; lia | rewrite B1, B2 by auto; lia].
Qed.
Lemma runs_final : forall q c, reached q -> hlegal q (Base c) ->
  match hexec (Base c) q with
  | (q', Ok ev) => trace (nt (base q')) = rev (runs ev) ++ trace (nt (base q)) /\ exec tinit tf tfinv c (base q) = (base q', None)
  | (q', Er e) => exec tinit tf tfinv c (base q) = (base q', Some e)
  end.
Proof. intros q c R. apply hexec_runs, reached_inv, R. Qed.
Lemma heard_final : forall q c x, carefully q -> hlegal q (Base c) -> value_call (base q) x c -> all_on (base q) x -> in_init (st (base q)) x = false ->
  exists q' ev, hexec (Base c) q = (q', Ok ev) /\
    (forall y o, (y < next (st (base q)))%nat -> ready (st (base q)) y -> ~ same_values (base q) (base q') y -> (registered_finite q y o <= times y o ev)%nat) /\
    forall y, (y < next (st (base q)))%nat -> ready (st (base q)) y -> kind (st (base q)) y = KNode -> ~ same_values (base q) (base q') y -> In y (runs ev).
Proof. intros q c x R. apply heard; [apply carefully_inv, R | apply carefully_apart, R]. Qed.
Lemma heard_assign_final : forall q x g, carefully q -> hlegal q (Base (Assign x g)) -> all_on (base q) x -> in_init (st (base q)) x = false ->
  exists q' ev, hexec (Base (Assign x g)) q = (q', Ok ev) /\
    (forall y o, (y < next (st (base q)))%nat -> ready (st (base q)) y -> ~ fixed (base q) y -> ~ same_values (base q) (base q') y -> (registered_finite q y o <= times y o ev)%nat) /\
    forall y, (y < next (st (base q)))%nat -> ready (st (base q)) y -> kind (st (base q)) y = KNode -> ~ fixed (base q) y -> ~ same_values (base q) (base q') y -> In y (runs ev).
Proof. intros q x g R. apply heard_assign; [apply carefully_inv, R | apply carefully_apart, R]. Qed.
Lemma settled_final : forall cs q stored, carefully q -> each tinit tf tfinv settling cs q -> current q stored ->
  current (fst (fst (watch tinit tf tfinv cs q stored))) (snd (fst (watch tinit tf tfinv cs q stored))).
Proof. intros cs q stored R. apply settled; [apply carefully_inv, R | apply carefully_apart, R]. Qed.
Lemma assign_current_final : forall q x g stored, carefully q -> hlegal q (Base (Assign x g)) -> all_on (base q) x -> in_init (st (base q)) x = false ->
  current q stored -> exists q' ev, hexec (Base (Assign x g)) q = (q', Ok ev) /\
  forall y, (y < next (st (base q)))%nat -> ready (st (base q)) y -> kind (st (base q)) y = KNode -> ~ fixed (base q) y -> fst (observe (values (base q')) ev stored) y = values (base q') y.
Proof. intros q x g stored R. apply kept_current_assign; [apply carefully_inv, R | apply carefully_apart, R]. Qed.
Lemma low_final : forall ps q x o stored, reached q -> (x < next (st (base q)))%nat -> ready (st (base q)) x -> kind (st (base q)) x = KNode -> in_init (st (base q)) x = false ->
  all_on (base q) x -> registered q x o = 1%nat -> at_prio q x o below_own ->
  let cs := map (fun p => Base (SetOptimizer x p)) ps in
  readings x o (snd (watch tinit tf tfinv cs q stored)) = map (fun q' => values (base q') x) (afters tinit tf tfinv cs q).
Proof. intros ps q x o stored R Hx Rx K Ii On Rg Pr. apply (display tinit tf tfinv false ps q x o stored); auto. apply reached_inv, R. Qed.
Lemma lags_final : forall ps q x o stored, reached q -> (x < next (st (base q)))%nat -> ready (st (base q)) x -> kind (st (base q)) x = KNode -> in_init (st (base q)) x = false ->
  all_on (base q) x -> registered q x o = 1%nat -> at_prio q x o above_own ->
  let cs := map (fun p => Base (SetOptimizer x p)) ps in
  readings x o (snd (watch tinit tf tfinv cs q stored)) = removelast (stored x :: map (fun q' => values (base q') x) (afters tinit tf tfinv cs q)).
Proof. intros ps q x o stored R Hx Rx K Ii On Rg Pr. apply (display tinit tf tfinv true ps q x o stored); auto. apply reached_inv, R. Qed.
Lemma kept_final : forall q c y, (y < next (st (base q)))%nat -> users (fst (hexec (Base c) q)) y = users q y.
Proof. intros q c y Hy. rewrite users_kept. apply Nat.ltb_lt in Hy. rewrite Hy. reflexivity. Qed.
Lemma fresh_final : forall q c y, (next (st (base q)) <= y)%nat -> users (fst (hexec (Base c) q)) y = [].
Proof. intros q c y Hy. rewrite users_kept. apply Nat.ltb_ge in Hy. rewrite Hy. reflexivity. Qed.
Lemma add_final : forall q x p o, reached q -> (x < next (st (base q)))%nat -> let q' := fst (hexec (AddObserver x p o) q) in
  base q' = base q /\ (forall y, y <> x -> users q' y = users q y) /\
  exists a b, users q x = a ++ b /\ users q' x = a ++ (p, o) :: b /\ (forall e, In e a -> ~ higher p (fst e)) /\ (forall e, In e b -> higher p (fst e)).
Proof.
  intros q x p o R Hx. cbn [HkModel.hexec fst base]. split; auto. split.
  - intros y N. unfold users. cbn [regs]. apply Nat.eqb_neq in N. rewrite N. reflexivity.
  - unfold users. cbn [regs]. rewrite Nat.eqb_refl. apply users_insert. apply (hi_desc _ (reached_inv _ R)), Hx.
Qed.
Lemma remove_final : forall q x o, let q' := fst (hexec (RemoveObserver x o) q) in
  base q' = base q /\ (forall y, y <> x -> users q' y = users q y) /\ users q' x = filter (fun e => negb (Nat.eqb (snd e) o)) (users q x).
Proof.
  intros q x o. cbn [HkModel.hexec fst base]. split; auto. split.
  - intros y N. unfold users. cbn [regs]. apply Nat.eqb_neq in N. rewrite N. reflexivity.
  - unfold users. cbn [regs]. rewrite Nat.eqb_refl. apply users_withdraw.
Qed.
End Last.
