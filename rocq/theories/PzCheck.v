(** Playing concrete histories: a decision procedure for the side conditions of calls. *)
From Coq Require Import List ZArith Bool Lia Arith.
From Verif Require Import NpModel NpProofs IndexOpsModel IndexOpsSpec PzModel PzSpec PzTree PzStruct PzLink PzInv PzPres PzCmd PzOpt PzHist PzKeep.
Import ListNotations.
Open Scope Z_scope.

Fixpoint ups (f : nat) (t : struct) (x : oid) : list oid :=
  match f with O => [x] | S f' => x :: match par t x with Some p => ups f' t p | None => [] end end.
Lemma ups_up : forall t x l, up t x l -> forall f, (length l <= f)%nat -> ups f t x = l.
Proof.
  intros t x l H. induction H as [x Hp|x p l Hp Hu IH]; intros [|f] Hf; cbn [ups length] in *; try lia; rewrite Hp; auto. f_equal. apply IH. lia.
Qed.

Section Check.
Context {V : Type}.
Implicit Types s : @state V.

Definition roots s (x : oid) : list oid := filter (fun r => match par (st s) r with None => true | _ => false end) (ups (fuel (st s)) (st s) x).
Definition partb s (r x : oid) : bool := omem r (ups (fuel (st s)) (st s) x).
Lemma partb_ok : forall s r x, Inv s -> (partb s r x = true <-> part (st s) r x).
Proof.
  intros s r x H. pose proof (inv_st _ H) as W. destruct (wf_up (st s) W x) as [l Hl]. unfold partb.
  rewrite (ups_up _ _ _ Hl) by (eapply up_length; eauto). rewrite omem_In. apply (up_below _ _ _ W Hl).
Qed.
Lemma roots_ok : forall s r x, Inv s -> (In r (roots s x) <-> part (st s) r x /\ par (st s) r = None).
Proof.
  intros s r x H. unfold roots. rewrite filter_In, <- omem_In. fold (partb s r x). rewrite partb_ok by auto.
  destruct (par (st s) r); split; intros [A B]; split; auto; discriminate.
Qed.
Fixpoint nodupb (l : list oid) : bool := match l with [] => true | a :: r => negb (omem a r) && nodupb r end.
Lemma nodupb_ok : forall l, nodupb l = true -> NoDup l.
Proof.
  induction l as [|a l IH]; intros H; constructor; cbn in H; apply andb_true_iff in H as [A B]; auto.
  intros Q. apply omem_In in Q. rewrite Q in A. discriminate.
Qed.
Fixpoint znodupb (l : list Z) : bool := match l with [] => true | a :: r => negb (zmem a r) && znodupb r end.
Lemma znodupb_ok : forall l, znodupb l = true -> NoDup l.
Proof.
  induction l as [|a l IH]; intros H; constructor; cbn in H; apply andb_true_iff in H as [A B]; auto.
  intros Q. apply zmem_In in Q. rewrite Q in A. discriminate.
Qed.
Definition is_some {A} (o : option A) : bool := match o with Some _ => true | None => false end.
Definition selb (t : struct) (x : oid) (sel : option (list Z)) : bool :=
  match sel with
  | None => true
  | Some l => is_leaf t x && is_some (par t x) && znodupb l && forallb (fun j => (0 <=? j) && (j <? size t x)) l
  end.
Lemma selb_ok : forall t x sel, selb t x sel = true -> legal_sel t x sel.
Proof.
  intros t x [l|] H; cbn in *; auto. apply andb_true_iff in H as [H D]. apply andb_true_iff in H as [H C]. apply andb_true_iff in H as [A B].
  repeat split; auto; [destruct (par t x); discriminate || congruence | apply znodupb_ok; auto | |]; rewrite forallb_forall in D; apply D in H; lia.
Qed.
Definition initedb (t : struct) (x : oid) : bool := match inited t x with Some true => true | _ => false end.
Lemma initedb_ok : forall t x, initedb t x = true <-> inited t x = Some true.
Proof. intros t x. unfold initedb. destruct (inited t x) as [[]|]; split; congruence. Qed.
Definition readyb (t : struct) (x : oid) : bool := is_leaf t x || initedb t x.
Lemma readyb_ok : forall t x, readyb t x = true -> ready t x.
Proof. intros t x H. apply orb_true_iff in H as [H|H]; [left; auto | right; apply initedb_ok; auto]. Qed.

Definition linkb s (self param : oid) (index : option Z) : bool :=
  negb (is_leaf (st s) self) && (self <? next (st s))%nat && (param <? next (st s))%nat && negb (partb s param self) && negb (in_init (st s) param) &&
  match index with Some i => i <=? Z.of_nat (length (kids (st s) self)) - (if omem param (kids (st s) self) then 1 else 0) | None => true end &&
  ((negb (in_init (st s) self) && forallb (initedb (st s)) (roots s self)) || (negb (is_some (par (st s) self)) && negb (initedb (st s) self))) &&
  match par (st s) param with
  | None => true
  | Some pp => forallb (fun r => negb (in_init (st s) r)) (roots s param) &&
               ((Nat.eqb pp self && is_some index) || forallb (fun r => negb (partb s r self)) (roots s param))
  end.
Lemma linkb_ok : forall s self param index, Inv s -> linkb s self param index = true -> legal_link s self param index.
Proof.
  intros s self param index H E. unfold linkb in E.
  repeat match goal with Q : _ && _ = true |- _ => apply andb_true_iff in Q as [? Q] end.
  repeat match goal with Q : _ && _ = true |- _ => apply andb_true_iff in Q as [? ?] end.
  repeat match goal with Q : negb _ = true |- _ => apply negb_true_iff in Q end.
  repeat match goal with Q : (_ <? _)%nat = true |- _ => apply Nat.ltb_lt in Q end.
  constructor; auto.
  - apply node_not_leaf; auto.
  - intros Q. apply partb_ok in Q; auto. congruence.
  - intros i ->. lia.
  - match goal with Q : _ || _ = true |- _ => apply orb_true_iff in Q as [Q|Q]; apply andb_true_iff in Q as [Qa Qb]; apply negb_true_iff in Qa end.
    + left. split; auto. intros r A B. rewrite forallb_forall in Qb. apply initedb_ok, Qb, roots_ok; auto.
    + right. apply negb_true_iff in Qb. split; [destruct (par (st s) self); auto; discriminate | intros Q; apply initedb_ok in Q; congruence].
  - intros pp Ep. rewrite Ep in E. apply andb_true_iff in E as [E1 E2]. split.
    + intros r A B. rewrite forallb_forall in E1. apply negb_true_iff, E1, roots_ok; auto.
    + apply orb_true_iff in E2 as [Q|Q].
      * left. apply andb_true_iff in Q as [Qa Qb]. apply Nat.eqb_eq in Qa. split; auto. destruct index; discriminate || congruence.
      * right. intros r A B C. rewrite forallb_forall in Q. apply partb_ok in C; auto. assert (N : negb (partb s r self) = true) by (apply Q, roots_ok; auto). rewrite C in N. discriminate.
Qed.

Definition legalb s (c : @call V) : bool :=
  match c with
  | NewParam _ | Begin => true
  | NewNode ps _ => nodupb ps && forallb (fun p => (p <? next (st s))%nat && negb (is_some (par (st s) p)) && negb (in_init (st s) p)) ps
  | End x _ => (x <? next (st s))%nat && negb (is_leaf (st s) x) && in_init (st s) x
  | Link self param index => linkb s self param index || (omem param (kids (st s) self) && negb (is_some index))
  | Unlink self param => (self <? next (st s))%nat && forallb (fun r => negb (in_init (st s) r)) (roots s self)
  | Initialize x => (x <? next (st s))%nat && forallb (fun r => negb (in_init (st s) r)) (roots s x)
  | Constrain x sel _ => (x <? next (st s))%nat && selb (st s) x sel && readyb (st s) x
  | Unconstrain x sel _ | Fix x sel | Unfix x sel => (x <? next (st s))%nat && selb (st s) x sel
  | Assign x _ | SetOptimizer x _ | ReadOptimizer x | Randomize x _ => (x <? next (st s))%nat && readyb (st s) x
  | Updates x _ | Trigger x => (x <? next (st s))%nat
  | Copy x => (x <? next (st s))%nat && readyb (st s) x && negb (in_init (st s) x) && (negb (is_leaf (st s) x) || negb (nonempty (cons_get (ios s) x Fixed)))
  end.
Lemma legalb_ok : forall s c, Inv s -> legalb s c = true -> legal s c.
Proof.
  intros s c H E. destruct c; cbn [legalb legal] in *;
    repeat match goal with Q : _ && _ = true |- _ => apply andb_true_iff in Q as [? ?] end;
    repeat match goal with Q : (_ <? _)%nat = true |- _ => apply Nat.ltb_lt in Q end; auto using selb_ok, readyb_ok.
  - split; [apply nodupb_ok; auto|]. intros p Hp. rewrite forallb_forall in H1. apply H1 in Hp. apply andb_true_iff in Hp as [Hp C]. apply andb_true_iff in Hp as [A B].
    apply Nat.ltb_lt in A. apply negb_true_iff in C. destruct (par (st s) p); auto; discriminate.
  - apply negb_true_iff, node_not_leaf in H2. auto.
  - apply orb_true_iff in E as [E|E]; [left; apply linkb_ok; auto|]. right. apply andb_true_iff in E as [A B]. apply omem_In in A. split; auto. destruct index; auto; discriminate.
  - split; auto. intros _ r [A B]. rewrite forallb_forall in H1. apply negb_true_iff, H1, roots_ok; auto.
  - split; auto. intros r [A B]. rewrite forallb_forall in H1. apply negb_true_iff, H1, roots_ok; auto.
  - split; [auto|]. split; [apply readyb_ok; auto|]. match goal with Q : negb (in_init _ _) = true |- _ => apply negb_true_iff in Q end. split; auto.
    intros Hl j Hj. rewrite Hl in *. match goal with Q : _ || _ = true |- _ => cbn [negb orb] in Q; apply negb_true_iff in Q; rewrite (proj2 (fixed_nonempty s x)) in Q by eauto; discriminate end.
Qed.
Definition roomyb s (self param : oid) : bool :=
  existsb (fun c => negb (Nat.eqb c param)) (kids (st s) self) ||
  (negb (match par (st s) param with Some q => Nat.eqb q self | None => false end) &&
   match arr (mem s) self with Some (_, _, n) => negb (n =? size (st s) param) | None => true end).
Lemma roomyb_ok : forall s self param, roomyb s self param = true -> roomy s self param.
Proof.
  intros s self param E. apply orb_true_iff in E as [E|E].
  - apply existsb_exists in E as (c & A & B). left. exists c. split; auto. apply negb_true_iff, Nat.eqb_neq in B. auto.
  - apply andb_true_iff in E as [A B]. right. split.
    + intros Q. rewrite Q, Nat.eqb_refl in A. discriminate.
    + intros b o n Q. rewrite Q in B. apply negb_true_iff, Z.eqb_neq in B. auto.
Qed.
Definition carefulb s (c : @call V) : bool :=
  legalb s c && match c with Link self param index => roomyb s self param | _ => true end.
Lemma carefulb_ok : forall s c, Inv s -> carefulb s c = true -> careful s c.
Proof.
  intros s c H E. apply andb_true_iff in E as [A B]. split; [apply legalb_ok; auto|]. destruct c; auto. intros _. apply roomyb_ok; auto.
Qed.

Variables tinit tf tfinv : nat -> V -> V.
Fixpoint play (cs : list (@call V)) s : state := match cs with [] => s | c :: r => play r (fst (exec tinit tf tfinv c s)) end.
Fixpoint played (ok : state -> @call V -> bool) (cs : list (@call V)) s : bool :=
  match cs with [] => true | c :: r => ok s c && played ok r (fst (exec tinit tf tfinv c s)) end.
Lemma play_legal : forall cs s junk, reach tinit tf tfinv legal junk s -> played legalb cs s = true -> reach tinit tf tfinv legal junk (play cs s).
Proof.
  induction cs as [|c cs IH]; intros s junk R E; cbn [play played] in *; auto. apply andb_true_iff in E as [A B].
  apply IH; auto. destruct (exec tinit tf tfinv c s) as [s' e] eqn:Ex. eapply reach_call; eauto. apply legalb_ok; auto.
  apply (reach_inv tinit tf tfinv legal junk s); auto.
Qed.
Lemma careful_legal : forall s c, careful s c -> @legal V s c.
Proof. intros s c H. apply H. Qed.
Lemma play_careful : forall cs s junk, reach tinit tf tfinv careful junk s -> played carefulb cs s = true -> reach tinit tf tfinv careful junk (play cs s).
Proof.
  induction cs as [|c cs IH]; intros s junk R E; cbn [play played] in *; auto. apply andb_true_iff in E as [A B].
  apply IH; auto. destruct (exec tinit tf tfinv c s) as [s' e] eqn:Ex. eapply reach_call; eauto. apply carefulb_ok; auto.
  apply (reach_inv tinit tf tfinv careful junk s); auto using careful_legal.
Qed.
Lemma reach_mono : forall (ok ok' : state -> @call V -> Prop) junk s, (forall s c, ok s c -> ok' s c) -> reach tinit tf tfinv ok junk s -> reach tinit tf tfinv ok' junk s.
Proof. intros ok ok' junk s M R. induction R; [constructor | eapply reach_call; eauto]. Qed.
End Check.
