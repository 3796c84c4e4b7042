(** Examples and counterexamples for the properties of observable arrays. *)
From Coq Require Import List Arith Bool Lia.
From Verif Require Import ArrModel ArrSpec ArrProofs.
Import ListNotations.

Section Play.
Context {V : Type}.
Definition play (s : @state V) (l : list call) : state := fold_left (fun s c => fst (exec c s)) l s.
Fixpoint all_ok (ok : state -> call -> Prop) (s : @state V) (l : list call) : Prop :=
  match l with [] => True | c :: r => (legal s c /\ ok s c) /\ all_ok ok (fst (exec c s)) r end.
Lemma hist_cons : forall (ok : state -> call -> Prop) (s : @state V) c s2, legal s c -> ok s c -> hist ok (fst (exec c s)) s2 -> hist ok s s2.
Proof.
  intros ok s c s2 Hl Ho H. induction H as [|s1 k H IH L O]; [apply hist_step; [constructor | exact Hl | exact Ho]|].
  apply hist_step; auto.
Qed.
Lemma play_hist : forall (ok : state -> call -> Prop) l (s : @state V), all_ok ok s l -> hist ok s (play s l).
Proof.
  intros ok l. induction l as [|c l IH]; intros s H; [constructor|]. destruct H as [[H1 H2] H3].
  eapply hist_cons; [exact H1 | exact H2 | exact (IH _ H3)].
Qed.
End Play.

(** Array 0 holds 1 2 3 4, array 1 is ObsAr(array 0), observed by callback 7. *)
Definition junk0 : nat -> nat -> nat := fun _ _ => 0.
Definition start : @state nat := play (init junk0) [New [1; 2; 3; 4]; Wrap 0; Observe 1 7].

Ltac ok1 := split; [split; [first [exact Logic.I | vm_compute; lia] | first [exact Logic.I | repeat constructor; simpl; intuition discriminate]] |].
Lemma start_reach : reach junk0 start.
Proof. apply play_hist. repeat (split; [ok1; exact Logic.I|]). exact Logic.I. Qed.
Lemma start_watches : watches start 7 1.
Proof.
  split; [reflexivity|]. split; [reflexivity|]. split; [left; reflexivity|].
  intros y Hy Ho _. vm_compute in Hy. destruct y as [|[|y]]; [discriminate Ho | split; reflexivity | lia].
Qed.

(** A program by the rules: a slice, a slice of it, assignments through them, [a += 1],
    [a[0:2] += 10], [a[[3, 1]] *= 2], another array, another observer. *)
Definition rules : list (@call nat) :=
  [Slice 1 [1; 2]; Slice 2 [1]; Put 3 [0] [30]; Iop 1 (fun _ v => v + 1); Aug 1 [0; 1] (fun _ v => v + 10);
   AugPick 1 [3; 1] (fun _ v => v * 2); New [5; 6]; Raw 9 [7; 8]; Pick 1 [0; 2]; Put 10 [0] [99]; Observe 1 8; Forget 1 8;
   Copy 1; Put 11 [0] [77]; Values 1].
Lemma rules_ok : all_ok (by_rules 7 1) start rules.
Proof.
  assert (N : forall (s : @state nat) x a, buf (arrs s x) <> buf (arrs s a) -> ~ overlap s x a) by (intros s x a H [E _]; exact (H E)).
  repeat (split; [ok1; first [exact Logic.I | intros _; reflexivity | apply N; vm_compute; discriminate | intros E; discriminate E]|]).
  exact Logic.I.
Qed.
Definition after : @state nat := play start rules.
Lemma rules_hist : hist (by_rules 7 1) start after.
Proof. apply play_hist. exact rules_ok. Qed.
Lemma after_reads : read start 1 = [1; 2; 3; 4] /\ read after 1 = [12; 26; 31; 10] /\ length (log after) = 7 /\
  last_seen (log after) 7 (arrs after 1) = Some [12; 26; 31; 10].
Proof. vm_compute. repeat split. Qed.

(** The observer of array 1 does not learn of a change. *)
Definition stale (l : list (@call nat)) : Prop :=
  reach junk0 start /\ watches start 7 1 /\ all_ok (fun _ _ => True) start l /\
  ~ up_to_date (play start l) (read start 1) (length (log start)) 7 1.
Ltac is_stale := split; [exact start_reach|]; split; [exact start_watches|]; split;
  [repeat (split; [ok1; exact Logic.I|]); exact Logic.I | let H := fresh in intros H; vm_compute in H; discriminate H].
Lemma stale_values : stale [Values 1; Put 2 [0] [9]]. Proof. is_stale. Qed.
Lemma stale_given : stale [Put 0 [0] [9]]. Proof. is_stale. Qed.
Lemma stale_iop : stale [Iop 1 (fun _ v => v + 1); Put 2 [0] [9]]. Proof. is_stale. Qed.
Lemma stale_raw : stale [Raw 1 [0; 0; 0; 0]]. Proof. is_stale. Qed.
Lemma stale_updates : stale [Updates 1 false; Slice 1 [0; 1]; Updates 1 true; Put 2 [0] [9]]. Proof. is_stale. Qed.
Lemma stale_wrap : stale [Wrap 1; Put 1 [0] [9]]. Proof. is_stale. Qed.

(** Switching updates off does not silence slices made before. *)
Lemma loud_slice : exists s, s = play start [Slice 1 [0; 1]; Updates 1 false; Put 2 [0] [9]] /\
  on (arrs s 1) = false /\ map who (log s) = [7] /\ read s 1 = [9; 2; 3; 4].
Proof. eexists. split; [reflexivity|]. vm_compute. repeat split. Qed.

(** A copy, and what is done with it. *)
Definition copied : list (@call nat) := [Observe 2 9; Put 2 [0] [5]; Slice 2 [1]; Put 3 [0] [6]; Iop 2 (fun _ v => v + 1); Wrap 2].
Lemma copied_ok : all_ok (on_new 2) (fst (exec (Copy 1) start)) copied.
Proof. repeat (split; [ok1; vm_compute; lia|]). exact Logic.I. Qed.
(** Array 2 is every second element of the plain array 0. *)
Definition scattered : @state nat := play start [Slice 0 [0; 2]].
Lemma scattered_reach : reach junk0 scattered.
Proof. apply (play_hist _ [New [1; 2; 3; 4]; Wrap 0; Observe 1 7; Slice 0 [0; 2]]). repeat (split; [ok1; exact Logic.I|]). exact Logic.I. Qed.
Lemma scattered_not : ~ block scattered 2.
Proof. intros [p H]. vm_compute in H. injection H as H1 H2. rewrite <- H1 in H2. discriminate H2. Qed.
