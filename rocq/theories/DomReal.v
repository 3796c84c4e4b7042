(** C77 for the transformations of the library, over the reals. *)
From Coq Require Import Reals Lra List ZArith Arith.
From Verif Require Import TransformModel TransformSpec TransformProofs TransformProofs2 NpModel IndexOpsModel PzModel CopyModel PzSpec DomSpec DomProofs.
Open Scope R_scope.

(** The domains: closed, as [initialize] leaves values, and open, as the optimizer sets them. *)
Inductive closed : transf -> (R -> Prop) -> Prop :=
| cl_pos : forall t, t = Logexp \/ t = Exponent \/ t = Square -> closed t (fun y => 0 <= y)
| cl_neg : forall t, t = NegativeLogexp \/ t = NegativeExponent -> closed t (fun y => y <= 0)
| cl_log : forall l u, l < u -> closed (Logistic l u) (fun y => l <= y <= u).
Inductive strict : transf -> (R -> Prop) -> Prop :=
| st_pos : forall t, t = Logexp \/ t = Exponent -> strict t (fun y => 0 < y)
| st_neg : forall t, t = NegativeLogexp \/ t = NegativeExponent -> strict t (fun y => y < 0)
| st_log : forall l u, l < u -> strict (Logistic l u) (fun y => l < y < u).

Lemma closed_f : forall t D x, closed t D -> D (t_f t x).
Proof.
  destruct domains as (A1 & A2 & A3 & A4 & A5 & A6). intros t D x H. destruct H as [t [->|[->| ->]]|t [->| ->]|l u H].
  - left. apply A1. - left. apply A2. - apply Rge_le, Rle_ge, A3. - left. apply A4. - left. apply A5. - destruct (A6 l u H x). split; left; auto.
Qed.
Lemma closed_init : forall t D x, closed t D -> D (t_init t x).
Proof.
  destruct inits as (A1 & A2 & A3 & A4 & A5 & A6). intros t D x H. destruct H as [t [->|[->| ->]]|t [->| ->]|l u H];
    [apply A1 | apply A2 | apply A3 | apply A4 | apply A5 | apply (A6 l u H)].
Qed.
Lemma strict_f : forall t D x, strict t D -> D (t_f t x).
Proof.
  destruct domains as (A1 & A2 & A3 & A4 & A5 & A6). intros t D x H. destruct H as [t [->| ->]|t [->| ->]|l u H];
    [apply A1 | apply A2 | apply A4 | apply A5 | apply (A6 l u H)].
Qed.

Lemma real_inside : forall (tr : nat -> transf) (D : nat -> R -> Prop) tfinv junk s, (forall n, closed (tr n) (D n)) ->
  reach (fun n => t_init (tr n)) (fun n => t_f (tr n)) tfinv (fun s c => careful s c /\ respects (fun n => t_init (tr n)) (fun n => t_f (tr n)) tfinv D s c) junk s -> inside D s.
Proof.
  intros tr D tfinv junk s Hc. apply inside_always; intros n v; [apply closed_f, Hc | apply closed_init, Hc].
Qed.
Lemma real_tuned : forall (tr : nat -> transf) tinit tfinv junk s s2 y j n D, reach tinit (fun n => t_f (tr n)) tfinv careful junk s ->
  hist tinit (fun n => t_f (tr n)) tfinv (fun s c => legal s c /\ tuning c) s s2 -> strict (tr n) D ->
  (y < next (st s))%nat -> ready (st s) y -> has s y (Tr n) j ->
  value s2 y j = value s y j \/ exists v, value s2 y j = Some v /\ D v.
Proof.
  intros tr tinit tfinv junk s s2 y j n D R Hh Hs Hy Ry Hn. destruct (tuned_final _ _ _ junk s s2 R Hh) as (_ & _ & Q).
  destruct (reached_all _ _ _ junk s R) as (H & _). destruct (Q y j Hy Ry) as [_ T]; [eapply PzRandom.has_range; eauto|].
  destruct (T n Hn) as [E|(u & E)]; auto. right. exists (t_f (tr n) u). split; auto. apply strict_f. auto.
Qed.

(** An example: 1 = [0] with one element under Logexp and one without constraint. *)
From Verif Require Import PzInv PzPres PzHist PzCheck PzEx.
Import ListNotations.
Definition lib_tr : transf := Logexp.
Definition lib_finv (n : nat) (v : R) : R := v.
Definition lib_junk (b : nat) (i : Z) : R := (-5)%R.
Notation libr := (reach (fun _ => t_init lib_tr) (fun _ => t_f lib_tr) lib_finv).
Notation libx := (exec (fun _ => t_init lib_tr) (fun _ => t_f lib_tr) lib_finv).
(** For any functions in place of those of the library. *)
Definition lib_s {V} (a b : V) (junk : nat -> Z -> V) (i f fi : nat -> V -> V) : @state V :=
  play i f fi [NewParam [a; b]; NewNode [0%nat] true; Constrain 0%nat (Some [0%Z]) 3] (init_state junk).
Lemma lib_spares : forall V (a b : V) junk (i f fi : nat -> V -> V),
  spares i f fi (play i f fi [NewParam [a; b]] (init_state junk)) (NewNode [0%nat] true).
Proof.
  intros V a b junk i f fi s' e E y j Hy Hl Hj.
  assert (y = 0%nat) as -> by (cbn in Hy; Lia.lia). cbn in Hj.
  replace s' with (fst (exec i f fi (NewNode [0%nat] true) (play i f fi [NewParam [a; b]] (init_state junk)))) by (rewrite E; auto).
  assert (j = 0 \/ j = 1)%Z as [->| ->] by Lia.lia; vm_compute; reflexivity.
Qed.
Lemma lib_reach : forall V (a b : V) junk (i f fi : nat -> V -> V) D, reach i f fi (fun s c => careful s c /\ respects i f fi D s c) junk (lib_s a b junk i f fi).
Proof.
  intros V a b junk i f fi D. unfold lib_s. cbn [play].
  set (s1 := fst (exec i f fi (NewParam [a; b]) (init_state junk))).
  assert (R1 : reach i f fi (fun s c => careful s c /\ respects i f fi D s c) junk s1).
  { apply (reach_call i f fi _ junk (init_state junk) (NewParam [a; b]) s1 (snd (exec i f fi (NewParam [a; b]) (init_state junk)))); [constructor | | apply surjective_pairing].
    split; [split; exact Logic.I | exact Logic.I]. }
  assert (H1 : Inv s1) by (apply (reach_inv i f fi (fun s c => careful s c /\ respects i f fi D s c) junk s1); [intros s0 c [[Q _] _]; exact Q | exact R1]).
  set (s2 := fst (exec i f fi (NewNode [0%nat] true) s1)).
  assert (R2 : reach i f fi (fun s c => careful s c /\ respects i f fi D s c) junk s2).
  { apply (reach_call i f fi _ junk s1 (NewNode [0%nat] true) s2 (snd (exec i f fi (NewNode [0%nat] true) s1))); [exact R1 | | apply surjective_pairing].
    split; [apply carefulb_ok; [exact H1 | vm_compute; reflexivity] | apply lib_spares]. }
  assert (H2 : Inv s2) by (apply (reach_inv i f fi (fun s c => careful s c /\ respects i f fi D s c) junk s2); [intros s0 c [[Q _] _]; exact Q | exact R2]).
  eapply (reach_call i f fi _ junk s2 (Constrain 0%nat (Some [0%Z]) 3)); [exact R2 | | apply surjective_pairing].
  split; [apply carefulb_ok; [exact H2 | vm_compute; reflexivity] | exact Logic.I].
Qed.
Definition lib_e {V} (p q : V) (i f fi : nat -> V -> V) (s : @state V) : @state V := play i f fi [ReadOptimizer 1%nat; SetOptimizer 1%nat [p; q]] s.
Lemma lib_hist : forall V (a b p q : V) junk (i f fi : nat -> V -> V),
  hist i f fi (fun s c => legal s c /\ tuning c) (lib_s a b junk i f fi) (lib_e p q i f fi (lib_s a b junk i f fi)).
Proof.
  intros V a b p q junk i f fi. pose proof (lib_reach V a b junk i f fi (fun _ _ => True)) as R.
  destruct (reach_inv i f fi _ junk _ (fun s0 c (Q : careful s0 c /\ respects i f fi (fun _ _ => True) s0 c) => proj1 (proj1 Q)) R) as [H O].
  set (s := lib_s a b junk i f fi) in *.
  assert (L1 : legal s (ReadOptimizer 1%nat)) by (apply legalb_ok; [exact H | vm_compute; reflexivity]).
  destruct (exec_ok i f fi s (ReadOptimizer 1%nat) H O L1) as (s1 & e1 & E1 & H1 & O1 & _).
  eapply hist_call; [split; [exact L1 | exact Logic.I] | exact E1 |].
  assert (Es : s1 = fst (exec i f fi (ReadOptimizer 1%nat) s)) by (rewrite E1; auto).
  eapply (hist_call i f fi _ s1 (SetOptimizer 1%nat [p; q])); [split; [|exact Logic.I] | apply surjective_pairing |].
  - apply legalb_ok; [exact H1|]. rewrite Es. vm_compute. reflexivity.
  - rewrite Es. unfold lib_e. cbn [play]. constructor.
Qed.
Definition lib_start : @state R := lib_s (-2)%R (-7)%R lib_junk (fun _ => t_init lib_tr) (fun _ => t_f lib_tr) lib_finv.
Definition lib_end : @state R := lib_e (-4)%R (-9)%R (fun _ => t_init lib_tr) (fun _ => t_f lib_tr) lib_finv lib_start.
Lemma lib_vals : forall V (a b p q : V) junk (i f fi : nat -> V -> V),
  has (lib_s a b junk i f fi) 1 (Tr 3) 0 /\ value (lib_s a b junk i f fi) 1 0 = Some (i 3%nat a) /\
  value (lib_e p q i f fi (lib_s a b junk i f fi)) 1 0 = Some (f 3%nat p) /\ value (lib_e p q i f fi (lib_s a b junk i f fi)) 1 1 = Some q.
Proof.
  intros. split; [apply PzEx.has_is; vm_compute; reflexivity|]. split; [vm_compute; reflexivity|]. split; vm_compute; reflexivity.
Qed.
Lemma lib_case : closed lib_tr (fun y => (0 <= y)%R) /\ strict lib_tr (fun y => (0 < y)%R) /\
  reach (fun _ => t_init lib_tr) (fun _ => t_f lib_tr) lib_finv (fun s c => careful s c /\ respects (fun _ => t_init lib_tr) (fun _ => t_f lib_tr) lib_finv (fun _ y => (0 <= y)%R) s c) lib_junk lib_start /\
  reach (fun _ => t_init lib_tr) (fun _ => t_f lib_tr) lib_finv careful lib_junk lib_start /\
  hist (fun _ => t_init lib_tr) (fun _ => t_f lib_tr) lib_finv (fun s c => legal s c /\ tuning c) lib_start lib_end /\
  has lib_start 1 (Tr 3) 0 /\ value lib_start 1 0 = Some (t_init lib_tr (-2)%R) /\ value lib_end 1 0 = Some (t_f lib_tr (-4)%R) /\ value lib_end 1 1 = Some (-9)%R.
Proof.
  split; [apply cl_pos; auto|]. split; [apply st_pos; auto|]. split; [apply lib_reach|].
  split; [apply (reach_mono _ _ _ (fun s c => careful s c /\ respects (fun _ => t_init lib_tr) (fun _ => t_f lib_tr) lib_finv (fun _ y => (0 <= y)%R) s c)); [intros s0 c [Q _]; exact Q | apply lib_reach]|].
  split; [apply lib_hist|]. apply lib_vals.
Qed.
