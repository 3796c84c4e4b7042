(** Concrete programs with cached methods for the examples of MethProps. *)
From Coq Require Import List ZArith NArith Bool Lia Permutation.
From Verif Require Import CachingModel CachingSpec CachingProofs MethModel MethSpec.
Import ListNotations.

Fixpoint sum (l : list nat) : nat := match l with [] => 0 | x :: r => x + sum r end.
Definition at0 (l : list nat) : nat := nth 1 l 0.

(** Contents and results are numbers, exceptions are numbers: 1 is TypeError, 2 RecursionError, 3 an
    error inside a cacher, 7 an error of method 2.
    - method 0: [def f(self, x=object9): self + x];
    - method 1: [def g(self, x, y): 100 * self.f(x) + x.f(y)], limit 1;
    - method 2: [def h(self, x): if x == 0: raise ...; return x + 1], with [ignore_args=[0]];
    - the others: [def k(self, x): 0], with [force_kwargs=['x']]. *)
Definition wrap0 (e : ierr) : nat := 3.
Definition def0 (m : nat) : mdef :=
  match m with
  | 0 => mkM [(0, None); (1, Some 9)] 5 [] []
  | 1 => mkM [(0, None); (1, None); (2, None)] 1 [] []
  | 2 => mkM [(0, None); (1, None)] 3 [0] []
  | _ => mkM [(0, None); (1, None)] 5 [] [1]
  end.
Definition body0 (m : nat) (xs : list nat) : prog nat nat :=
  match m with
  | 0 => Done (inl (sum xs))
  | 1 => Use 0 [0; 1] (fun r => match r with
           | inl u => Use 0 [1; 2] (fun r' => match r' with
                        | inl v => Done (inl (100 * u + v)) | inr e => Done (inr e) end)
           | inr e => Done (inr e) end)
  | 2 => match at0 xs with 0 => Done (inr 7) | S n => Done (inl (S (S n))) end
  | _ => Done (inl 0)
  end.
Notation sstep0 := (sstep wrap0 1 2 def0 body0).
Notation shistory0 := (shistory wrap0 1 2 def0 body0).
Notation slegal0 := (slegal wrap0 1 2 def0 body0).
Notation sideal0 := (sideal 1 2 def0 body0).

Lemma kept_nil : forall A (l : list A), kept [] l = l.
Proof.
  intros A l. rewrite kept_drop. generalize 0. induction l as [|x l IH]; intros n; simpl; [reflexivity|].
  f_equal. apply IH.
Qed.
Lemma kept_one : forall A (x : A) l, kept [0] (x :: l) = l.
Proof.
  intros A x l. rewrite kept_drop. simpl. generalize (Nat.lt_0_1). generalize 1. induction l as [|y l IH]; intros n Hn; simpl; [reflexivity|].
  destruct n; [lia|]. simpl. f_equal. apply IH. lia.
Qed.
Lemma kept_one_nil : forall A, kept [0] (@nil A) = [].
Proof. reflexivity. Qed.
Lemma respects_nil : forall (f : list nat -> nat + nat), respects_ignore (fun xs (_ : list (nat * nat)) => f xs) [].
Proof.
  intros f. split; [intros xs kx ky _; reflexivity|]. intros xs ys kx ky Hl Hm _ Hk.
  rewrite !kept_nil in Hk. apply f_equal with (f := firstn (length xs)) in Hk.
  rewrite firstn_app, Nat.sub_diag, firstn_O, app_nil_r, firstn_all in Hk.
  rewrite Hl in Hk. rewrite firstn_app, Nat.sub_diag, firstn_O, app_nil_r, firstn_all in Hk. rewrite Hk. reflexivity.
Qed.
Lemma plain2 : forall xs, plain 2 body0 2 xs = match at0 xs with 0 => inr 7 | S n => inl (S (S n)) end.
Proof. intros xs. unfold plain. simpl. destruct (at0 xs); reflexivity. Qed.
Lemma good0 : good_methods 2 def0 body0.
Proof.
  intros m. destruct m as [|[|[|m]]]; (split; [vm_compute; lia|]); (split; [vm_compute; discriminate|]); split.
  - apply (respects_nil (plain 2 body0 0)).
  - intros xs _. constructor.
  - apply (respects_nil (plain 2 body0 1)).
  - intros xs _. cbn [body0].
    constructor; [lia | reflexivity | repeat (constructor; [unfold arity; simpl; lia|]); constructor |].
    intros [u|e]; [|constructor].
    constructor; [lia | reflexivity | repeat (constructor; [unfold arity; simpl; lia|]); constructor |].
    intros [v|e]; constructor.
  - split; [intros xs kx ky _; reflexivity|]. intros xs ys kx ky Hl Hm _ Hk. cbn [mig def0] in Hk.
    rewrite !plain2. assert (He : at0 xs = at0 ys); [|rewrite He; reflexivity].
    destruct xs as [|x xs], ys as [|y ys]; try discriminate; [reflexivity|].
    simpl app in Hk. rewrite !kept_one in Hk. unfold at0; simpl.
    destruct xs, ys; try discriminate; [reflexivity|]. simpl in Hk. injection Hk as -> _. reflexivity.
  - intros xs _. cbn [body0]. destruct (at0 xs); constructor.
  - apply (respects_nil (plain 2 body0 (S (S (S m))))).
  - intros xs _. constructor.
Qed.
Lemma selfless2 : selfless 2 body0 2.
Proof. intros x y xs. rewrite !plain2. reflexivity. Qed.
Lemma bound2 : forall x, respects_ignore (fun xs (_ : list (nat * nat)) => plain 2 body0 2 (x :: xs)) [].
Proof. intros x. apply (respects_nil (fun xs => plain 2 body0 2 (x :: xs))). Qed.

Definition ol0 (o : nat) : nat := o.
Lemma ol0_inj : forall a b : nat, ol0 a = ol0 b -> a = b.
Proof. auto. Qed.
Definition s0 : sys nat nat := new_sys 0 ol0.

Ltac forall_ground := repeat first [apply Forall_cons | apply Forall_nil];
  first [reflexivity | split; [reflexivity|]].

(** Parameterized objects 1, 2, 3 and the default object 9. *)
Definition l_objects : list (sevent nat) :=
  [SNew 1 KObs false 1 100%N true; SNew 2 KObs false 2 200%N true;
   SNew 3 KObs false 3 300%N false; SNew 9 KObs false 5 900%N true].
(** Calls, changes, switches, a bound method, a copy, a death. *)
Definition l_rest : list (sevent nat) :=
  [SCall 0 [1] []; SCall 0 [1; 9] []; SCall 0 [1] [(1, 9)]; SCall 0 [] []; SCall 1 [1; 2] [(2, 3)];
   SCall 1 [1; 2; 3] []; SChange [(2, 7)] [(2, 2)]; SCall 1 [1; 2; 3] []; SCall 2 [1; 2] [];
   SBind 1 2 4 [] [] true; SBound 1 2 [3]; SDisable 1; SCall 0 [1; 2] []; SCall 0 [1; 2] [];
   SBound 1 2 [2]; SEnable 1; SCall 0 [1; 2] []; SCopy 1 4 400%N true; SCall 0 [4; 2] [];
   SReset 1; SCall 0 [1; 2] []; SDisable 4; SCall 1 [4; 4; 2] []; SSetUpd 3 false].
Definition l_ex : list (sevent nat) := l_objects ++ l_rest.

Lemma fresh_addr : forall (P : nat -> Prop) (n : nat), (forall o, n <= o -> P o) ->
  (forall o, o < n -> P o) -> forall o, P o.
Proof. intros P n H1 H2 o. destruct (Nat.lt_ge_cases o n); auto. Qed.
Ltac addr_fresh := let o := fresh "o" in intros o;
  do 10 (destruct o as [|o]; [intros H; vm_compute in H; first [discriminate H | intros H1; vm_compute in H1; discriminate H1]|]);
  intros H; vm_compute in H; discriminate H.
Ltac args_live := let a := fresh "a" in let H := fresh "H" in
  intros a H; vm_compute in H; first [discriminate H |
    injection H as <-; repeat apply Forall_cons; try apply Forall_nil; vm_compute; reflexivity].

Lemma ex_slegal : slegal0 s0 l_ex.
Proof.
  unfold l_ex, l_objects, l_rest. simpl app.
  Ltac snew := split; [split; [vm_compute; reflexivity | addr_fresh]|].
  Ltac scall := split; [args_live|].
  Ltac striv := split; [exact Logic.I|].
  snew. snew. snew. snew. scall. scall. scall. scall. scall. scall.
  split.
  { split; [|constructor; [split; vm_compute; reflexivity | constructor]]. constructor; [|constructor].
    split; [vm_compute; reflexivity|]. right. split; [vm_compute; reflexivity|]. split; [vm_compute; reflexivity|].
    exists 2. left. reflexivity. }
  scall. scall.
  split. { split; [vm_compute; reflexivity|]. split; [lia|]. split; [exact selfless2 | exact bound2]. }
  split. { split; [vm_compute; discriminate|]. split; [reflexivity|]. repeat (constructor; [vm_compute; reflexivity|]). constructor. }
  striv. scall. scall.
  split. { split; [vm_compute; discriminate|]. split; [reflexivity|]. repeat (constructor; [vm_compute; reflexivity|]). constructor. }
  striv. scall.
  split. { split; [vm_compute; reflexivity|]. split; [vm_compute; reflexivity|]. split; [addr_fresh | discriminate]. }
  scall. striv. scall. striv. scall. striv. exact Logic.I.
Qed.
Lemma ex_by_object : all_by_object wrap0 1 2 def0 body0 s0 l_ex.
Proof.
  unfold l_ex, l_objects, l_rest. simpl app.
  repeat (split; [first [exact Logic.I | reflexivity | vm_compute; discriminate]|]). exact Logic.I.
Qed.
Lemma ex_results : fst (shistory0 s0 l_ex) =
  [inl 6; inl 6; inl 6; inr 1; inl 305; inl 305; inl 810; inl 8; inl 4; inl 8; inl 8; inl 8; inl 8; inl 8; inl 8; inl 208].
Proof. vm_compute. reflexivity. Qed.
