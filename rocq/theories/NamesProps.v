(** Property theorems about names (C47, C48, C66). *)
From Coq Require Import List NArith Bool String Arith.
From Verif Require Import NamesModel NamesSpec NamesProofs NamesUnique NamesHalt NamesFinal NamesNumber.
Import ListNotations.
Open Scope list_scope.

(** C47: whatever is not rejected is converted to an identifier, maybe followed by a newline. Missing
    from the full statement: the newline, see [C47_newline_refuted]. *)
Theorem C47_identifier_partial : forall s r, adjust s = Some r -> exists b, ident b /\ (r = b \/ r = b ++ [10%N]).
Proof. exact adjust_shape. Qed.
Print Assumptions C47_identifier_partial.
Example C47_identifier_example : adjust (lit "k(x-1)**2@y") = Some (lit "k_of_x_m_1_xx_2_at_y").
Proof. vm_compute. reflexivity. Qed.
(** A name with a newline at its end is let through. *)
Theorem C47_newline_refuted : exists s r, adjust s = Some r /\ ~ ident r.
Proof.
  exists [97%N; 10%N], [97%N; 10%N]. split; [reflexivity|]. intros (c & r & E & _ & F). injection E as <- <-.
  inversion F as [|x y H]; subst. unfold letter, digit in H. destruct H as [[H|H]|[H|H]]; try discriminate H;
  destruct H as [H _]; apply N.leb_le in H; discriminate H.
Qed.
Print Assumptions C47_newline_refuted.
(** The conversion replaces the special characters by their codes and nothing else. *)
Theorem C47_translation : forall s r, adjust s = Some r -> r = translate s.
Proof. intros s r H. rewrite adjust_translate in H. destruct (re_name (translate s)); congruence. Qed.
Print Assumptions C47_translation.
Example C47_translation_example : translate (lit "a***b (c)/d") = lit "a_xx__x_b__of_c_l_d" /\
  adjust (lit "a***b (c)/d") = Some (lit "a_xx__x_b__of_c_l_d").
Proof. split; vm_compute; reflexivity. Qed.
(** Identifiers are unchanged. *)
Theorem C47_unchanged : forall s, ident s -> adjust s = Some s.
Proof. exact (fun s H => proj1 (adjust_ident s H)). Qed.
Print Assumptions C47_unchanged.
Example C47_unchanged_example : ident (lit "a_1").
Proof. exists 97%N, [95%N; 49%N]. split; [reflexivity|]. split.
  - left. left. split; discriminate.
  - constructor; [|constructor; [|constructor]].
    + right. right. reflexivity.
    + right. left. split; discriminate.
Qed.
Theorem C47_idempotent : forall s r, adjust s = Some r -> adjust r = Some r.
Proof. exact adjust_idem. Qed.
Print Assumptions C47_idempotent.
(** The names that are rejected. *)
Theorem C47_error : forall s, adjust s = None <-> ~ convertible s.
Proof. exact adjust_none. Qed.
Print Assumptions C47_error.
Example C47_error_example : adjust (lit "2a") = None /\ adjust (lit "a#b") = None /\ adjust [] = None /\
  adjust (lit ")(a") = Some (lit "_of_a").
Proof. repeat split; vm_compute; reflexivity. Qed.

(** An object with these children. *)
Definition blank (ns : list str) : nst := mkNs [] (fun i => nth i ns []) [] (fun n => streq n (lit "name")).
Definition linked (ns : list str) (order : list nat) : nst :=
  fold_left (fun s p => fst (nrun 30 (NLink true p None) s)) order (blank ns).
Lemma linked_history : forall ns order, history (linked ns order).
Proof.
  intros ns order. unfold linked. assert (H : history (blank ns)) by (apply Hstart; split; reflexivity).
  revert H. generalize (blank ns). induction order as [|p order IH]; intros s H; cbn [fold_left]; auto.
  apply IH. apply Hcall. exact H.
Qed.
Lemma ended : forall (r : outcome) e, snd r = e -> r = (fst r, e).
Proof. intros [a b] e H. cbn in *. congruence. Qed.
Definition names (s : nst) : list str := map (nm s) (kids s).

(** C48: after a successful call that puts the names in order, all children have different names,
    whatever was there before. *)
Theorem C48_differ : forall f o s s', connects o s -> nrun f o s = (s', None) -> distinct s'.
Proof. exact names_differ. Qed.
Print Assumptions C48_differ.
Example C48_differ_example :
  let s := linked [lit "a"; lit "a"; lit "a"] [0; 1] in
  names s = [lit "a"; lit "a_1"] /\ connects (NLink true 2 (Some 0)) s /\
  names (fst (nrun 30 (NLink true 2 (Some 0)) s)) = [lit "a"; lit "a_1"; lit "a_2"] /\
  snd (nrun 30 (NLink true 2 (Some 0)) s) = None /\
  names (fst (nrun 30 (NRename 0 (lit "a_1")) s)) = [lit "a_1"; lit "a_2"].
Proof. vm_compute. repeat split; reflexivity. Qed.
(** Linking into an object that is itself part of a larger one leaves equal names. *)
Theorem C48_nested_refuted : exists s f p s', history s /\ ~ In p (kids s) /\
  nrun f (NLink false p None) s = (s', None) /\ ~ distinct s'.
Proof.
  exists (linked [lit "a"; lit "a"] [0]), 30, 1. eexists. split; [apply linked_history|].
  split; [vm_compute; intros [H|[]]; discriminate H|]. split; [reflexivity|].
  intro D. apply (D 0 1); [vm_compute; auto|vm_compute; auto|discriminate|vm_compute; reflexivity].
Qed.
Print Assumptions C48_nested_refuted.
(** Names change only if two would be equal otherwise; also when the call fails. *)
Theorem C48_only_conflicts : forall f o s,
  (forall a b, In a (subject o :: kids s) -> In b (subject o :: kids s) -> a <> b -> wanted o s a <> wanted o s b) ->
  forall q, nm (fst (nrun f o s)) q = wanted o s q.
Proof. exact only_conflicts. Qed.
Print Assumptions C48_only_conflicts.
Example C48_only_conflicts_example :
  let s := linked [lit "a"; lit "b"; lit "c"] [0; 1] in
  (forall a b, In a (2 :: kids s) -> In b (2 :: kids s) -> a <> b -> nm s a <> nm s b) /\
  names (fst (nrun 30 (NLink true 2 (Some 1)) s)) = [lit "a"; lit "c"; lit "b"].
Proof.
  cbv zeta. split; [|vm_compute; reflexivity].
  intros a b Ha Hb. vm_compute in Ha, Hb.
  destruct Ha as [<-|[<-|[<-|[]]]]; destruct Hb as [<-|[<-|[<-|[]]]]; intros H; try (exfalso; apply H; reflexivity); vm_compute; discriminate.
Qed.
(** When there is a conflict, a child without one can be renamed too: the new name of another child
    may be its name. *)
Theorem C48_bystander_refuted : exists s f p k s' q, history s /\ distinct s /\ ~ In p (kids s) /\ In q (kids s) /\
  nm s q <> nm s p /\ nrun f (NLink true p (Some k)) s = (s', None) /\ nm s' q <> nm s q.
Proof.
  exists (linked [lit "a"; lit "a_1"; lit "a"] [0; 1]), 4, 2, 1,
    (fst (nrun 4 (NLink true 2 (Some 1)) (linked [lit "a"; lit "a_1"; lit "a"] [0; 1]))), 1.
  split; [apply linked_history|]. split.
  - intros a b Ha Hb. vm_compute in Ha, Hb.
    destruct Ha as [<-|[<-|[]]]; destruct Hb as [<-|[<-|[]]]; intros H; try (exfalso; apply H; reflexivity); vm_compute; discriminate.
  - split; [vm_compute; intros [H|[H|[]]]; discriminate H|]. split; [vm_compute; auto|].
    split; [vm_compute; discriminate|]. split; [apply ended; vm_compute; reflexivity|]. vm_compute. discriminate.
Qed.
Print Assumptions C48_bystander_refuted.
(** A child linked at the end is the one that is renamed, and one linked at an index renames none of
    the children before it; also when the call fails. *)
Theorem C48_others_keep : forall f p s q, distinct s -> ~ In p (kids s) -> In q (kids s) ->
  nm (fst (link f true p None s)) q = nm s q.
Proof. exact others_keep. Qed.
Print Assumptions C48_others_keep.
Theorem C48_earlier_keep : forall f p k s q, distinct s -> ~ In p (kids s) -> In q (firstn k (kids s)) ->
  nm (fst (link f true p (Some k) s)) q = nm s q.
Proof. exact earlier_keep. Qed.
Print Assumptions C48_earlier_keep.
Example C48_keep_example :
  let s := linked [lit "a"; lit "a_1"; lit "a"] [0; 1] in
  names s = [lit "a"; lit "a_1"] /\ names (fst (link 30 true 2 None s)) = [lit "a"; lit "a_1"; lit "a_2"] /\
  kids (fst (link 30 true 2 None s)) = [0; 1; 2].
Proof. vm_compute. repeat split; reflexivity. Qed.
(** The renaming ends: with enough stack there is no recursion error. *)
Theorem C48_comes_to_an_end : forall s o, history s ->
  exists n, forall f, n <= f -> snd (nrun f o s) <> Some RecursionError.
Proof. exact comes_to_an_end. Qed.
Print Assumptions C48_comes_to_an_end.
(** How much is enough depends on the names: here 3 levels are not. *)
Example C48_end_example :
  let s := linked [lit "a"; lit "a"; lit "a"] [0; 1] in
  history s /\ snd (nrun 2 (NLink true 2 None) s) = Some RecursionError /\ snd (nrun 4 (NLink true 2 None) s) = None.
Proof. split; [apply linked_history|]. vm_compute. split; reflexivity. Qed.

(** C66: an attribute that was made for a child is always one of a present child, under the printing
    form of its present name. *)
Theorem C66_sound : forall s n p, history s -> attribute s n p -> In p (kids s) /\ adjust (nm s p) = Some n.
Proof. exact attributes_sound. Qed.
Print Assumptions C66_sound.
Example C66_sound_example :
  let s := fst (nrun 30 (NUnlink 0) (linked [lit "a"; lit "a"; lit "k(x)"] [0; 1; 2])) in
  history s /\ attribute s (lit "a_1") 1 /\ attribute s (lit "k_of_x") 2 /\ has_attr s (lit "a") = false.
Proof.
  cbv zeta. split; [apply Hcall; apply linked_history|]. split; [|split].
  - eexists. split; vm_compute; reflexivity.
  - eexists. split; vm_compute; reflexivity.
  - vm_compute. reflexivity.
Qed.
(** After a successful call that puts the names in order, a child is an attribute under the printing
    form of its name if no other child has this printing form and it is no other attribute. *)
Theorem C66_reached_partial : forall s f o s', history s -> connects o s -> nrun f o s = (s', None) ->
  forall p n, In p (kids s') -> adjust (nm s' p) = Some n -> reserved s' n = false ->
  (forall q, In q (kids s') -> adjust (nm s' q) = Some n -> q = p) -> attribute s' n p.
Proof. exact reached. Qed.
Print Assumptions C66_reached_partial.
(** The names of all children have a printing form then. *)
Theorem C66_printable : forall s f o s', connects o s -> nrun f o s = (s', None) ->
  forall p, In p (kids s') -> adjust (nm s' p) <> None.
Proof. exact printable_all. Qed.
Print Assumptions C66_printable.
Example C66_reached_example :
  let s := linked [lit "a b"; lit "c"; lit "a_b_1"] [0; 1] in
  connects (NLink true 2 None) s /\ snd (nrun 30 (NLink true 2 None) s) = None /\
  attribute (fst (nrun 30 (NLink true 2 None) s)) (lit "a_b") 0 /\
  attribute (fst (nrun 30 (NLink true 2 None) s)) (lit "a_b_1") 2.
Proof.
  cbv zeta. split; [reflexivity|]. split; [vm_compute; reflexivity|]. split; eexists; split; vm_compute; reflexivity.
Qed.
(** Different names can have the same printing form; then only the first is an attribute. *)
Theorem C66_shared_refuted : exists s f o s' p n, history s /\ connects o s /\ nrun f o s = (s', None) /\
  In p (kids s') /\ adjust (nm s' p) = Some n /\ reserved s' n = false /\ ~ attribute s' n p.
Proof.
  exists (linked [lit "a b"; lit "a.b"] [0]), 30, (NLink true 1 None). eexists. exists 1, (lit "a_b").
  split; [apply linked_history|]. split; [reflexivity|]. split; [reflexivity|]. split; [vm_compute; auto|].
  split; [vm_compute; reflexivity|]. split; [vm_compute; reflexivity|].
  intros (e & F & E). vm_compute in F. injection F as <-. discriminate E.
Qed.
Print Assumptions C66_shared_refuted.
(** A child whose name is that of another attribute of the object is linked without complaint and not
    reachable. *)
Theorem C66_reserved_refuted : exists s f o s' p n, history s /\ connects o s /\ nrun f o s = (s', None) /\
  In p (kids s') /\ adjust (nm s' p) = Some n /\ (forall q, ~ attribute s' n q).
Proof.
  exists (linked [lit "a"; lit "name"] [0]), 30, (NLink true 1 None). eexists. exists 1, (lit "name").
  split; [apply linked_history|]. split; [reflexivity|]. split; [reflexivity|]. split; [vm_compute; auto|].
  split; [vm_compute; reflexivity|]. intros q (e & F & E). vm_compute in F. discriminate F.
Qed.
Print Assumptions C66_reserved_refuted.
(** Nor is one that was linked into a part of a larger object. *)
Theorem C66_nested_refuted : exists s f p s' n, history s /\ nrun f (NLink false p None) s = (s', None) /\
  In p (kids s') /\ adjust (nm s' p) = Some n /\ reserved s' n = false /\ (forall q, ~ attribute s' n q).
Proof.
  exists (linked [lit "a"; lit "b"] [0]), 30, 1. eexists. exists (lit "b").
  split; [apply linked_history|]. split; [reflexivity|]. split; [vm_compute; auto|].
  split; [vm_compute; reflexivity|]. split; [vm_compute; reflexivity|].
  intros q (e & F & E). vm_compute in F. discriminate F.
Qed.
Print Assumptions C66_nested_refuted.
(** A failed call can leave a child that cannot be printed. *)
Theorem C66_bad_name_refuted : exists s f p s', history s /\ ~ In p (kids s) /\
  nrun f (NLink true p None) s = (s', Some NameError) /\ In p (kids s').
Proof.
  exists (linked [lit "a"; lit "2b"] [0]), 30, 1. eexists. split; [apply linked_history|].
  split; [vm_compute; intros [H|[]]; discriminate H|]. split; [reflexivity|]. vm_compute. auto.
Qed.
Print Assumptions C66_bad_name_refuted.

(** ** C127 *)
(** A child linked at the end keeps its name if no other child has it; otherwise it gets the first name of the
    sequence name, name_1, name_2, ... (or from its own number on) that no other child has. *)
Theorem C127_new_name : forall f p s s', distinct s -> ~ In p (kids s) -> nrun f (NLink true p None) s = (s', None) ->
  first_free (fun n => exists c, In c (kids s) /\ nm s c = n) (nm s p) (nm s' p).
Proof. exact new_name_final. Qed.
Print Assumptions C127_new_name.
Example C127_example :
  let s := linked [lit "a"; lit "a_1"; lit "a_02"; lit "a_2"; lit "a"] [0; 1; 2; 3] in
  history s /\ ~ In 4 (kids s) /\ snd (nrun 30 (NLink true 4 None) s) = None /\ nm (fst (nrun 30 (NLink true 4 None) s)) 4 = lit "a_3" /\
  names (fst (nrun 30 (NLink true 4 None) s)) = [lit "a"; lit "a_1"; lit "a_02"; lit "a_2"; lit "a_3"] /\
  successor (lit "a") (lit "a_1") /\ successor (lit "a_02") (lit "a_3").
Proof.
  cbv zeta. split; [apply linked_history|]. split; [vm_compute; intros [H|[H|[H|[H|[]]]]]; discriminate H|].
  split; [vm_compute; reflexivity|]. split; [vm_compute; reflexivity|]. split; [vm_compute; reflexivity|].
  split; [exact (next_successor (lit "a")) | exact (next_successor (lit "a_02"))].
Qed.
