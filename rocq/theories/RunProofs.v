(** Proofs about lookup, evaluations and restarts. *)
From Coq Require Import List NArith ZArith Bool String Arith Lia.
From Verif Require Import RunModel RunSpec.
Import ListNotations.
Open Scope list_scope.

(** ** Lookup *)
Lemma starts_iff : forall p s, starts p s = true <-> exists b, s = p ++ b.
Proof.
  induction p as [|a p IH]; intros s; cbn [starts].
  - split; [intros _; exists s; reflexivity|auto].
  - destruct s as [|b s].
    + split; [discriminate|]. intros (b & E). discriminate.
    + rewrite andb_true_iff, N.eqb_eq, IH. split.
      * intros (-> & c & ->). exists c. reflexivity.
      * intros (c & E). injection E as -> ->. split; eauto.
Qed.
Lemma finds_iff : forall p s, finds p s = true <-> contains p s.
Proof.
  intros p s. induction s as [|c s IH].
  - cbn [finds]. rewrite orb_false_r, starts_iff. split.
    + intros (b & E). exists [], b. auto.
    + intros (a & b & E). symmetry in E. apply app_eq_nil in E as [_ E]. eauto.
  - cbn [finds]. rewrite orb_true_iff, starts_iff, IH. split.
    + intros [(b & E)|(a & b & ->)]; [exists [], b; auto|]. exists (c :: a), b. reflexivity.
    + intros (a & b & E). destruct a as [|d a].
      * left. eauto.
      * right. injection E as -> E. exists a, b. auto.
Qed.
Lemma chars_le_iff : forall a b, chars_le a b = true <-> before a b.
Proof.
  induction a as [|x a IH]; intros b; cbn [chars_le].
  - split; auto. constructor.
  - destruct b as [|y b].
    + split; [discriminate|]. intro H. inversion H.
    + rewrite orb_true_iff, andb_true_iff, N.ltb_lt, N.eqb_eq, IH. split.
      * intros [H|[-> H]]; [apply Blt; auto|apply Beq; auto].
      * intros H. inversion H; subst; auto.
Qed.
Lemma before_total : forall a b, before a b \/ before b a.
Proof.
  induction a as [|x a IH]; intros b; [left; constructor|].
  destruct b as [|y b]; [right; constructor|].
  destruct (N.lt_trichotomy x y) as [H|[->|H]].
  - left. apply Blt; auto.
  - destruct (IH b); [left|right]; apply Beq; auto.
  - right. apply Blt; auto.
Qed.
Lemma before_trans : forall a b c, before a b -> before b c -> before a c.
Proof.
  induction a as [|x a IH]; intros b c H1 H2; [constructor|].
  inversion H1; subst; inversion H2; subst.
  - apply Blt. lia.
  - apply Blt. auto.
  - apply Blt. auto.
  - apply Beq. eauto.
Qed.
Definition first_in (l : list (chars * optimizer)) : Prop :=
  forall l1 e l2, l = l1 ++ e :: l2 -> forall e', In e' l2 -> before (fst e) (fst e').
Lemma insert_in : forall e l x, In x (insert_name e l) <-> x = e \/ In x l.
Proof.
  intros e l x. induction l as [|h t IH]; cbn [insert_name]; [cbn; intuition|].
  destruct (chars_le (fst e) (fst h)); cbn [In]; [intuition|]. rewrite IH. tauto.
Qed.
Lemma sort_in : forall l x, In x (sort_names l) <-> In x l.
Proof.
  intros l x. unfold sort_names. induction l as [|h t IH]; cbn [fold_right]; [tauto|].
  rewrite insert_in, IH. cbn. intuition.
Qed.
Inductive sorted : list (chars * optimizer) -> Prop :=
| Snil : sorted []
| Scons e l : (forall e', In e' l -> before (fst e) (fst e')) -> sorted l -> sorted (e :: l).
Lemma insert_sorted : forall e l, sorted l -> sorted (insert_name e l).
Proof.
  intros e l H. induction H as [|h t Hh Ht IH]; cbn [insert_name].
  - constructor; [intros e' []|constructor].
  - destruct (chars_le (fst e) (fst h)) eqn:E.
    + apply chars_le_iff in E. constructor; [|constructor; auto].
      intros e' [<-|I1]; auto. eapply before_trans; eauto.
    + constructor; auto. intros e' I1. apply insert_in in I1 as [->|I1]; auto.
      destruct (before_total (fst e) (fst h)) as [B|B]; auto. apply chars_le_iff in B. congruence.
Qed.
Lemma sort_sorted : forall l, sorted (sort_names l).
Proof. induction l; cbn; [constructor|]. apply insert_sorted. auto. Qed.
Lemma find_first : forall (g : chars * optimizer -> bool) l e, sorted l -> find g l = Some e ->
  In e l /\ g e = true /\ forall e', In e' l -> g e' = true -> before (fst e) (fst e') \/ e' = e.
Proof.
  intros g l e H. induction H as [|h t Hh Ht IH]; cbn [find]; [discriminate|].
  destruct (g h) eqn:E.
  - intros H. injection H as <-. split; [left; auto|]. split; auto. intros e' [->|I1] _; auto.
  - intros H. destruct (IH H) as (I1 & G & F). split; [right; auto|]. split; auto.
    intros e' [<-|I2] G'; [congruence|auto].
Qed.
Lemma before_refl : forall a, before a a.
Proof. induction a; [constructor|apply Beq; auto]. Qed.
Lemma names_low : forall e, In e optimizers -> lower (fst e) = fst e.
Proof. intros e H. cbn in H. repeat (destruct H as [<-|H]; [reflexivity|]). contradiction. Qed.
Lemma lookup_some : forall q o, get_optimizer q = Some o ->
  exists n, In (n, o) optimizers /\ contains (lower q) n /\
  forall n' o', In (n', o') optimizers -> contains (lower q) n' -> before n n'.
Proof.
  intros q o H. unfold get_optimizer in H.
  destruct (find (fun e => finds (lower q) (lower (fst e))) (sort_names optimizers)) as [[n o1]|] eqn:F; [|discriminate].
  injection H as <-. apply find_first in F as (I1 & G & M); [|apply sort_sorted].
  apply (proj1 (sort_in _ _)) in I1. apply finds_iff in G. cbn [fst snd] in *. pose proof (names_low _ I1) as L. cbn [fst] in L. rewrite L in G.
  exists n. split; auto. split; auto. intros n' o' I2 C.
  pose proof (names_low _ I2) as L2. cbn [fst] in L2.
  destruct (M (n', o')) as [B|E].
  - apply (proj2 (sort_in _ _)). auto.
  - apply finds_iff. cbn [fst]. rewrite L2. auto.
  - exact B.
  - injection E as -> ->. apply before_refl.
Qed.
Lemma lookup_none : forall q, get_optimizer q = None <-> (forall n o, In (n, o) optimizers -> ~ contains (lower q) n).
Proof.
  intros q. unfold get_optimizer. split.
  - destruct (find _ _) as [e|] eqn:F; [discriminate|]. intros _ n o I1 C.
    pose proof (names_low _ I1) as L. cbn [fst] in L.
    apply (proj2 (sort_in _ _)) in I1. apply (find_none _ _ F) in I1. cbn [fst] in I1. rewrite L in I1.
    apply finds_iff in C. congruence.
  - intros H. destruct (find _ _) as [[n o]|] eqn:F; auto. exfalso.
    apply find_some in F as [I1 G]. apply (proj1 (sort_in _ _)) in I1. cbn [fst] in G. apply finds_iff in G.
    pose proof (names_low _ I1) as L. cbn [fst] in L. rewrite L in G. eapply H; eauto.
Qed.
Lemma lookup_full : forall n o, In (n, o) optimizers -> get_optimizer n = Some o.
Proof.
  intros n o H. cbn in H. repeat (destruct H as [H|H]; [injection H as <- <-; vm_compute; reflexivity|]). contradiction.
Qed.
Lemma lower_letters : forall s, Forall2 same_letter s (lower s).
Proof.
  induction s as [|a s IH]; [constructor|]. constructor; auto. unfold same_letter, low.
  destruct (N.leb_spec 65 a); destruct (N.leb_spec a 90); cbn [andb]; lia.
Qed.

(** ** Evaluations *)
Lemma caught_numerical : forall e, caught e = numerical e.
Proof. intros []; reflexivity. Qed.
Lemma fails_count : forall A n e (k : nat -> nat * answer A), (forall m, fst (k m) = m) ->
  fst (fails n e k) = if numerical e then if allowed <=? n then n else S n else n.
Proof. intros A n e k H. unfold fails. rewrite caught_numerical. destruct (numerical e); auto. destruct (allowed <=? n); auto. Qed.
Lemma clip_count : forall A (a : attempt A) k n, fst (clip_again a k n) = n.
Proof. intros. unfold clip_again. destruct (a_again a); auto. Qed.
Lemma evaluate_count : forall A c n (a : attempt A), fst (evaluate c n a) =
  match failure c a with
  | None => 0
  | Some e => if numerical e then if allowed <=? n then n else S n else n
  end.
Proof.
  intros A c n a. destruct c; cbn [evaluate]; unfold objective, grads, objective_grads, failure, steps;
    destruct (a_set a); cbn [first];
    try (apply fails_count; try apply clip_count; auto);
    try (destruct (a_obj a); cbn [of_sum first]); try (destruct (a_grad a); cbn [of_sum first]);
    try reflexivity; apply fails_count; try apply clip_count; auto.
Qed.
Lemma evaluations_app : forall A (l l' : list (callback * attempt A)) n, evaluations n (l ++ l') = evaluations (evaluations n l) l'.
Proof. induction l as [|[c a] l IH]; intros l' n; cbn; auto. Qed.
Lemma count_is_streak : forall A (h : list (callback * attempt A)), evaluations 0 (rev h) = Nat.min allowed (streak h).
Proof.
  induction h as [|[c a] h IH]; [reflexivity|]. cbn [rev]. rewrite evaluations_app, IH. cbn [evaluations].
  rewrite evaluate_count. cbn [streak]. destruct (failure c a) as [e|]; [|reflexivity].
  destruct (numerical e); auto. destruct (Nat.leb_spec allowed (Nat.min allowed (streak h))); lia.
Qed.
Lemma answer_fails : forall A c n (a : attempt A) e, failure c a = Some e ->
  exists k, evaluate c n a = fails n e k /\ (has_clip c a -> forall m, tolerated c a (snd (k m))).
Proof.
  intros A c n a e F. destruct c; cbn [evaluate has_clip] in *; unfold objective, grads, objective_grads, failure, steps in *;
    destruct (a_set a); cbn [first] in F;
    try (injection F as <-; eexists; split; [reflexivity|]; intros H m; try destruct H as (g & H); unfold clip_again; try rewrite H; try exact H; try exact I);
    destruct (a_obj a); cbn [of_sum first] in F; try discriminate;
    try (injection F as <-; eexists; split; [reflexivity|]; intros H m; try destruct H as (g & H); unfold clip_again; try rewrite H; try exact H; try exact I);
    destruct (a_grad a); cbn [of_sum first] in F; try discriminate;
    try (injection F as <-; eexists; split; [reflexivity|]; intros H m; try destruct H as (g & H); unfold clip_again; try rewrite H; try exact H; try exact I).
Qed.
Lemma eval_tolerated : forall A (h : list (callback * attempt A)) c (a : attempt A) e,
  failure c a = Some e -> numerical e = true -> streak h < allowed -> has_clip c a ->
  tolerated c a (snd (evaluate c (evaluations 0 (rev h)) a)).
Proof.
  intros A h c a e F C L H. rewrite count_is_streak. destruct (answer_fails A c (Nat.min allowed (streak h)) a e F) as (k & -> & T).
  unfold fails. rewrite caught_numerical, C. destruct (Nat.leb_spec allowed (Nat.min allowed (streak h))); [lia|]. apply T; auto.
Qed.
Lemma eval_raised : forall A (h : list (callback * attempt A)) c (a : attempt A) e,
  failure c a = Some e -> numerical e = false \/ allowed <= streak h ->
  snd (evaluate c (evaluations 0 (rev h)) a) = Raised e.
Proof.
  intros A h c a e F H. rewrite count_is_streak. destruct (answer_fails A c (Nat.min allowed (streak h)) a e F) as (k & -> & T).
  unfold fails. rewrite caught_numerical. destruct (numerical e); auto. destruct H as [H|H]; [discriminate|].
  destruct (Nat.leb_spec allowed (Nat.min allowed (streak h))); [reflexivity|lia].
Qed.
Lemma eval_value : forall A n c (a : attempt A), failure c a = None ->
  fst (evaluate c n a) = 0 /\
  match c with
  | CObjective => exists v, a_obj a = inl v /\ snd (evaluate c n a) = Val v
  | CGrads => exists v, a_grad a = inl v /\ snd (evaluate c n a) = Val v
  | CObjectiveGrads => exists v g, a_obj a = inl v /\ a_grad a = inl g /\ snd (evaluate c n a) = Both v g
  end.
Proof.
  intros A n c a F. rewrite evaluate_count, F. split; auto.
  destruct c; cbn [evaluate]; unfold objective, grads, objective_grads, failure, steps in *;
    destruct (a_set a); cbn [first] in F; try discriminate;
    try (destruct (a_obj a); cbn [of_sum first] in F; try discriminate);
    try (destruct (a_grad a); cbn [of_sum first] in F; try discriminate); eauto.
Qed.

(** ** Restarts *)
Definition ids (n k : nat) : list nat := seq n k.
(** What holds after some passes with new Optimizer objects: [r] are the results so far. *)
Definition inv {X : Type} (s0 s : rst X) (r : list (fval * X)) : Prop :=
  done s = done s0 ++ r /\ nobj s0 <= nobj s /\
  exists os, runs s = runs s0 ++ os /\ List.length os = List.length r /\
  (forall j, In j os -> j < nobj s) /\
  forall i, match nth_error os i, nth_error r i with
            | Some o, Some (f, x) => obj s o = Some (mkO f x)
            | None, None => True
            | _, _ => False
            end.
Lemma inv_start : forall X (s : rst X), inv s s [].
Proof.
  intros X s. split; [rewrite app_nil_r; auto|]. split; auto. exists []. rewrite app_nil_r.
  split; auto. split; auto. split; [intros j []|]. intros [|i]; exact I.
Qed.
Lemma inv_params : forall X (s0 s : rst X) r x, inv s0 s r -> inv s0 (mkR x (runs s) (obj s) (nobj s) (done s)) r.
Proof. intros X s0 s r x H. exact H. Qed.
Lemma inv_optimize : forall X start run (s0 s s' : rst X) r e, inv s0 s r ->
  optimize true None start run s = (s', e) ->
  match run (match start with Some y => y | None => params s end) with
  | Fails n y => e = Some (RunError n) /\ params s' = y /\ inv s0 s' r
  | Ends f y => e = None /\ params s' = y /\ inv s0 s' (r ++ [(f, y)]) /\ runs s' <> []
  end.
Proof.
  intros X start run s0 s s' r e (D & N1 & os & R & L & B & O) E. unfold optimize in E. cbn [negb] in E.
  destruct (run _) as [n y|f y]; injection E as <- <-.
  - split; auto. split; auto. split; auto. cbn. split; [lia|]. exists os. split; auto. split; auto. split; [|exact O].
    intros j Hj. apply B in Hj. lia.
  - split; auto. split; auto. split; [|cbn; destruct (runs s); discriminate].
    split; [cbn; rewrite D, app_assoc; auto|]. split; [cbn; lia|]. exists (os ++ [nobj s]). cbn.
    split; [rewrite R, app_assoc; auto|]. split; [rewrite !app_length; cbn; lia|]. split.
    + intros j Hj. apply in_app_or in Hj as [Hj|[<-|[]]]; [apply B in Hj|]; lia.
    + intros i. specialize (O i). destruct (Nat.lt_ge_cases i (List.length os)) as [H|H].
      * rewrite nth_error_app1 by auto. rewrite nth_error_app1 by lia.
        destruct (nth_error os i) as [o|] eqn:E1; [|destruct (nth_error r i); auto].
        destruct (nth_error r i) as [[g z]|]; auto.
        assert (o < nobj s). { apply B. eapply nth_error_In; eauto. }
        destruct (Nat.eqb_spec o (nobj s)); [lia|]. auto.
      * rewrite nth_error_app2 by auto. rewrite nth_error_app2 by lia. rewrite L.
        destruct (i - List.length r) as [|d] eqn:Ed; cbn [nth_error]; [|destruct d; exact I].
        rewrite Nat.eqb_refl. reflexivity.
Qed.
(** The loop follows the outcomes. *)
Lemma passes_robust : forall X start rnd run verbose k i (s0 s s' : rst X) r e, inv s0 s r ->
  passes true None start rnd run verbose true k i s = (s', e) ->
  e = None /\ inv s0 s' (r ++ successes (outcomes start rnd run k i (params s))).
Proof.
  induction k; intros i s0 s s' r e H E; cbn [passes outcomes successes] in *.
  - injection E as <- <-. rewrite app_nil_r. auto.
  - unfold pass in E.
    set (s1 := if Nat.eqb i 0 then s else mkR (rnd i (params s)) (runs s) (obj s) (nobj s) (done s)) in *.
    assert (H1 : inv s0 s1 r) by (unfold s1; destruct (Nat.eqb i 0); auto).
    assert (P1 : params s1 = if Nat.eqb i 0 then params s else rnd i (params s)) by (unfold s1; destruct (Nat.eqb i 0); auto).
    clearbody s1. destruct (optimize true None start (run i) s1) as [s2 e2] eqn:E2.
    pose proof (inv_optimize X start (run i) s0 s1 s2 r e2 H1 E2) as Q. rewrite P1 in Q.
    destruct (run i _) as [n y|f y].
    + destruct Q as (-> & <- & H2). cbn [successes]. eapply IHk; eauto.
    + destruct Q as (-> & <- & H2 & N1). cbn [successes].
      assert (E3 : (if verbose then match runs s2 with [] => (s2, Some IndexError) | _ => (s2, None) end else (s2, None)) = (s2, None)).
      { destruct verbose; auto. destruct (runs s2); [congruence|auto]. }
      rewrite E3 in E. destruct (IHk (S i) s0 s2 s' _ e H2 E) as (A & B). split; auto.
      rewrite <- app_assoc in B. exact B.
Qed.
Lemma passes_strict : forall X start rnd run verbose k i (s0 s s' : rst X) r e, inv s0 s r ->
  passes true None start rnd run verbose false k i s = (s', e) ->
  e = option_map RunError (first_failure (outcomes start rnd run k i (params s))) /\
  inv s0 s' (r ++ successes (until_failure (outcomes start rnd run k i (params s)))).
Proof.
  induction k; intros i s0 s s' r e H E; cbn [passes outcomes successes first_failure until_failure] in *.
  - injection E as <- <-. rewrite app_nil_r. auto.
  - unfold pass in E.
    set (s1 := if Nat.eqb i 0 then s else mkR (rnd i (params s)) (runs s) (obj s) (nobj s) (done s)) in *.
    assert (H1 : inv s0 s1 r) by (unfold s1; destruct (Nat.eqb i 0); auto).
    assert (P1 : params s1 = if Nat.eqb i 0 then params s else rnd i (params s)) by (unfold s1; destruct (Nat.eqb i 0); auto).
    clearbody s1. destruct (optimize true None start (run i) s1) as [s2 e2] eqn:E2.
    pose proof (inv_optimize X start (run i) s0 s1 s2 r e2 H1 E2) as Q. rewrite P1 in Q.
    destruct (run i _) as [n y|f y].
    + destruct Q as (-> & <- & H2). injection E as <- <-. cbn. rewrite app_nil_r. auto.
    + destruct Q as (-> & <- & H2 & N1). cbn [successes].
      assert (E3 : (if verbose then match runs s2 with [] => (s2, Some IndexError) | _ => (s2, None) end else (s2, None)) = (s2, None)).
      { destruct verbose; auto. destruct (runs s2); [congruence|auto]. }
      rewrite E3 in E. destruct (IHk (S i) s0 s2 s' _ e H2 E) as (A & B). split; auto.
      rewrite <- app_assoc in B. exact B.
Qed.

(** The smallest value. *)
Lemma argmin_num_spec : forall l b z i, Forall number l ->
  let k := argmin_num (b, z) i l in
  (k = b /\ forall g, In g l -> exists y, g = FNum y /\ (z <= y)%Z) \/
  (exists l1 y l2, l = l1 ++ FNum y :: l2 /\ k = i + List.length l1 /\ (y < z)%Z /\
    (forall g, In g l1 -> exists w, g = FNum w /\ (y < w)%Z) /\ (forall g, In g l2 -> exists w, g = FNum w /\ (y <= w)%Z)).
Proof.
  induction l as [|f l IH]; intros b z i F; cbn [argmin_num].
  - left. split; auto. intros g [].
  - inversion F as [|a c [w ->] Fl]; subst. cbn [snd]. destruct (Z.ltb_spec w z) as [Hw|Hw].
    + right. destruct (IH i w (S i) Fl) as [(K & M)|(l1 & y & l2 & -> & K & Hy & M1 & M2)].
      * exists [], w, l. cbn [app List.length]. rewrite K. split; auto. split; [lia|]. split; auto. split; [intros g []|auto].
      * exists (FNum w :: l1), y, l2. cbn [app List.length]. rewrite K. split; auto. split; [lia|]. split; [lia|].
        split; auto. intros g [<-|Hg]; eauto.
    + destruct (IH b z (S i) Fl) as [(K & M)|(l1 & y & l2 & -> & K & Hy & M1 & M2)].
      * left. split; auto. intros g [<-|Hg]; eauto.
      * right. exists (FNum w :: l1), y, l2. cbn [app List.length]. rewrite K. split; auto. split; [lia|]. split; [lia|].
        split; auto. intros g [<-|Hg]; eauto. exists w. split; auto. lia.
Qed.
Lemma argmin_spec : forall l, l <> [] -> Forall number l -> exists i l1 y l2, argmin l = Some i /\
  l = l1 ++ FNum y :: l2 /\ i = List.length l1 /\
  (forall g, In g l1 -> exists w, g = FNum w /\ (y < w)%Z) /\ (forall g, In g l2 -> exists w, g = FNum w /\ (y <= w)%Z).
Proof.
  intros l N1 F. unfold argmin.
  assert (E : existsb is_none l = false).
  { clear N1. induction F as [|f l [z ->] F IH]; auto. }
  rewrite E. destruct l as [|f l]; [congruence|]. inversion F as [|a c [z ->] Fl]; subst.
  destruct (argmin_num_spec l 0 z 1 Fl) as [(K & M)|(l1 & y & l2 & -> & K & Hy & M1 & M2)].
  - exists 0, [], z, l. rewrite K. repeat split; auto. intros g [].
  - exists (S (List.length l1)), (FNum z :: l1), y, l2. rewrite K. repeat split; auto.
    intros g [<-|Hg]; eauto.
Qed.

Lemma map_objs : forall X (s : rst X) os r, List.length os = List.length r ->
  (forall i, match nth_error os i, nth_error r i with
            | Some o, Some (f, x) => obj s o = Some (mkO f x)
            | None, None => True
            | _, _ => False
            end) ->
  map (fun o => match obj s o with Some b => f_opt b | None => FNone end) os = map fst r.
Proof.
  intros X s. induction os as [|o os IH]; intros [|[f x] r] L H; try discriminate; auto.
  cbn [map]. pose proof (H 0) as H0. cbn [nth_error] in H0. rewrite H0. cbn [f_opt fst]. f_equal. apply IH; [cbn in L; lia|].
  intros i. apply (H (S i)).
Qed.
(** The end of [restarts], after the loop. *)
Lemma ending : forall X (s s1 s' : rst X) r e, inv s s1 r -> Forall (fun x => number (fst x)) r ->
  (let new := skipn (List.length (runs s)) (runs s1) in
      match new with
      | [] => (mkR (params s) (runs s1) (obj s1) (nobj s1) (done s1), None)
      | _ =>
          match argmin (map (fun o => match obj s1 o with Some b => f_opt b | None => FNone end) new) with
          | None => (s1, Some TypeError)
          | Some i =>
              match obj s1 (nth i new 0) with
              | Some b => (mkR (x_opt b) (runs s1) (obj s1) (nobj s1) (done s1), None)
              | None => (s1, Some TypeError)
              end
          end
      end) = (s', e) ->
  e = None /\ done s' = done s ++ r /\ (r = [] -> params s' = params s) /\ (r <> [] -> best r (params s')).
Proof.
  intros X s s1 s' r e (D & N1 & os & R & L & B & O) F E. cbv zeta in E.
  assert (K : skipn (List.length (runs s)) (runs s1) = os).
  { rewrite R, skipn_app, skipn_all, Nat.sub_diag. reflexivity. }
  rewrite K in E. destruct os as [|o os].
  - injection E as <- <-. cbn in L. destruct r; [|discriminate]. rewrite app_nil_r. split; auto.
    split; [cbn; rewrite D, app_nil_r; auto|]. split; auto. congruence.
  - remember (o :: os) as oo eqn:Eo. rewrite (map_objs X s1 oo r L O) in E.
    assert (Nr : map fst r <> []). { destruct r; [subst; discriminate|discriminate]. }
    assert (Fr : Forall number (map fst r)). { apply Forall_map. exact F. }
    destruct (argmin_spec (map fst r) Nr Fr) as (i & l1 & y & l2 & A & Sp & Li & M1 & M2).
    rewrite A in E.
    apply map_eq_app in Sp as (r1 & r2' & -> & E1 & E2). apply map_eq_cons in E2 as ([f x] & r2 & -> & E3 & E4).
    cbn [fst] in E3. subst f l1 l2. rewrite map_length in Li. subst i.
    specialize (O (List.length r1)). rewrite (nth_error_app2 r1) in O by auto. rewrite Nat.sub_diag in O. cbn [nth_error] in O.
    destruct (nth_error oo (List.length r1)) as [o'|] eqn:En; [|contradiction].
    apply nth_error_nth with (d := 0) in En. rewrite En, O in E. 
    assert (E' : (mkR (x_opt (mkO (FNum y) x)) (runs s1) (obj s1) (nobj s1) (done s1), @None rexn) = (s', e)).
    { destruct oo; [discriminate|]. exact E. }
    injection E' as <- <-. split; auto. split; auto. split; [intro H; destruct r1; discriminate|]. intros _. cbn [params x_opt].
    exists r1, (FNum y), r2. split; auto. split.
    + intros g z Hg. destruct (M1 g) as (w & -> & Hw); [apply (in_map fst) in Hg; auto|]. exists y, w. auto.
    + intros g z Hg. destruct (M2 g) as (w & -> & Hw); [apply (in_map fst) in Hg; auto|]. exists y, w. auto.
Qed.
Lemma restarts_robust : forall X start rnd run verbose n (s s' : rst X) e,
  let r := successes (outcomes start rnd run n 0 (params s)) in
  Forall (fun x => number (fst x)) r ->
  restarts true None start rnd run verbose true n s = (s', e) ->
  e = None /\ done s' = done s ++ r /\ (r = [] -> params s' = params s) /\ (r <> [] -> best r (params s')).
Proof.
  intros X start rnd run verbose n s s' e r F E. unfold restarts in E.
  destruct (passes true None start rnd run verbose true n 0 s) as [s1 e1] eqn:E1.
  destruct (passes_robust X start rnd run verbose n 0 s s s1 [] e1 (inv_start X s) E1) as (-> & H). cbn [app] in H.
  eapply ending; eauto.
Qed.
Lemma restarts_strict : forall X start rnd run verbose n (s s' : rst X) e,
  let l := outcomes start rnd run n 0 (params s) in
  Forall (fun x => number (fst x)) (successes l) ->
  restarts true None start rnd run verbose false n s = (s', e) ->
  match first_failure l with
  | Some x => e = Some (RunError x) /\ done s' = done s ++ successes (until_failure l)
  | None => e = None /\ done s' = done s ++ successes l /\ (successes l = [] -> params s' = params s) /\ (successes l <> [] -> best (successes l) (params s'))
  end.
Proof.
  intros X start rnd run verbose n s s' e l F E. unfold restarts in E.
  destruct (passes true None start rnd run verbose false n 0 s) as [s1 e1] eqn:E1.
  destruct (passes_strict X start rnd run verbose n 0 s s s1 [] e1 (inv_start X s) E1) as (A & H). cbn [app] in H.
  fold l in A, H. destruct (first_failure l) as [x|] eqn:Ef; cbn [option_map] in A; subst e1.
  - injection E as <- <-. split; auto. destruct H as (D & _). auto.
  - assert (U : until_failure l = l).
    { clear -Ef. induction l as [|[n1 y|f y] l IH]; cbn in *; auto; [discriminate|]. rewrite IH; auto. }
    rewrite U in H. eapply ending; eauto.
Qed.
(** With nothing to optimize. *)
Lemma passes_nothing : forall X shared start rnd run robust k i (s : rst X),
  exists x, passes false shared start rnd run false robust k i s = (mkR x (runs s) (obj s) (nobj s) (done s), None).
Proof.
  induction k; intros i s; cbn [passes].
  - exists (params s). destruct s; reflexivity.
  - unfold pass, optimize. cbn [negb].
    destruct (Nat.eqb i 0).
    + destruct (IHk (S i) s) as (x & ->). eauto.
    + destruct (IHk (S i) (mkR (rnd i (params s)) (runs s) (obj s) (nobj s) (done s))) as (x & ->). cbn. eauto.
Qed.
Lemma restarts_nothing : forall X shared start rnd run robust n (s s' : rst X) e,
  restarts false shared start rnd run false robust n s = (s', e) -> s' = s /\ e = None.
Proof.
  intros X shared start rnd run robust n s s' e E. unfold restarts in E.
  destruct (passes_nothing X shared start rnd run robust n 0 s) as (x & Ex). rewrite Ex in E. cbn [runs] in E.
  rewrite skipn_all in E. injection E as <- <-. destruct s; auto.
Qed.
