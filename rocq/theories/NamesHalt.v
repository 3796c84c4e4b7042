(** The renaming of children comes to an end. *)
From Coq Require Import List NArith Bool String Ascii Arith Lia DecimalN.
From Verif Require Import NamesModel NamesSpec NamesProofs NamesUnique.
Import ListNotations.
Open Scope list_scope.

(** ** A name never comes back *)
Lemma chop_last : forall u a, chop (u ++ [a]) = if N.eqb a 10 then u else u ++ [a].
Proof.
  induction u as [|b u IH]; intros a; cbn [app].
  - cbn. destruct (N.eqb a 10); reflexivity.
  - assert (E : chop (b :: u ++ [a]) = b :: chop (u ++ [a])) by (destruct u; reflexivity).
    rewrite E, IH. destruct (N.eqb a 10); reflexivity.
Qed.
Definition digits (d : str) : Prop := d <> [] /\ forallb is_digit d = true.
Lemma chop_digits : forall u d, digits d -> chop (u ++ d) = u ++ d.
Proof.
  intros u d [N1 F]. destruct (exists_last N1) as (d' & a & ->). rewrite app_assoc, chop_last.
  rewrite forallb_app in F. apply andb_true_iff in F as [_ F]. cbn in F. rewrite andb_true_r in F.
  destruct (N.eqb_spec a 10); auto. subst. discriminate.
Qed.
Lemma digits_none : forall d, forallb is_digit d = true -> split_digits d = None.
Proof.
  induction d as [|a d IH]; intros F; [reflexivity|]. cbn [forallb] in F. apply andb_true_iff in F as [F1 F2].
  cbn [split_digits]. rewrite IH by auto. destruct (N.eqb_spec a 95); [subst; discriminate|]. reflexivity.
Qed.
Lemma split_is : forall b d, digits d -> split_digits (b ++ lit "_" ++ d) = Some (b, d).
Proof.
  induction b as [|a b IH]; intros d D.
  - change ([] ++ lit "_" ++ d) with (95%N :: d). destruct D as [N1 F]. cbn [split_digits].
    rewrite digits_none by auto. rewrite F. destruct d; [congruence|]. reflexivity.
  - cbn [app split_digits]. rewrite IH by auto. reflexivity.
Qed.
Definition newline (s : str) : bool := negb (forallb (fun a => negb (N.eqb a 10)) s).
Lemma name_digit_is : forall b d, digits d -> name_digit (b ++ lit "_" ++ d) = if newline b then None else Some (b, d).
Proof.
  intros b d D. unfold name_digit. rewrite app_assoc, chop_digits by auto. rewrite <- app_assoc, split_is by auto.
  unfold newline. destruct (forallb _ b); reflexivity.
Qed.
Lemma name_digit_newline : forall s b d, name_digit s = Some (b, d) -> newline b = false.
Proof.
  intros s b d H. unfold name_digit in H. destruct (split_digits (chop s)) as [[b' d']|]; [|discriminate].
  destruct (forallb _ b') eqn:E; [|discriminate]. injection H as <- <-. unfold newline. rewrite E. reflexivity.
Qed.
Lemma uint_of_of : forall u, uint_of (of_uint u) = u.
Proof. induction u; cbn; congruence. Qed.
Lemma of_uint_digits : forall u, forallb is_digit (of_uint u) = true.
Proof. induction u; cbn; auto. Qed.
Lemma py_int_str : forall n, py_int (py_str n) = n.
Proof. intros. unfold py_int, py_str. rewrite uint_of_of. apply DecimalN.Unsigned.of_to. Qed.
Lemma py_str_digits : forall n, digits (py_str n).
Proof.
  intros n. split; [|apply of_uint_digits]. intro E. unfold py_str in E.
  destruct (N.to_uint n) eqn:E2; try discriminate. 
  destruct n; cbn in E2; [discriminate|]. pose proof (DecimalPos.Unsigned.to_uint_nonnil p). auto.
Qed.

Definition rank (s : str) : N :=
  match name_digit s with
  | Some (_, d) => 1 + py_int d
  | None => if newline s then N.of_nat (List.length s) else 0
  end.
Lemma rank_next : forall s, (rank s < rank (next_name s))%N.
Proof.
  intros s. unfold next_name, rank at 1. destruct (name_digit s) as [[b d]|] eqn:E.
  - unfold rank. rewrite name_digit_is by apply py_str_digits. rewrite (name_digit_newline _ _ _ E), py_int_str. lia.
  - unfold rank. change (lit "_1") with (lit "_" ++ [49%N]).
    rewrite name_digit_is by (split; [discriminate|reflexivity]).
    destruct (newline s) eqn:E1; [|reflexivity].
    assert (E2 : newline (s ++ lit "_" ++ [49%N]) = true).
    { unfold newline in *. rewrite forallb_app. apply negb_true_iff in E1. rewrite E1. reflexivity. }
    rewrite E2, app_length. cbn [List.length app lit list_ascii_of_string map]. lia.
Qed.

(** ** How often a name can be taken over *)
Definition mem (x : str) (l : list str) : bool := existsb (streq x) l.
Lemma mem_in : forall x l, mem x l = true <-> In x l.
Proof.
  intros. unfold mem. rewrite existsb_exists. split.
  - intros (y & I1 & E). apply streq_iff in E. subst. auto.
  - intros I1. exists x. split; auto. apply streq_refl.
Qed.
Fixpoint run (k : nat) (x : str) (l : list str) : nat :=
  match k with
  | O => 0
  | S k' => if mem x l then S (run k' (next_name x) l) else 0
  end.
Lemma run_le : forall k x l, run k x l <= k.
Proof. induction k; intros x l; cbn; auto. destruct (mem x l); [specialize (IHk (next_name x) l)|]; lia. Qed.
(** The names of a run that stays inside. *)
Fixpoint path (k : nat) (x : str) : list str := match k with O => [] | S k' => x :: path k' (next_name x) end.
Lemma path_rank : forall k x y, In y (path k x) -> (rank x <= rank y)%N.
Proof.
  induction k; intros x y H; [contradiction|]. destruct H as [<-|H]; [lia|].
  apply IHk in H. pose proof (rank_next x). lia.
Qed.
Lemma path_nodup : forall k x, NoDup (path k x).
Proof.
  induction k; intros x; [constructor|]. cbn. constructor; auto. intro H. apply path_rank in H. pose proof (rank_next x). lia.
Qed.
Lemma path_length : forall k x, List.length (path k x) = k.
Proof. induction k; intros; cbn; auto. Qed.
Lemma run_path : forall k x l, run k x l = k -> incl (path k x) l.
Proof.
  induction k; intros x l H; [intros y []|]. cbn in H. destruct (mem x l) eqn:E; [|discriminate].
  injection H as H. intros y [<-|Hy]; [apply mem_in; auto|]. eapply IHk; eauto.
Qed.
Lemma run_short : forall k x l, run k x l < k -> forall j, k <= j -> run j x l = run k x l.
Proof.
  induction k; intros x l H j Hj; [lia|]. destruct j; [lia|]. cbn in *. destruct (mem x l); auto.
  f_equal. apply IHk; lia.
Qed.
Lemma run_next : forall n x l, List.length l = n -> In x l -> S (run n (next_name x) l) <= run n x l.
Proof.
  intros n x l L I1. destruct n.
  - destruct l; [contradiction|discriminate].
  - apply mem_in in I1 as M.
    assert (E : run (S n) x l = S (run n (next_name x) l)) by (cbn [run]; rewrite M; reflexivity).
    rewrite E. apply le_n_S.
    assert (H : run n (next_name x) l < n \/ run n (next_name x) l = n) by (pose proof (run_le n (next_name x) l); lia).
    destruct H as [H|H].
    + rewrite (run_short n (next_name x) l H (S n)) by lia. lia.
    + assert (H2 : run (S n) (next_name x) l = S n \/ run (S n) (next_name x) l <= n) by (pose proof (run_le (S n) (next_name x) l); lia).
      destruct H2 as [H2|H2]; [|lia]. exfalso.
      apply run_path in H2. assert (H3 : incl (path (S (S n)) x) l).
      { intros y [<-|Hy]; auto. }
      pose proof (NoDup_incl_length (path_nodup _ _) H3) as H4. rewrite path_length in H4. lia.
Qed.

(** The measure. *)
Definition occ (l : list str) : nat := List.length (nodup (list_eq_dec N.eq_dec) l).
Fixpoint total (g : str -> nat) (l : list str) : nat := match l with [] => 0 | x :: r => g x + total g r end.
Definition weight (l : list str) : nat :=
  let n := List.length l in (n - occ l) * (n * n + 1) + total (fun x => run n x l) l.
Lemma total_le : forall g n l, (forall x, g x <= n) -> total g l <= List.length l * n.
Proof. intros g n l H. induction l as [|x l IH]; cbn; [lia|]. specialize (H x). lia. Qed.
Lemma total_ext : forall g h l, (forall x, g x = h x) -> total g l = total h l.
Proof. intros g h l H. induction l; cbn; congruence. Qed.
Lemma occ_le : forall l, occ l <= List.length l.
Proof.
  intros l. apply NoDup_incl_length; [apply NoDup_nodup|]. intros x Hx. apply nodup_In in Hx. auto.
Qed.
Lemma occ_incl : forall l l', incl l l' -> occ l <= occ l'.
Proof.
  intros l l' H. apply NoDup_incl_length; [apply NoDup_nodup|]. intros x Hx. apply nodup_In. apply nodup_In in Hx. auto.
Qed.
Lemma occ_more : forall l l' y, incl l l' -> In y l' -> ~ In y l -> S (occ l) <= occ l'.
Proof.
  intros l l' y H I1 N1. unfold occ. change (S (List.length (nodup (list_eq_dec N.eq_dec) l))) with (List.length (y :: nodup (list_eq_dec N.eq_dec) l)).
  apply NoDup_incl_length.
  - constructor; [|apply NoDup_nodup]. rewrite nodup_In. auto.
  - intros x [<-|Hx]; apply nodup_In; auto. apply nodup_In in Hx. auto.
Qed.
Lemma run_same : forall k x l l', (forall y, In y l <-> In y l') -> run k x l = run k x l'.
Proof.
  induction k; intros x l l' H; auto. cbn. assert (E : mem x l = mem x l').
  { apply eq_true_iff_eq. rewrite !mem_in. apply H. }
  rewrite E. destruct (mem x l'); auto.
Qed.
(** Replacing one of two equal names by its successor. *)
Lemma weight_step : forall l1 x l2, In x (l1 ++ l2) ->
  weight (l1 ++ next_name x :: l2) < weight (l1 ++ x :: l2).
Proof.
  intros l1 x l2 I1. set (l := l1 ++ x :: l2). set (l' := l1 ++ next_name x :: l2).
  assert (L : List.length l' = List.length l) by (unfold l, l'; rewrite !app_length; reflexivity).
  assert (Inc : incl l l').
  { intros y Hy. unfold l in Hy. apply in_app_or in Hy as [Hy|[<-|Hy]]; unfold l'.
    - apply in_or_app; auto.
    - apply in_app_or in I1 as [I1|I1]; apply in_or_app; auto. right; right; auto.
    - apply in_or_app; right; right; auto. }
  assert (In1 : In (next_name x) l') by (unfold l'; apply in_or_app; right; left; auto).
  unfold weight. rewrite L. set (n := List.length l) in *.
  pose proof (occ_le l') as O1. rewrite L in O1.
  destruct (in_dec (list_eq_dec N.eq_dec) (next_name x) l) as [I2|I2].
  - assert (Eq : forall y, In y l' <-> In y l).
    { intros y. split; [|apply Inc]. intros Hy. unfold l' in Hy. apply in_app_or in Hy as [Hy|[<-|Hy]]; auto; unfold l; apply in_or_app; auto. right; right; auto. }
    assert (EO : occ l' = occ l). { apply Nat.le_antisymm; apply occ_incl; intros y Hy; apply Eq; auto. }
    rewrite EO. apply Nat.add_lt_mono_l.
    rewrite (total_ext (fun y => run n y l') (fun y => run n y l)) by (intros; apply run_same; auto).
    assert (Ix : In x l) by (unfold l; apply in_or_app; right; left; auto).
    pose proof (run_next n x l eq_refl Ix) as R.
    assert (T : forall g a b, total g (a ++ b) = total g a + total g b).
    { intros g a b. induction a; cbn; lia. }
    assert (E1 : total (fun y => run n y l) l' = total (fun y => run n y l) l1 + (run n (next_name x) l + total (fun y => run n y l) l2)).
    { unfold l'. rewrite T. reflexivity. }
    assert (E2 : total (fun y => run n y l) (l1 ++ x :: l2) = total (fun y => run n y l) l1 + (run n x l + total (fun y => run n y l) l2)).
    { rewrite T. reflexivity. }
    change (l1 ++ x :: l2) with l in E2. rewrite E1, E2. lia.
  - pose proof (occ_more l l' (next_name x) Inc In1 I2) as O2.
    pose proof (total_le (fun y => run n y l') n l' (fun y => run_le n y l')) as T. rewrite L in T. fold n in T.
    assert (O3 : n - occ l' + 1 <= n - occ l) by (fold n in O1; lia).
    nia.
Qed.

Definition effort (s : nst) : nat := weight (map (nm s) (kids s)).
Lemma effort_step : forall s o p n, NoDup (kids s) -> In o (kids s) -> In p (kids s) -> o <> p -> nm s o = nm s p ->
  effort (drop_attr (set_nm s o (next_name (nm s o))) n) < effort s.
Proof.
  intros s o p n N1 Ho Hp Nop E. unfold effort. cbn [kids drop_attr set_attrs set_nm nm].
  apply in_split in Ho as (k1 & k2 & K). rewrite K in *. apply NoDup_remove in N1 as [_ N2].
  rewrite !map_app. cbn [map]. rewrite Nat.eqb_refl.
  assert (M : forall l, ~ In o l -> map (fun q => if Nat.eqb q o then next_name (nm s o) else nm s q) l = map (nm s) l).
  { intros l H. apply map_ext_in. intros a Ha. destruct (Nat.eqb_spec a o); auto. subst. contradiction. }
  rewrite !M by (intro; apply N2; apply in_or_app; auto).
  apply weight_step. rewrite <- map_app, E. apply in_map. apply in_app_or in Hp as [Hp|[Hp|Hp]]; apply in_or_app; auto. contradiction.
Qed.

(** With that much room there is no recursion error. *)
Definition fine (r : outcome) : Prop := snd r <> Some RecursionError.
Lemma add_alone_fine : forall f p s, alone s p -> fine (add_name (S f) p s).
Proof.
  intros f p s H. cbn [add_name]. destruct (adjust (nm s p)); [|discriminate]. rewrite (alone_find_none s p H).
  destruct (_ || _); discriminate.
Qed.
Lemma each_settled_fine : forall f l s, settled s -> incl l (kids s) -> fine (each (add_name (S f)) l s).
Proof.
  intros f. induction l as [|p l IHl]; intros s S1 Hl; [discriminate|]. rewrite each_cons.
  assert (Ip : In p (kids s)) by (apply Hl; left; auto).
  destruct S1 as [D C]. pose proof (add_alone_fine f p s (proj1 (distinct_alone s) D p Ip)) as F1.
  destruct (add_name (S f) p s) as [s1 e] eqn:E. destruct (settled_add (S f) p s s1 e (conj D C) Ip E) as [M S2].
  destruct e as [e|]; auto. apply IHl; auto. destruct M as (K & _). intros q Hq. rewrite K. apply Hl; right; auto.
Qed.
Lemma each_fine : forall f l s (IH : forall p s, NoDup (kids s) -> In p (kids s) -> effort s <= f -> fine (add_name (S f) p s)),
  NoDup (kids s) -> incl l (kids s) -> effort s <= f -> fine (each (add_name (S f)) l s).
Proof.
  intros f. induction l as [|p l IHl]; intros s IH N1 Hl Ef; [discriminate|]. rewrite each_cons.
  assert (Ip : In p (kids s)) by (apply Hl; left; auto).
  pose proof (IH p s N1 Ip Ef) as F1. destruct (add_name (S f) p s) as [s1 [e|]] eqn:E; auto.
  destruct (add_spec (S f) p s s1 Ip E) as [(K & R) H].
  assert (Hl1 : incl l (kids s1)) by (intros q Hq; rewrite K; apply Hl; right; auto).
  destruct H as [(M & _)|S1].
  - apply IHl; auto; [rewrite K; auto|]. destruct M as (K' & Nm & _). unfold effort in *. rewrite K', Nm. auto.
  - apply each_settled_fine; auto.
Qed.
Lemma add_fine : forall f p s, NoDup (kids s) -> In p (kids s) -> effort s <= f -> fine (add_name (S f) p s).
Proof.
  induction f; intros p s N1 Ip Ef; remember (S _) as g eqn:Eg; cbn [add_name]; subst g; cbn [add_name].
  - destruct (adjust (nm s p)) as [n|]; [|discriminate].
    destruct (find (fun o => negb (Nat.eqb o p) && streq (nm s o) (nm s p)) (kids s)) as [o|] eqn:F.
    + exfalso. apply find_some_two in F as (Ho & Nop & En). pose proof (effort_step s o p [] N1 Ho Ip Nop En). lia.
    + destruct (_ || _); discriminate.
  - change (fine (add_name (S (S f)) p s)). remember (S f) as g eqn:Eg. cbn [add_name].
    destruct (adjust (nm s p)) as [n|]; [|discriminate].
    destruct (find (fun o => negb (Nat.eqb o p) && streq (nm s o) (nm s p)) (kids s)) as [o|] eqn:F.
    + apply find_some_two in F as (Ho & Nop & En). pose proof (effort_step s o p n N1 Ho Ip Nop En) as St.
      set (s1 := drop_attr (set_nm s o (next_name (nm s o))) n) in *.
      assert (F2 : fine (each (add_name g) (kids s1) s1)).
      { subst g. apply each_fine; auto using incl_refl. lia. }
      destruct (each (add_name g) (kids s1) s1) as [s2 [e|]] eqn:E2; auto.
      destruct (connect_settled g s1 s2 E2) as [(K2 & _) [D2 C2]]. change (kids s1) with (kids s) in K2.
      assert (Ho2 : In o (kids s2)) by (rewrite K2; auto).
      assert (F3 : fine (add_name g o s2)) by (subst g; apply add_alone_fine; apply distinct_alone; auto).
      destruct (add_name g o s2) as [s3 e3] eqn:E3. destruct (settled_add g o s2 s3 e3 (conj D2 C2) Ho2 E3) as [M3 S3].
      destruct e3 as [e|]; auto. destruct (S3 eq_refl) as [D3 C3]. subst g. apply add_alone_fine.
      apply distinct_alone; auto. destruct M3 as (K3 & _). rewrite K3. auto.
    + destruct (_ || _); discriminate.
Qed.
Lemma connect_fine : forall f s, NoDup (kids s) -> effort s < f -> fine (connect f s).
Proof.
  intros f s N1 H. destruct f; [lia|]. unfold connect. apply each_fine; auto using incl_refl; [|lia].
  intros p t. apply add_fine.
Qed.
Lemma weight_bound : forall l, weight l <= List.length l * (List.length l * List.length l + 1) + List.length l * List.length l.
Proof.
  intros l. unfold weight. set (n := List.length l).
  pose proof (total_le (fun x => run n x l) n l (fun x => run_le n x l)) as H. fold n in H.
  assert (H2 : (n - occ l) * (n * n + 1) <= n * (n * n + 1)) by (apply Nat.mul_le_mono_r; lia). lia.
Qed.

(** ** For every call *)
Lemma filter_len : forall (g : nat -> bool) l, List.length (filter g l) <= List.length l.
Proof. intros g. induction l; cbn; auto. destruct (g a); cbn; lia. Qed.
Lemma unlink_kids : forall f p s s1, unlink f p s = (s1, None) ->
  ~ In p (kids s1) /\ List.length (kids s1) <= List.length (kids s).
Proof.
  intros f p s s1 E. unfold unlink in E. destruct (negb (existsb (Nat.eqb p) (kids s))); [discriminate|].
  destruct (adjust (nm s p)) as [old|]; [|discriminate].
  apply connect_settled in E as [(K & _) _]. cbn in K. rewrite K. split.
  - rewrite filter_In. intros [_ E]. rewrite Nat.eqb_refl in E. discriminate.
  - apply filter_len.
Qed.
Definition room (n : nat) : nat := n * (n * n + 1) + n * n.
Lemma effort_room : forall s, effort s <= room (List.length (kids s)).
Proof. intros s. unfold effort. pose proof (weight_bound (map (nm s) (kids s))) as H. rewrite map_length in H. exact H. Qed.
Lemma room_mono : forall a b, a <= b -> room a <= room b.
Proof.
  intros a b H. unfold room. assert (H2 : a * a <= b * b) by (apply Nat.mul_le_mono; auto).
  apply Nat.add_le_mono; auto. apply Nat.mul_le_mono; lia.
Qed.
Lemma nrun_fine : forall f o s, NoDup (kids s) -> room (S (List.length (kids s))) < f -> fine (nrun f o s).
Proof.
  assert (C : forall f s, NoDup (kids s) -> room (List.length (kids s)) < f -> fine (connect f s)).
  { intros f s N1 H. apply connect_fine; auto. pose proof (effort_room s). lia. }
  assert (U : forall f p s, NoDup (kids s) -> room (S (List.length (kids s))) < f -> fine (unlink f p s)).
  { intros f p s N1 H. unfold unlink. destruct (negb _); [discriminate|]. destruct (adjust (nm s p)); [|discriminate].
    apply C; [apply filter_nodup; auto|]. cbn [kids drop_attr set_attrs set_kids].
    assert (L : List.length (filter (fun q => negb (Nat.eqb q p)) (kids s)) <= List.length (kids s)).
    { apply filter_len. }
    pose proof (room_mono _ (S (List.length (kids s))) (Nat.le_le_succ_r _ _ L)). lia. }
  assert (I1 : forall f top p k s, NoDup (kids s) -> ~ In p (kids s) -> room (S (List.length (kids s))) < f -> fine (insert f top p k s)).
  { intros f top p k s N1 N2 H. unfold insert. destruct top; [|discriminate]. apply C; [apply insert_nodup; auto|].
    cbn [kids set_kids]. replace (List.length (firstn k (kids s) ++ p :: skipn k (kids s))) with (S (List.length (kids s))); auto.
    rewrite app_length. cbn [List.length]. rewrite firstn_length, skipn_length. lia. }
  intros f [top p k|p|p n] s N1 H; cbn [nrun].
  - unfold link. destruct (existsb (Nat.eqb p) (kids s)) eqn:E.
    + destruct k as [k|]; [|discriminate]. pose proof (U f p s N1 H) as F1. pose proof (nrun_nodup f (NUnlink p) s N1) as N2.
      cbn [nrun] in N2. pose proof (fun s1 => unlink_kids f p s s1) as K. destruct (unlink f p s) as [s1 [e|]]; auto. cbn [fst] in N2.
      specialize (K s1 eq_refl). destruct K as (K1 & K2). apply I1; auto.
      pose proof (room_mono (S (List.length (kids s1))) (S (List.length (kids s))) (le_n_S _ _ K2)). lia.
    + apply I1; auto. intro I2. apply existsb_in in I2. congruence.
  - apply U; auto.
  - destruct (existsb (Nat.eqb p) (kids s)) eqn:E; [|discriminate]. apply existsb_in in E. unfold rename.
    destruct (adjust (nm s p)) as [old|]; [|discriminate].
    assert (F1 : fine (connect f (drop_attr (set_nm s p n) old))).
    { apply C; auto. change (kids (drop_attr (set_nm s p n) old)) with (kids s). pose proof (room_mono (List.length (kids s)) (S (List.length (kids s))) (Nat.le_succ_diag_r _)). lia. }
    destruct (connect f (drop_attr (set_nm s p n) old)) as [s2 [e|]] eqn:E2; auto.
    destruct (connect_settled f _ s2 E2) as [(K2 & _) [D2 _]]. cbn in K2.
    destruct f; [lia|]. apply add_alone_fine. apply distinct_alone; auto. rewrite K2. auto.
Qed.
