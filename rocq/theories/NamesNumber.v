(** The name of a child that is linked at the end (C127). *)
From Coq Require Import List NArith Bool String Ascii Arith Lia DecimalN DecimalFacts.
From Verif Require Import NamesModel NamesSpec NamesProofs NamesUnique NamesHalt NamesFinal.
Import ListNotations.
Open Scope list_scope.

(** ** The next name *)
Lemma is_digit_iff : forall a, is_digit a = true <-> digit a.
Proof. intros a. apply in_range_iff. Qed.
Lemma digits_numeral : forall d, digits d <-> numeral d.
Proof.
  intros d. unfold digits, numeral. rewrite Forall_forall, forallb_forall. split; intros [H1 H2]; split; auto; intros a Ha; apply is_digit_iff; auto.
Qed.
Lemma acc_fold : forall d p, forallb is_digit d = true ->
  Npos (Pos.of_uint_acc (uint_of d) p) = fold_left (fun a c => 10 * a + (c - 48))%N d (Npos p).
Proof.
  induction d as [|a d IH]; intros p H; [reflexivity|]. cbn [forallb] in H. apply andb_true_iff in H as [Ha Hd].
  apply is_digit_iff in Ha. unfold digit in Ha. cbn [fold_left uint_of].
  assert (C : (a = 48 \/ a = 49 \/ a = 50 \/ a = 51 \/ a = 52 \/ a = 53 \/ a = 54 \/ a = 55 \/ a = 56 \/ a = 57)%N) by lia.
  destruct C as [C|[C|[C|[C|[C|[C|[C|[C|[C|C]]]]]]]]]; subst a;
  cbn [N.sub Pos.sub_mask Pos.succ_double_mask Pos.double_mask Pos.double_pred_mask Pos.sub_mask_carry Pos.pred_double Pos.pred_mask Pos.of_uint_acc]; rewrite IH by auto; f_equal; lia.
Qed.
Lemma int_value : forall d, forallb is_digit d = true -> py_int d = numval d.
Proof.
  unfold py_int, numval, N.of_uint. induction d as [|a d IH]; intros H; [reflexivity|]. cbn [forallb] in H. apply andb_true_iff in H as [Ha Hd].
  apply is_digit_iff in Ha. unfold digit in Ha. cbn [fold_left uint_of].
  assert (C : (a = 48 \/ a = 49 \/ a = 50 \/ a = 51 \/ a = 52 \/ a = 53 \/ a = 54 \/ a = 55 \/ a = 56 \/ a = 57)%N) by lia.
  destruct C as [C|[C|[C|[C|[C|[C|[C|[C|[C|C]]]]]]]]]; subst a;
  cbn [N.sub Pos.sub_mask Pos.succ_double_mask Pos.double_mask Pos.double_pred_mask Pos.sub_mask_carry Pos.pred_double Pos.pred_mask Pos.of_uint];
  try (rewrite acc_fold by auto; reflexivity). rewrite IH by auto. reflexivity.
Qed.
Lemma str_plain : forall n, plain (py_str n).
Proof.
  intros n. split; [apply digits_numeral, py_str_digits|]. intros r E. unfold py_str in E.
  assert (U : N.to_uint n = Decimal.unorm (N.to_uint n)) by (rewrite <- DecimalN.Unsigned.to_of, DecimalN.Unsigned.of_to; auto).
  destruct (N.to_uint n) as [|u|u|u|u|u|u|u|u|u|u] eqn:D; cbn in E; try discriminate. injection E as <-.
  unfold Decimal.unorm in U. cbn [Decimal.nzhead] in U. destruct (Decimal.nzhead u) as [|v|v|v|v|v|v|v|v|v|v] eqn:Z; try discriminate.
  - injection U as ->. reflexivity.
  - exfalso. clear -Z. induction u; cbn in Z; try discriminate. auto.
Qed.
Lemma split_shape : forall s b d, split_digits s = Some (b, d) -> s = b ++ lit "_" ++ d /\ digits d.
Proof.
  induction s as [|a s IH]; intros b d H; cbn [split_digits] in H; [discriminate|].
  destruct (split_digits s) as [[b' d']|] eqn:E.
  - injection H as <- <-. destruct (IH b' d' eq_refl) as [-> D]. auto.
  - destruct (N.eqb_spec a 95); [|discriminate]. destruct (forallb is_digit s) eqn:F; [|discriminate].
    destruct s as [|c s]; [discriminate|]. cbn [andb] in H. injection H as <- <-. subst a. split; [reflexivity|]. split; [discriminate | exact F].
Qed.
Lemma chop_shape : forall s, s = chop s \/ s = chop s ++ [10%N].
Proof.
  intros s. destruct s as [|a s] using rev_ind; [left; reflexivity|]. rewrite chop_last. destruct (N.eqb_spec a 10); [subst; auto | auto].
Qed.
Lemma newline_in : forall b, forallb (fun a => negb (N.eqb a 10)) b = true <-> ~ In 10%N b.
Proof.
  intros b. rewrite forallb_forall. split; intros H.
  - intros I1. apply H in I1. discriminate.
  - intros a Ha. apply negb_true_iff, N.eqb_neq. intros ->. contradiction.
Qed.
Lemma name_counted : forall n b d, name_digit n = Some (b, d) <-> counted n b d.
Proof.
  intros n b d. split.
  - intros H. unfold name_digit in H. destruct (split_digits (chop n)) as [[b' d']|] eqn:E; [|discriminate].
    destruct (forallb _ b') eqn:F; [|discriminate]. injection H as <- <-. destruct (split_shape _ _ _ E) as [C D].
    split; [apply digits_numeral; auto|]. split; [apply newline_in; auto|].
    destruct (chop_shape n) as [Hn|Hn]; [left; congruence | right]. rewrite Hn, C, <- !app_assoc. reflexivity.
  - intros (D & B & H). apply digits_numeral in D. unfold name_digit.
    assert (C : chop n = b ++ lit "_" ++ d).
    { destruct H as [->| ->].
      - rewrite app_assoc, chop_digits by auto. rewrite <- app_assoc. auto.
      - replace (b ++ lit "_" ++ d ++ [10%N]) with ((b ++ lit "_" ++ d) ++ [10%N]) by (rewrite <- !app_assoc; auto). rewrite chop_last. reflexivity. }
    rewrite C, split_is by auto. apply newline_in in B. rewrite B. reflexivity.
Qed.
Lemma next_successor : forall n, successor n (next_name n).
Proof.
  intros n. unfold next_name. destruct (name_digit n) as [[b d]|] eqn:E.
  - apply name_counted in E. left. exists b, d, (py_str (py_int d + 1)). split; auto. split; [apply str_plain|]. split; auto.
    rewrite <- (int_value (py_str _)) by apply py_str_digits. rewrite py_int_str, int_value; auto. apply digits_numeral. apply E.
  - right. split; auto. intros b d C. apply name_counted in C. congruence.
Qed.

(** ** The child linked last *)
Inductive climbs (used : str -> Prop) : str -> str -> Prop :=
| climbs_refl : forall n, climbs used n n
| climbs_step : forall n k, used n -> climbs used (next_name n) k -> climbs used n k.
Lemma climbs_trans : forall used a b c, climbs used a b -> climbs used b c -> climbs used a c.
Proof. intros used a b c H. induction H; intros K; auto. apply climbs_step; auto. Qed.
Lemma climbs_free : forall used a b, climbs used a b -> ~ used b -> first_free used a b.
Proof. intros used a b H Hb. induction H; [apply free_here; auto|]. eapply free_later; eauto. apply next_successor. Qed.
Definition among (s : nst) (pre : list nat) (n : str) : Prop := exists c, In c pre /\ nm s c = n.
Lemma climbs_keep : forall pre s s' a b, keeps pre s s' -> climbs (among s' pre) a b -> climbs (among s pre) a b.
Proof.
  intros pre s s' a b K H. induction H as [|n k (c & Hc & En)]; [constructor|]. apply climbs_step; auto. exists c. split; auto. rewrite <- (K c Hc). auto.
Qed.
Definition stands (pre : list nat) (p : nat) (s : nst) : Prop := kids s = pre ++ [p] /\ ~ In p pre /\ distinct_among s pre.
Lemma keeps_distinct : forall pre s s', keeps pre s s' -> distinct_among s pre -> distinct_among s' pre.
Proof. intros pre s s' K D a b Ha Hb N1. rewrite (K a Ha), (K b Hb). auto. Qed.
Section Last.
Variables (pre : list nat) (p : nat) (f : nat).
Hypothesis IH : forall s s', stands pre p s -> connect f s = (s', None) -> climbs (among s pre) (nm s p) (nm s' p).
Lemma add_climbs : forall c s s', stands pre p s -> In c pre -> add_name (S f) c s = (s', None) ->
  keeps pre s s' /\ climbs (among s pre) (nm s p) (nm s' p).
Proof.
  intros c s s' (K & Np & D) Hc E.
  assert (Ic : In c (kids s)) by (rewrite K; apply in_or_app; auto).
  assert (Kp : keeps pre s s').
  { pose proof (add_keeps f c s pre [p] (connect_keeps f) K D Ic (or_introl Hc)) as H. rewrite E in H. exact H. }
  split; auto. cbn [add_name] in E. destruct (adjust (nm s c)) as [n|] eqn:A; [|discriminate].
  destruct (find (fun o => negb (Nat.eqb o c) && streq (nm s o) (nm s c)) (kids s)) as [o|] eqn:F.
  - apply find_some_two in F as (Ho & N1 & En).
    assert (o = p). { rewrite K in Ho. apply in_app_or in Ho as [Ho|[Ho|[]]]; auto. exfalso. apply (D o c Ho Hc N1 En). } subst o.
    set (s1 := drop_attr (set_nm s p (next_name (nm s p))) n) in *.
    destruct (each (add_name f) (kids s1) s1) as [s2 [e|]] eqn:E2; [discriminate|].
    assert (K1 : keeps pre s s1). { intros q Hq. cbn. destruct (Nat.eqb_spec q p); auto. subst. contradiction. }
    assert (S1 : stands pre p s1) by (split; [exact K|]; split; [auto | apply (keeps_distinct pre s s1); auto]).
    pose proof (IH s1 s2 S1 E2) as C. destruct (connect_settled f s1 s2 E2) as [(G1 & _) T2]. change (kids s1) with (kids s) in G1.
    destruct (add_name f p s2) as [s3 [e|]] eqn:E3; [discriminate|].
    destruct (settled_add f p s2 s3 None T2 ltac:(rewrite G1; auto) E3) as [(K3 & N3 & _) T3].
    destruct (settled_add f p s3 s' None (T3 eq_refl) ltac:(rewrite K3, G1; auto) E) as [(_ & N4 & _) _].
    rewrite N4, N3. apply climbs_step; [exists c; split; auto|].
    apply (climbs_keep pre s s1) in C; auto. cbn in C. rewrite Nat.eqb_refl in C. exact C.
  - destruct (_ || _); injection E as <-; constructor.
Qed.
Lemma each_climbs : forall l s s', stands pre p s -> incl l pre -> each (add_name (S f)) l s = (s', None) ->
  keeps pre s s' /\ climbs (among s pre) (nm s p) (nm s' p).
Proof.
  induction l as [|c l IHl]; intros s s' S1 Hl E.
  - rewrite each_nil in E. injection E as <-. split; [intros q _; auto | constructor].
  - rewrite each_cons in E. destruct (add_name (S f) c s) as [s1 [e|]] eqn:E1; [discriminate|].
    destruct (add_climbs c s s1 S1 (Hl c (or_introl eq_refl)) E1) as [K1 C1]. pose proof (add_good (S f) c s) as G. rewrite E1 in G. destruct G as [G _]. cbn [fst] in G.
    assert (S2 : stands pre p s1). { destruct S1 as (A & B & D). split; [congruence|]. split; auto. apply (keeps_distinct pre s); auto. }
    destruct (IHl s1 s' S2 ltac:(intros q Hq; apply Hl; right; auto) E) as [K2 C2].
    split; [eapply keeps_trans; eauto|]. eapply climbs_trans; [exact C1|]. apply (climbs_keep pre s s1); auto.
Qed.
End Last.
Lemma connect_climbs : forall f pre p s s', stands pre p s -> connect f s = (s', None) -> climbs (among s pre) (nm s p) (nm s' p).
Proof.
  induction f as [|f IH]; intros pre p s s' S1 E.
  - unfold connect in E. destruct S1 as (K & _). rewrite K in E. destruct pre as [|c pre]; cbn [app] in E; rewrite each_cons in E; discriminate.
  - unfold connect in E. pose proof S1 as (K & Np & D). rewrite K, each_app in E.
    destruct (each (add_name (S f)) pre s) as [s1 [e|]] eqn:E1; [discriminate|].
    destruct (each_climbs pre p f (IH pre p) pre s s1 S1 (incl_refl _) E1) as [K1 C1].
    assert (Ip : incl pre (kids s)) by (intros q Hq; rewrite K; apply in_or_app; auto).
    destruct (each_add (S f) pre s s1 (add_spec (S f)) Ip E1) as [(G1 & _) H].
    assert (A : alone s1 p).
    { destruct H as [(M & H)|[D1 _]].
      - destruct M as (_ & Nm & _). intros q Hq N1 En. rewrite G1, K in Hq. apply in_app_or in Hq as [Hq|[Hq|[]]]; [|congruence].
        destruct (H q Hq) as [Aq _]. rewrite Nm in En. apply (Aq p); auto. rewrite K. apply in_or_app. right. left. auto.
      - apply distinct_alone; auto. rewrite G1, K. apply in_or_app. right. left. auto. }
    rewrite each_cons in E. destruct (add_alone (S f) p s1 A) as [(e & E3)|(s3 & E3 & (_ & N3 & _) & _)]; rewrite E3 in E; [discriminate|].
    rewrite each_nil in E. injection E as <-. rewrite N3. exact C1.
Qed.
Lemma new_name_final : forall f p s s', distinct s -> ~ In p (kids s) -> nrun f (NLink true p None) s = (s', None) ->
  first_free (fun n => exists c, In c (kids s) /\ nm s c = n) (nm s p) (nm s' p).
Proof.
  intros f p s s' D Np E. pose proof (names_differ f (NLink true p None) s s' eq_refl E) as D'.
  pose proof (fun q => others_keep f p s q D Np) as Ok.
  cbn [nrun] in E. unfold link in *. destruct (existsb (Nat.eqb p) (kids s)) eqn:X; [apply existsb_in in X; contradiction|].
  unfold insert in *. rewrite firstn_all, skipn_all in *. set (s1 := set_kids s (kids s ++ [p])) in *.
  rewrite E in Ok. cbn [fst] in Ok. apply climbs_free.
  - apply (connect_climbs f (kids s) p s1 s'); auto. split; [reflexivity|]. split; auto.
  - intros (c & Hc & En). pose proof (connect_good f s1) as (G & _). rewrite E in G. cbn [fst] in G.
    apply (D' c p).
    + rewrite G. apply in_or_app. auto.
    + rewrite G. apply in_or_app. right. left. auto.
    + intros ->. contradiction.
    + rewrite (Ok c Hc). auto.
Qed.
