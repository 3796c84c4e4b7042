(** Proofs about names. *)
From Coq Require Import List NArith Bool String Ascii Arith Lia DecimalN.
From Verif Require Import NamesModel NamesSpec.
Import ListNotations.
Open Scope list_scope.

(** ** The conversion *)

Lemma replace1_app : forall c b u v, replace1 c b (u ++ v) = replace1 c b u ++ replace1 c b v.
Proof. intros. unfold replace1. apply flat_map_app. Qed.

Definition pre (s : str) : str :=
  replace1 "!" "_I_" (replace1 "+" "_p_" (replace1 "-" "_m_" (replace1 "." "_" (replace1 " " "_" s)))).
Definition post (s : str) : str :=
  replace1 ")" "" (replace1 "(" "_of_" (replace1 "@" "_at_" (replace1 "/" "_l_" (replace1 "*" "_x_" s)))).
Lemma pre_app : forall u v, pre (u ++ v) = pre u ++ pre v.
Proof. intros. unfold pre. rewrite !replace1_app. reflexivity. Qed.
Lemma post_app : forall u v, post (u ++ v) = post u ++ post v.
Proof. intros. unfold post. rewrite !replace1_app. reflexivity. Qed.
Lemma adjust_is : forall s, adjust s =
  let r := post (replace2 (lit "_xx_") (pre s)) in if re_name r then Some r else None.
Proof. reflexivity. Qed.

Lemma replace1_other : forall c b a, a <> N_of_ascii c -> replace1 c b [a] = [a].
Proof. intros. unfold replace1. cbn [flat_map]. apply N.eqb_neq in H. rewrite H. reflexivity. Qed.

Definition special (a : N) : Prop := In a (lit " .-+!*/@()").
Lemma special_dec : forall a, {special a} + {~ special a}.
Proof. intros. apply (in_dec N.eq_dec). Qed.
Lemma code_other : forall a, ~ special a -> code a = [a].
Proof.
  intros a H. unfold code, special in *. cbn in H.
  destruct a as [|p]; [reflexivity|].
  do 7 (try (destruct p as [p|p|]; try reflexivity; try (exfalso; apply H; tauto))).
Qed.
Lemma pre_other : forall a, ~ special a -> pre [a] = [a].
Proof.
  intros a H. unfold special in H. cbn in H. unfold pre.
  rewrite !replace1_other; auto; cbn; intro E; subst; apply H; tauto.
Qed.
Lemma post_other : forall a, ~ special a -> post [a] = [a].
Proof.
  intros a H. unfold special in H. cbn in H. unfold post.
  rewrite !replace1_other; auto; cbn; intro E; subst; apply H; tauto.
Qed.
Lemma pre_one : forall a, a <> 42%N -> ~ In 42%N (pre [a]).
Proof.
  intros a H. destruct (special_dec a) as [S1|S1].
  - unfold special in S1. cbn in S1.
    repeat (destruct S1 as [<-|S1]; [cbn; intuition discriminate|]). contradiction.
  - rewrite pre_other; auto. cbn. tauto.
Qed.
Lemma code_is : forall a, a <> 42%N -> post (pre [a]) = code a.
Proof.
  intros a H. destruct (special_dec a) as [S1|S1].
  - unfold special in S1. cbn in S1.
    repeat (destruct S1 as [<-|S1]; [reflexivity|]). contradiction.
  - rewrite pre_other, post_other, code_other; auto.
Qed.
Lemma pre_nil : forall a, pre [a] <> [].
Proof.
  intros a. destruct (special_dec a) as [S1|S1].
  - unfold special in S1. cbn in S1.
    repeat (destruct S1 as [<-|S1]; [discriminate|]). contradiction.
  - rewrite pre_other; auto. discriminate.
Qed.
Lemma replace2_cons : forall x a r, replace2 x (a :: r) =
  match r with b :: r' => if N.eqb a 42 && N.eqb b 42 then x ++ replace2 x r' else a :: replace2 x r
             | [] => [a] end.
Proof. intros. destruct r; reflexivity. Qed.
Lemma replace2_no : forall x u v, ~ In 42%N u -> replace2 x (u ++ v) = u ++ replace2 x v.
Proof.
  induction u as [|a u]; intros v H; auto. cbn [app]. rewrite replace2_cons.
  rewrite IHu by (intro; apply H; right; auto).
  assert (E : N.eqb a 42 = false) by (apply N.eqb_neq; intro; apply H; left; auto).
  rewrite E. cbn [andb]. destruct (u ++ v) eqn:E2; auto.
  apply app_eq_nil in E2. destruct E2; subst. reflexivity.
Qed.
Lemma pre_cons : forall a r, pre (a :: r) = pre [a] ++ pre r.
Proof. intros. apply (pre_app [a] r). Qed.
Lemma translate_cons : forall a r, translate (a :: r) =
  match r with b :: r' => if N.eqb a 42 && N.eqb b 42 then lit "_xx_" ++ translate r' else code a ++ translate r
             | [] => code a ++ [] end.
Proof.
  intros. destruct (N.eqb_spec a 42) as [->|Ha].
  - destruct r as [|b r]; [reflexivity|]. destruct (N.eqb_spec b 42) as [->|Hb]; [reflexivity|].
    cbn [andb]. cbn [translate].
    destruct b as [|p]; [reflexivity|].
    do 6 (try (destruct p as [p|p|]; try reflexivity; try (exfalso; apply Hb; reflexivity))).
  - cbn [andb]. cbn [translate].
    destruct r as [|b r].
    all: destruct a as [|p]; [reflexivity|].
    all: do 6 (try (destruct p as [p|p|]; try reflexivity; try (exfalso; apply Ha; reflexivity))).
Qed.
Lemma translate_close : forall r, translate (41%N :: r) = translate r.
Proof. intros. rewrite translate_cons. destruct r; reflexivity. Qed.
Lemma translate_plain : forall a r, N.eqb a 42 = false -> translate (a :: r) = code a ++ translate r.
Proof. intros a r H. rewrite translate_cons, H. destruct r; reflexivity. Qed.
Lemma translate_is : forall n s, List.length s <= n -> post (replace2 (lit "_xx_") (pre s)) = translate s.
Proof.
  induction n; intros s H.
  - destruct s; [reflexivity|cbn in H; lia].
  - destruct s as [|a r]; [reflexivity|]. rewrite translate_cons. cbn in H.
    destruct (N.eqb_spec a 42) as [->|Ha]; cbn [andb].
    + destruct r as [|b r']; [reflexivity|]. cbn in H. destruct (N.eqb_spec b 42) as [->|Hb].
      * rewrite (pre_cons 42 (42%N :: r')), (pre_cons 42 r').
        change (pre [42%N]) with [42%N]. cbn [app]. rewrite replace2_cons. cbn [N.eqb Pos.eqb andb].
        rewrite post_app. rewrite IHn by lia. reflexivity.
      * rewrite (pre_cons 42). change (pre [42%N]) with [42%N]. cbn [app]. rewrite replace2_cons.
        rewrite <- (IHn (b :: r')) by (cbn; lia).
        rewrite (pre_cons b r'). pose proof (pre_one b Hb) as P1. pose proof (pre_nil b) as P2.
        destruct (pre [b]) as [|c u] eqn:E; [congruence|]. cbn [app].
        assert (E1 : N.eqb c 42 = false) by (apply N.eqb_neq; intro; apply P1; left; auto).
        rewrite E1. rewrite andb_false_r.
        change (42%N :: replace2 (lit "_xx_") (c :: u ++ pre r')) with ([42%N] ++ replace2 (lit "_xx_") (c :: u ++ pre r')).
        rewrite post_app. reflexivity.
    + rewrite pre_cons, replace2_no by (apply pre_one; auto). rewrite post_app, code_is by auto.
      rewrite IHn by lia. destruct r; reflexivity.
Qed.
Lemma adjust_translate : forall s, adjust s = if re_name (translate s) then Some (translate s) else None.
Proof. intros. rewrite adjust_is. cbv zeta. rewrite (translate_is (List.length s)) by lia. reflexivity. Qed.

Lemma in_range_iff : forall lo hi a, in_range lo hi a = true <-> (lo <= a <= hi)%N.
Proof. intros. unfold in_range. rewrite andb_true_iff, !N.leb_le. tauto. Qed.
Lemma re_first_iff : forall a, re_first a = true <-> letter a \/ a = 95%N.
Proof. intros. unfold re_first, letter. rewrite !orb_true_iff, !in_range_iff, N.eqb_eq. tauto. Qed.
Lemma re_rest_iff : forall a, re_rest a = true <-> letter a \/ digit a \/ a = 95%N \/ a = 45%N.
Proof. intros. unfold re_rest, digit. rewrite !orb_true_iff, re_first_iff, !in_range_iff, N.eqb_eq. tauto. Qed.
Definition word (a : N) : Prop := letter a \/ digit a \/ a = 95%N.
Lemma word_rest : forall a, word a -> re_rest a = true.
Proof. intros a H. apply re_rest_iff. unfold word in H. tauto. Qed.
Lemma word_lit : forall l, forallb (fun a => in_range 97 122 a || in_range 65 90 a || N.eqb a 95) l = true -> Forall word l.
Proof.
  intros l H. rewrite forallb_forall in H. apply Forall_forall. intros a Ha. apply H in Ha.
  rewrite !orb_true_iff, !in_range_iff, N.eqb_eq in Ha. unfold word, letter. tauto.
Qed.

(** No character of the result is a minus. *)
Lemma code_minus : forall a b, In b (code a) -> b <> 45%N.
Proof.
  intros a b H. destruct (special_dec a) as [S1|S1].
  - unfold special in S1. cbn in S1.
    repeat (destruct S1 as [<-|S1]; [cbn in H; intuition (subst; discriminate)|]). contradiction.
  - rewrite code_other in H; auto. destruct H as [<-|[]]. intro; subst. apply S1. cbn. tauto.
Qed.
Lemma translate_minus : forall n s b, List.length s <= n -> In b (translate s) -> b <> 45%N.
Proof.
  induction n; intros s b H I1.
  - destruct s; [contradiction|cbn in H; lia].
  - destruct s as [|a r]; [contradiction|]. rewrite translate_cons in I1. cbn in H. destruct r as [|c r].
    + rewrite app_nil_r in I1. eapply code_minus; eauto.
    + destruct (N.eqb a 42 && N.eqb c 42).
      * apply in_app_or in I1 as [I1|I1].
        -- cbn in I1. intuition (subst; discriminate).
        -- eapply IHn; [|eauto]. cbn in H. lia.
      * apply in_app_or in I1 as [I1|I1]; [eapply code_minus; eauto|].
        eapply IHn; [|eauto]. lia.
Qed.

Lemma re_tail_cons : forall a r, re_tail (a :: r) = match r with [] => re_rest a || N.eqb a 10 | _ => re_rest a && re_tail r end.
Proof. intros; destruct r; reflexivity. Qed.
Lemma re_tail_iff : forall s, re_tail s = true <-> exists b, (s = b \/ s = b ++ [10%N]) /\ Forall (fun a => re_rest a = true) b.
Proof.
  induction s as [|a r IH].
  - split; auto. intros _. exists []. auto.
  - rewrite re_tail_cons. destruct r as [|b r].
    + rewrite orb_true_iff, N.eqb_eq. split.
      * intros [H|H]; [exists [a]; auto|exists []; subst; auto].
      * intros (b & [<-|E] & F).
        -- inversion F; auto.
        -- destruct b as [|c b]; cbn in E; inversion E; auto. destruct b; discriminate.
    + rewrite andb_true_iff, IH. split.
      * intros (H & c & [->|E] & F); [exists (a :: c); auto|].
        exists (a :: c). cbn [app]. rewrite E. auto.
      * intros (c & [<-|E] & F).
        -- inversion F; subst. split; auto. exists (b :: r). auto.
        -- destruct c as [|d c]; cbn in E; [discriminate|]. injection E as -> E.
           inversion F; subst. split; auto. exists c. auto.
Qed.

Lemma adjust_shape : forall s r, adjust s = Some r -> exists b, ident b /\ (r = b \/ r = b ++ [10%N]).
Proof.
  intros s r H. rewrite adjust_translate in H.
  pose proof (fun b => translate_minus (List.length s) s b (le_n _)) as M.
  destruct (re_name (translate s)) eqn:E; [|discriminate]. injection H as <-.
  destruct (translate s) as [|a t]; [discriminate|]. cbn [re_name] in E.
  apply andb_true_iff in E as [E1 E2]. apply re_first_iff in E1. apply re_tail_iff in E2.
  destruct E2 as (b & E2 & F). exists (a :: b). split.
  - exists a, b. split; [auto|]. split; [auto|]. apply Forall_forall. intros c Hc.
    rewrite Forall_forall in F. pose proof (F c Hc) as Fc. apply re_rest_iff in Fc.
    assert (c <> 45%N); [|tauto]. apply M. right. destruct E2 as [->| ->]; auto. apply in_or_app; auto.
  - destruct E2 as [->| ->]; [left|right]; reflexivity.
Qed.

Lemma word_special : forall a, word a -> ~ special a.
Proof.
  intros a H1 H2. unfold word, letter, digit, special in *. cbn in H2.
  repeat (destruct H2 as [<-|H2]; [lia|]). contradiction.
Qed.
Lemma translate_other : forall s, Forall (fun a => ~ special a) s -> translate s = s.
Proof.
  induction s as [|a s IH]; intros F; [reflexivity|]. inversion F; subst.
  rewrite translate_cons, code_other by auto.
  assert (N.eqb a 42 = false). { apply N.eqb_neq. intro; subst. apply H1. cbn. tauto. }
  rewrite H. cbn [andb]. destruct s; [reflexivity|]. rewrite IH by auto. reflexivity.
Qed.
Lemma ident_word : forall b, ident b -> Forall word b.
Proof.
  intros b (c & r & -> & H & F). constructor.
  - unfold word. tauto.
  - eapply Forall_impl; [|exact F]. intros; unfold word; tauto.
Qed.
Lemma ident_re : forall b, ident b -> re_name b = true /\ re_name (b ++ [10%N]) = true.
Proof.
  intros b (c & r & -> & H & F). cbn [app re_name]. apply re_first_iff in H. rewrite H. cbn [andb].
  assert (F' : Forall (fun a => re_rest a = true) r).
  { eapply Forall_impl; [|exact F]. intros a Ha. apply word_rest. unfold word. tauto. }
  split; apply re_tail_iff; exists r; auto.
Qed.
Lemma adjust_ident : forall s, ident s -> adjust s = Some s /\ adjust (s ++ [10%N]) = Some (s ++ [10%N]).
Proof.
  intros s H. pose proof (ident_word s H) as F.
  assert (F' : Forall (fun a => ~ special a) s) by (eapply Forall_impl; [|exact F]; apply word_special).
  destruct (ident_re s H) as [R1 R2]. split; rewrite adjust_translate, translate_other; auto.
  - rewrite R1. reflexivity.
  - rewrite R2. reflexivity.
  - apply Forall_app. split; auto. constructor; auto. cbn. intuition discriminate.
Qed.
Lemma adjust_idem : forall s r, adjust s = Some r -> adjust r = Some r.
Proof.
  intros s r H. apply adjust_shape in H as (b & Hb & [->| ->]); apply adjust_ident in Hb; tauto.
Qed.

(** Which names can be converted. *)
Definition letters (s : str) : str := filter (fun a => negb (N.eqb a 41)) s.
Lemma allowed_code : forall a, allowed a -> a <> 41%N -> Forall word (code a) /\ code a <> [].
Proof.
  intros a H N1. destruct (special_dec a) as [S1|S1].
  - unfold special in S1. cbn in S1.
    repeat (destruct S1 as [<-|S1]; [first [exfalso; apply N1; reflexivity | split; [apply word_lit; vm_compute; reflexivity|vm_compute; discriminate]]|]).
    contradiction.
  - rewrite code_other by auto. split; [|discriminate]. constructor; auto.
    unfold allowed in H. unfold word. destruct H as [H|[H|H]]; auto. cbn in H.
    destruct H as [<-|H]; auto. exfalso. apply S1. cbn. tauto.
Qed.
Lemma not_allowed : forall a, ~ allowed a -> a <> 41%N -> code a = [a] /\ re_rest a = false /\ re_first a = false.
Proof.
  intros a H N1. destruct (special_dec a) as [S1|S1].
  - exfalso. apply H. right. right. cbn in S1. cbn.
    repeat (destruct S1 as [S1|S1]; [first [congruence | tauto]|]). contradiction.
  - rewrite code_other by auto. split; auto. split.
    + destruct (re_rest a) eqn:E; auto. apply re_rest_iff in E. exfalso. apply H.
      unfold allowed. cbn. intuition.
    + destruct (re_first a) eqn:E; auto. apply re_first_iff in E. exfalso. apply H.
      unfold allowed. cbn. intuition.
Qed.
Lemma re_tail_app : forall u v, Forall word u -> re_tail (u ++ v) = re_tail v.
Proof.
  induction u as [|a u IH]; intros v F; [reflexivity|]. inversion F; subst. cbn [app].
  rewrite re_tail_cons. rewrite (word_rest a) by auto. rewrite <- (IH v) by auto.
  destruct (u ++ v); reflexivity.
Qed.
Lemma translate_nil : forall n s, List.length s <= n -> (translate s = [] <-> letters s = []).
Proof.
  induction n; intros s H.
  - destruct s; [tauto|cbn in H; lia].
  - destruct s as [|a r]; [tauto|]. cbn in H. rewrite translate_cons. unfold letters in *. cbn [filter].
    destruct (N.eqb_spec a 41) as [->|N1]; cbn [negb].
    + rewrite <- IHn by lia. destruct r; [tauto|]. reflexivity.
    + split; [|discriminate]. intros E. exfalso.
      assert (Nc : code a <> []).
      { destruct (special_dec a) as [S1|S1].
        - unfold special in S1. cbn in S1. repeat (destruct S1 as [<-|S1]; [try congruence; discriminate|]). contradiction.
        - rewrite code_other; auto. discriminate. }
      destruct r as [|b r].
      * apply app_eq_nil in E. tauto.
      * destruct (N.eqb a 42 && N.eqb b 42); apply app_eq_nil in E; destruct E; [discriminate|tauto].
Qed.
Lemma allowed_dec : forall a, {allowed a} + {~ allowed a}.
Proof.
  intros a. unfold allowed, letter, digit.
  destruct (in_range 97 122 a) eqn:E1; [left; left; left; apply in_range_iff; auto|].
  destruct (in_range 65 90 a) eqn:E2; [left; left; right; apply in_range_iff; auto|].
  destruct (in_range 48 57 a) eqn:E3; [left; right; left; apply in_range_iff; auto|].
  destruct (in_dec N.eq_dec a (lit "_ .-+!*/@(")) as [E4|E4]; [left; auto|].
  right. intros [[H|H]|[H|H]]; try (apply in_range_iff in H; congruence); auto.
Qed.
Definition tail_ok (s : str) : Prop := exists b, (letters s = b \/ letters s = b ++ [10%N]) /\ Forall allowed b.
Lemma tail_ok_cons : forall a s, allowed a -> a <> 41%N -> (tail_ok (a :: s) <-> tail_ok s).
Proof.
  intros a s A N1. unfold tail_ok, letters. cbn [filter]. apply N.eqb_neq in N1. rewrite N1. cbn [negb]. split.
  - intros (b & [E|E] & F).
    + subst. inversion F; subst. eexists; eauto.
    + destruct b as [|c b]; cbn in E.
      * injection E as -> _. exfalso. unfold allowed, letter, digit in A. cbn in A. intuition (try lia; try discriminate).
      * injection E as -> E. inversion F; subst. exists b. auto.
  - intros (b & [E|E] & F); exists (a :: b); cbn; rewrite E; auto.
Qed.
Lemma tail_translate : forall n s, List.length s <= n -> (re_tail (translate s) = true <-> tail_ok s).
Proof.
  induction n; intros s H.
  - destruct s; [|cbn in H; lia]. split; auto. intros _. exists []. auto.
  - destruct s as [|a r].
    { split; auto. intros _. exists []. auto. }
    cbn in H. destruct (N.eq_dec a 41) as [->|N1].
    { rewrite translate_close, IHn by lia. unfold tail_ok. cbn [letters filter]. reflexivity. }
    destruct (allowed_dec a) as [A|A].
    + rewrite tail_ok_cons by auto. rewrite translate_cons. destruct r as [|b r].
      * rewrite re_tail_app by (apply allowed_code; auto). split; auto. intros _. exists []. auto.
      * destruct (N.eqb_spec a 42) as [->|Ha]; cbn [andb].
        -- destruct (N.eqb_spec b 42) as [->|Hb].
           ++ rewrite re_tail_app by (apply word_lit; reflexivity). rewrite tail_ok_cons by (try exact A; discriminate).
              apply IHn. cbn in H. lia.
           ++ rewrite re_tail_app by (apply allowed_code; auto). apply IHn. lia.
        -- rewrite re_tail_app by (apply allowed_code; auto). apply IHn. lia.
    + destruct (not_allowed a A N1) as (Ec & Er & Ef).
      assert (E42 : N.eqb a 42 = false).
      { apply N.eqb_neq. intro; subst. apply A. right. right. cbn. tauto. }
      rewrite (translate_plain a r E42), Ec. cbn [app].
      rewrite re_tail_cons, Er. cbn [orb andb]. unfold tail_ok.
      pose proof (translate_nil (List.length r) r (le_n _)) as TN.
      assert (El : letters (a :: r) = a :: letters r).
      { unfold letters. cbn [filter]. apply N.eqb_neq in N1. rewrite N1. reflexivity. }
      rewrite El. split.
      * destruct (translate r) eqn:Et; [|discriminate]. rewrite N.eqb_eq. intros ->.
        exists []. rewrite (proj1 TN eq_refl). auto.
      * intros (b & [Eb|Eb] & F).
        -- subst. inversion F; subst. contradiction.
        -- destruct b as [|c b]; cbn in Eb.
           ++ injection Eb as -> Eb. rewrite (proj2 TN Eb). reflexivity.
           ++ injection Eb as -> Eb. inversion F; subst. contradiction.
Qed.
Lemma letters_cons : forall a s, a <> 41%N -> letters (a :: s) = a :: letters s.
Proof. intros a s H. unfold letters. cbn [filter]. apply N.eqb_neq in H. rewrite H. reflexivity. Qed.
Lemma ten_not : ~ allowed 10%N.
Proof. unfold allowed, letter, digit. cbn. intuition (try lia; try discriminate). Qed.
Lemma convertible_cons : forall a s, a <> 41%N -> (convertible (a :: s) <-> allowed a /\ ~ digit a /\ tail_ok s).
Proof.
  intros a s N1. unfold convertible. cbv zeta. fold (letters (a :: s)). rewrite letters_cons by auto. split.
  - intros (c & b & E & F & D). inversion F; subst. destruct E as [E|E]; injection E as -> E; (split; [auto|]; split; [auto|]);
      exists b; auto.
  - intros (A & D & b & [E|E] & F); exists a, b; rewrite E; auto.
Qed.
Lemma first_code : forall a, allowed a -> a <> 41%N -> ~ digit a -> exists c u, code a = c :: u /\ re_first c = true.
Proof.
  intros a A N1 D. destruct (special_dec a) as [S1|S1].
  - unfold special in S1. cbn in S1.
    repeat (destruct S1 as [<-|S1]; [first [congruence | eexists; eexists; split; [vm_compute; reflexivity|vm_compute; reflexivity]]|]). contradiction.
  - rewrite code_other by auto. exists a, []. split; auto. apply re_first_iff. unfold allowed in A.
    destruct A as [A|[A|A]]; [auto|contradiction|]. cbn in A. destruct A as [<-|A]; [auto|].
    exfalso. apply S1. cbn. tauto.
Qed.
Lemma re_name_app : forall u v, Forall word u -> u <> [] -> re_name (u ++ v) = match u with a :: _ => re_first a | [] => false end && re_tail v.
Proof.
  intros u v F N1. destruct u as [|a u]; [congruence|]. cbn [app re_name]. inversion F; subst.
  rewrite re_tail_app by auto. reflexivity.
Qed.
Lemma digit_first : forall a, digit a -> code a = [a] /\ re_first a = false.
Proof.
  intros a D. split.
  - apply code_other. apply word_special. right. left. auto.
  - destruct (re_first a) eqn:E; auto. apply re_first_iff in E. unfold digit, letter in *. lia.
Qed.
Lemma digit_dec : forall a, {digit a} + {~ digit a}.
Proof.
  intros a. destruct (in_range 48 57 a) eqn:E; [left; apply in_range_iff; auto|right].
  intro H. apply in_range_iff in H. congruence.
Qed.
Lemma re_name_translate : forall n s, List.length s <= n -> (re_name (translate s) = true <-> convertible s).
Proof.
  induction n; intros s H.
  - destruct s; [|cbn in H; lia]. split; [discriminate|]. intros (c & b & [E|E] & _); discriminate.
  - destruct s as [|a r].
    { split; [discriminate|]. intros (c & b & [E|E] & _); discriminate. }
    cbn in H. destruct (N.eq_dec a 41) as [->|N1].
    { rewrite translate_close, IHn by lia. unfold convertible. cbn [filter N.eqb Pos.eqb negb]. reflexivity. }
    rewrite convertible_cons by auto.
    destruct (allowed_dec a) as [A|A]; [destruct (digit_dec a) as [D|D]|].
    + split; [|tauto]. intros E. exfalso. destruct (digit_first a D) as [Ec Ef].
      rewrite translate_cons in E. rewrite Ec in E.
      assert (E42 : N.eqb a 42 = false). { apply N.eqb_neq. intro; subst. unfold digit in D. lia. }
      rewrite E42 in E. cbn [andb] in E. destruct r; cbn [app re_name] in E; rewrite Ef in E; discriminate.
    + destruct (first_code a A N1 D) as (c & u & Ec & Ef). destruct (allowed_code a A N1) as [Fw _].
      assert (T : re_name (translate (a :: r)) = re_tail (translate r) \/
                  (a = 42%N /\ exists r', r = 42%N :: r' /\ re_name (translate (a :: r)) = re_tail (translate r'))).
      { rewrite translate_cons. destruct r as [|b r].
        - left. rewrite Ec in *. cbn [app re_name]. rewrite app_nil_r, Ef. cbn [andb translate re_tail].
          inversion Fw; subst. rewrite <- (app_nil_r u). rewrite re_tail_app by auto. reflexivity.
        - destruct (N.eqb_spec a 42) as [->|Ha]; cbn [andb].
          + destruct (N.eqb_spec b 42) as [->|Hb].
            * right. split; auto. exists r. split; auto. rewrite re_name_app; [reflexivity|apply word_lit; reflexivity|discriminate].
            * left. rewrite re_name_app; [|exact Fw|rewrite Ec; discriminate]. rewrite Ec, Ef. reflexivity.
          + left. rewrite re_name_app; [|exact Fw|rewrite Ec; discriminate]. rewrite Ec, Ef. reflexivity. }
      destruct T as [T|(-> & r' & -> & T)].
      * rewrite T, (tail_translate (List.length r)) by lia. tauto.
      * rewrite T, (tail_translate (List.length r')) by lia. rewrite (tail_ok_cons 42 r') by (try exact A; discriminate). tauto.
    + split; [|tauto]. intros E. exfalso. destruct (not_allowed a A N1) as (Ec & _ & Ef).
      rewrite translate_cons in E. rewrite Ec in E.
      assert (E42 : N.eqb a 42 = false). { apply N.eqb_neq. intro; subst. apply A. right. right. cbn. tauto. }
      rewrite E42 in E. cbn [andb] in E. destruct r; cbn [app re_name] in E; rewrite Ef in E; discriminate.
Qed.
Lemma adjust_none : forall s, adjust s = None <-> ~ convertible s.
Proof.
  intros s. rewrite adjust_translate, <- (re_name_translate (List.length s)) by lia.
  destruct (re_name (translate s)); split; intros; try discriminate; try congruence; exfalso; auto.
Qed.
