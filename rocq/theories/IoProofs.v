(** Index operations beside the constraints: dictionaries, offsets and the loops. *)
From Coq Require Import List Bool Arith Lia.
From Verif Require Import IoModel IoSpec.
Import ListNotations.

Lemma entry_get : forall A k (l : list (nat * A)), entry k l = get k l.
Proof. intros A k l. unfold entry. induction l as [|[j a] r IH]; cbn; [reflexivity|]. destruct (Nat.eqb j k); [reflexivity | exact IH]. Qed.
Lemma haskey_get : forall A k (l : list (nat * A)), haskey k l = true <-> get k l <> None.
Proof. intros. unfold haskey. destruct (get k l); split; congruence. Qed.
Lemma haskey_in : forall A k (l : list (nat * A)), haskey k l = true <-> In k (map fst l).
Proof.
  intros A k l. unfold haskey. induction l as [|[j a] r IH]; cbn; [split; [congruence | tauto]|].
  destruct (Nat.eqb_spec j k) as [E|E]; [split; auto|]. rewrite IH. split; [auto | intros [H|H]; [contradiction | exact H]].
Qed.
Lemma get_in : forall A k (l : list (nat * A)) a, get k l = Some a -> In (k, a) l.
Proof. intros A k l a. induction l as [|[j b] r IH]; cbn; [discriminate|]. destruct (Nat.eqb_spec j k) as [E|E]; [intros H; inversion H; subst; auto | auto]. Qed.
Lemma get_del : forall A k j (l : list (nat * A)), get k (del j l) = if Nat.eqb k j then None else get k l.
Proof.
  intros A k j l. unfold del. induction l as [|[i a] r IH]; cbn; [destruct (Nat.eqb k j); reflexivity|].
  destruct (Nat.eqb_spec i j) as [E|E]; cbn.
  - rewrite IH. destruct (Nat.eqb_spec k j) as [F|F]; [reflexivity|]. destruct (Nat.eqb_spec i k); [congruence | reflexivity].
  - destruct (Nat.eqb_spec i k) as [F|F]; [destruct (Nat.eqb_spec k j); [congruence | reflexivity] | exact IH].
Qed.
Lemma in_del : forall A k a j (l : list (nat * A)), In (k, a) (del j l) <-> In (k, a) l /\ k <> j.
Proof. intros. unfold del. rewrite filter_In. cbn. rewrite negb_true_iff, Nat.eqb_neq. tauto. Qed.
Lemma get_app1 : forall A k (l : list (nat * A)) j a,
  get k (l ++ [(j, a)]) = match get k l with Some b => Some b | None => if Nat.eqb j k then Some a else None end.
Proof. intros A k l j a. induction l as [|[i b] r IH]; cbn; [reflexivity|]. destruct (Nat.eqb i k); [reflexivity | exact IH]. Qed.
Lemma get_set : forall A k j a (l : list (nat * A)),
  get k (set j a l) = if Nat.eqb k j then (if haskey k l then Some a else None) else get k l.
Proof.
  intros A k j a l. unfold set, haskey. induction l as [|[i b] r IH]; cbn; [destruct (Nat.eqb k j); reflexivity|].
  destruct (Nat.eqb_spec i j) as [E|E]; cbn.
  - destruct (Nat.eqb_spec i k) as [F|F]; [subst; rewrite Nat.eqb_refl; reflexivity|]. rewrite IH. destruct (Nat.eqb_spec k j); [congruence | reflexivity].
  - destruct (Nat.eqb_spec i k) as [F|F]; [destruct (Nat.eqb_spec k j); [congruence | reflexivity] | exact IH].
Qed.
Lemma haskey_set : forall A k j a (l : list (nat * A)), haskey k (set j a l) = haskey k l.
Proof. intros. unfold haskey at 1. rewrite get_set. destruct (Nat.eqb_spec k j) as [E|E]; [unfold haskey; destruct (get k l); reflexivity | unfold haskey; reflexivity]. Qed.
Lemma in_set : forall A k c j a (l : list (nat * A)), In (k, c) (set j a l) -> (k = j /\ c = a) \/ In (k, c) l.
Proof.
  intros A k c j a l H. unfold set in H. apply in_map_iff in H. destruct H as [[i b] [E H]]. cbn in E.
  destruct (Nat.eqb_spec i j) as [F|F]; inversion E; subst; auto.
Qed.
Lemma upd_eq : forall A (f : nat -> A) x a, upd f x a x = a.
Proof. intros. unfold upd. rewrite Nat.eqb_refl. reflexivity. Qed.
Lemma upd_neq : forall A (f : nat -> A) x a y, y <> x -> upd f x a y = f y.
Proof. intros. unfold upd. destruct (Nat.eqb_spec y x); [contradiction | reflexivity]. Qed.

(** Offsets. *)
Section Offsets.
Variables s t : state.
Lemma offset_ext : forall l x, (forall y, lsize (leaf t y) = lsize (leaf s y)) -> offset t l x = offset s l x.
Proof. induction l as [|y r IH]; intros x H; cbn; [reflexivity|]. rewrite H, (IH x H). reflexivity. Qed.
Lemma total_ext : forall l, (forall y, lsize (leaf t y) = lsize (leaf s y)) -> total t l = total s l.
Proof. intros l H. unfold total. f_equal. apply map_ext. exact H. Qed.
Lemma offset_until : forall l x, offset s l x = elements s (until x l).
Proof. induction l as [|y r IH]; intros x; cbn; [reflexivity|]. destruct (Nat.eqb y x); [reflexivity|]. rewrite IH. reflexivity. Qed.
Lemma total_cons : forall y l, total s (y :: l) = lsize (leaf s y) + total s l.
Proof. reflexivity. Qed.
Lemma total_app1 : forall l x, total s (l ++ [x]) = total s l + lsize (leaf s x).
Proof. induction l as [|y r IH]; intros x; [cbn; unfold total; cbn; lia|]. cbn [app]. rewrite !total_cons, IH. lia. Qed.
Lemma offset_app_in : forall l x y, In y l -> offset s (l ++ [x]) y = offset s l y.
Proof. induction l as [|z r IH]; intros x y H; [contradiction|]. cbn. destruct (Nat.eqb_spec z y) as [E|E]; [reflexivity|]. destruct H as [H|H]; [contradiction|]. rewrite IH by exact H. reflexivity. Qed.
Lemma offset_app_new : forall l x, ~ In x l -> offset s (l ++ [x]) x = total s l.
Proof.
  induction l as [|z r IH]; intros x H; [cbn; rewrite Nat.eqb_refl; reflexivity|].
  cbn [app offset]. destruct (Nat.eqb_spec z x) as [E|E]; [exfalso; apply H; left; exact E|].
  rewrite total_cons, IH; [reflexivity|]. intros K. apply H. right. exact K.
Qed.
Lemma offset_total : forall l y, In y l -> offset s l y + lsize (leaf s y) <= total s l.
Proof.
  induction l as [|z r IH]; intros y H; [contradiction|]. rewrite total_cons. cbn [offset].
  destruct (Nat.eqb_spec z y) as [E|E]; [subst; lia|]. destruct H as [H|H]; [contradiction|]. specialize (IH _ H). lia.
Qed.
Definition others (x : nat) (l : list nat) : list nat := filter (fun y => negb (Nat.eqb y x)) l.
Lemma others_id : forall l x, ~ In x l -> others x l = l.
Proof.
  induction l as [|z r IH]; intros x H; [reflexivity|]. unfold others in *. cbn. destruct (Nat.eqb_spec z x) as [E|E]; [exfalso; apply H; left; exact E|].
  cbn. rewrite IH; [reflexivity|]. intros K. apply H. right. exact K.
Qed.
Lemma in_others : forall l x y, In y (others x l) <-> In y l /\ y <> x.
Proof. intros. unfold others. rewrite filter_In, negb_true_iff, Nat.eqb_neq. reflexivity. Qed.
Lemma total_others : forall l x, NoDup l -> In x l -> total s (others x l) + lsize (leaf s x) = total s l.
Proof.
  induction l as [|z r IH]; intros x D H; [contradiction|]. inversion D as [|z' r' Z R]; subst.
  unfold others. cbn [filter]. destruct (Nat.eqb_spec z x) as [E|E]; cbn [negb].
  - subst z. fold (others x r). rewrite others_id by exact Z. rewrite total_cons. lia.
  - fold (others x r). rewrite !total_cons. destruct H as [H|H]; [contradiction|]. specialize (IH x R H). lia.
Qed.
Lemma offset_others : forall l x y, NoDup l -> In x l -> In y l -> y <> x ->
  (offset s l y + lsize (leaf s y) <= offset s l x /\ offset s (others x l) y = offset s l y) \/
  (offset s l x + lsize (leaf s x) <= offset s l y /\ offset s (others x l) y + lsize (leaf s x) = offset s l y).
Proof.
  induction l as [|z r IH]; intros x y D X Y N; [contradiction|]. inversion D as [|z' r' Z R]; subst.
  unfold others. cbn [filter offset]. destruct (Nat.eqb_spec z x) as [E|E]; cbn [negb].
  - subst z. fold (others x r). rewrite others_id by exact Z. destruct (Nat.eqb_spec x y) as [F|F]; [congruence|]. right. split; lia.
  - fold (others x r). cbn [offset]. destruct X as [X|X]; [contradiction|]. destruct (Nat.eqb_spec z y) as [F|F]; [subst; left; split; lia|].
    destruct Y as [Y|Y]; [contradiction|]. destruct (IH x y R X Y N) as [[A B]|[A B]]; [left | right]; split; lia.
Qed.
End Offsets.

(** The loops. *)
Definition getd (k : nat) (F : list (nat * rel)) : rel := match get k F with Some h => h | None => none end.
Lemma merge_ok : forall g b n l, (forall k, haskey k l = true -> g k <> None) ->
  exists l', merge g b n l = (l', true) /\
    forall k, get k l' = match get k l with Some F => Some (update (shift_right F b n) (match g k with Some h => h | None => none end) b) | None => None end.
Proof.
  intros g b n l. induction l as [|[j F] r IH]; intros H; cbn [merge]; [exists []; split; reflexivity|].
  destruct (g j) as [h|] eqn:G; [|exfalso; apply (H j); [unfold haskey; cbn; rewrite Nat.eqb_refl; reflexivity | exact G]].
  destruct IH as [l' [-> L']].
  { intros k K. apply H. unfold haskey in *. cbn. destruct (Nat.eqb j k); [reflexivity | exact K]. }
  exists ((j, update (shift_right F b n) h b) :: l'). split; [reflexivity|]. intros k. cbn.
  destruct (Nat.eqb_spec j k) as [E|E]; [subst; rewrite G; reflexivity | apply L'].
Qed.
Lemma merge_fails : forall g b n l k, haskey k l = true -> g k = None -> snd (merge g b n l) = false.
Proof.
  intros g b n l k. induction l as [|[j F] r IH]; intros H G; cbn [merge]; [discriminate H|].
  destruct (g j) as [h|] eqn:J; [|reflexivity]. destruct (merge g b n r) as [r' ok] eqn:M. cbn in *. apply IH; [|exact G].
  unfold haskey in *. cbn in H. destruct (Nat.eqb_spec j k) as [E|E]; [congruence | exact H].
Qed.
Lemma review_ok : forall names off todo ops, (forall k, In k (map fst todo) -> names k = true) ->
  exists ops', review names off todo ops = (ops', true) /\
    (forall k c, In (k, c) ops' -> c = View off \/ (In (k, c) ops /\ ~ In k (map fst todo))) /\
    (forall k, haskey k ops' = true <-> haskey k ops = true \/ In k (map fst todo)).
Proof.
  intros names off todo. induction todo as [|[j c0] t IH]; intros ops H; cbn [review map fst].
  - exists ops. split; [reflexivity|]. split; [intros k c K; right; split; [exact K | intros []]|]. intros k. split; [auto | intros [K|[]]; exact K].
  - rewrite (H j) by (left; reflexivity). destruct (IH (del j ops ++ [(j, View off)])) as [ops' [E [A B]]]; [intros k K; apply H; right; exact K|].
    exists ops'. split; [exact E|]. split.
    + intros k c K. destruct (A k c K) as [K1|[K1 K2]]; [left; exact K1|]. apply in_app_or in K1. destruct K1 as [K1|[K1|[]]].
      * apply in_del in K1. destruct K1 as [K1 K3]. right. split; [exact K1|]. intros [K4|K4]; [symmetry in K4; contradiction | contradiction].
      * inversion K1; subst. left. reflexivity.
    + intros k. rewrite B. assert (D : haskey k (del j ops ++ [(j, View off)]) = true <-> haskey k ops = true \/ k = j).
      { unfold haskey. rewrite get_app1, get_del. destruct (Nat.eqb_spec k j) as [F|F]; [subst; rewrite Nat.eqb_refl; split; auto|].
        destruct (Nat.eqb_spec j k); [congruence|]. destruct (get k ops); split; try tauto; try congruence; intros [K|K]; congruence. }
      rewrite D. cbn [In]. intuition congruence.
Qed.
Lemma review_fails : forall names off todo ops k, In k (map fst todo) -> names k = false -> snd (review names off todo ops) = false.
Proof.
  intros names off todo. induction todo as [|[j c0] t IH]; intros ops k K N; [contradiction|]. cbn [review].
  destruct (names j) eqn:J; [|reflexivity]. destruct K as [K|K]; [cbn in K; congruence|]. exact (IH _ _ K N).
Qed.
(** What [notify] leaves alone. *)
Definition framed (s t : state) : Prop :=
  nl t = nl s /\ nn t = nn s /\ node t = node s /\ props t = props s /\ attr t = attr s /\
  (forall y, lsize (leaf t y) = lsize (leaf s y)) /\ (forall y, lpar (leaf t y) = lpar (leaf s y)).
Lemma framed_refl : forall s, framed s s.
Proof. intros. repeat split. Qed.
Lemma framed_leaf : forall s y ops, framed s (set_leaf s y (mkL (lsize (leaf s y)) (lpar (leaf s y)) ops)).
Proof.
  intros. unfold framed. repeat (split; [reflexivity|]).
  split; intros z; cbn [set_leaf leaf]; (destruct (Nat.eq_dec z y) as [E|E]; [subst; rewrite upd_eq; reflexivity | rewrite upd_neq by exact E; reflexivity]).
Qed.
Lemma framed_trans : forall a b c, framed a b -> framed b c -> framed a c.
Proof.
  intros a b c (A1 & A2 & A3 & A4 & A5 & A6 & A7) (B1 & B2 & B3 & B4 & B5 & B6 & B7).
  unfold framed. split; [congruence|]. split; [congruence|]. split; [congruence|]. split; [congruence|]. split; [congruence|].
  split; intros y; [rewrite B6; apply A6 | rewrite B7; apply A7].
Qed.
Lemma notify_ok : forall l s m, (forall y, In y l -> forall k, haskey k (lops (leaf s y)) = true -> haskey k (nops (node s m)) = true) ->
  exists t, notify s m l = (t, true) /\ framed s t /\
    (forall y, In y l -> (forall k c, In (k, c) (lops (leaf t y)) -> c = View (offset s (ch (node s m)) y)) /\
                        forall k, haskey k (lops (leaf t y)) = haskey k (lops (leaf s y))) /\
    (forall y, ~ In y l -> leaf t y = leaf s y).
Proof.
  induction l as [|z r IH]; intros s m H; cbn [notify].
  - exists s. split; [reflexivity|]. split; [apply framed_refl|]. split; [intros y [] | reflexivity].
  - destruct (review_ok (fun k => haskey k (nops (node s m))) (offset s (ch (node s m)) z) (lops (leaf s z)) (lops (leaf s z))) as [ops [E [A B]]].
    { intros k K. apply (H z (or_introl eq_refl)). apply haskey_in. exact K. }
    rewrite E. set (s1 := set_leaf s z (mkL (lsize (leaf s z)) (lpar (leaf s z)) ops)).
    pose proof (framed_leaf s z ops) as F1. fold s1 in F1.
    assert (HK : forall k, haskey k ops = haskey k (lops (leaf s z))).
    { intros k. destruct (haskey k (lops (leaf s z))) eqn:Q; [apply B; left; exact Q|]. destruct (haskey k ops) eqn:Q2; [|reflexivity].
      apply B in Q2. destruct Q2 as [Q2|Q2]; [congruence|]. apply haskey_in in Q2. congruence. }
    assert (S1 : forall y, y <> z -> leaf s1 y = leaf s y) by (intros y N; unfold s1; cbn; apply upd_neq; exact N).
    assert (Z1 : leaf s1 z = mkL (lsize (leaf s z)) (lpar (leaf s z)) ops) by (unfold s1; cbn; apply upd_eq).
    destruct (IH s1 m) as [t [T1 [T2 [T3 T4]]]].
    { intros y Y k K. change (node s1 m) with (node s m). destruct (Nat.eq_dec y z) as [N|N].
      - subst y. rewrite Z1 in K. cbn in K. rewrite HK in K. apply (H z (or_introl eq_refl)). exact K.
      - rewrite S1 in K by exact N. apply (H y (or_intror Y)). exact K. }
    exists t. split; [exact T1|]. split; [exact (framed_trans _ _ _ F1 T2)|].
    assert (OE : forall y, offset s1 (ch (node s1 m)) y = offset s (ch (node s m)) y).
    { intros y. change (node s1 m) with (node s m). apply offset_ext. exact (proj1 (proj2 (proj2 (proj2 (proj2 (proj2 F1)))))). }
    split.
    + intros y Y. destruct (in_dec Nat.eq_dec y r) as [R|R].
      * destruct (T3 y R) as [P Q]. split; [intros k c K; rewrite <- OE; exact (P k c K)|]. intros k. rewrite Q.
        destruct (Nat.eq_dec y z) as [N|N]; [subst y; rewrite Z1; apply HK | rewrite S1 by exact N; reflexivity].
      * destruct Y as [Y|Y]; [|contradiction]. subst y. rewrite (T4 z R), Z1. cbn. split; [|exact HK].
        intros k c K. destruct (A k c K) as [K1|[K1 K2]]; [exact K1|]. exfalso. apply K2. apply in_map_iff. exists (k, c). split; [reflexivity | exact K1].
    + intros y Y. rewrite T4 by (intros K; apply Y; right; exact K). apply S1. intros K. apply Y. left. symmetry. exact K.
Qed.
Lemma notify_fails : forall l s m y k, In y l -> haskey k (lops (leaf s y)) = true -> haskey k (nops (node s m)) = false ->
  snd (notify s m l) = false.
Proof.
  induction l as [|z r IH]; intros s m y k Y K N; [contradiction|]. cbn [notify].
  destruct (review (fun k0 => haskey k0 (nops (node s m))) (offset s (ch (node s m)) z) (lops (leaf s z)) (lops (leaf s z))) as [ops ok] eqn:E.
  destruct ok; [|reflexivity]. destruct (Nat.eq_dec z y) as [Q|Q].
  - subst z. pose proof (review_fails (fun k0 => haskey k0 (nops (node s m))) (offset s (ch (node s m)) y) (lops (leaf s y)) (lops (leaf s y)) k) as R.
    rewrite E in R. cbn [snd] in R. exfalso. assert (true = false) by (apply R; [apply haskey_in; exact K | exact N]). discriminate.
  - destruct Y as [Y|Y]; [contradiction|]. apply (IH _ m y k Y); [|exact N]. cbn. rewrite upd_neq by (intros X; apply Q; symmetry; exact X). exact K.
Qed.
Lemma wipe_twice : forall f off n i p, wipe (wipe f off n) off n i p = wipe f off n i p.
Proof. intros. unfold wipe. destruct (f i p), (Nat.leb off i && Nat.ltb i (off + n)); reflexivity. Qed.
Lemma wipe_ext : forall f g off n i p, f i p = g i p -> wipe f off n i p = wipe g off n i p.
Proof. intros. unfold wipe. rewrite H. reflexivity. Qed.
Lemma disconnect_ok : forall off n ops F, (forall k c, In (k, c) ops -> c = View off) -> (forall k, haskey k ops = true -> haskey k F = true) ->
  let (ops', F') := disconnect F n ops in
  (forall k, get k ops' = if haskey k ops then Some (Own (window (getd k F) off n)) else None) /\
  (forall k c, In (k, c) ops' -> exists g, c = Own (window g off n)) /\
  (forall k, haskey k F' = haskey k F) /\
  (forall k i p, getd k F' i p = if haskey k ops then wipe (getd k F) off n i p else getd k F i p).
Proof.
  intros off n ops. induction ops as [|[j c] r IH]; intros F V K.
  - cbn. repeat split; try reflexivity; intros k c H; contradiction.
  - assert (c = View off) by (apply (V j); left; reflexivity). subst c. cbn [disconnect].
    change (match get j F with Some h => h | None => none end) with (getd j F).
    specialize (IH (set j (wipe (getd j F) off n) F)).
    destruct (disconnect (set j (wipe (getd j F) off n) F) n r) as [r' F'].
    destruct IH as [A [B [C D]]].
    { intros k c H. apply (V k c). right. exact H. }
    { intros k H. rewrite haskey_set. apply K. unfold haskey in *. cbn. destruct (Nat.eqb j k); [reflexivity | exact H]. }
    assert (KJ : haskey j F = true) by (apply K; unfold haskey; cbn; rewrite Nat.eqb_refl; reflexivity).
    assert (GJ : forall k, getd k (set j (wipe (getd j F) off n) F) = if Nat.eqb k j then wipe (getd j F) off n else getd k F).
    { intros k. unfold getd. rewrite get_set. destruct (Nat.eqb_spec k j) as [E|E]; [subst; rewrite KJ|]; reflexivity. }
    split; [|split; [|split]].
    + intros k. unfold haskey. cbn. destruct (Nat.eqb_spec j k) as [E|E]; [subst; reflexivity|]. rewrite A. fold (haskey k r). rewrite GJ.
      destruct (Nat.eqb_spec k j); [congruence | reflexivity].
    + intros k c [H|H]; [inversion H; eexists; reflexivity | exact (B k c H)].
    + intros k. rewrite C, haskey_set. reflexivity.
    + intros k i p. rewrite D, GJ. unfold haskey at 2. cbn. destruct (Nat.eqb_spec j k) as [E|E].
      * subst k. rewrite Nat.eqb_refl. destruct (haskey j r); [apply wipe_twice | reflexivity].
      * fold (haskey k r). destruct (Nat.eqb_spec k j); [congruence|]. reflexivity.
Qed.
