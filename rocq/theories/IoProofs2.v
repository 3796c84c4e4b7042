(** Index operations beside the constraints: the invariant, linking and unlinking. *)
From Coq Require Import List Bool Arith Lia.
From Verif Require Import IoModel IoSpec IoProofs.
Import ListNotations.

Record Inv (s : state) : Prop := mkInv {
  i_dup : forall m, NoDup (ch (node s m));
  i_par : forall m x, In x (ch (node s m)) <-> lpar (leaf s x) = Some m;
  i_new : forall x, nl s <= x -> lpar (leaf s x) = None;
  i_newn : forall m, nn s <= m -> ch (node s m) = [];
  i_view : forall x m, lpar (leaf s x) = Some m ->
    (forall k c, In (k, c) (lops (leaf s x)) -> c = View (offset s (ch (node s m)) x)) /\
    forall k, haskey k (lops (leaf s x)) = haskey k (nops (node s m));
  i_own : forall x, lpar (leaf s x) = None -> forall k c, In (k, c) (lops (leaf s x)) ->
    exists f, c = Own f /\ forall i p, f i p = true -> i < lsize (leaf s x);
  i_in : forall m k i p, getd k (nops (node s m)) i p = true -> i < total s (ch (node s m)) }.

Lemma getd_get : forall k F h, get k F = Some h -> getd k F = h.
Proof. intros k F h H. unfold getd. rewrite H. reflexivity. Qed.
Lemma getd_none : forall k F, haskey k F = false -> getd k F = none.
Proof. intros k F H. unfold getd, haskey in *. destruct (get k F); [discriminate | reflexivity]. Qed.
Lemma marked_up : forall s x m k i p, lpar (leaf s x) = Some m ->
  (forall k c, In (k, c) (lops (leaf s x)) -> c = View (offset s (ch (node s m)) x)) ->
  (forall k, haskey k (lops (leaf s x)) = haskey k (nops (node s m))) ->
  marked s x k i p = getd k (nops (node s m)) (offset s (ch (node s m)) x + i) p.
Proof.
  intros s x m k i p P V K. unfold marked. rewrite !entry_get, P. specialize (K k).
  destruct (get k (lops (leaf s x))) as [c|] eqn:G.
  - rewrite (V k c (get_in _ _ _ _ G)). rewrite entry_get. unfold getd. destruct (get k (nops (node s m))); reflexivity.
  - unfold haskey in K. rewrite G in K. rewrite (getd_none k _ (eq_sym K)). reflexivity.
Qed.
Lemma marked_inv : forall s, Inv s -> forall x m k i p, lpar (leaf s x) = Some m ->
  marked s x k i p = getd k (nops (node s m)) (offset s (ch (node s m)) x + i) p.
Proof. intros s V x m k i p P. destruct (i_view s V x m P). apply marked_up; assumption. Qed.
Lemma marked_free : forall s x k i p, lpar (leaf s x) = None ->
  marked s x k i p = match get k (lops (leaf s x)) with Some (Own f) => f i p | _ => false end.
Proof. intros s x k i p P. unfold marked. rewrite !entry_get, P. destruct (get k (lops (leaf s x))) as [[f|o]|]; reflexivity. Qed.
Lemma marked_same : forall s t x k i p, leaf t x = leaf s x -> (forall m, lpar (leaf s x) = Some m -> node t m = node s m) -> marked t x k i p = marked s x k i p.
Proof. intros s t x k i p A B. unfold marked. rewrite A. destruct (entry k (lops (leaf s x))) as [[f|o]|]; [reflexivity | | reflexivity]. destruct (lpar (leaf s x)) as [m|] eqn:P; [|reflexivity]. rewrite (B m eq_refl). reflexivity. Qed.

(** What linking and unlinking leave as it was. *)
Definition kept (s t : state) : Prop :=
  nl t = nl s /\ nn t = nn s /\ props t = props s /\ attr t = attr s /\
  (forall y, lsize (leaf t y) = lsize (leaf s y)) /\
  (forall y k, haskey k (lops (leaf t y)) = haskey k (lops (leaf s y))) /\
  (forall m k, haskey k (nops (node t m)) = haskey k (nops (node s m))) /\
  (forall y k i p, i < lsize (leaf s y) -> marked t y k i p = marked s y k i p).
Lemma kept_trans : forall a b c, kept a b -> kept b c -> kept a c.
Proof.
  intros a b c (A1 & A2 & A3 & A4 & A5 & A6 & A7 & A8) (B1 & B2 & B3 & B4 & B5 & B6 & B7 & B8).
  unfold kept. split; [congruence|]. split; [congruence|]. split; [congruence|]. split; [congruence|].
  split; [intros y; rewrite B5; apply A5|]. split; [intros; rewrite B6; apply A6|]. split; [intros; rewrite B7; apply A7|].
  intros y k i p H. rewrite B8 by (rewrite A5; exact H). apply A8. exact H.
Qed.

Lemma link_free_ok : forall s m x, Inv s -> x < nl s -> m < nn s -> lpar (leaf s x) = None ->
  (forall k, haskey k (lops (leaf s x)) = haskey k (nops (node s m))) ->
  let o := link_free s m x in
  exn o = None /\ Inv (st o) /\ kept s (st o) /\
  ch (node (st o) m) = ch (node s m) ++ [x] /\ (forall n, n <> m -> node (st o) n = node s n).
Proof.
  intros s m x V X M P K. unfold link_free. destruct (node s m) as [c F] eqn:NM. cbv zeta.
  assert (C : ch (node s m) = c) by (rewrite NM; reflexivity). assert (NF : nops (node s m) = F) by (rewrite NM; reflexivity).
  cbn [nops] in K.
  assert (XC : ~ In x c) by (rewrite <- C; rewrite (i_par s V); congruence).
  assert (RO : forall k, rel_of s x k = match get k (lops (leaf s x)) with Some (Own f) => Some f | _ => None end).
  { intros k. unfold rel_of. rewrite P. destruct (get k (lops (leaf s x))) as [[f|o]|]; reflexivity. }
  destruct (merge_ok (rel_of s x) (total s c) (lsize (leaf s x)) F) as [F' [-> MG]].
  { intros k H. rewrite <- K in H. rewrite RO. apply haskey_get in H. destruct (get k (lops (leaf s x))) as [d|] eqn:G; [|contradiction].
    destruct (i_own s V x P k d (get_in _ _ _ _ G)) as [f [-> _]]. discriminate. }
  assert (HF : forall k, haskey k F' = haskey k F) by (intros k; unfold haskey; rewrite MG; destruct (get k F); reflexivity).
  set (own := fun k => match get k (lops (leaf s x)) with Some (Own f) => f | _ => none end).
  assert (OI : forall k i p, own k i p = true -> i < lsize (leaf s x)).
  { intros k i p. unfold own. destruct (get k (lops (leaf s x))) as [d|] eqn:G; [|discriminate].
    destruct (i_own s V x P k d (get_in _ _ _ _ G)) as [f [-> B]]. apply B. }
  assert (GD : forall k i p, getd k F' i p = if haskey k F then update (shift_right (getd k F) (total s c) (lsize (leaf s x))) (own k) (total s c) i p else false).
  { intros k i p. unfold getd, haskey. rewrite MG. destruct (get k F) as [h|]; [|reflexivity]. rewrite RO. unfold own. destruct (get k (lops (leaf s x))) as [[f|o]|]; reflexivity. }
  set (s1 := set_node (set_leaf s x (mkL (lsize (leaf s x)) (Some m) (lops (leaf s x)))) m (mkN (c ++ [x]) F')).
  assert (L1x : leaf s1 x = mkL (lsize (leaf s x)) (Some m) (lops (leaf s x))) by (unfold s1; cbn; apply upd_eq).
  assert (L1 : forall y, y <> x -> leaf s1 y = leaf s y) by (intros y N; unfold s1; cbn; apply upd_neq; exact N).
  assert (SZ1 : forall y, lsize (leaf s1 y) = lsize (leaf s y)) by (intros y; destruct (Nat.eq_dec y x) as [N|N]; [subst y; rewrite L1x; reflexivity | rewrite L1 by exact N; reflexivity]).
  assert (N1m : node s1 m = mkN (c ++ [x]) F') by (unfold s1; cbn; apply upd_eq).
  assert (N1 : forall n, n <> m -> node s1 n = node s n) by (intros n N; unfold s1; cbn; apply upd_neq; exact N).
  destruct (notify_ok (c ++ [x]) s1 m) as [t [-> [FR [TV TO]]]].
  { intros y Y k H. rewrite N1m. cbn [nops]. rewrite HF. apply in_app_or in Y. destruct Y as [Y|[Y|[]]].
    - assert (N : y <> x) by (intros E; subst y; contradiction). rewrite L1 in H by exact N. rewrite <- C in Y. apply (i_par s V) in Y.
      rewrite (proj2 (i_view s V y m Y)), NF in H. exact H.
    - subst y. rewrite L1x in H. cbn [lops] in H. rewrite K in H. exact H. }
  destruct FR as (R1 & R2 & R3 & R4 & R5 & R6 & R7). cbn [st exn].
  assert (SZ : forall y, lsize (leaf t y) = lsize (leaf s y)) by (intros y; rewrite R6; apply SZ1).
  assert (NT : forall n, n <> m -> node t n = node s n) by (intros n N; rewrite R3; apply N1; exact N).
  assert (NTm : node t m = mkN (c ++ [x]) F') by (rewrite R3; exact N1m).
  assert (PX : lpar (leaf t x) = Some m) by (rewrite R7, L1x; reflexivity).
  assert (PO : forall y, y <> x -> lpar (leaf t y) = lpar (leaf s y)) by (intros y N; rewrite R7, L1 by exact N; reflexivity).
  assert (LO : forall y, ~ In y (c ++ [x]) -> leaf t y = leaf s y).
  { intros y Y. rewrite TO by exact Y. apply L1. intros E. apply Y. apply in_or_app. right. left. symmetry. exact E. }
  assert (HK : forall y k, haskey k (lops (leaf t y)) = haskey k (lops (leaf s y))).
  { intros y k. destruct (in_dec Nat.eq_dec y (c ++ [x])) as [Y|Y]; [|rewrite LO by exact Y; reflexivity].
    rewrite (proj2 (TV y Y) k). destruct (Nat.eq_dec y x) as [N|N]; [subst y; rewrite L1x; reflexivity | rewrite L1 by exact N; reflexivity]. }
  assert (HN : forall n k, haskey k (nops (node t n)) = haskey k (nops (node s n))).
  { intros n k. destruct (Nat.eq_dec n m) as [E|E]; [subst n; rewrite NTm, NF; apply HF | rewrite NT by exact E; reflexivity]. }
  assert (OFF : forall l y, offset t l y = offset s l y) by (intros; apply offset_ext; exact SZ).
  assert (TOT : forall l, total t l = total s l) by (intros; apply total_ext; exact SZ).
  assert (VIEW : forall y, In y (c ++ [x]) -> (forall k d, In (k, d) (lops (leaf t y)) -> d = View (offset t (ch (node t m)) y)) /\ forall k, haskey k (lops (leaf t y)) = haskey k (nops (node t m))).
  { intros y Y. split.
    - intros k d H. rewrite (proj1 (TV y Y) k d H). f_equal. rewrite N1m, NTm. cbn [ch]. rewrite (offset_ext s s1) by exact SZ1. symmetry. apply OFF.
    - intros k. rewrite HK, HN, NF. destruct (Nat.eq_dec y x) as [N|N]; [subst y; apply K|].
      apply in_app_or in Y. destruct Y as [Y|[Y|[]]]; [|symmetry in Y; contradiction]. rewrite <- C in Y. apply (i_par s V) in Y. rewrite (proj2 (i_view s V y m Y) k), NF. reflexivity. }
  assert (PM : forall y, lpar (leaf t y) = Some m <-> In y (c ++ [x])).
  { intros y. destruct (Nat.eq_dec y x) as [N|N]; [subst y; split; [intros _; apply in_or_app; right; left; reflexivity | intros _; exact PX]|].
    rewrite PO by exact N. rewrite <- (i_par s V), C. split; [intros H; apply in_or_app; left; exact H|].
    intros H. apply in_app_or in H. destruct H as [H|[H|[]]]; [exact H | symmetry in H; contradiction]. }
  split; [reflexivity|]. split; [|split; [|split; [rewrite NTm; reflexivity | exact NT]]].
  - constructor.
    + intros n. destruct (Nat.eq_dec n m) as [E|E]; [subst n; rewrite NTm; cbn [ch]|rewrite NT by exact E; apply (i_dup s V)].
      apply (proj2 (NoDup_Add (l := c) (l' := c ++ [x]) (a := x) ltac:(rewrite <- (app_nil_r c) at 1; apply Add_app))). split; [rewrite <- C; apply (i_dup s V) | exact XC].
    + intros n y. destruct (Nat.eq_dec n m) as [E|E]; [subst n; rewrite NTm; cbn [ch]; symmetry; apply PM|]. rewrite NT by exact E.
      destruct (Nat.eq_dec y x) as [N|N]; [subst y; rewrite (i_par s V), PX; split; congruence | rewrite PO by exact N; apply (i_par s V)].
    + intros y Y. rewrite R1 in Y. change (nl s1) with (nl s) in Y. rewrite PO by lia. apply (i_new s V). exact Y.
    + intros n Y. rewrite R2 in Y. change (nn s1) with (nn s) in Y. rewrite NT by lia. apply (i_newn s V). exact Y.
    + intros y n Y. destruct (Nat.eq_dec n m) as [E|E]; [subst n; apply VIEW; apply PM; exact Y|].
      assert (NY : y <> x) by (intros Q; subst y; rewrite PX in Y; congruence).
      assert (YC : ~ In y (c ++ [x])) by (rewrite <- PM; rewrite Y; congruence). rewrite LO by exact YC. rewrite NT by exact E. rewrite PO in Y by exact NY.
      rewrite OFF. exact (i_view s V y n Y).
    + intros y Y. assert (NY : y <> x) by (intros Q; subst y; rewrite PX in Y; congruence).
      assert (YC : ~ In y (c ++ [x])) by (rewrite <- PM; rewrite Y; congruence). rewrite LO by exact YC. apply (i_own s V). rewrite <- PO by exact NY. exact Y.
    + intros n k i p H. rewrite TOT. destruct (Nat.eq_dec n m) as [E|E]; [subst n|rewrite NT in * by exact E; exact (i_in s V n k i p H)].
      rewrite NTm in *. cbn [ch nops] in *. rewrite total_app1. rewrite GD in H. destruct (haskey k F) eqn:Q; [|discriminate].
      unfold update, shift_right in H. apply orb_true_iff in H. destruct H as [H|H].
      * destruct (Nat.ltb_spec i (total s c)); [lia|]. destruct (Nat.ltb_spec i (total s c + lsize (leaf s x))); [discriminate|].
        rewrite <- NF in H. apply (i_in s V) in H. rewrite C in H. lia.
      * apply andb_true_iff in H. destruct H as [H1 H2]. apply Nat.leb_le in H1. apply OI in H2. lia.
  - unfold kept. split; [exact R1|]. split; [exact R2|]. split; [exact R4|]. split; [exact R5|]. split; [exact SZ|]. split; [exact HK|]. split; [exact HN|].
    intros y k i p I0. destruct (in_dec Nat.eq_dec y (c ++ [x])) as [Y|Y].
    + rewrite (marked_up t y m k i p (proj2 (PM y) Y) (proj1 (VIEW y Y)) (proj2 (VIEW y Y))). rewrite NTm. cbn [ch nops]. rewrite OFF, GD.
      destruct (Nat.eq_dec y x) as [N|N].
      * subst y. rewrite (marked_free s x k i p P). rewrite offset_app_new by exact XC. unfold update, shift_right.
        destruct (Nat.ltb_spec (total s c + i) (total s c)); [lia|]. destruct (Nat.ltb_spec (total s c + i) (total s c + lsize (leaf s x))); [|lia].
        destruct (Nat.leb_spec (total s c) (total s c + i)); [|lia]. replace (total s c + i - total s c) with i by lia. cbn [orb andb].
        rewrite <- K. unfold own, haskey. destruct (get k (lops (leaf s x))) as [[f|o]|]; reflexivity.
      * apply in_app_or in Y. destruct Y as [Y|[Y|[]]]; [|symmetry in Y; contradiction]. assert (Y' := Y). rewrite <- C in Y'. apply (i_par s V) in Y'.
        rewrite (marked_inv s V y m k i p Y'), C, NF. rewrite offset_app_in by exact Y. pose proof (offset_total s c y Y) as OT.
        unfold update, shift_right. destruct (Nat.ltb_spec (offset s c y + i) (total s c)); [|lia]. destruct (Nat.leb_spec (total s c) (offset s c y + i)); [lia|].
        cbn [andb]. rewrite orb_false_r. destruct (haskey k F) eqn:Q; [reflexivity | rewrite getd_none by exact Q; reflexivity].
    + apply marked_same; [apply LO; exact Y|]. intros n Pn. apply NT. intros E. rewrite E in Pn. apply Y. apply in_or_app. left. rewrite <- C. apply (i_par s V). exact Pn.
Qed.

Lemma unlink_ok : forall s m x, Inv s -> lpar (leaf s x) = Some m ->
  let o := unlink s m x in
  exn o = None /\ Inv (st o) /\ kept s (st o) /\ lpar (leaf (st o) x) = None /\
  ch (node (st o) m) = others x (ch (node s m)) /\ (forall n, n <> m -> node (st o) n = node s n).
Proof.
  intros s m x V P. unfold unlink. destruct (node s m) as [c F] eqn:NM. cbv zeta.
  assert (C : ch (node s m) = c) by (rewrite NM; reflexivity). assert (NF : nops (node s m) = F) by (rewrite NM; reflexivity).
  assert (XC : In x c) by (rewrite <- C; apply (i_par s V); exact P).
  assert (D : NoDup c) by (rewrite <- C; apply (i_dup s V)).
  assert (MB : m < nn s) by (destruct (Nat.lt_ge_cases m (nn s)) as [H|H]; [exact H|]; apply (i_newn s V) in H; rewrite C in H; rewrite H in XC; contradiction).
  assert (XB : x < nl s) by (destruct (Nat.lt_ge_cases x (nl s)) as [H|H]; [exact H|]; apply (i_new s V) in H; congruence).
  assert (EX : existsb (Nat.eqb x) c = true) by (apply existsb_exists; exists x; split; [exact XC | apply Nat.eqb_refl]). rewrite EX.
  set (off := offset s c x). set (n := lsize (leaf s x)).
  destruct (i_view s V x m P) as [VX KX]. rewrite C in VX. fold off in VX. rewrite NF in KX.
  pose proof (disconnect_ok off n (lops (leaf s x)) F VX ltac:(intros k H; rewrite <- KX; exact H)) as DC.
  destruct (disconnect F n (lops (leaf s x))) as [ops F1]. destruct DC as [DA [DB [DK DD]]].
  set (F2 := map (fun e => (fst e, shift_left (snd e) off n)) F1).
  assert (G2 : forall k, get k F2 = option_map (fun h => shift_left h off n) (get k F1)).
  { intros k. unfold F2. clear. induction F1 as [|[j h] r IH]; cbn; [reflexivity|]. destruct (Nat.eqb j k); [reflexivity | exact IH]. }
  assert (HF : forall k, haskey k F2 = haskey k F) by (intros k; rewrite <- DK; unfold haskey; rewrite G2; destruct (get k F1); reflexivity).
  assert (GD : forall k i p, getd k F2 i p = shift_left (wipe (getd k F) off n) off n i p).
  { intros k i p. assert (Q : forall j, getd k F1 j p = wipe (getd k F) off n j p).
    { intros j. rewrite DD. rewrite KX. destruct (haskey k F) eqn:H; [reflexivity|]. rewrite (getd_none k F H). reflexivity. }
    unfold getd in *. rewrite G2. destruct (get k F1) as [h|] eqn:G.
    - unfold option_map, shift_left. rewrite !Q. reflexivity.
    - unfold option_map, shift_left. rewrite <- !Q. destruct (Nat.ltb i off); reflexivity. }
  change (filter (fun y => negb (Nat.eqb y x)) c) with (others x c).
  set (s1 := set_node (set_leaf s x (mkL n None ops)) m (mkN (others x c) F2)).
  assert (L1x : leaf s1 x = mkL n None ops) by (unfold s1; cbn; apply upd_eq).
  assert (L1 : forall y, y <> x -> leaf s1 y = leaf s y) by (intros y N; unfold s1; cbn; apply upd_neq; exact N).
  assert (SZ1 : forall y, lsize (leaf s1 y) = lsize (leaf s y)) by (intros y; destruct (Nat.eq_dec y x) as [N|N]; [subst y; rewrite L1x; reflexivity | rewrite L1 by exact N; reflexivity]).
  assert (N1m : node s1 m = mkN (others x c) F2) by (unfold s1; cbn; apply upd_eq).
  assert (N1 : forall n0, n0 <> m -> node s1 n0 = node s n0) by (intros n0 N; unfold s1; cbn; apply upd_neq; exact N).
  assert (CP : forall y, In y (others x c) -> lpar (leaf s y) = Some m /\ y <> x) by (intros y Y; apply in_others in Y; destruct Y as [Y N]; split; [apply (i_par s V); rewrite C; exact Y | exact N]).
  destruct (notify_ok (others x c) s1 m) as [t [-> [FR [TV TO]]]].
  { intros y Y k H. destruct (CP y Y) as [Py N]. rewrite N1m. cbn [nops]. rewrite HF. rewrite L1 in H by exact N. rewrite (proj2 (i_view s V y m Py)), NF in H. exact H. }
  destruct FR as (R1 & R2 & R3 & R4 & R5 & R6 & R7). cbn [st exn].
  assert (SZ : forall y, lsize (leaf t y) = lsize (leaf s y)) by (intros y; rewrite R6; apply SZ1).
  assert (NT : forall n0, n0 <> m -> node t n0 = node s n0) by (intros n0 N; rewrite R3; apply N1; exact N).
  assert (NTm : node t m = mkN (others x c) F2) by (rewrite R3; exact N1m).
  assert (XO : ~ In x (others x c)) by (rewrite in_others; intros [_ N]; apply N; reflexivity).
  assert (LX : leaf t x = mkL n None ops) by (rewrite TO by exact XO; exact L1x).
  assert (PO : forall y, y <> x -> lpar (leaf t y) = lpar (leaf s y)) by (intros y N; rewrite R7, L1 by exact N; reflexivity).
  assert (LO : forall y, y <> x -> ~ In y c -> leaf t y = leaf s y).
  { intros y N Y. rewrite TO by (rewrite in_others; intros [Q _]; contradiction). apply L1. exact N. }
  assert (HK : forall y k, haskey k (lops (leaf t y)) = haskey k (lops (leaf s y))).
  { intros y k. destruct (Nat.eq_dec y x) as [N|N]; [subst y; rewrite LX; cbn [lops]; unfold haskey at 1; rewrite DA; unfold haskey; destruct (get k (lops (leaf s x))); reflexivity|].
    destruct (in_dec Nat.eq_dec y c) as [Y|Y]; [|rewrite LO by assumption; reflexivity].
    rewrite (proj2 (TV y (proj2 (in_others c x y) (conj Y N))) k), L1 by exact N. reflexivity. }
  assert (HN : forall n0 k, haskey k (nops (node t n0)) = haskey k (nops (node s n0))).
  { intros n0 k. destruct (Nat.eq_dec n0 m) as [E|E]; [subst n0; rewrite NTm, NF; apply HF | rewrite NT by exact E; reflexivity]. }
  assert (OFF : forall l y, offset t l y = offset s l y) by (intros; apply offset_ext; exact SZ).
  assert (TOT : forall l, total t l = total s l) by (intros; apply total_ext; exact SZ).
  assert (VIEW : forall y, In y (others x c) -> (forall k d, In (k, d) (lops (leaf t y)) -> d = View (offset t (ch (node t m)) y)) /\ forall k, haskey k (lops (leaf t y)) = haskey k (nops (node t m))).
  { intros y Y. destruct (CP y Y) as [Py N]. split.
    - intros k d H. rewrite (proj1 (TV y Y) k d H). f_equal. rewrite N1m, NTm. cbn [ch]. rewrite (offset_ext s s1) by exact SZ1. symmetry. apply OFF.
    - intros k. rewrite HK, HN, NF. rewrite (proj2 (i_view s V y m Py) k), NF. reflexivity. }
  assert (PX : lpar (leaf t x) = None) by (rewrite LX; reflexivity).
  assert (PM : forall y, lpar (leaf t y) = Some m <-> In y (others x c)).
  { intros y. rewrite in_others. destruct (Nat.eq_dec y x) as [N|N]; [subst y; rewrite PX; split; [discriminate | intros [_ Q]; exfalso; apply Q; reflexivity]|].
    rewrite PO by exact N. rewrite <- (i_par s V), C. tauto. }
  pose proof (total_others s c x D XC) as TT. fold n in TT. pose proof (offset_total s c x XC) as OT. fold off n in OT.
  split; [reflexivity|]. split; [|split; [|split; [exact PX | split; [rewrite NTm; reflexivity | exact NT]]]].
  - constructor.
    + intros n0. destruct (Nat.eq_dec n0 m) as [E|E]; [subst n0; rewrite NTm; cbn [ch]; unfold others; apply NoDup_filter; exact D | rewrite NT by exact E; apply (i_dup s V)].
    + intros n0 y. destruct (Nat.eq_dec n0 m) as [E|E]; [subst n0; rewrite NTm; cbn [ch]; symmetry; apply PM|]. rewrite NT by exact E.
      destruct (Nat.eq_dec y x) as [N|N]; [subst y; rewrite (i_par s V), PX, P; split; congruence | rewrite PO by exact N; apply (i_par s V)].
    + intros y Y. rewrite R1 in Y. change (nl s1) with (nl s) in Y. rewrite PO by lia. apply (i_new s V). exact Y.
    + intros n0 Y. rewrite R2 in Y. change (nn s1) with (nn s) in Y. rewrite NT by lia. apply (i_newn s V). exact Y.
    + intros y n0 Y. destruct (Nat.eq_dec n0 m) as [E|E]; [subst n0; apply VIEW; apply PM; exact Y|].
      assert (NY : y <> x) by (intros Q; subst y; rewrite PX in Y; congruence). rewrite PO in Y by exact NY.
      assert (YC : ~ In y c) by (rewrite <- C, (i_par s V), Y; congruence). rewrite LO by assumption. rewrite NT by exact E. rewrite OFF. exact (i_view s V y n0 Y).
    + intros y Y. destruct (Nat.eq_dec y x) as [N|N].
      * subst y. rewrite LX. cbn [lops lsize]. intros k d H. destruct (DB k d H) as [g ->]. exists (window g off n). split; [reflexivity|].
        intros i p W. unfold window in W. apply andb_true_iff in W. apply Nat.ltb_lt. exact (proj1 W).
      * rewrite PO in Y by exact N. assert (YC : ~ In y c) by (rewrite <- C, (i_par s V), Y; congruence). rewrite LO by assumption. apply (i_own s V). exact Y.
    + intros n0 k i p H. rewrite TOT. destruct (Nat.eq_dec n0 m) as [E|E]; [subst n0|rewrite NT in * by exact E; exact (i_in s V n0 k i p H)].
      rewrite NTm in *. cbn [ch nops] in *. rewrite GD in H. unfold shift_left, wipe in H.
      destruct (Nat.ltb_spec i off) as [Q|Q]; apply andb_true_iff in H; destruct H as [H _]; [lia|]. rewrite <- NF in H. apply (i_in s V) in H. rewrite C in H. lia.
  - unfold kept. split; [exact R1|]. split; [exact R2|]. split; [exact R4|]. split; [exact R5|]. split; [exact SZ|]. split; [exact HK|]. split; [exact HN|].
    intros y k i p I0. destruct (Nat.eq_dec y x) as [N|N].
    + subst y. rewrite (marked_free t x k i p PX), LX. cbn [lops]. rewrite DA. rewrite (marked_inv s V x m k i p P), C, NF. fold off.
      fold n in I0. rewrite KX. destruct (haskey k F) eqn:H'; [|rewrite getd_none by exact H'; reflexivity].
      unfold window. destruct (Nat.ltb_spec i n); [reflexivity | lia].
    + destruct (in_dec Nat.eq_dec y c) as [Y|Y].
      * pose proof (proj2 (in_others c x y) (conj Y N)) as YO. destruct (CP y YO) as [Py _].
        rewrite (marked_up t y m k i p (proj2 (PM y) YO) (proj1 (VIEW y YO)) (proj2 (VIEW y YO))). rewrite NTm. cbn [ch nops]. rewrite OFF, GD.
        rewrite (marked_inv s V y m k i p Py), C, NF. unfold shift_left, wipe.
        destruct (offset_others s c x y D XC Y N) as [[A B]|[A B]]; fold off n in A, B.
        -- rewrite B. destruct (Nat.ltb_spec (offset s c y + i) off); [|lia]. destruct (Nat.leb_spec off (offset s c y + i)); [lia|]. cbn. apply andb_true_r.
        -- destruct (Nat.ltb_spec (offset s (others x c) y + i) off); [lia|]. replace (offset s (others x c) y + i + n) with (offset s c y + i) by lia.
           destruct (Nat.leb_spec off (offset s c y + i)); [|lia]. destruct (Nat.ltb_spec (offset s c y + i) (off + n)); [lia|]. cbn. apply andb_true_r.
      * apply marked_same; [apply LO; assumption|]. intros n0 Pn. apply NT. intros E. rewrite E in Pn. apply Y. rewrite <- C. apply (i_par s V). exact Pn.
Qed.
