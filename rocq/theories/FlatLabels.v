(** Proofs about the names of the elements of one parameter. *)
From Coq Require Import String List ZArith NArith Bool Arith Lia FinFun.
From Verif Require NamesModel NamesSpec NamesProofs NamesHalt NamesUnique.
From Verif Require Import NpModel NpProofs IndexOpsModel PzModel PzSpec RavelModel RavelSpec RavelProofs FlatModel FlatSpec FlatProofs.
Import ListNotations.
Local Open Scope list_scope.
Local Open Scope nat_scope.

(** ** Coordinates *)
Lemma source_whole : forall d c, valid d c -> source (map (fun n => Sl (seq 0 n)) d) 0 c = c.
Proof.
  intros d c H. induction H as [|i n c d Hi H IH]; auto. cbn [map source hd tl]. rewrite map_nth_seq by exact Hi. f_equal. auto.
Qed.
Lemma whole_indices : forall d, d <> [] -> indices d (whole d) = Ok (coords d).
Proof.
  intros d Hd. set (a := mkNd d (fun c => c)). destruct d as [|n d]; [congruence|].
  assert (Cm : complete (whole (n :: d)) (n :: d) = Ok (map (fun n => Sl (seq 0 n)) (n :: d))).
  { cbn [whole complete in_axis]. replace (forallb (fun k => k <? n) (seq 0 n)) with true by (symmetry; apply forallb_forall; intros k Hk; apply in_seq in Hk; apply Nat.ltb_lt; lia). reflexivity. }
  assert (G : forall d, broadcast (map (fun n => Sl (seq 0 n)) d) = Ok None).
  { intros d'. unfold broadcast. replace (flat_map _ _) with (@nil nat); auto. induction d'; auto. }
  assert (Sd : forall d, sl_dims (map (fun n => Sl (seq 0 n)) d) = d) by (induction d0 as [|m d0 IH]; auto; cbn [map sl_dims flat_map app]; rewrite seq_length; f_equal; exact IH).
  assert (S : side_by_side (whole (n :: d))) by (left; intros l [Hl|[]]; discriminate).
  destruct (take_src (whole (n :: d)) (n :: d) _ Hd Cm S None (G _)) as (o & src & Ht & _ & Hi). rewrite Hi. f_equal.
  specialize (Ht _ a eq_refl). unfold take in Ht. change (shape a) with (n :: d) in Ht. rewrite Cm in Ht. cbn [rbind] in Ht. rewrite G in Ht. cbn [rbind] in Ht. rewrite Sd in Ht.
  injection Ht as <- Hs. rewrite <- (map_id (coords (n :: d))) at 2. apply map_ext_in. intros c Hc.
  pose proof (f_equal (fun g => g c) Hs) as Q. unfold a in Q. cbn [at_] in Q. rewrite <- Q. apply coords_valid in Hc. exact (source_whole (n :: d) c Hc).
Qed.
Lemma earlier_total : forall d c c', valid d c -> valid d c' -> c = c' \/ earlier c c' \/ earlier c' c.
Proof.
  induction d as [|n d IH]; intros c c' H H'; inversion H as [|i ? r ? Hi Hr]; inversion H' as [|i' ? r' ? Hi' Hr']; subst; auto.
  destruct (lt_eq_lt_dec i i') as [[L| ->]|L].
  - right. left. exists [], i, i', r, r'. auto.
  - destruct (IH r r' Hr Hr') as [->|[(p & a & b & q & q' & -> & -> & L)|(p & a & b & q & q' & -> & -> & L)]]; auto; right; [left | right]; exists (i' :: p), a, b, q, q'; auto.
  - right. right. exists [], i', i, r', r. auto.
Qed.
Lemma in_firstn_nth : forall (A : Type) (l : list A) k x, In x (firstn k l) <-> exists i, i < k /\ nth_error l i = Some x.
Proof.
  intros A l. induction l as [|a l IH]; intros [|k] x; cbn [firstn].
  - split; [intros [] | intros (i & H & _); lia].
  - split; [intros [] | intros ([|i] & _ & H); discriminate].
  - split; [intros [] | intros (i & H & _); lia].
  - cbn. rewrite IH. split.
    + intros [->|(i & H & E)]; [exists 0; split; [lia | auto] | exists (S i); split; [lia | auto]].
    + intros ([|i] & H & E); [left; cbn in E; congruence | right; exists i; split; [lia | auto]].
Qed.
Lemma nodup_firstn : forall (A : Type) (l : list A) k, NoDup l -> NoDup (firstn k l).
Proof. intros A l k H. rewrite <- (firstn_skipn k l) in H. revert H. generalize (firstn k l), (skipn k l). induction l0 as [|a l0 IH]; intros l1 H; [constructor|]. cbn in H. inversion H; subst. constructor; [|eapply IH; eauto]. intros Q. apply H2, in_or_app; auto. Qed.
Lemma coords_place : forall d j c, d <> [] -> nth_error (coords d) j = Some c -> place d (Z.of_nat j) c.
Proof.
  intros d j c Hd H. assert (Hc : valid d c) by (apply coords_valid; eapply nth_error_In; eauto).
  assert (Hj : j = dot (strides d) c).
  { apply (proj1 (NoDup_nth_error (coords d)) (coords_nodup d)); [apply nth_error_Some; congruence|]. rewrite H. symmetry. apply dot_nth; auto. }
  split; auto. exists (firstn j (coords d)). split; [apply nodup_firstn, coords_nodup|]. split.
  - intros c'. rewrite in_firstn_nth. split.
    + intros (i & Hi & E). assert (Hc' : valid d c') by (apply coords_valid; eapply nth_error_In; eauto). split; auto.
      assert (i = dot (strides d) c').
      { apply (proj1 (NoDup_nth_error (coords d)) (coords_nodup d)); [apply nth_error_Some; congruence|]. rewrite E. symmetry. apply dot_nth; auto. }
      destruct (earlier_total d c c' Hc Hc') as [<-|[L|L]]; auto; [lia|]. apply (dot_earlier d) in L; auto. lia.
    + intros [Hc' L]. exists (dot (strides d) c'). split; [subst j; apply dot_earlier; auto | apply dot_nth; auto].
  - rewrite firstn_length_le; auto. assert (j < length (coords d)) by (apply nth_error_Some; congruence). lia.
Qed.
(** ** Rows *)
Definition digits (s : str) : Prop := s <> [] /\ forall a, In a s -> a <> 32%N /\ a <> 93%N.
Lemma num_digits : forall k, digits (NamesModel.py_str (N.of_nat k)).
Proof.
  intros k. destruct (NamesHalt.py_str_digits (N.of_nat k)) as [H1 H2]. split; auto. intros a Ha. rewrite forallb_forall in H2. specialize (H2 a Ha).
  unfold NamesModel.is_digit, NamesModel.in_range in H2. apply andb_true_iff in H2 as [A B]. apply N.leb_le in A, B. lia.
Qed.
Lemma rjust_padded : forall w k, length (NamesModel.py_str (N.of_nat k)) <= w -> padded w k (rjust w (NamesModel.py_str (N.of_nat k))).
Proof.
  intros w k H. unfold rjust. eexists. split; [reflexivity|]. split; [intros a Ha; apply repeat_spec in Ha; auto|]. rewrite app_length, repeat_length. lia.
Qed.
Lemma max_in : forall l, l <> [] -> In (fold_right Nat.max 0 l) l /\ forall n, In n l -> n <= fold_right Nat.max 0 l.
Proof.
  induction l as [|a [|b l] IH]; intros H; [congruence| |].
  - cbn. rewrite Nat.max_0_r. split; auto. intros n [->|[]]; auto.
  - destruct IH as [I1 I2]; [discriminate|]. cbn [fold_right] in *. set (m := Nat.max b (fold_right Nat.max 0 l)) in *. split.
    + destruct (Nat.max_spec a m) as [[_ ->]|[_ ->]]; [right; auto | left; auto].
    + intros n [->|Hn]; [lia|]. specialize (I2 n Hn). lia.
Qed.
Lemma row_spaced : forall c, c <> [] -> exists w row k, row_str c = lit "[" ++ row ++ lit "]" /\ spaced w c row /\ In k c /\ padded w k (NamesModel.py_str (N.of_nat k)).
Proof.
  intros c Hc. unfold row_str. set (e := map (fun k => NamesModel.py_str (N.of_nat k)) c). set (w := fold_right Nat.max 0 (map (@length N) e)).
  destruct (max_in (map (@length N) e)) as [M1 M2]; [intros E; apply Hc; unfold e in E; rewrite map_map in E; destruct c; [auto | discriminate]|]. fold w in M1, M2.
  unfold e in M1. rewrite map_map in M1. apply in_map_iff in M1 as (k & Ek & Hk).
  exists w, (join (lit " ") (map (rjust w) e)), k. split; auto. split.
  - assert (B : forall k, In k c -> length (NamesModel.py_str (N.of_nat k)) <= w) by (intros k' Hk'; apply M2; unfold e; rewrite map_map; apply in_map_iff; exists k'; auto).
    unfold e. clearbody w. clear - B Hc. induction c as [|a [|b c] IH]; [congruence| |].
    + constructor. apply rjust_padded, B. left; auto.
    + cbn [map join]. constructor; [apply rjust_padded, B; left; auto|]. apply IH; [discriminate|]. intros k Hk. apply B. right; auto.
  - split; auto. exists []. repeat split; auto. intros a [].
Qed.
Lemma token_inj : forall pad pad' n n' e e', (forall a, In a pad -> a = 32%N) -> (forall a, In a pad' -> a = 32%N) -> digits n -> digits n' ->
  (e = [] \/ exists r, e = 32%N :: r) -> (e' = [] \/ exists r, e' = 32%N :: r) -> pad ++ n ++ e = pad' ++ n' ++ e' -> n = n' /\ e = e'.
Proof.
  intros pad. induction pad as [|a pad IH]; intros pad' n n' e e' P P' D D' He He' Q.
  - assert (pad' = []) as ->.
    { destruct pad' as [|b pad']; auto. destruct D as [D1 D2]. destruct n as [|c n]; [congruence|]. cbn in Q. injection Q as Q1 Q2. exfalso.
      apply (proj1 (D2 c (or_introl eq_refl))). rewrite Q1. apply P'. left; auto. }
    cbn [app] in Q. destruct D as [_ D], D' as [_ D']. clear P P'. revert n' D' Q. induction n as [|c n IHn]; intros [|c' n'] D' Q; cbn [app] in Q; auto.
    + exfalso. destruct He as [->|[r ->]]; [discriminate|]. injection Q as Q1 Q2. apply (proj1 (D' c' (or_introl eq_refl))). auto.
    + exfalso. destruct He' as [->|[r ->]]; [discriminate|]. injection Q as Q1 Q2. apply (proj1 (D c (or_introl eq_refl))). auto.
    + injection Q as -> Q. destruct (IHn (fun a H => D a (or_intror H)) n' (fun a H => D' a (or_intror H)) Q) as [-> ->]. auto.
  - destruct pad' as [|b pad'].
    + destruct D' as [D1 D2]. destruct n' as [|c n']; [congruence|]. cbn in Q. injection Q as Q1 Q2. exfalso.
      apply (proj1 (D2 c (or_introl eq_refl))). rewrite <- Q1. apply P. left; auto.
    + cbn in Q. injection Q as _ Q. apply (IH pad' n n' e e'); auto; intros; [apply P | apply P']; right; auto.
Qed.
Lemma num_inj : forall k k', NamesModel.py_str (N.of_nat k) = NamesModel.py_str (N.of_nat k') -> k = k'.
Proof. intros k k' E. apply (f_equal NamesModel.py_int) in E. rewrite !NamesHalt.py_int_str in E. lia. Qed.
Lemma spaced_inj : forall w c r, spaced w c r -> forall w' c', spaced w' c' r -> c = c'.
Proof.
  assert (T : forall w k s w' k' s' e e', padded w k s -> padded w' k' s' -> (e = [] \/ exists r, e = 32%N :: r) -> (e' = [] \/ exists r, e' = 32%N :: r) -> s ++ e = s' ++ e' -> k = k' /\ e = e').
  { intros w k s w' k' s' e e' (pad & -> & P & _) (pad' & -> & P' & _) He He' Q. rewrite <- !app_assoc in Q.
    destruct (token_inj _ _ _ _ _ _ P P' (num_digits k) (num_digits k') He He' Q) as [E ->]. split; auto. apply num_inj; auto. }
  intros w c r H. induction H as [k s P|k s c r P H IH]; intros w' c' H'; inversion H' as [k' s' P' E1 E2|k' s' c1 r' P' H1 E1 E2]; subst.
  - destruct (T _ _ _ _ _ _ [] [] P P' (or_introl eq_refl) (or_introl eq_refl) eq_refl) as [-> _]; auto.
  - exfalso. destruct (T _ _ _ _ _ _ [] (lit " " ++ r') P P') as [_ E]; auto; [right; exists r'; auto | rewrite app_nil_r; auto | discriminate].
  - exfalso. destruct (T _ _ _ _ _ _ (lit " " ++ r) [] P P') as [_ E]; auto; [right; exists r; auto | rewrite app_nil_r; auto | discriminate].
  - destruct (T _ _ _ _ _ _ (lit " " ++ r) (lit " " ++ r') P P') as [-> E]; auto; [right; exists r; auto | right; exists r'; auto|].
    cbn in E. injection E as ->. f_equal. eapply IH; eauto.
Qed.
Lemma label_inj : forall d d' h h' j j' txt, (forall c, In c h -> c <> 91%N) -> (forall c, In c h' -> c <> 91%N) -> label d h j txt -> label d' h' j' txt ->
  h = h' /\ (d = d' -> elements d <> 1 -> j = j').
Proof.
  intros d d' h h' j j' txt Hh Hh' L L'.
  assert (S : forall c h h' w row r, h = h' ++ lit "[[" ++ row -> In c h -> (forall c, In c h -> c <> 91%N) -> spaced w r row -> False).
  { intros c h0 h0' w row r -> _ H _. apply (H 91%N); auto. apply in_or_app. right. left. auto. }
  unfold label in *. destruct (Nat.eq_dec (elements d) 1) as [E|N].
  - rewrite E in L. subst txt. destruct (Nat.eq_dec (elements d') 1) as [E'|N'].
    + rewrite E' in L'. split; auto. congruence.
    + assert (L2 : exists c w row k, place d' j' c /\ spaced w c row /\ In k c /\ padded w k (NamesModel.py_str (N.of_nat k)) /\ h = h' ++ lit "[[" ++ row ++ lit "]]") by (destruct (elements d') as [|[|m]]; [|congruence|]; auto).
      destruct L2 as (c & w & row & k & _ & _ & _ & _ & ->). exfalso. apply (Hh 91%N); auto. apply in_or_app. right. left. auto.
  - assert (L1 : exists c w row k, place d j c /\ spaced w c row /\ In k c /\ padded w k (NamesModel.py_str (N.of_nat k)) /\ txt = h ++ lit "[[" ++ row ++ lit "]]") by (destruct (elements d) as [|[|m]]; [|congruence|]; auto).
    destruct L1 as (c & w & row & k & Pl & Sp & _ & _ & ->). destruct (Nat.eq_dec (elements d') 1) as [E'|N'].
    + rewrite E' in L'. exfalso. apply (Hh' 91%N); auto. rewrite <- L'. apply in_or_app. right. left. auto.
    + assert (L2 : exists c w row' k, place d' j' c /\ spaced w c row' /\ In k c /\ padded w k (NamesModel.py_str (N.of_nat k)) /\ h ++ lit "[[" ++ row ++ lit "]]" = h' ++ lit "[[" ++ row' ++ lit "]]") by (destruct (elements d') as [|[|m]]; [|congruence|]; auto).
      destruct L2 as (c' & w' & row' & k' & Pl' & Sp' & _ & _ & E). change (lit "[[") with (91%N :: [91%N]) in E. cbn [app] in E. apply split_at in E as [-> E]; auto. split; auto.
      injection E as E. apply app_inv_tail in E. subst row'. intros <- _. assert (c = c') as <- by (eapply spaced_inj; eauto).
      destruct Pl as (_ & l & Nd & Hl & ->), Pl' as (_ & l' & Nd' & Hl' & ->). f_equal. apply Nat.le_antisymm; apply NoDup_incl_length; auto; intros z Hz; [apply Hl', Hl | apply Hl, Hl']; auto.
Qed.
