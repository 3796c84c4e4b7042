(** The properties of names in a hierarchy. *)
From Coq Require Import String List ZArith NArith Bool Arith Lia FinFun.
From Verif Require NamesModel NamesSpec NamesProofs NamesHalt NamesFinal.
From Verif Require Import NpModel NpProofs IndexOpsModel IndexOpsSpec IndexOpsProofs PzModel PzSpec PzTree PzStruct PzLink PzWalk PzMem PzIo PzInv PzConn PzFix PzLinkMem PzPres PzUnlink PzTraverse PzNotify PzNew PzCmd PzInit PzCons PzVal PzOpt PzRandom PzHist PzOrder PzGrad PzKeep PzFinal.
From Verif Require Import RavelModel RavelSpec RavelProofs ConcatModel ConcatSpec ConcatProofs ConcatFinal FlatModel FlatSpec FlatProofs FlatLabels.
Import ListNotations.
Local Open Scope list_scope.
Local Open Scope Z_scope.

(** ** The list of all names *)
Section Cat.
Variables (A : Type) (t : struct) (g : oid -> list A).
Hypothesis W : swf t.
Lemma flat_cat : forall (F : oid -> list oid) l, concat (map g (flat_map F l)) = concat (map (fun c => concat (map g (F c))) l).
Proof. intros F l. induction l as [|a l IH]; auto. cbn [flat_map map concat]. rewrite map_app, concat_app, IH. auto. Qed.
Lemma kids_cat : forall (G : oid -> list A) l, (forall c, In c l -> Z.of_nat (length (G c)) = size t c) ->
  Z.of_nat (length (concat (map G l))) = sum_sizes t l /\
  forall i c k, nth_error l i = Some c -> 0 <= k < size t c -> nth_error (concat (map G l)) (Z.to_nat (sum_sizes t (firstn i l) + k)) = nth_error (G c) (Z.to_nat k).
Proof.
  intros G l. induction l as [|a l IH]; intros H; [split; [auto | intros [|i] c k Hi; discriminate]|].
  destruct IH as [I1 I2]; [intros; apply H; right; auto|]. specialize (H a (or_introl eq_refl)). cbn [map concat]. split.
  - rewrite app_length. unfold sum_sizes in *. cbn [map fold_right]. lia.
  - intros [|i] c k Hi Hk; cbn [nth_error firstn] in *.
    + injection Hi as <-. change (sum_sizes t []) with 0. rewrite Z.add_0_l. apply nth_error_app1. lia.
    + pose proof (sum_sizes_nonneg t W (firstn i l)) as Hs. replace (sum_sizes t (a :: firstn i l) + k) with (size t a + (sum_sizes t (firstn i l) + k)) by (unfold sum_sizes; cbn [map fold_right]; lia).
      rewrite nth_error_app2 by lia. replace (Z.to_nat (size t a + (sum_sizes t (firstn i l) + k)) - length (G a))%nat with (Z.to_nat (sum_sizes t (firstn i l) + k)) by lia. auto.
Qed.
Lemma tree_cat : forall f tr, krep t tr -> (height tr <= f)%nat -> (forall p, is_leaf t p = true -> part t (root tr) p -> Z.of_nat (length (g p)) = size t p) ->
  Z.of_nat (length (concat (map g (flattened f t (root tr))))) = size t (root tr) /\
  forall y o n j, below t (root tr) y o n -> is_leaf t y = true -> 0 <= j < size t y ->
    nth_error (concat (map g (flattened f t (root tr)))) (Z.to_nat (o + j)) = nth_error (g y) (Z.to_nat j).
Proof.
  induction f as [|f IH]; intros [x ts] K Hh Hg; [simpl in Hh; lia|]. cbn [root] in *. cbn [flattened]. destruct (is_leaf t x) eqn:El.
  - cbn [map concat]. rewrite app_nil_r. split; [apply Hg; auto; apply above_refl|]. intros y o n j B Hy Hj.
    assert (Ek : kids t x = []). { unfold is_leaf in El. destruct (kind t x) as [m|] eqn:Ekd; [|discriminate]. apply (wf_leaf _ W x m Ekd). }
    inversion B as [|? i c ? ? ? Hi]; subst; auto. rewrite Ek in Hi. destruct i; discriminate.
  - assert (Hc : forall c, In c ts -> (height c <= f)%nat).
    { intros c Hc. simpl in Hh. assert (height c <= fold_right Nat.max 0 (map height ts))%nat; [|lia].
      clear - Hc. induction ts as [|d l IHl]; [contradiction|]. simpl. destruct Hc as [->|Hc]; [lia | specialize (IHl Hc); lia]. }
    assert (Hk : forall c, In c (kids t x) -> part t x c).
    { intros c Hi. apply In_nth_error in Hi as [i Hi]. exists (sum_sizes t (firstn i (kids t x)) + 0), 1%nat. eapply below_kid; eauto. constructor. }
    assert (Q : forall c, In c (kids t x) -> Z.of_nat (length (concat (map g (flattened f t c)))) = size t c /\
      forall y o n j, below t c y o n -> is_leaf t y = true -> 0 <= j < size t y -> nth_error (concat (map g (flattened f t c))) (Z.to_nat (o + j)) = nth_error (g y) (Z.to_nat j)).
    { intros c Hi. pose proof (Hk c Hi) as Hp. rewrite (krep_kids _ _ _ K) in Hi. apply in_map_iff in Hi as (d & <- & Hd). apply IH; auto; [eapply krep_child; eauto|].
      intros p Hl P. apply Hg; auto. eapply above_trans; eauto. }
    rewrite flat_cat. destruct (kids_cat (fun c => concat (map g (flattened f t c))) (kids t x)) as [L N]; [intros c Hi; apply Q; auto|]. split.
    + rewrite L. symmetry. apply (wf_node _ W). unfold is_leaf in El. destruct (kind t x); [discriminate | auto].
    + intros y o n j B Hy Hj. inversion B as [|? i c ? o' n' Hi B']; subst; [congruence|].
      pose proof (below_range _ _ _ _ _ W B') as [R1 R2]. rewrite <- Z.add_assoc, (N i c) by (auto; lia). destruct (Q c) as [_ Q2]; [eapply nth_error_In; eauto|]. eapply Q2; eauto.
Qed.
End Cat.
Lemma all_of_ok : forall (A B : Type) (g : A -> fres B) (k : A -> B) l, (forall a, In a l -> g a = Got (k a)) -> all_of g l = Got (map k l).
Proof. intros A B g k l. induction l as [|a l IH]; intros H; auto. cbn [all_of map]. rewrite (H a) by (left; auto). cbn [fbind]. rewrite IH by (intros; apply H; right; auto). auto. Qed.
Lemma elem_names_ok : forall t nm shp p h, swf t -> full_name t nm p h -> shp p <> [] -> size t p = Z.of_nat (elements (shp p)) -> 0 < size t p ->
  exists l, elem_names t nm shp p = Got l /\ Z.of_nat (length l) = size t p /\ forall j, 0 <= j < size t p -> exists txt, label (shp p) h j txt /\ nth_error l (Z.to_nat j) = Some txt.
Proof.
  intros t nm shp p h W Fn Hd Hs Hp. unfold elem_names. rewrite (proj2 (hname_full t nm p h W) Fn). cbn [fbind]. destruct (Z.ltb_spec 1 (size t p)) as [L|L].
  - rewrite whole_indices by auto. cbn [of_res fbind]. eexists. split; [reflexivity|]. split; [rewrite map_length, coords_len; auto|]. intros j Hj.
    assert (Hl : (Z.to_nat j < length (coords (shp p)))%nat) by (rewrite coords_len; lia). apply nth_error_Some in Hl. destruct (nth_error (coords (shp p)) (Z.to_nat j)) as [c|] eqn:Ec; [|congruence].
    pose proof (coords_place _ _ _ Hd Ec) as Pl. assert (Hc : c <> []). { destruct Pl as [V _]. intros ->. inversion V. congruence. }
    destruct (row_spaced c Hc) as (w & row & k & Er & Sp & Hk & Pk). exists (h ++ lit "[" ++ row_str c ++ lit "]"). split; [|rewrite nth_error_map, Ec; auto].
    unfold label. assert (G : exists c' w row k, place (shp p) j c' /\ spaced w c' row /\ In k c' /\ padded w k (NamesModel.py_str (N.of_nat k)) /\ h ++ lit "[" ++ row_str c ++ lit "]" = h ++ lit "[[" ++ row ++ lit "]]").
    { exists c, w, row, k. split; [rewrite Z2Nat.id in Pl by lia; auto|]. split; auto. split; auto. split; auto. rewrite Er. rewrite <- !app_assoc. reflexivity. }
    destruct (elements (shp p)) as [|[|m]] eqn:Ee; [cbn in Hs; lia | cbn in Hs; lia|]. 
    exact G.
  - assert (Es : elements (shp p) = 1%nat) by lia. eexists. split; [reflexivity|]. split; [cbn; lia|]. intros j Hj. exists h. unfold label. rewrite Es. split; auto. replace (Z.to_nat j) with 0%nat by lia. auto.
Qed.
Section Names.
Context {V : Type}.
Implicit Types s : @state V.
Lemma names_all : forall s nm shp x, swf (st s) -> named (st s) nm x -> shaped (st s) shp x -> filled (st s) x ->
  exists l, parameter_names_flat nm shp s x true = Got (Flat l) /\ all_of (elem_names (st s) nm shp) (flattened (fuel (st s)) (st s) x) = Got (map (fun p => match elem_names (st s) nm shp p with Got r => r | Err _ => [] end) (flattened (fuel (st s)) (st s) x)) /\
    l = concat (map (fun p => match elem_names (st s) nm shp p with Got r => r | Err _ => [] end) (flattened (fuel (st s)) (st s) x)) /\ all_labelled (st s) nm shp x l.
Proof.
  intros s nm shp x W Nm Sh Fi. set (t := st s) in *. set (g := fun p => match elem_names t nm shp p with Got r => r | Err _ => [] end).
  assert (E : forall p, is_leaf t p = true -> part t x p -> elem_names t nm shp p = Got (g p) /\ Z.of_nat (length (g p)) = size t p /\
    exists h, full_name t nm p h /\ forall j, 0 <= j < size t p -> exists txt, label (shp p) h j txt /\ nth_error (g p) (Z.to_nat j) = Some txt).
  { intros p Hl P. destruct (named_full t nm x W Nm p) as [h Fh]; [exists x; split; [apply above_refl | auto]|]. destruct (Sh p P Hl) as [S1 S2].
    destruct (elem_names_ok t nm shp p h W Fh S1 S2 (Fi p P Hl)) as (l & El & Ll & Nl). unfold g. rewrite El. split; auto. split; auto. exists h. auto. }
  assert (Al : all_of (elem_names t nm shp) (flattened (fuel t) t x) = Got (map g (flattened (fuel t) t x))).
  { apply all_of_ok. intros p Hp. apply (flattened_ok t x p W) in Hp as [Hl P]. apply E; auto. }
  exists (concat (map g (flattened (fuel t) t x))). split.
  { unfold parameter_names_flat. fold t. rewrite Al. reflexivity. }
  split; auto. split; auto. destruct (tree_exists t W x) as (tr & <- & R & Nd).
  destruct (tree_cat _ t g W (fuel t) tr (rep_krep _ _ R) (rep_new_height _ _ W R Nd)) as [L N]; [intros; apply E; auto|].
  split; auto. intros y o n j B Hl Hj. destruct (E y Hl) as (_ & _ & h & Fh & Hh); [exists o, n; auto|]. destruct (Hh j Hj) as (txt & Lt & Nt). exists h, txt. split; auto. split; auto. rewrite (N y o n j); auto.
Qed.
Lemma names_free : forall s nm shp x ks, Inv s -> (x < next (st s))%nat -> named (st s) nm x -> shaped (st s) shp x -> filled (st s) x ->
  (par (st s) x = None /\ ready (st s) x) \/ (forall j, ~ has s x Fixed j) -> free s x ks ->
  exists l l', parameter_names_flat nm shp s x true = Got (Flat l) /\ all_labelled (st s) nm shp x l /\ parameter_names_flat nm shp s x false = Got (Flat l') /\
    length l' = length ks /\ forall i k, nth_error ks i = Some k -> nth_error l' i = nth_error l (Z.to_nat k).
Proof.
  intros s nm shp x ks H Hx Nm Sh Fi Hc [F1 F2]. pose proof (inv_st _ H) as W. pose proof (size_nonneg _ W x) as Hn.
  destruct (names_all s nm shp x W Nm Sh Fi) as (l & El & Al & Ll & Lb). exists l. pose proof (proj1 Lb) as Len.
  assert (Q : parameter_names_flat nm shp s x false = if nonempty (cons_get (ios s) x Fixed) then match fix_ s x with Some mk => if (length mk =? length l)%nat then Got (Flat (select mk l)) else Err (Py IndexError) | None => Got (Deep l) end else Got (Flat l)).
  { unfold parameter_names_flat. rewrite Al. cbn [fbind negb andb]. rewrite <- Ll. reflexivity. }
  destruct (nonempty (cons_get (ios s) x Fixed)) eqn:En.
  - assert (Hex : exists j, has s x Fixed j) by (apply nonempty_spec; exact En). destruct Hc as [[Ep Rx]|Nf]; [|destruct Hex as [j Hj]; exfalso; exact (Nf j Hj)].
    pose proof (inv_fix _ H x Hx Ep Rx) as Mk. unfold mask_ok in Mk. destruct (fix_ s x) as [mk|]; [|exfalso; destruct Hex as [j Hj]; exact (Mk j Hj)].
    destruct Mk as (Lm & _ & Nk). rewrite (proj2 (Nat.eqb_eq (length mk) (length l))) in Q by lia. exists (select mk l). split; auto. split; auto. split; auto.
    assert (Ek : ks = select mk (arange (size (st s) x))) by (apply (mask_free mk _ (fun j => ~ has s x Fixed j)); auto).
    assert (La : length (arange (size (st s) x)) = length l) by (rewrite arange_len; lia).
    split; [rewrite Ek; symmetry; apply select_length; auto|].
    intros i k Hi. rewrite Ek in Hi. destruct (select_In _ mk (arange (size (st s) x)) i k ltac:(lia) Hi) as (q & Hq & Hk & <-).
    rewrite select_nth by (auto; lia). rewrite arange_nth_error in Hk. destruct (Nat.ltb_spec q (Z.to_nat (size (st s) x))); [|discriminate]. injection Hk as <-. rewrite Nat2Z.id. auto.
  - exists l. split; auto. split; auto. split; auto. assert (Hno : forall j, ~ has s x Fixed j).
    { intros j Hj. assert (Ht : nonempty (cons_get (ios s) x Fixed) = true) by (apply nonempty_spec; exists j; exact Hj). congruence. }
    assert (Ek : ks = arange (size (st s) x)).
    { apply increasing_unique; auto; [apply arange_increasing|]. intros k. rewrite F2, arange_In. split; [tauto | intros Hk; split; auto]. }
    subst ks. split; [rewrite arange_len; lia|]. intros i k Hi. rewrite arange_nth_error in Hi. destruct (Nat.ltb_spec i (Z.to_nat (size (st s) x))); [|discriminate]. injection Hi as <-. rewrite Nat2Z.id. auto.
Qed.
End Names.
Lemma labelled_nodup : forall t nm shp x l, swf t -> shaped t shp x -> told_apart t nm x -> all_labelled t nm shp x l -> NoDup l.
Proof.
  intros t nm shp x l W Sh Ta [Len Lb]. apply NoDup_nth_error. intros a b Ha E.
  assert (At : forall a txt, nth_error l a = Some txt -> exists y o n j h, below t x y o n /\ is_leaf t y = true /\ 0 <= j < size t y /\ full_name t nm y h /\ label (shp y) h j txt /\ a = Z.to_nat (o + j)).
  { intros a0 txt Ea. assert (H0 : (a0 < length l)%nat) by (apply nth_error_Some; congruence).
    destruct (cover t x (Z.of_nat a0) W) as (y & o & n & Hl & B & Hr); [lia|]. destruct (Lb y o n (Z.of_nat a0 - o) B Hl) as (h & txt' & Fh & Lt & Nt); [lia|].
    exists y, o, n, (Z.of_nat a0 - o), h. assert (Ek : Z.to_nat (o + (Z.of_nat a0 - o)) = a0) by lia. rewrite Ek, Ea in Nt. injection Nt as <-. repeat (split; auto). lia. lia. }
  destruct (nth_error l a) as [txt|] eqn:Ea; [|apply nth_error_Some in Ha; congruence]. symmetry in E.
  destruct (At a txt Ea) as (y & o & n & j & h & B & Hl & Hj & Fh & Lt & ->). destruct (At b txt E) as (y' & o' & n' & j' & h' & B' & Hl' & Hj' & Fh' & Lt' & ->).
  destruct (label_inj _ _ _ _ _ _ _ (full_no_bracket _ _ _ _ Fh) (full_no_bracket _ _ _ _ Fh') Lt Lt') as [<- Qj].
  assert (y = y') as <- by (apply (full_inj t nm x y y' h); auto; [exists o, n | exists o', n']; auto).
  destruct (below_unique _ _ _ _ _ _ _ W B B') as [<- _]. destruct (Nat.eq_dec (elements (shp y)) 1) as [E1|N1].
  - destruct (Sh y) as [_ S2]; [exists o, n; auto | auto|]. f_equal. lia.
  - rewrite (Qj eq_refl N1). auto.
Qed.
