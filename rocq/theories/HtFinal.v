(** The properties of the HTML. *)
From Coq Require Import String List ZArith NArith Bool Arith Lia.
From Verif Require NamesModel NamesSpec NamesProofs NamesHalt.
From Verif Require Import NpModel NpProofs IndexOpsModel IndexOpsSpec IndexOpsProofs PzModel PzSpec PzTree PzStruct PzLink PzWalk PzMem PzIo PzInv PzConn PzFix PzLinkMem PzPres PzUnlink PzTraverse PzNotify PzNew PzCmd PzInit PzCons PzVal PzOpt PzRandom PzHist PzOrder PzGrad PzKeep PzFinal.
From Verif Require Import RavelModel RavelSpec RavelProofs ConcatModel ConcatSpec ConcatProofs ConcatFinal FlatModel FlatSpec FlatProofs FlatLabels FlatFinal FlatFind PrModel PrSpec PrProofs PrFinal PrParts PrLast HtModel HtSpec HtProofs.
Import ListNotations.
Local Open Scope list_scope.
Local Open Scope Z_scope.

(** ** Plain text *)
Lemma name_plain : forall n b, NamesModel.adjust n = Some b -> plain n.
Proof.
  intros n b E a Ha. assert (C : NamesSpec.convertible n).
  { apply (NamesProofs.re_name_translate (length n)); auto. rewrite NamesProofs.adjust_translate in E. destruct (NamesModel.re_name (NamesSpec.translate n)); [auto | discriminate]. }
  destruct C as (c & d & Et & F & _). destruct (N.eq_dec a 41) as [->|Na]; [split; [|split]; discriminate|].
  assert (Hi : In a (filter (fun a => negb (N.eqb a 41)) n)) by (apply filter_In; split; auto; apply negb_true_iff, N.eqb_neq; auto).
  assert (Hc : In a (c :: d) \/ a = 10%N).
  { destruct Et as [Et|Et]; rewrite Et in Hi; [auto|]. destruct Hi as [->|Hi]; [left; left; auto|]. apply in_app_or in Hi as [Hi|[<-|[]]]; [left; right; auto | auto]. }
  destruct Hc as [Hc| ->]; [|split; [|split]; discriminate]. rewrite Forall_forall in F. destruct (F a Hc) as [L|[D|I0]].
  - unfold NamesSpec.letter in L. lia.
  - unfold NamesSpec.digit in D. lia.
  - vm_compute in I0. repeat (destruct I0 as [<-|I0]; [split; [|split]; discriminate|]). contradiction.
Qed.

Lemma form_plain' : forall nm x b, form nm x b -> plain b.
Proof. intros nm x b F. apply (name_plain b b). apply (NamesProofs.adjust_idem (nm x)). exact F. Qed.
Lemma full_plain : forall t nm x h, full_name t nm x h -> plain h.
Proof.
  intros t nm x h F. induction F as [x b E F|x y a b Hk F IH Fb]; [eapply form_plain'; eauto|]. apply plain_app; auto. apply plain_app; [apply plainb; reflexivity | eapply form_plain'; eauto].
Qed.
Lemma num_plain : forall k, plain (NamesModel.py_str (N.of_nat k)).
Proof.
  intros k a Ha. destruct (NamesHalt.py_str_digits (N.of_nat k)) as [_ H2]. rewrite forallb_forall in H2. specialize (H2 a Ha).
  unfold NamesModel.is_digit, NamesModel.in_range in H2. apply andb_prop in H2 as [H1 H2]. apply N.leb_le in H1, H2. lia.
Qed.
Lemma rjust_plain : forall w a, plain a -> plain (rjust w a).
Proof. intros w a H. apply plain_app; auto. apply plain_blank, blank_repeat. Qed.
Lemma ljust_plain : forall w a, plain a -> plain (ljust w a).
Proof. intros w a H. apply plain_app; auto. apply plain_blank, blank_repeat. Qed.
Lemma centre_plain : forall w a, plain a -> plain (centre w a).
Proof. intros w a H. apply plain_app; [apply plain_blank, blank_repeat|]. apply plain_app; auto. apply plain_blank, blank_repeat. Qed.
Lemma shape_plain : forall d, plain (shape_str d).
Proof.
  assert (G : forall d, plain (lit "(" ++ join (lit ", ") (map num d) ++ lit ")")).
  { intros d. apply plain_app; [apply plainb; reflexivity|]. apply plain_app; [|apply plainb; reflexivity]. apply plain_join; [apply plainb; reflexivity|]. intros a Ha. apply in_map_iff in Ha as (k & <- & _). apply num_plain. }
  intros [|n [|m d]]; [apply (G []) | | apply (G (n :: m :: d))]. cbn [shape_str]. apply plain_app; [apply plainb; reflexivity|]. apply plain_app; [apply num_plain | apply plainb; reflexivity].
Qed.
Lemma row_plain : forall c, plain (row_str c).
Proof.
  intros c. unfold row_str. apply plain_app; [apply plainb; reflexivity|]. apply plain_app; [|apply plainb; reflexivity]. apply plain_join; [apply plainb; reflexivity|].
  intros a Ha. apply in_map_iff in Ha as (b & <- & Hb). apply in_map_iff in Hb as (k & <- & _). apply rjust_plain, num_plain.
Qed.
Definition cells_plain (c : cells) : Prop := plain (fst (fst c)) /\ plain (snd (fst c)) /\ plain (snd c).

(** ** Rows *)
Lemma between_ok : forall t1 t2 t3 t4 w1 w2 w3 c, (length (fst (fst c)) <= w1)%nat -> (length (snd (fst c)) <= w2)%nat -> (length (snd c) <= w3)%nat ->
  cell_line t1 t2 t3 t4 w1 w2 w3 c (between t1 t2 t3 t4 w1 w2 w3 c).
Proof.
  intros t1 t2 t3 t4 w1 w2 w3 [[a b] d] H1 H2 H3. cbn [fst snd] in *. exists (ljust w1 a), (rjust w2 b), (centre w3 d). cbn [fst snd]. split; [apply ljust_ok; auto|]. split; [apply rjust_ok; auto|]. split; [apply centre_ok; auto|].
  unfold between. rewrite <- !app_assoc. reflexivity.
Qed.
Lemma between_any : forall t1 t2 t3 t4 w1 w2 w3 c, (length (fst (fst c)) <= w1)%nat -> (length (snd c) <= w3)%nat ->
  cell_line t1 t2 t3 t4 w1 (Nat.max w2 (length (snd (fst c)))) w3 c (between t1 t2 t3 t4 w1 w2 w3 c).
Proof.
  intros t1 t2 t3 t4 w1 w2 w3 [[a b] d] H1 H3. cbn [fst snd] in *. exists (ljust w1 a), (rjust w2 b), (centre w3 d). cbn [fst snd]. split; [apply ljust_ok; auto|]. split; [apply rjust_any|]. split; [apply centre_ok; auto|].
  unfold between. rewrite <- !app_assoc. reflexivity.
Qed.
Lemma between_tags : forall t1 t2 t3 t4 g1 g2 g3 g4 w1 w2 w3 c, tags (lit t1) g1 -> tags (lit t2) g2 -> tags (lit t3) g3 -> tags (lit t4) g4 -> cells_plain c ->
  tags (between t1 t2 t3 t4 w1 w2 w3 c) (g1 ++ g2 ++ g3 ++ g4).
Proof.
  intros t1 t2 t3 t4 g1 g2 g3 g4 w1 w2 w3 [[a b] d] T1 T2 T3 T4 (P1 & P2 & P3). cbn [fst snd] in *. unfold between. apply tags_app; auto.
  apply (tags_app _ []); [apply tags_plain, plain_app; [apply plainb; reflexivity | apply ljust_plain; auto]|]. apply tags_app; auto.
  apply (tags_app _ []); [apply tags_plain, rjust_plain; auto|]. apply tags_app; auto. apply (tags_app _ []); [apply tags_plain, centre_plain; auto | auto].
Qed.
Definition head_tags : list str := map NamesModel.lit ["tr"; "th"; "b"; "/b"; "/th"; "th"; "b"; "/b"; "/th"; "th"; "b"; "/b"; "/th"; "/tr"]%string.
Definition row_tags (k : string) : list str := [lit "tr"; lit "td class=tg-left"; lit "/td"; lit "td class=tg-right"; lit "/td"; lit "td class=" ++ lit k; lit "/td"; lit "/tr"].
Lemma head_row_tags : forall w1 w2 w3 c, cells_plain c -> tags (head_row w1 w2 w3 c) head_tags.
Proof.
  intros w1 w2 w3 c P. apply (between_tags _ _ _ _ (map NamesModel.lit ["tr"; "th"; "b"]%string) (map NamesModel.lit ["/b"; "/th"; "th"; "b"]%string) (map NamesModel.lit ["/b"; "/th"; "th"; "b"]%string) (map NamesModel.lit ["/b"; "/th"; "/tr"]%string)); auto; apply rd_ok; vm_compute; reflexivity.
Qed.
Lemma summary_row_tags : forall w1 w2 w3 c, cells_plain c -> tags (summary_row w1 w2 w3 c) (row_tags "tg-center").
Proof.
  intros w1 w2 w3 c P. apply (between_tags _ _ _ _ (map NamesModel.lit ["tr"; "td class=tg-left"]%string) (map NamesModel.lit ["/td"; "td class=tg-right"]%string) (map NamesModel.lit ["/td"; "td class=tg-center"]%string) (map NamesModel.lit ["/td"; "/tr"]%string)); auto; apply rd_ok; vm_compute; reflexivity.
Qed.
Lemma param_row_tags : forall w1 w2 w3 c, cells_plain c -> tags (param_row w1 w2 w3 c) (row_tags "tg-left").
Proof.
  intros w1 w2 w3 c P. apply (between_tags _ _ _ _ (map NamesModel.lit ["tr"; "td class=tg-left"]%string) (map NamesModel.lit ["/td"; "td class=tg-right"]%string) (map NamesModel.lit ["/td"; "td class=tg-left"]%string) (map NamesModel.lit ["/td"; "/tr"]%string)); auto; apply rd_ok; vm_compute; reflexivity.
Qed.
Ltac kn := cbn; tauto.
Lemma head_closed : closed head_tags.
Proof.
  assert (B : closed (map NamesModel.lit ["th"; "b"; "/b"; "/th"]%string)).
  { apply (closed_elem (lit "th") (lit "th") (map NamesModel.lit ["b"; "/b"]%string)); [kn | left; auto|]. apply (closed_elem (lit "b") (lit "b") []); [kn | left; auto | constructor]. }
  apply (closed_elem (lit "tr") (lit "tr") (map NamesModel.lit ["th"; "b"; "/b"; "/th"; "th"; "b"; "/b"; "/th"; "th"; "b"; "/b"; "/th"]%string)); [kn | left; auto|].
  apply (closed_app (map NamesModel.lit ["th"; "b"; "/b"; "/th"]%string)); auto. apply (closed_app (map NamesModel.lit ["th"; "b"; "/b"; "/th"]%string)); auto.
Qed.
Lemma row_closed : forall k, closed (row_tags k).
Proof.
  intros k. assert (B : forall c, closed [lit "td class=" ++ c; lit "/td"]).
  { intros c. apply (closed_elem (lit "td") (lit "td class=" ++ c) []); [kn | right; exists (lit "class=" ++ c); reflexivity | constructor]. }
  apply (closed_elem (lit "tr") (lit "tr") [lit "td class=tg-left"; lit "/td"; lit "td class=tg-right"; lit "/td"; lit "td class=" ++ lit k; lit "/td"]); [kn | left; auto|].
  apply (closed_app [lit "td class=" ++ lit "tg-left"; lit "/td"]); auto. apply (closed_app [lit "td class=" ++ lit "tg-right"; lit "/td"]); auto.
Qed.
Lemma join_tags : forall l gs, Forall2 tags l gs -> tags (join nl l) (concat gs).
Proof.
  intros l gs F. induction F as [|a g l gs T F IH]; [constructor; apply plain_nil|]. destruct F as [|b g' l gs T' F]; [cbn [join concat]; rewrite app_nil_r; auto|].
  change (join nl (a :: b :: l)) with (a ++ nl ++ join nl (b :: l)). change (concat (g :: g' :: gs)) with (g ++ [] ++ concat (g' :: gs)). apply tags_app; auto. apply tags_app; auto. constructor. apply plainb. reflexivity.
Qed.
Lemma closed_concat : forall gs, Forall closed gs -> closed (concat gs).
Proof. intros gs F. induction F; cbn [concat]; [constructor | apply closed_app; auto]. Qed.
Lemma f2_map : forall (A B : Type) (R : A -> B -> Prop) (f : A -> B) l, (forall a, In a l -> R a (f a)) -> Forall2 R l (map f l).
Proof. intros A B R f l H. induction l as [|a l IH]; cbn [map]; constructor; [apply H; left; auto | apply IH; intros; apply H; right; auto]. Qed.
Lemma rows_tags : forall (f : cells -> str) g r, (forall c, In c r -> tags (f c) g) -> Forall2 tags (map f r) (repeat g (length r)).
Proof. intros f g r H. induction r as [|c r IH]; cbn [map repeat length]; constructor; [apply H; left; auto | apply IH; intros; apply H; right; auto]. Qed.
Lemma rows_count : forall n g k, count n (concat (repeat g k)) = (k * count n g)%nat.
Proof. intros n g k. induction k as [|k IH]; auto. cbn [repeat concat]. rewrite count_app, IH. auto. Qed.
Definition style_tags : list str := map NamesModel.lit ["style type=""text/css"""; "/style"]%string.
Lemma style_closed : closed style_tags.
Proof. apply (closed_elem (lit "style") (lit "style type=""text/css""") []); [kn | right; exists (lit "type=""text/css"""); reflexivity | constructor]. Qed.
Lemma param_style_tags : tags param_style style_tags.
Proof. apply rd_ok. vm_compute. reflexivity. Qed.
Lemma summary_style_tags : tags summary_style style_tags.
Proof. apply rd_ok. vm_compute. reflexivity. Qed.
Lemma model_style_tags : tags model_style style_tags.
Proof. apply rd_ok. vm_compute. reflexivity. Qed.
Global Opaque param_style summary_style model_style.
