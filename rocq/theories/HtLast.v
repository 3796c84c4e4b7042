(** The properties of the HTML, for the states that calls lead to. *)
From Coq Require Import String List ZArith NArith Bool Arith Lia.
From Verif Require NamesModel NamesSpec NamesProofs NamesHalt.
From Verif Require Import NpModel NpProofs IndexOpsModel IndexOpsSpec IndexOpsProofs PzModel PzSpec PzTree PzStruct PzLink PzWalk PzMem PzIo PzInv PzConn PzFix PzLinkMem PzPres PzUnlink PzTraverse PzNotify PzNew PzCmd PzInit PzCons PzVal PzOpt PzRandom PzHist PzOrder PzGrad PzKeep PzFinal.
From Verif Require Import RavelModel RavelSpec RavelProofs ConcatModel ConcatSpec ConcatProofs ConcatFinal FlatModel FlatSpec FlatProofs FlatLabels FlatFinal FlatFind PrModel PrSpec PrProofs PrFinal PrParts PrLast HtModel HtSpec HtProofs HtFinal.
Import ListNotations.
Local Open Scope list_scope.
Local Open Scope Z_scope.

Lemma parted_plain : forall sep l r, plain sep -> parted sep l r -> (forall a, In a l -> plain a) -> plain r.
Proof.
  intros sep l r Hs P. induction P as [|a|a b l r P IH]; intros H; [apply plain_nil | apply H; left; auto|]. apply plain_app; [apply H; left; auto|]. apply plain_app; auto. apply IH. intros; apply H; right; auto.
Qed.
Section Raw.
Variable t : struct.
Variable nm : oid -> str.
Lemma raw_below : forall x y, In y (kids t x) -> forall z n, raw_path t nm y z n -> raw_path t nm x z (nm y ++ lit "." ++ n).
Proof.
  intros x y Hy z n P. induction P as [z Hz|z w n P IH Hw].
  - apply raw_step with (y := y); auto. constructor; auto.
  - replace (nm y ++ lit "." ++ n ++ lit "." ++ nm w) with ((nm y ++ lit "." ++ n) ++ lit "." ++ nm w) by (rewrite <- !app_assoc; auto). eapply raw_step; eauto.
Qed.
Lemma raw_ok : forall f tr b, krep t tr -> (height tr <= f)%nat ->
  if b || is_leaf t (root tr) then Forall2 (fun z n => forall p, In (root tr) (kids t p) -> raw_path t nm p z n) (flattened f t (root tr)) (raw_names nm f t b (root tr))
  else Forall2 (raw_path t nm (root tr)) (flattened f t (root tr)) (raw_names nm f t b (root tr)).
Proof.
  induction f as [|f IH]; intros [x ts] b K Hh; [simpl in Hh; lia|]. cbn [raw_names flattened root] in *. destruct (is_leaf t x) eqn:El.
  - rewrite orb_true_r. constructor; [|constructor]. intros p Hp. constructor; auto.
  - assert (Q : Forall2 (raw_path t nm x) (flat_map (flattened f t) (kids t x)) (flat_map (raw_names nm f t true) (kids t x))).
    { assert (Q1 : forall c, In c (kids t x) -> Forall2 (raw_path t nm x) (flattened f t c) (raw_names nm f t true c)).
      { intros c Hc. assert (Hc' := Hc). rewrite (krep_kids _ _ _ K) in Hc'. apply in_map_iff in Hc' as (d & <- & Hd). pose proof (IH d true ltac:(eapply krep_child; eauto) ltac:(eapply heights; eauto)) as F.
        cbn [orb] in F. clear - F Hc. induction F; constructor; auto. }
      clear - Q1. induction (kids t x) as [|c l IHl]; [constructor|]. cbn [flat_map]. apply Forall2_app; [apply Q1; left; auto | apply IHl; intros; apply Q1; right; auto]. }
    rewrite orb_false_r. destruct b; auto. clear - Q. induction Q as [|z n l l' H F IHF]; cbn [map]; constructor; auto. intros p Hp. apply raw_below; auto.
Qed.
Lemma raw_plain : forall x, (forall y, part t x y -> plain (nm y)) -> forall y n, raw_path t nm x y n -> part t x y /\ plain n.
Proof.
  assert (Hk : forall x c, In c (kids t x) -> part t x c).
  { intros x c Hi. apply In_nth_error in Hi as [i Hi]. exists (sum_sizes t (firstn i (kids t x)) + 0)%Z, 1%nat. eapply below_kid; eauto. constructor. }
  intros x H y n P. induction P as [y Hy|y z a P [IH1 IH2] Hz]; [split; auto|]. assert (part t x z) by (eapply above_trans; eauto). split; auto. apply plain_app; auto. apply plain_app; auto. apply plainb. reflexivity.
Qed.
End Raw.

Section Last.
Context {V : Type}.
Variables tinit tf tfinv : nat -> V -> V.
Variable junk : nat -> Z -> V.
Variable nm : oid -> str.
Variable shp : oid -> list nat.
Variable pstr : prop -> str.
Variables fixed_str short_str : V -> str.
Variable array_str : list nat -> list V -> str.
Notation reachable := (reach tinit tf tfinv legal junk).
Notation summary_html := (summary_html nm shp pstr array_str).
Notation param_html := (param_html nm shp pstr fixed_str short_str).
Notation model_html := (model_html nm shp pstr array_str).
Notation raw_cells := (raw_cells nm shp pstr array_str).

Lemma raw_cells_plain : forall (s : @state V) x y c, (forall p, plain (pstr p)) -> (forall d l, plain (array_str d l)) -> named (st s) nm x -> raw_cells s x y c -> cells_plain c.
Proof.
  intros s x y [[a b] d] Pp Pa Nm (Ra & De & Co). cbn [fst snd] in *. split; [|split]; cbn [fst snd].
  - refine (proj2 (raw_plain (st s) nm x _ y a Ra)). intros z Pz. destruct (Nm z) as [n Fn]; [exists x; split; [apply above_refl | auto]|]. eapply name_plain; eauto.
  - destruct De as [(_ & vals & _ & _ & ->)|[_ T]]; auto. unfold tuple_text in T.
    assert (G : (exists r, parted (lit ", ") (map number (shp y)) r /\ b = lit "(" ++ r ++ lit ")") -> plain b).
    { intros (r & P & ->). apply plain_app; [apply plainb; reflexivity|]. apply plain_app; [|apply plainb; reflexivity]. apply (parted_plain (lit ", ") _ _ (plainb (lit ", ") eq_refl) P).
      intros k Hk. apply in_map_iff in Hk as (n & <- & _). apply num_plain. }
    destruct (shp y) as [|n [|m l]]; auto. subst b. apply plain_app; [apply plainb; reflexivity|]. apply plain_app; [apply num_plain | apply plainb; reflexivity].
  - destruct Co as (ps & ws & _ & _ & F & P). apply (parted_plain (lit " ") _ _ (plainb (lit " ") eq_refl) P). intros w Hw. clear P. induction F as [|p w' ps ws H F IH]; [contradiction|].
    destruct Hw as [->|Hw]; auto. destruct H as [[_ ->]|[_ ->]]; auto. apply plain_app; [apply plainb; reflexivity|]. apply plain_app; [auto | apply plainb; reflexivity].
Qed.

(** ** A Parameterized *)
Lemma html_ok : forall header (s : @state V) x b, reachable s -> (x < next (st s))%nat -> is_leaf (st s) x = false -> named (st s) nm x -> form nm x b -> shaped (st s) shp x -> has_rows shp (st s) x ->
  exists txt l r w1 w2 w3, summary_html header s x = Got txt /\ params_in_order (st s) x l /\ Forall2 (raw_cells s x) l r /\
    let head := (b ++ lit ".", lit "value", lit "constraints") in
    width_of (fun c => fst (fst c)) (head :: r) w1 /\ width_of (fun c => snd (fst c)) (head :: r) w2 /\ width_of (fun c => snd c) (head :: r) w3 /\
    txt = summary_style ++ nl ++ lit "<table class=""tg"">" ++ join nl ((if header then [head_row w1 w2 w3 head] else []) ++ map (summary_row w1 w2 w3) r) ++ nl ++ lit "</table>".
Proof.
  intros header s x b R0 Hx Nx Nm Fb Sh Hr. pose proof (reach_I tinit tf tfinv junk s R0) as H. pose proof (inv_st _ H) as W. set (t := st s) in *. destruct (tree_exists t W x) as (tr & Er & R & Nd).
  assert (K : krep t tr) by (apply rep_krep; auto). assert (Hh : (height tr <= fuel t)%nat) by (apply rep_new_height; auto).
  assert (Hp : forall y, In y (flattened (fuel t) t x) -> is_leaf t y = true /\ part t x y /\ (y < next t)%nat).
  { intros y Hy. apply flattened_ok in Hy as [Ly Py]; auto. split; auto. split; auto. eapply above_lt'; eauto. }
  pose proof (raw_ok t nm (fuel t) tr false K Hh) as Fn. rewrite Er, Nx in Fn. cbn [orb] in Fn. set (names := raw_names nm (fuel t) t false x) in *.
  set (kd := fun y => match description shp array_str s y with Got a => a | Err _ => [] end).
  assert (Hd : forall y, In y (flattened (fuel t) t x) -> description shp array_str s y = Got (kd y) /\ described shp array_str s y (kd y)).
  { intros y Hy. destruct (Hp y Hy) as (Ly & Py & Lt). destruct (Sh y Py Ly) as [S1 S2]. pose proof (described_ok shp array_str s y H Lt Ly S1 S2) as D. unfold kd. destruct (description shp array_str s y) as [a|e]; auto.
    destruct D as [_ [d Ed]]. destruct (Hr y Py Ly) as (n & d' & Ed'). congruence. }
  assert (Ed : gather (fuel t) t (description shp array_str s) x = Got (map kd (flattened (fuel t) t x))).
  { rewrite <- Er. apply gather_ok; auto. rewrite Er. intros y Hy. apply Hd; auto. }
  assert (Ec : gather (fuel t) t (fun y => Got (property_string pstr s y)) x = Got (map (property_string pstr s) (flattened (fuel t) t x))).
  { rewrite <- Er. apply gather_ok; auto. }
  destruct (zip3_ok names (map kd (flattened (fuel t) t x)) (map (property_string pstr s) (flattened (fuel t) t x))) as (r & Ez & A & B & C).
  { rewrite map_length. eapply f2_len; eauto. } { rewrite map_length. eapply f2_len; eauto. }
  unfold HtModel.summary_html. fold t. fold names. unfold adjusted. unfold form in Fb. rewrite Fb. cbn [fbind]. rewrite Ed. cbn [fbind]. rewrite Ec. cbn [fbind]. rewrite Ez. cbn [fbind].
  set (head := (b ++ lit ".", lit "value", lit "constraints")). cbn zeta. fold head.
  eexists. exists (flattened (fuel t) t x), r. do 3 eexists. split; [reflexivity|]. split; [apply flattened_order; auto|]. split; [|split; [|split; [|split; [|reflexivity]]]].
  - apply f2_nth; [rewrite <- (map_length (fun e : cells => fst (fst e))), A; eapply f2_len; eauto|].
    intros i y c Hy Hc. assert (Hin : In y (flattened (fuel t) t x)) by (eapply nth_error_In; eauto). destruct (Hp y Hin) as (Ly & Py & Lt). unfold HtSpec.raw_cells. fold t. split; [|split].
    + destruct (nth_f2 _ _ _ _ _ Fn i y Hy) as (n & Hn & Pn). rewrite <- A, nth_error_map, Hc in Hn. cbn in Hn. injection Hn as ->. auto.
    + assert (Q : nth_error (map (fun e : cells => snd (fst e)) r) i = Some (kd y)) by (rewrite B, nth_error_map, Hy; auto). rewrite nth_error_map, Hc in Q. cbn in Q. injection Q as ->. apply Hd; auto.
    + assert (Q : nth_error (map (@snd (str * str) str) r) i = Some (property_string pstr s y)) by (rewrite C, nth_error_map, Hy; auto). rewrite nth_error_map, Hc in Q. cbn in Q. injection Q as ->. apply constraints_ok; auto.
  - rewrite <- A. apply width_widest; auto.
  - rewrite <- B. apply width_widest; auto.
  - rewrite <- C. apply width_widest; auto.
Qed.
Lemma join_parted' : forall sep l, parted sep l (join sep l).
Proof. intros. apply join_parted. Qed.
Lemma html_final : forall header (s : @state V) x b, reachable s -> (x < next (st s))%nat -> is_leaf (st s) x = false -> named (st s) nm x -> form nm x b -> shaped (st s) shp x -> has_rows shp (st s) x ->
  exists txt l r w1 w2 w3, summary_html header s x = Got txt /\ params_in_order (st s) x l /\ Forall2 (raw_cells s x) l r /\
    let head := (b ++ lit ".", lit "value", lit "constraints") in
    width_of (fun c => fst (fst c)) (head :: r) w1 /\ width_of (fun c => snd (fst c)) (head :: r) w2 /\ width_of (fun c => snd c) (head :: r) w3 /\
    exists style hd lns body, tags style [lit "style type=""text/css"""; lit "/style"] /\ txt = style ++ [10%N] ++ lit "<table class=""tg"">" ++ body ++ [10%N] ++ lit "</table>" /\
      parted [10%N] (hd ++ lns) body /\ Forall2 (heading_line w1 w2 w3) (if header then [head] else []) hd /\ Forall2 (summary_line w1 w2 w3) r lns.
Proof.
  intros header s x b R Hx Nx Nm Fb Sh Hr. destruct (html_ok header s x b R Hx Nx Nm Fb Sh Hr) as (txt & l & r & w1 & w2 & w3 & E & O & F & W1 & W2 & W3 & Et).
  exists txt, l, r, w1, w2, w3. split; auto. split; auto. split; auto. cbn zeta. split; auto. split; auto. split; auto. set (head := (b ++ lit ".", lit "value", lit "constraints")) in *.
  exists summary_style, (if header then [head_row w1 w2 w3 head] else []), (map (summary_row w1 w2 w3) r). eexists. split; [exact summary_style_tags|]. split; [exact Et|]. split; [apply join_parted'|].
  split; [destruct header; constructor; [|constructor]; apply between_ok; [apply W1 | apply W2 | apply W3]; left; auto|]. apply f2_map. intros c Hc. apply between_ok; [apply W1 | apply W2 | apply W3]; right; auto.
Qed.
Lemma html_tags : forall header (s : @state V) x txt, reachable s -> (x < next (st s))%nat -> is_leaf (st s) x = false -> named (st s) nm x -> shaped (st s) shp x -> has_rows shp (st s) x ->
  (forall p, plain (pstr p)) -> (forall d l, plain (array_str d l)) -> summary_html header s x = Got txt ->
  exists gs l, tags txt gs /\ closed gs /\ params_in_order (st s) x l /\ times (opens (lit "td")) gs (3 * length l) /\ times (opens (lit "tr")) gs (length l + if header then 1 else 0).
Proof.
  intros header s x txt R Hx Nx Nm Sh Hr Pp Pa E. destruct (Nm x) as [b Fb]; [exists x; split; apply above_refl|].
  destruct (html_ok header s x b R Hx Nx Nm Fb Sh Hr) as (txt' & l & r & w1 & w2 & w3 & E' & O & F & _ & _ & _ & Et). rewrite E in E'. injection E' as <-.
  set (head := (b ++ lit ".", lit "value", lit "constraints")) in *.
  assert (Pr : forall c, In c r -> cells_plain c). { intros c Hc. clear - F Hc Pp Pa Nm. induction F as [|y c' l r H F IH]; [contradiction|]. destruct Hc as [->|Hc]; auto. eapply raw_cells_plain; eauto. }
  assert (Ph : cells_plain head). { split; [|split]; cbn [fst snd head]; [|apply plainb; reflexivity | apply plainb; reflexivity]. apply plain_app; [eapply form_plain'; eauto | apply plainb; reflexivity]. }
  set (gb := (if header then head_tags else []) ++ concat (repeat (row_tags "tg-center") (length r))).
  assert (Tb : tags (join nl ((if header then [head_row w1 w2 w3 head] else []) ++ map (summary_row w1 w2 w3) r)) gb).
  { unfold gb. replace (if header then head_tags else []) with (concat (if header then [head_tags] else [])) by (destruct header; reflexivity). rewrite <- concat_app. apply join_tags. apply Forall2_app.
    - destruct header; constructor; [apply head_row_tags; auto | constructor].
    - apply rows_tags. intros c Hc. apply summary_row_tags; auto. }
  set (gs := style_tags ++ [lit "table class=""tg"""] ++ gb ++ [lit "/table"]).
  assert (Nc : tags nl []) by (constructor; apply plainb; reflexivity).
  exists gs, l. split; [|split; [|split; [auto|]]].
  - rewrite Et. apply tags_app; [exact summary_style_tags|]. apply (tags_app nl []); auto. apply (tags_app _ [lit "table class=""tg"""]); [apply rd_ok; reflexivity|]. apply tags_app; auto. apply (tags_app nl []); auto. apply rd_ok. reflexivity.
  - apply closed_app; [exact style_closed|]. apply (closed_elem (lit "table") (lit "table class=""tg""") gb); [cbn; tauto | right; exists (lit "class=""tg"""); reflexivity|].
    apply closed_app; [destruct header; [exact head_closed | constructor]|]. apply closed_concat. apply Forall_forall. intros g Hg. apply repeat_spec in Hg. subst g. apply row_closed.
  - assert (L : length r = length l) by (symmetry; eapply f2_len; eauto).
    assert (Q : forall n, count n gs = (count n style_tags + (count n [lit "table class=""tg"""] + ((count n (if header then head_tags else []) + length l * count n (row_tags "tg-center")) + count n [lit "/table"])))%nat).
    { intros n. unfold gs, gb. rewrite !count_app, rows_count, L. reflexivity. }
    split.
    + replace (3 * length l)%nat with (count (lit "td") gs); [apply times_count|]. rewrite Q. replace (count (lit "td") (if header then head_tags else [])) with 0%nat by (destruct header; reflexivity).
      change (count (lit "td") (row_tags "tg-center")) with 3%nat. change (count (lit "td") style_tags) with 0%nat. change (count (lit "td") [lit "table class=""tg"""]) with 0%nat. change (count (lit "td") [lit "/table"]) with 0%nat. lia.
    + replace (length l + if header then 1 else 0)%nat with (count (lit "tr") gs); [apply times_count|]. rewrite Q. replace (count (lit "tr") (if header then head_tags else [])) with (if header then 1 else 0)%nat by (destruct header; reflexivity).
      change (count (lit "tr") (row_tags "tg-center")) with 1%nat. change (count (lit "tr") style_tags) with 0%nat. change (count (lit "tr") [lit "table class=""tg"""]) with 0%nat. change (count (lit "tr") [lit "/table"]) with 0%nat. lia.
Qed.

(** ** A Param *)
Lemma phtml_ok : forall (s : @state V) y h, reachable s -> (y < next (st s))%nat -> is_leaf (st s) y = true -> shp y <> [] -> size (st s) y = Z.of_nat (elements (shp y)) ->
  0 < size (st s) y -> full_name (st s) nm y h ->
  exists txt r w1 w2 w3, param_html s y = Got txt /\ table_cells shp pstr fixed_str s y r /\ (forall c, In c r -> plain (fst (fst c)) /\ exists v, snd (fst c) = fixed_str v) /\
    let all := (lit "index", h, lit "constraints") :: r in
    width_of (fun c => fst (fst c)) all w1 /\ width_of (fun c => snd c) all w3 /\
    txt = join nl ([param_style; lit "<table class=""tg"">"; param_header h] ++ map (param_row w1 w2 w3) r).
Proof.
  intros s y h R Hy Ly Hd Hs Hp Fn. pose proof (reach_I tinit tf tfinv junk s R) as H.
  destruct (pieces_ok nm shp pstr fixed_str array_str s y H Hy Ly Hd Hs Hp) as (ind & con & Ei & Ec & Li & Lc & Hr).
  unfold HtModel.param_html. rewrite Ei, Ec. cbn [fbind]. rewrite (proj2 (hname_full (st s) nm y h (inv_st _ H)) Fn). cbn [fbind].
  destruct (rows_ok fixed_str ind (leaf_vals s y) con Li Lc) as (r & -> & L & A & B & C). cbn [fbind]. cbn zeta.
  eexists. exists r. do 3 eexists. split; [reflexivity|]. split; [auto|]. split; [|split; [|split; [|reflexivity]]].
  - intros c Hc. split.
    + assert (Hi : In (fst (fst c)) ind) by (rewrite <- A; apply (in_map (fun c => fst (fst c))); auto). unfold param_indices in Ei. destruct (of_res (indices (shp y) (whole (shp y)))) as [i|]; [|discriminate]. cbn [fbind] in Ei. injection Ei as <-.
      apply in_map_iff in Hi as (k & <- & _). apply row_plain.
    + assert (Hi : In (snd (fst c)) (map fixed_str (leaf_vals s y))) by (rewrite <- B; apply (in_map (fun c => snd (fst c))); auto). apply in_map_iff in Hi as (v & <- & _). eauto.
  - rewrite <- A. apply width_widest; auto.
  - rewrite <- C. apply width_widest; auto.
Qed.
Lemma phtml_final : forall (s : @state V) y h, reachable s -> (y < next (st s))%nat -> is_leaf (st s) y = true -> shp y <> [] -> size (st s) y = Z.of_nat (elements (shp y)) ->
  0 < size (st s) y -> full_name (st s) nm y h ->
  exists txt r w1 w3, param_html s y = Got txt /\ table_cells shp pstr fixed_str s y r /\
    let all := (lit "index", h, lit "constraints") :: r in
    width_of (fun c => fst (fst c)) all w1 /\ width_of (fun c => snd c) all w3 /\
    exists style hd lns, tags style [lit "style type=""text/css"""; lit "/style"] /\ parted [10%N] (style :: lit "<table class=""tg"">" :: hd :: lns) txt /\
      hd = lit "
<tr>
  <th><b>index</b></th>
  <th><b>" ++ h ++ lit "</b></th>
  <th><b>constraints</b></th>
</tr>" /\ Forall2 (element_line w1 w3) r lns.
Proof.
  intros s y h R Hy Ly Hd Hs Hp Fn. destruct (phtml_ok s y h R Hy Ly Hd Hs Hp Fn) as (txt & r & w1 & w2 & w3 & E & T & _ & W1 & W3 & Et).
  exists txt, r, w1, w3. split; auto. split; auto. cbn zeta. split; auto. split; auto. exists param_style, (param_header h), (map (param_row w1 w2 w3) r). split; [exact param_style_tags|]. split; [rewrite Et; apply join_parted'|].
  split; [reflexivity|]. apply f2_map. intros c Hc. eexists. apply between_any; [apply W1 | apply W3]; right; auto.
Qed.
Lemma phtml_open : forall (s : @state V) y h txt, reachable s -> (y < next (st s))%nat -> is_leaf (st s) y = true -> shp y <> [] -> size (st s) y = Z.of_nat (elements (shp y)) ->
  0 < size (st s) y -> full_name (st s) nm y h -> (forall p, plain (pstr p)) -> (forall v, plain (fixed_str v)) -> param_html s y = Got txt ->
  (exists gs, tags txt gs /\ closed (gs ++ [lit "/table"]) /\ times (opens (lit "td")) gs (3 * Z.to_nat (size (st s) y))) /\ forall gs, tags txt gs -> ~ closed gs.
Proof.
  intros s y h txt R Hy Ly Hd Hs Hp Fn Pp Pf E. destruct (phtml_ok s y h R Hy Ly Hd Hs Hp Fn) as (txt' & r & w1 & w2 & w3 & E' & T & Pi & W1 & W3 & Et). rewrite E in E'. injection E' as <-.
  assert (Pr : forall c, In c r -> cells_plain c).
  { intros c Hc. destruct (Pi c Hc) as (P1 & v & P2). split; auto. split; [rewrite P2; auto|]. destruct T as [Tl Te]. apply In_nth_error in Hc as [i Hi]. assert (Hl : (i < length r)%nat) by (apply nth_error_Some; congruence).
    destruct (Te (Z.of_nat i) c) as (_ & _ & ps & _ & _ & Hparts); [lia | rewrite Nat2Z.id; auto|]. apply (parted_plain (lit " ") _ _ (plainb (lit " ") eq_refl) Hparts). intros a Ha. apply in_map_iff in Ha as (p & <- & _). auto. }
  assert (Th : tags (param_header h) head_tags).
  { unfold param_header. rewrite !app_assoc. repeat rewrite <- app_assoc.
    assert (Q : param_header h = lit "
<tr>
  <th><b>index</b></th>
  <th><b>" ++ h ++ lit "</b></th>
  <th><b>constraints</b></th>
</tr>") by reflexivity. change (tags (param_header h) head_tags). rewrite Q.
    apply (tags_app _ (map NamesModel.lit ["tr"; "th"; "b"; "/b"; "/th"; "th"; "b"]%string)); [apply rd_ok; vm_compute; reflexivity|]. apply (tags_app _ []); [constructor; eapply full_plain; eauto|]. apply rd_ok. vm_compute. reflexivity. }
  set (gb := head_tags ++ concat (repeat (row_tags "tg-left") (length r))). set (gs := style_tags ++ [lit "table class=""tg"""] ++ gb).
  assert (Tg : tags txt gs).
  { rewrite Et. change gs with (concat ([style_tags; [lit "table class=""tg"""]; head_tags] ++ repeat (row_tags "tg-left") (length r))). apply join_tags. apply Forall2_app.
    - constructor; [exact param_style_tags|]. constructor; [apply rd_ok; reflexivity|]. constructor; auto.
    - apply rows_tags. intros c Hc. apply param_row_tags; auto. }
  assert (Cb : closed gb).
  { apply closed_app; [exact head_closed|]. apply closed_concat. apply Forall_forall. intros g Hg. apply repeat_spec in Hg. subst g. apply row_closed. }
  assert (Cg : closed (gs ++ [lit "/table"])).
  { unfold gs. rewrite <- app_assoc. apply closed_app; [exact style_closed|]. apply (closed_elem (lit "table") (lit "table class=""tg""") gb); [cbn; tauto | right; exists (lit "class=""tg"""); reflexivity | auto]. }
  split.
  - exists gs. split; auto. split; auto. replace (3 * Z.to_nat (size (st s) y))%nat with (count (lit "td") gs); [apply times_count|]. unfold gs, gb. rewrite !count_app, rows_count. destruct T as [Tl _].
    change (count (lit "td") (row_tags "tg-left")) with 3%nat. change (count (lit "td") style_tags) with 0%nat. change (count (lit "td") [lit "table class=""tg"""]) with 0%nat. change (count (lit "td") head_tags) with 0%nat. lia.
  - intros gs' T' C'. apply tags_rd in T'. apply tags_rd in Tg. rewrite Tg in T'. injection T' as <-. apply closed_count in C'. apply closed_count in Cg. rewrite count_app in Cg. unfold ends in *. rewrite filter_app, app_length in Cg.
    change (length (filter (sameb (lit "/table")) [lit "/table"])) with 1%nat in Cg. change (count (lit "table") [lit "/table"]) with 0%nat in Cg. lia.
Qed.

(** ** A Model *)
Lemma got_inj : forall (A : Type) (a b : A), Got a = Got b -> b = a.
Proof. intros A a b E. injection E as ->. auto. Qed.
Lemma mhtml_final : forall (s : @state V) x o ks inner, reachable s -> (x < next (st s))%nat -> free s x ks -> summary_html true s x = Got inner ->
  exists txt style, model_html s x (Got o) = Got txt /\ tags style [lit "style type=""text/css"""; lit "/style"] /\
    parted [10%N]
      [style; lit "<p class=pd>"; lit "<b>Model</b>: " ++ nm x ++ lit "<br>"; lit "<b>Objective</b>: " ++ o ++ lit "<br>"; lit "<b>Number of Parameters</b>: " ++ number (Z.to_nat (size (st s) x)) ++ lit "<br>";
       lit "<b>Number of Optimization Parameters</b>: " ++ number (length ks) ++ lit "<br>"; lit "<b>Updates</b>: " ++ (if updates (nt s) x then lit "True" else lit "False") ++ lit "<br>"; lit "</p>"; inner] txt.
Proof.
  intros s x o ks inner R Hx Fr E. pose proof (reach_I tinit tf tfinv junk s R) as H. unfold HtModel.model_html. cbn [fbind]. rewrite E. cbn [fbind]. eexists. exists model_style. split; [reflexivity|]. split; [exact model_style_tags|].
  unfold number. rewrite Z_nat_N. replace (N.of_nat (length ks)) with (Z.to_N (size_transformed s x)) by (rewrite <- (size_free s x ks H Hx Fr); lia). apply join_parted'.
Qed.
Lemma mhtml_tags : forall (s : @state V) x o ks txt, reachable s -> (x < next (st s))%nat -> is_leaf (st s) x = false -> named (st s) nm x -> shaped (st s) shp x -> has_rows shp (st s) x -> free s x ks ->
  (forall p, plain (pstr p)) -> (forall d l, plain (array_str d l)) -> plain o -> model_html s x (Got o) = Got txt ->
  exists gs, tags txt gs /\ closed gs.
Proof.
  intros s x o ks txt R Hx Nx Nm Sh Hr Fr Pp Pa Po E. destruct (Nm x) as [b Fb]; [exists x; split; apply above_refl|].
  destruct (html_ok true s x b R Hx Nx Nm Fb Sh Hr) as (inner & _ & _ & _ & _ & _ & Ei & _).
  destruct (html_tags true s x inner R Hx Nx Nm Sh Hr Pp Pa Ei) as (gi & _ & Ti & Ci & _). unfold HtModel.model_html in E. cbn [fbind] in E. rewrite Ei in E. cbn [fbind] in E. apply got_inj in E. subst txt.
  assert (Ln : forall k v, plain k -> plain v -> tags ((lit "<b>" ++ k ++ lit "</b>") ++ lit ": " ++ v ++ lit "<br>") [lit "b"; lit "/b"; lit "br"]).
  { intros k v Pk Pv. apply (tags_app _ [lit "b"; lit "/b"] _ [lit "br"]).
    - apply (tags_app _ [lit "b"]); [apply rd_ok; reflexivity|]. apply (tags_app _ []); [constructor; auto | apply rd_ok; reflexivity].
    - apply (tags_app _ []); [constructor; apply plainb; reflexivity|]. apply (tags_app _ []); [constructor; auto | apply rd_ok; reflexivity]. }
  assert (Cl : closed [lit "b"; lit "/b"; lit "br"]). { apply (closed_app [lit "b"; lit "/b"] [lit "br"]); [|constructor]. apply (closed_elem (lit "b") (lit "b") []); [cbn; tauto | left; auto | constructor]. }
  assert (Pn : forall z, plain (NamesModel.py_str (Z.to_N z))). { intros z. rewrite <- (N2Nat.id (Z.to_N z)). apply num_plain. }
  set (d := [lit "b"; lit "/b"; lit "br"]) in *. exists (concat [style_tags; [lit "p class=pd"]; d; d; d; d; d; [lit "/p"]; gi]). split.
  - apply join_tags. constructor; [exact model_style_tags|]. constructor; [apply rd_ok; reflexivity|]. cbn [map app fst snd].
    constructor; [apply (Ln (lit "Model")); [apply plainb; reflexivity | eapply name_plain; eauto]|].
    constructor; [apply (Ln (lit "Objective")); [apply plainb; reflexivity | auto]|].
    constructor; [apply (Ln (lit "Number of Parameters")); [apply plainb; reflexivity | auto]|].
    constructor; [apply (Ln (lit "Number of Optimization Parameters")); [apply plainb; reflexivity | auto]|].
    constructor; [apply (Ln (lit "Updates")); [apply plainb; reflexivity | destruct (updates (nt s) x); apply plainb; reflexivity]|].
    constructor; [apply rd_ok; reflexivity|]. constructor; [auto | constructor].
  - change (concat [style_tags; [lit "p class=pd"]; d; d; d; d; d; [lit "/p"]; gi]) with (style_tags ++ (lit "p class=pd" :: (d ++ d ++ d ++ d ++ d) ++ [lit "/" ++ lit "p"]) ++ gi ++ []).
    apply closed_app; [exact style_closed|]. apply closed_app; [|rewrite app_nil_r; auto].
    apply closed_elem; [cbn; tauto | right; exists (lit "class=pd"); reflexivity|]. repeat (apply closed_app; auto).
Qed.
(** The name shown is that of the printed summary only if it needs no adjustment. *)
Lemma raw_same : forall (t : struct) x y n, (forall z, part t x z -> form nm z (nm z)) -> raw_path t nm x y n -> path_name t nm x y n.
Proof.
  intros t x y n H P. assert (G : part t x y /\ path_name t nm x y n); [|apply G].
  assert (Hk : forall x c, In c (kids t x) -> part t x c).
  { intros x0 c Hi. apply In_nth_error in Hi as [i Hi]. exists (sum_sizes t (firstn i (kids t x0)) + 0)%Z, 1%nat. eapply below_kid; eauto. constructor. }
  induction P as [y Hy|y z a P [IH1 IH2] Hz]; [split; auto; constructor; auto|]. assert (part t x z) by (eapply above_trans; eauto). split; auto. eapply path_step; eauto.
Qed.
End Last.
