(** The properties of printing. *)
From Coq Require Import String List ZArith NArith Bool Arith Lia.
From Verif Require NamesModel.
From Verif Require Import NpModel NpProofs IndexOpsModel IndexOpsSpec IndexOpsProofs PzModel PzSpec PzTree PzStruct PzLink PzWalk PzMem PzIo PzInv PzConn PzFix PzLinkMem PzPres PzUnlink PzTraverse PzNotify PzNew PzCmd PzInit PzCons PzVal PzOpt PzRandom PzHist PzOrder PzGrad PzKeep PzFinal.
From Verif Require Import RavelModel RavelSpec RavelProofs ConcatModel ConcatSpec ConcatProofs ConcatFinal FlatModel FlatSpec FlatProofs FlatLabels FlatFinal FlatFind PrModel PrSpec PrProofs.
Import ListNotations.
Local Open Scope list_scope.
Local Open Scope Z_scope.

Lemma f2_nth : forall (A B : Type) (R : A -> B -> Prop) l r, length l = length r -> (forall i a b, nth_error l i = Some a -> nth_error r i = Some b -> R a b) -> Forall2 R l r.
Proof.
  intros A B R l. induction l as [|a l IH]; intros [|b r] L H; try discriminate; constructor; [apply (H 0%nat); auto|]. apply IH; [cbn in L; lia|]. intros i. apply (H (S i)).
Qed.
Lemma nth_f2 : forall (A B : Type) (R : A -> B -> Prop) l r, Forall2 R l r -> forall i a, nth_error l i = Some a -> exists b, nth_error r i = Some b /\ R a b.
Proof. intros A B R l r F. induction F as [|x y l r H F IH]; intros [|i] a E; try discriminate; cbn in *; [injection E as <-; eauto | auto]. Qed.
Lemma f2_len : forall (A B : Type) (R : A -> B -> Prop) l r, Forall2 R l r -> length l = length r.
Proof. intros A B R l r F. induction F; cbn; auto. Qed.

Section Final.
Context {V : Type}.
Implicit Types s : @state V.
Variable nm : oid -> str.
Variable shp : oid -> list nat.
Variable pstr : prop -> str.
Variables fixed_str short_str : V -> str.
Variable array_str : list nat -> list V -> str.

(** ** The table of a Param *)
Lemma carried_ok : forall s x idx, Inv s -> (x < next (st s))%nat -> Forall2 (fun j txt => carried_text pstr s x j txt) idx (carried pstr s x idx).
Proof.
  intros s x idx H Hx. pose proof (dict_of (st s) (ios s) x (inv_st _ H) (inv_io _ H) Hx) as Wd. change (dof (ios s) x) with (dicts (ios s) (fst (iop (ios s) x))) in Wd.
  unfold carried, properties_for. rewrite map_map. induction idx as [|j idx IH]; cbn [map]; constructor; auto.
  eexists. split; [|split; [|apply join_parted]].
  - apply NoDup_filter. apply items_NoDup, Wd.
  - intros p. rewrite filter_In, zmem_In. unfold has, carries. split; [tauto|]. intros Hp. split; auto. unfold properties. apply in_map_iff.
    exists (p, fst (IndexOpsModel.getitem (snd (iop (ios s) x)) (dicts (ios s) (fst (iop (ios s) x))) p)). split; auto. apply items_In; [apply Wd|]. rewrite <- getitem_fst. split; auto. intros E. rewrite E in Hp. destruct Hp.
Qed.
Notation table_cells := (table_cells shp pstr fixed_str).
(** The parts of a table. *)
Lemma pieces_ok : forall s y, Inv s -> (y < next (st s))%nat -> is_leaf (st s) y = true -> shp y <> [] -> size (st s) y = Z.of_nat (elements (shp y)) -> 0 < size (st s) y ->
  exists ind con, param_indices shp y = Got ind /\ param_carried shp pstr s y = Got con /\ length ind = length (leaf_vals s y) /\ length con = length (leaf_vals s y) /\
    forall r, map (fun c => fst (fst c)) r = ind -> map (fun c => snd (fst c)) r = map fixed_str (leaf_vals s y) -> map (@snd (str * str) str) r = con -> table_cells s y r.
Proof.
  intros s y H Hy Ly Hd Hs Hp. destruct (leaf_vals_ok s y H Hy Ly) as [Ll Lv]. assert (He : elements (shp y) <> 0%nat) by lia.
  exists (map row_str (coords (shp y))), (carried pstr s y (map Z.of_nat (seq 0 (elements (shp y))))).
  split; [unfold param_indices; rewrite whole_indices by auto; auto|]. split; [unfold param_carried; rewrite whole_final by auto; auto|].
  pose proof (carried_ok s y (map Z.of_nat (seq 0 (elements (shp y)))) H Hy) as Fc. pose proof (f2_len _ _ _ _ _ Fc) as Lc. rewrite map_length, seq_length in Lc.
  assert (Le : elements (shp y) = length (leaf_vals s y)) by lia. split; [rewrite map_length, coords_len; auto|]. split; [congruence|].
  intros r A B C. assert (Lr : length r = length (leaf_vals s y)) by (rewrite <- (map_length fixed_str), <- B, map_length; auto). split; [lia|].
  intros j c Hj Ec. assert (Hjn : (Z.to_nat j < elements (shp y))%nat) by lia. unfold elem_cells. split; [|split].
  - assert (En : nth_error (map row_str (coords (shp y))) (Z.to_nat j) = Some (fst (fst c))) by (rewrite <- A, nth_error_map, Ec; auto).
    rewrite nth_error_map in En. destruct (nth_error (coords (shp y)) (Z.to_nat j)) as [k|] eqn:Ek; [|discriminate]. cbn in En. injection En as En. rewrite <- En. rewrite <- (Z2Nat.id j) by lia. apply row_index; auto.
  - assert (En : nth_error (map fixed_str (leaf_vals s y)) (Z.to_nat j) = Some (snd (fst c))) by (rewrite <- B, nth_error_map, Ec; auto).
    rewrite nth_error_map in En. rewrite Lv by auto. destruct (nth_error (leaf_vals s y) (Z.to_nat j)) as [v|]; [|discriminate]. cbn in En. injection En as En. eauto.
  - assert (Es : nth_error (map Z.of_nat (seq 0 (elements (shp y)))) (Z.to_nat j) = Some j).
    { rewrite nth_error_map. rewrite (nth_error_nth' _ 0%nat) by (rewrite seq_length; auto). rewrite seq_nth by auto. cbn. f_equal. lia. }
    destruct (nth_f2 _ _ _ _ _ Fc _ _ Es) as (txt & Et & Ct). rewrite <- C, nth_error_map, Ec in Et. cbn in Et. injection Et as ->. auto.
Qed.
Lemma param_table_ok : forall vt s y h, Inv s -> (y < next (st s))%nat -> is_leaf (st s) y = true -> shp y <> [] -> size (st s) y = Z.of_nat (elements (shp y)) -> 0 < size (st s) y ->
  full_name (st s) nm y h ->
  exists lines r, param_table nm shp pstr fixed_str short_str vt s y = Got lines /\ table_cells s y r /\
    let all := (lit "index", h, lit "constraints") :: r in
    exists w1 w3, width_of (fun c => fst (fst c)) all w1 /\ width_of (fun c => snd c) all w3 /\ Forall2 (shows_loosely vt w1 w3) all lines /\
    ((forall j v, value s y j = Some v -> (length (fixed_str v) <= length h)%nat \/ (length (fixed_str v) <= length (short_str v))%nat) ->
     exists w2, (forall c, In c all -> (length (snd (fst c)) <= w2)%nat) /\ Forall2 (shows vt w1 w2 w3) all lines).
Proof.
  intros vt s y h H Hy Ly Hd Hs Hp Fn. destruct (pieces_ok s y H Hy Ly Hd Hs Hp) as (ind & con & Ei & Ec & Li & Lc & Hr). destruct (leaf_vals_ok s y H Hy Ly) as [Ll Lv].
  unfold param_table. rewrite Ei, Ec. cbn [fbind]. rewrite (proj2 (hname_full (st s) nm y h (inv_st _ H)) Fn). cbn [fbind].
  destruct (table_ok fixed_str vt false (widest (lit "index") ind) (value_width short_str h (leaf_vals s y)) (widest (lit "constraints") con) h ind (leaf_vals s y) con Li Lc) as (lines & r & E & A & B & C & F1 & F2).
  { intros a Ha. apply widest_le. right; auto. } { intros a Ha. apply widest_le. right; auto. } { intros _. split; apply widest_le; left; auto. }
  exists lines, r. split; auto. split; [auto|]. cbn zeta in *. exists (widest (lit "index") ind), (widest (lit "constraints") con).
  split; [rewrite <- A; apply width_widest; auto|]. split; [rewrite <- C; apply width_widest; auto|]. split; [exact F1|].
  intros Hw. assert (Q : forall c, In c ((lit "index", h, lit "constraints") :: r) -> (length (snd (fst c)) <= value_width short_str h (leaf_vals s y))%nat).
  { intros c [<-|Hc]; [cbn [fst snd]; apply widest_le; left; auto|]. assert (Hc' : In (snd (fst c)) (map fixed_str (leaf_vals s y))) by (rewrite <- B; apply (in_map (fun c => snd (fst c))); auto).
    apply in_map_iff in Hc' as (v & <- & Hv). assert (Hvv : exists j, value s y j = Some v).
    { apply In_nth_error in Hv as [i Hi]. assert (Hl : (i < length (leaf_vals s y))%nat) by (apply nth_error_Some; congruence). exists (Z.of_nat i). rewrite Lv, Nat2Z.id by lia. auto. }
    destruct Hvv as [j Hj]. destruct (Hw j v Hj) as [G|G]; (eapply Nat.le_trans; [exact G|]); apply widest_le; [left; auto | right; apply in_map; auto]. }
  exists (value_width short_str h (leaf_vals s y)). split; auto.
Qed.
Lemma param_empty : forall vt s y, shp y <> [] -> elements (shp y) = 0%nat -> param_table nm shp pstr fixed_str short_str vt s y = Err (Py ValueError).
Proof.
  intros vt s y Hd He. unfold param_table, param_indices, param_carried, raveled_index. rewrite whole_indices by auto. cbn [of_res fbind rbind].
  assert (coords (shp y) = []) as ->; [|auto]. pose proof (coords_len (shp y)) as L. rewrite He in L. destruct (coords (shp y)); [auto | discriminate].
Qed.

(** ** The summary of a Parameterized *)
Lemma described_ok : forall s y, Inv s -> (y < next (st s))%nat -> is_leaf (st s) y = true -> shp y <> [] -> size (st s) y = Z.of_nat (elements (shp y)) ->
  match description shp array_str s y with
  | Got txt => described shp array_str s y txt
  | Err e => e = Py IndexError /\ exists d, shp y = 0%nat :: d
  end.
Proof.
  intros s y H Hy Ly Hd Hs. destruct (leaf_vals_ok s y H Hy Ly) as [Ll Lv]. unfold description. destruct (Z.leb_spec (size (st s) y) 1) as [L|L].
  - destruct (shp y) as [|[|n] d] eqn:Ed; [congruence | eauto|]. left. split; auto. exists (leaf_vals s y). split; auto. split; auto. rewrite Ed. cbn [tl]. f_equal.
    apply firstn_all2. change (fold_right Nat.mul 1%nat d) with (elements d). unfold elements in Hs. cbn [fold_right] in Hs. fold (elements d) in Hs. assert (Hn : (length (leaf_vals s y) = S n * elements d)%nat) by lia. destruct (elements d) as [|[|e]]; nia.
  - right. split; auto. apply shape_tuple.
Qed.
Lemma constraints_ok : forall s y, Inv s -> (y < next (st s))%nat -> constraints_text pstr s y (property_string pstr s y).
Proof.
  intros s y H Hy. pose proof (items_keys s y H Hy) as Nk. pose proof (dict_of (st s) (ios s) y (inv_st _ H) (inv_io _ H) Hy) as Wd. change (dof (ios s) y) with (dicts (ios s) (fst (iop (ios s) y))) in Wd.
  assert (Hl : forall p l, In (p, l) (cons_items (ios s) y) -> NoDup l /\ l <> [] /\ forall j, In j l <-> has s y p j).
  { intros p l Hin. assert (Hi := Hin). apply items_In in Hin as [El Hne]; [|apply Wd]. split; [|split; auto].
    - rewrite El. apply ssorted_NoDup, vlk_sorted, lk_sorted. exact Wd.
    - intros j. rewrite items_has by auto. split; [eauto|]. intros (l' & H1 & H2). apply items_In in H1 as [El' _]; [|apply Wd]. congruence. }
  exists (map fst (cons_items (ios s) y)), (map (fun c => if (Z.of_nat (length (snd c)) =? size (st s) y)%Z then pstr (fst c) else lit "{" ++ pstr (fst c) ++ lit "}") (cons_items (ios s) y)).
  split; auto. split; [|split; [|apply join_parted]].
  - intros p. rewrite in_map_iff. split.
    + intros ([q l] & <- & Hin). destruct (Hl q l Hin) as (_ & Hne & Hj). destruct l as [|j l]; [congruence|]. exists j. cbn [fst]. apply Hj. left; auto.
    + intros (j & Hj). apply items_has in Hj as (l & Hin & _); auto. exists (p, l). auto.
  - clear Nk. revert Hl. generalize (cons_items (ios s) y). intros items Hl. induction items as [|[p l] items IH]; cbn [map]; constructor; [|apply IH; intros; apply Hl; right; auto]. cbn [fst snd].
    destruct (Hl p l (or_introl eq_refl)) as (Nl & _ & Hj). assert (Ra : forall j, In j l -> 0 <= j < size (st s) y) by (intros j Hjl; apply Hj in Hjl; eapply has_range; eauto).
    pose proof (size_nonneg _ (inv_st _ H) y) as Hn. assert (La : length (arange (size (st s) y)) = Z.to_nat (size (st s) y)) by apply arange_len.
    destruct (Z.eqb_spec (Z.of_nat (length l)) (size (st s) y)) as [E|E]; [left | right]; split; auto.
    + intros j Hr. apply Hj. apply (NoDup_length_incl Nl (l' := arange (size (st s) y))); [lia | intros k Hk; apply arange_In; auto | apply arange_In; auto].
    + intros Ev. apply E. assert (El : length l = length (arange (size (st s) y))); [|lia]. apply Nat.le_antisymm.
      * apply NoDup_incl_length; auto. intros k Hk. apply arange_In; auto.
      * apply NoDup_incl_length; [apply ssorted_NoDup, arange_sorted|]. intros k Hk. apply Hj, Ev. apply arange_In; auto.
Qed.
Lemma zip3_ok : forall a b c, length b = length a -> length c = length a ->
  exists r, zip3 a b c = Got r /\ map (fun e => fst (fst e)) r = a /\ map (fun e => snd (fst e)) r = b /\ map (@snd (str * str) str) r = c.
Proof.
  induction a as [|x a IH]; intros [|y b] [|z c] H1 H2; try discriminate; cbn [zip3]; [exists []; auto|]. cbn [length] in H1, H2. apply Nat.succ_inj in H1. apply Nat.succ_inj in H2.
  destruct (IH b c H1 H2) as (r & E & A & B & C). rewrite E. cbn [fbind]. eexists. split; [reflexivity|]. cbn [map fst snd]. rewrite A, B, C. auto.
Qed.
Notation summary := (summary nm shp pstr array_str).
Lemma summary_ok : forall header vt s x b, Inv s -> (x < next (st s))%nat -> is_leaf (st s) x = false -> named (st s) nm x -> form nm x b -> shaped (st s) shp x -> has_rows shp (st s) x ->
  exists lines l r, summary header vt s x = Got lines /\ params_in_order (st s) x l /\ Forall2 (param_cells nm shp pstr array_str s x) l r /\
    let head := (b ++ lit ".", lit "value", lit "constraints") in
    exists w1 w2 w3, width_of (fun c => fst (fst c)) (head :: r) w1 /\ width_of (fun c => snd (fst c)) (head :: r) w2 /\ width_of (fun c => snd c) (head :: r) w3 /\
    Forall2 (shows vt w1 w2 w3) ((if header then [head] else []) ++ r) lines.
Proof.
  intros header vt s x b H Hx Nx Nm Fb Sh Hr. pose proof (inv_st _ H) as W. set (t := st s) in *. destruct (tree_exists t W x) as (tr & Er & R & Nd).
  assert (K : krep t tr) by (apply rep_krep; auto). assert (Hh : (height tr <= fuel t)%nat) by (apply rep_new_height; auto).
  assert (Hp : forall y, In y (flattened (fuel t) t x) -> is_leaf t y = true /\ part t x y /\ (y < next t)%nat).
  { intros y Hy. apply flattened_ok in Hy as [Ly Py]; auto. split; auto. split; auto. eapply above_lt'; eauto. }
  destruct (names_ok t nm (fuel t) tr false K Hh) as (names & En & Fn).
  { rewrite Er. intros y Py. apply Nm. exists x. split; [apply above_refl | auto]. }
  rewrite Er in En, Fn. rewrite Nx in Fn. cbn [orb] in Fn.
  set (kd := fun y => match description shp array_str s y with Got a => a | Err _ => [] end).
  assert (Hd : forall y, In y (flattened (fuel t) t x) -> description shp array_str s y = Got (kd y) /\ described shp array_str s y (kd y)).
  { intros y Hy. destruct (Hp y Hy) as (Ly & Py & Lt). destruct (Sh y Py Ly) as [S1 S2]. pose proof (described_ok s y H Lt Ly S1 S2) as D. unfold kd. destruct (description shp array_str s y) as [a|e]; auto.
    destruct D as [_ [d Ed]]. destruct (Hr y Py Ly) as (n & d' & Ed'). congruence. }
  assert (Ed : gather (fuel t) t (description shp array_str s) x = Got (map kd (flattened (fuel t) t x))).
  { rewrite <- Er. apply gather_ok; auto. rewrite Er. intros y Hy. apply Hd; auto. }
  assert (Ec : gather (fuel t) t (fun y => Got (property_string pstr s y)) x = Got (map (property_string pstr s) (flattened (fuel t) t x))).
  { rewrite <- Er. apply gather_ok; auto. }
  destruct (zip3_ok names (map kd (flattened (fuel t) t x)) (map (property_string pstr s) (flattened (fuel t) t x))) as (r & Ez & A & B & C).
  { rewrite map_length. eapply f2_len; eauto. } { rewrite map_length. eapply f2_len; eauto. }
  unfold PrModel.summary. fold t. unfold adjusted. unfold form in Fb. rewrite Fb. cbn [fbind]. rewrite En. cbn [fbind]. rewrite Ed. cbn [fbind]. rewrite Ec. cbn [fbind]. rewrite Ez. cbn [fbind].
  eexists. exists (flattened (fuel t) t x), r. split; [reflexivity|]. split; [apply flattened_order; auto|]. split.
  - apply f2_nth; [rewrite <- (map_length (fun e : cells => fst (fst e))), A; eapply f2_len; eauto|].
    intros i y c Hy Hc. assert (Hin : In y (flattened (fuel t) t x)) by (eapply nth_error_In; eauto). destruct (Hp y Hin) as (Ly & Py & Lt). unfold param_cells. fold t. split; [|split].
    + destruct (nth_f2 _ _ _ _ _ Fn i y Hy) as (n & Hn & Pn). rewrite <- A, nth_error_map, Hc in Hn. cbn in Hn. injection Hn as ->. auto.
    + assert (Q : nth_error (map (fun e : cells => snd (fst e)) r) i = Some (kd y)) by (rewrite B, nth_error_map, Hy; auto). rewrite nth_error_map, Hc in Q. cbn in Q. injection Q as ->. apply Hd; auto.
    + assert (Q : nth_error (map (@snd (str * str) str) r) i = Some (property_string pstr s y)) by (rewrite C, nth_error_map, Hy; auto). rewrite nth_error_map, Hc in Q. cbn in Q. injection Q as ->. apply constraints_ok; auto.
  - cbn zeta. set (head := (b ++ lit ".", lit "value", lit "constraints")). rewrite <- A, <- B, <- C.
    set (w1 := widest (b ++ lit ".") (map (fun e : cells => fst (fst e)) r)). set (w2 := widest (lit "value") (map (fun e : cells => snd (fst e)) r)). set (w3 := widest (lit "constraints") (map (@snd (str * str) str) r)).
    assert (W1 : width_of (fun c => fst (fst c)) (head :: r) w1) by (apply width_widest; auto). assert (W2 : width_of (fun c => snd (fst c)) (head :: r) w2) by (apply width_widest; auto).
    assert (W3 : width_of (fun c => snd c) (head :: r) w3) by (apply width_widest; auto).
    exists w1, w2, w3. split; auto. split; auto. split; auto.
    assert (Q : forall c, In c ((if header then [head] else []) ++ r) -> shows vt w1 w2 w3 c (line vt w1 w2 w3 c)).
    { intros c Hc. assert (Hc' : In c (head :: r)) by (destruct header; [exact Hc | right; exact Hc]). apply line_ok; [apply W1 | apply W2 | apply W3]; auto. }
    revert Q. generalize ((if header then [head] else []) ++ r). intros l Q. induction l as [|c l IH]; cbn [map]; constructor; [apply Q; left; auto | apply IH; intros; apply Q; right; auto].
Qed.
(** A Param whose first axis has length 0 makes the summary fail. *)
Lemma summary_fails : forall header vt s x, Inv s -> (x < next (st s))%nat -> is_leaf (st s) x = false -> named (st s) nm x -> shaped (st s) shp x ->
  (exists y d, part (st s) x y /\ is_leaf (st s) y = true /\ shp y = 0%nat :: d) -> summary header vt s x = Err (Py IndexError).
Proof.
  intros header vt s x H Hx Nx Nm Sh (y0 & d0 & P0 & L0 & E0). pose proof (inv_st _ H) as W. set (t := st s) in *. destruct (tree_exists t W x) as (tr & Er & R & Nd).
  assert (K : krep t tr) by (apply rep_krep; auto). assert (Hh : (height tr <= fuel t)%nat) by (apply rep_new_height; auto).
  destruct (Nm x) as [b Fb]; [exists x; split; apply above_refl|].
  destruct (names_ok t nm (fuel t) tr false K Hh) as (names & En & Fn).
  { rewrite Er. intros y Py. apply Nm. exists x. split; [apply above_refl | auto]. }
  rewrite Er in En. unfold PrModel.summary. fold t. unfold adjusted. unfold form in Fb. rewrite Fb. cbn [fbind]. rewrite En. cbn [fbind].
  assert (G : gather (fuel t) t (description shp array_str s) x = Err (Py IndexError)); [|rewrite G; auto].
  rewrite <- Er. apply gather_err; auto; rewrite Er.
  - intros y e Hy Ee. apply flattened_ok in Hy as [Ly Py]; auto. destruct (Sh y Py Ly) as [S1 S2]. pose proof (described_ok s y H ltac:(eapply above_lt'; eauto) Ly S1 S2) as D. rewrite Ee in D. apply D.
  - exists y0. split; [apply flattened_ok; auto|]. destruct (Sh y0 P0 L0) as [S1 S2]. unfold description. rewrite E0 in *. unfold elements in S2. cbn [fold_right] in S2. fold t. rewrite S2. reflexivity.
Qed.
Lemma aligned : forall header vt s x lines, Inv s -> (x < next (st s))%nat -> is_leaf (st s) x = false -> named (st s) nm x -> shaped (st s) shp x -> has_rows shp (st s) x ->
  summary header vt s x = Got lines -> exists n, forall ln, In ln lines -> length ln = n.
Proof.
  intros header vt s x lines H Hx Nx Nm Sh Hr E. destruct (Nm x) as [b Fb]; [exists x; split; apply above_refl|].
  destruct (summary_ok header vt s x b H Hx Nx Nm Fb Sh Hr) as (lines' & l & r & E' & _ & _ & w1 & w2 & w3 & _ & _ & _ & F). rewrite E in E'. injection E' as <-.
  exists ((if vt then 10 else 0) + w1 + w2 + w3 + 12)%nat. intros ln Hln. revert F. generalize ((if header then [(b ++ lit ".", lit "value", lit "constraints")] else []) ++ r). intros cs F. clear E.
  induction F as [|c ln' cs lines Hc F IH]; [contradiction|]. destruct Hln as [<-|Hln]; [eapply shows_length; eauto | apply IH; auto].
Qed.

(** ** A Model *)
Lemma model_ok : forall vt s x o ks ls, Inv s -> (x < next (st s))%nat -> free s x ks -> summary true vt s x = Got ls ->
  model_text nm shp pstr array_str vt s x (Got o) = Got
    ([[]; lit "Name : " ++ nm x; lit "Objective : " ++ o; lit "Number of Parameters : " ++ number (Z.to_nat (size (st s) x));
      lit "Number of Optimization Parameters : " ++ number (length ks); lit "Updates : " ++ (if updates (nt s) x then lit "True" else lit "False"); lit "Parameters:"] ++ ls).
Proof.
  intros vt s x o ks ls H Hx Fr E. unfold model_text. cbn [fbind]. rewrite E. cbn [fbind]. f_equal. cbn [map detail fst snd app].
  unfold number. rewrite Z_nat_N, <- (size_free s x ks H Hx Fr). replace (Z.to_N (Z.of_nat (length ks))) with (N.of_nat (length ks)) by lia. reflexivity.
Qed.
End Final.
