(** Proofs about printing: layout, tables, the order and the names in the summary. *)
From Coq Require Import String List ZArith NArith Bool Arith Lia.
From Verif Require NamesModel.
From Verif Require Import NpModel NpProofs IndexOpsModel IndexOpsSpec IndexOpsProofs PzModel PzSpec PzTree PzStruct PzLink PzWalk PzMem PzIo PzInv PzConn PzFix PzLinkMem PzPres PzUnlink PzTraverse PzNotify PzNew PzCmd PzInit PzCons PzVal PzOpt PzRandom PzHist PzOrder PzGrad PzKeep PzFinal.
From Verif Require Import RavelModel RavelSpec RavelProofs ConcatModel ConcatSpec ConcatProofs ConcatFinal FlatModel FlatSpec FlatProofs FlatLabels FlatFinal PrModel PrSpec.
Import ListNotations.
Local Open Scope list_scope.
Local Open Scope nat_scope.

(** ** Layout *)
Lemma blank_repeat : forall n, blank (repeat 32%N n).
Proof. intros n a H. apply repeat_spec in H. auto. Qed.
Lemma ljust_ok : forall w s, length s <= w -> flush_left w s (ljust w s).
Proof. intros w s H. exists (repeat 32%N (w - length s)). split; auto. split; [apply blank_repeat|]. unfold ljust. rewrite app_length, repeat_length. lia. Qed.
Lemma rjust_ok : forall w s, length s <= w -> flush_right w s (rjust w s).
Proof. intros w s H. exists (repeat 32%N (w - length s)). split; auto. split; [apply blank_repeat|]. unfold rjust. rewrite app_length, repeat_length. lia. Qed.
Lemma rjust_any : forall w s, flush_right (Nat.max w (length s)) s (rjust w s).
Proof. intros w s. exists (repeat 32%N (w - length s)). split; auto. split; [apply blank_repeat|]. unfold rjust. rewrite app_length, repeat_length. lia. Qed.
Lemma centre_ok : forall w s, length s <= w -> centred w s (centre w s).
Proof.
  intros w s H. unfold centre. set (n := w - length s). exists (repeat 32%N (n / 2)), (repeat 32%N (n - n / 2)). split; auto. split; [apply blank_repeat|]. split; [apply blank_repeat|].
  rewrite !app_length, !repeat_length. assert (n / 2 <= n) by (apply Nat.div_le_upper_bound; lia). pose proof (Nat.div_mod n 2 ltac:(lia)). pose proof (Nat.mod_upper_bound n 2 ltac:(lia)). lia.
Qed.
Lemma line_any : forall vt w1 w2 w3 c, length (fst (fst c)) <= w1 -> length (snd c) <= w3 -> shows vt w1 (Nat.max w2 (length (snd (fst c)))) w3 c (line vt w1 w2 w3 c).
Proof.
  intros vt w1 w2 w3 [[a b] d] H1 H3. cbn [fst snd] in *. exists (ljust w1 a), (rjust w2 b), (centre w3 d). cbn [fst snd]. split; [apply ljust_ok; auto|]. split; [apply rjust_any|]. split; [apply centre_ok; auto|].
  unfold line, emphasised, bold_on, bold_off. destruct vt; reflexivity.
Qed.
Lemma line_ok : forall vt w1 w2 w3 c, length (fst (fst c)) <= w1 -> length (snd (fst c)) <= w2 -> length (snd c) <= w3 -> shows vt w1 w2 w3 c (line vt w1 w2 w3 c).
Proof. intros vt w1 w2 w3 c H1 H2 H3. replace w2 with (Nat.max w2 (length (snd (fst c)))) at 1 by lia. apply line_any; auto. Qed.
Lemma shows_length : forall vt w1 w2 w3 c ln, shows vt w1 w2 w3 c ln -> length ln = (if vt then 10 else 0) + w1 + w2 + w3 + 12.
Proof.
  intros vt w1 w2 w3 c ln (a & b & d & (pa & _ & _ & La) & (pb & _ & _ & Lb) & (l & r & _ & _ & _ & Ld & _) & ->).
  unfold emphasised. destruct vt; rewrite !app_length; cbn [length]; rewrite ?app_length; cbn; lia.
Qed.
Lemma widest_acc : forall l a, a <= fold_left (fun a (b : str) => Nat.max a (length b)) l a /\ (forall b, In b l -> length b <= fold_left (fun a (b : str) => Nat.max a (length b)) l a) /\
  (fold_left (fun a (b : str) => Nat.max a (length b)) l a = a \/ exists b, In b l /\ length b = fold_left (fun a (b : str) => Nat.max a (length b)) l a).
Proof.
  induction l as [|c l IH]; intros a; cbn [fold_left]; [split; [lia|]; split; [contradiction | auto]|].
  destruct (IH (Nat.max a (length c))) as (H1 & H2 & H3). split; [lia|]. split; [intros b [<-|Hb]; [lia | auto]|].
  destruct H3 as [E|(b & Hb & E)]; [|right; exists b; split; [right|]; auto]. rewrite E. destruct (Nat.max_spec a (length c)) as [[_ Q]|[_ Q]]; [right; exists c; split; [left|]; auto | left; auto].
Qed.
Lemma widest_le : forall h l b, In b (h :: l) -> length b <= widest h l.
Proof. intros h l b Hb. unfold widest. destruct (widest_acc l (length h)) as (A & B & _). destruct Hb as [<-|H]; auto. Qed.
Lemma widest_in : forall h l, exists b, In b (h :: l) /\ length b = widest h l.
Proof. intros h l. unfold widest. destruct (widest_acc l (length h)) as (_ & _ & [E|(b & Hb & E)]); [exists h; split; [left|]; auto | exists b; split; [right|]; auto]. Qed.
Lemma width_widest : forall (f : cells -> str) h l hs, f h = hs -> width_of f (h :: l) (widest hs (map f l)).
Proof.
  intros f h l hs <-. split.
  - intros c Hc. apply widest_le. change (f h :: map f l) with (map f (h :: l)). apply in_map; auto.
  - destruct (widest_in (f h) (map f l)) as (b & Hb & E). change (f h :: map f l) with (map f (h :: l)) in Hb. apply in_map_iff in Hb as (c & <- & Hc). eauto.
Qed.
Lemma join_parted : forall sep l, parted sep l (join sep l).
Proof. intros sep l. induction l as [|a [|b l] IH]; [constructor | constructor |]. change (join sep (a :: b :: l)) with (a ++ sep ++ join sep (b :: l)). constructor. auto. Qed.
Lemma shape_tuple : forall d, tuple_text d (shape_str d).
Proof. intros [|a [|b d]]; unfold tuple_text, shape_str; [exists []; split; [constructor | reflexivity] | reflexivity | eexists; split; [apply join_parted | reflexivity]]. Qed.
Lemma row_index : forall d j c, d <> [] -> nth_error (coords d) j = Some c -> index_text d (Z.of_nat j) (row_str c).
Proof.
  intros d j c Hd E. pose proof (coords_place _ _ _ Hd E) as Pl. assert (Hc : c <> []). { destruct Pl as [Vd _]. intros ->. inversion Vd. congruence. }
  destruct (row_spaced c Hc) as (w & row & k & Er & Sp & Hk & Pk). exists c, w, row, k. auto.
Qed.

(** ** Tables *)
Section Tables.
Context {V : Type}.
Variable fixed_str : V -> str.
Lemma rows_ok : forall ind vals con, length ind = length vals -> length con = length vals ->
  exists r, rows fixed_str ind vals con = Got r /\ length r = length vals /\ map (fun c => fst (fst c)) r = ind /\ map (fun c => snd (fst c)) r = map fixed_str vals /\ map (@snd (str * str) str) r = con.
Proof.
  intros ind vals. revert ind. induction vals as [|v vals IH]; intros [|i ind] [|c con] H1 H2; try discriminate; cbn [rows].
  - exists []. auto.
  - cbn [length] in H1, H2. apply Nat.succ_inj in H1. apply Nat.succ_inj in H2. destruct (IH ind con H1 H2) as (r & E & L & A & B & C). rewrite E. cbn [fbind]. eexists. split; [reflexivity|]. cbn [map length fst snd]. rewrite L, A, B, C. auto.
Qed.
(** The table with widths that are large enough, but for the values. *)
Lemma table_ok : forall vt only li lx l3 h ind vals con, length ind = length vals -> length con = length vals -> (forall a, In a ind -> length a <= li) -> (forall a, In a con -> length a <= l3) ->
  (only = false -> length (lit "index") <= li /\ length (lit "constraints") <= l3) ->
  exists lines (r : list cells), table_with fixed_str vt only li lx l3 h ind vals con = Got lines /\
    map (fun c : cells => fst (fst c)) r = ind /\ map (fun c : cells => snd (fst c)) r = map fixed_str vals /\ map (@snd (str * str) str) r = con /\
    let all := (if only then (repeat 45%N li, h, repeat 45%N l3) else (lit "index", h, lit "constraints")) :: r in
    Forall2 (shows_loosely vt li l3) all lines /\
    ((forall c, In c all -> length (snd (fst c)) <= lx) -> Forall2 (shows vt li lx l3) all lines).
Proof.
  intros vt only li lx l3 h ind vals con H1 H2 Hi Hc Ho. unfold table_with. destruct (rows_ok ind vals con H1 H2) as (r & -> & L & A & B & C). cbn [fbind].
  eexists. exists r. split; [reflexivity|]. split; auto. split; auto. split; auto. cbn zeta.
  set (hd := if only then (repeat 45%N li, h, repeat 45%N l3) else (lit "index", h, lit "constraints")).
  assert (W : forall c, In c (hd :: r) -> length (fst (fst c)) <= li /\ length (snd c) <= l3).
  { intros c [<-|Hr].
    - unfold hd. destruct only; [cbn [fst snd]; rewrite !repeat_length; lia | apply Ho; auto].
    - split; [apply Hi; rewrite <- A; apply (in_map (fun c => fst (fst c))); auto | apply Hc; rewrite <- C; apply in_map; auto]. }
  generalize (hd :: r) W. intros l Wl. clear - Wl. split.
  - induction l as [|c l IH]; cbn [map]; constructor; [|apply IH; intros; apply Wl; right; auto]. exists (Nat.max lx (length (snd (fst c)))). apply line_any; apply Wl; left; auto.
  - induction l as [|c l IH]; intros Hl; cbn [map]; constructor; [|apply IH; intros; [apply Wl | apply Hl]; right; auto]. apply line_ok; [apply Wl | apply Hl | apply Wl]; left; auto.
Qed.
End Tables.

(** ** The hierarchy *)
Section Tree.
Variable t : struct.
Hypothesis W : swf t.
Lemma leaf_kids : forall x, is_leaf t x = true -> kids t x = [].
Proof. intros x El. unfold is_leaf in El. destruct (kind t x) as [m|] eqn:Ekd; [|discriminate]. apply (wf_leaf _ W x m Ekd). Qed.
Lemma heights : forall x ts f, height (T x ts) <= S f -> forall c, In c ts -> height c <= f.
Proof.
  intros x ts f Hh c Hc. simpl in Hh. assert (height c <= fold_right Nat.max 0 (map height ts)); [|lia].
  clear - Hc. induction ts as [|d l IHl]; [contradiction|]. simpl. destruct Hc as [->|Hc]; [lia | specialize (IHl Hc); lia].
Qed.
Lemma filter_concat : forall (A : Type) (f : A -> bool) ls, filter f (concat ls) = concat (map (filter f) ls).
Proof. intros A f ls. induction ls as [|l ls IH]; auto. cbn [concat map]. rewrite filter_app, IH. auto. Qed.
Lemma flattened_filter : forall f tr, krep t tr -> height tr <= f -> flattened f t (root tr) = filter (is_leaf t) (oids tr).
Proof.
  induction f as [|f IH]; intros [x ts] K Hh; [simpl in Hh; lia|]. cbn [flattened root oids filter]. destruct (is_leaf t x) eqn:El.
  - pose proof (leaf_kids x El) as Ek. rewrite (krep_kids _ _ _ K) in Ek. destruct ts; [auto | discriminate].
  - rewrite (krep_kids _ _ _ K). rewrite filter_concat, map_map. pose proof (heights x ts f Hh) as Hc. assert (Hk : forall c, In c ts -> krep t c) by (intros; eapply krep_child; eauto). clear K Hh.
    induction ts as [|c ts IHt]; auto. cbn [map flat_map concat]. rewrite IH by (auto using in_eq). rewrite IHt; auto using in_cons.
Qed.
Lemma kept_filter : forall (f : oid -> bool) l, kept_of (fun y => f y = true) l (filter f l).
Proof. intros f l. induction l as [|a l IH]; cbn [filter]; [constructor|]. destruct (f a) eqn:E; constructor; auto; congruence. Qed.
Lemma flattened_order : forall x, params_in_order t x (flattened (fuel t) t x).
Proof.
  intros x. destruct (tree_exists t W x) as (tr & <- & R & Nd). exists (oids tr). split; [apply rep_preorder, rep_krep; auto|].
  rewrite flattened_filter; [apply kept_filter | apply rep_krep; auto | apply rep_new_height; auto].
Qed.
Lemma all_of_map : forall (A B : Type) (g : A -> fres B) l r, all_of g l = Got r -> Forall2 (fun a b => g a = Got b) l r.
Proof.
  intros A B g l. induction l as [|a l IH]; intros r E; cbn [all_of] in E; [injection E as <-; constructor|].
  destruct (g a) as [b|] eqn:Eg; [|discriminate]. cbn [fbind] in E. destruct (all_of g l) as [bs|] eqn:El; [|discriminate]. cbn [fbind] in E. injection E as <-. constructor; auto.
Qed.
Lemma all_of_cat : forall (B : Type) (g : oid -> fres (list B)) (k : oid -> list B) l, (forall a, In a l -> g a = Got (k a)) -> fbind (all_of g l) (fun ls => Got (concat ls)) = Got (concat (map k l)).
Proof. intros B g k l H. rewrite (all_of_ok _ _ g k l H). reflexivity. Qed.
Lemma gather_ok : forall (g : oid -> fres str) (k : oid -> str) f tr, krep t tr -> height tr <= f -> (forall p, In p (flattened f t (root tr)) -> g p = Got (k p)) ->
  gather f t g (root tr) = Got (map k (flattened f t (root tr))).
Proof.
  intros g k. induction f as [|f IH]; intros [x ts] K Hh Hg; [simpl in Hh; lia|]. cbn [gather flattened root] in *. destruct (is_leaf t x) eqn:El.
  - rewrite Hg by (left; auto). auto.
  - rewrite (all_of_cat _ _ (fun c => map k (flattened f t c))).
    + f_equal. induction (kids t x) as [|c l IHl]; auto. cbn [map concat flat_map]. rewrite map_app, IHl; auto. intros p Hp. apply Hg. cbn [flat_map]. apply in_or_app; auto.
    + intros c Hc. assert (Hc' := Hc). rewrite (krep_kids _ _ _ K) in Hc'. apply in_map_iff in Hc' as (d & <- & Hd). apply IH; [eapply krep_child; eauto | eapply heights; eauto|].
      intros p Hp. apply Hg. apply in_flat_map. exists (root d). auto.
Qed.
Lemma gather_err : forall (g : oid -> fres str) e f tr, krep t tr -> height tr <= f -> (forall p e', In p (flattened f t (root tr)) -> g p = Err e' -> e' = e) ->
  (exists p, In p (flattened f t (root tr)) /\ g p = Err e) -> gather f t g (root tr) = Err e.
Proof.
  intros g e. induction f as [|f IH]; intros [x ts] K Hh Ho He; [simpl in Hh; lia|]. cbn [gather flattened root] in *. destruct (is_leaf t x) eqn:El.
  - destruct He as (p & [<-|[]] & E). rewrite E. auto.
  - assert (G : all_of (gather f t g) (kids t x) = Err e); [|rewrite G; auto].
    assert (Q : forall c, In c (kids t x) -> (exists l, gather f t g c = Got l) \/ gather f t g c = Err e).
    { intros c Hc. assert (Hc' := Hc). rewrite (krep_kids _ _ _ K) in Hc'. apply in_map_iff in Hc' as (d & <- & Hd).
      assert (Kd : krep t d) by (eapply krep_child; eauto). assert (Hd' : height d <= f) by (eapply heights; eauto).
      assert (On : forall p e', In p (flattened f t (root d)) -> g p = Err e' -> e' = e) by (intros p e' Hp; apply Ho; apply in_flat_map; exists (root d); auto).
      destruct (existsb (fun p => match g p with Err _ => true | Got _ => false end) (flattened f t (root d))) eqn:Ex.
      - right. apply existsb_exists in Ex as (p & Hp & Ep). apply IH; auto. exists p. split; auto. destruct (g p) as [|e'] eqn:Eg; [discriminate|]. rewrite (On p e' Hp Eg). auto.
      - left. eexists. apply (gather_ok g (fun p => match g p with Got a => a | Err _ => [] end)); auto. intros p Hp.
        destruct (g p) eqn:Eg; auto. exfalso. assert (Ht : existsb (fun p => match g p with Err _ => true | Got _ => false end) (flattened f t (root d)) = true); [|congruence].
        apply existsb_exists. exists p. rewrite Eg. auto. }
    destruct He as (p & Hp & Ep). apply in_flat_map in Hp as (c & Hc & Hp).
    assert (Ec : gather f t g c = Err e).
    { assert (Hc' := Hc). rewrite (krep_kids _ _ _ K) in Hc'. apply in_map_iff in Hc' as (d & <- & Hd). apply IH; [eapply krep_child; eauto | eapply heights; eauto | | eauto].
      intros q e' Hq. apply Ho. apply in_flat_map. exists (root d). auto. }
    clear - Q Hc Ec. induction (kids t x) as [|a l IHl]; [contradiction|]. cbn [all_of]. destruct (Q a (or_introl eq_refl)) as [(r & Ea)|Ea]; [|rewrite Ea; auto].
    destruct Hc as [->|Hc]; [congruence|]. rewrite Ea. cbn [fbind]. rewrite IHl; auto using in_cons.
Qed.

(** The names. *)
Variable nm : oid -> str.
Lemma path_below : forall x y a, In y (kids t x) -> form nm y a -> forall z n, path_name t nm y z n -> path_name t nm x z (a ++ lit "." ++ n).
Proof.
  intros x y a Hy Fy z n P. induction P as [z b Hz Fz|z w n b P IH Hw Fw].
  - eapply path_step; eauto. constructor; auto.
  - replace (a ++ lit "." ++ n ++ lit "." ++ b) with ((a ++ lit "." ++ n) ++ lit "." ++ b) by (rewrite <- !app_assoc; auto). eapply path_step; eauto.
Qed.
Lemma names_ok : forall f tr b, krep t tr -> height tr <= f -> (forall y, part t (root tr) y -> exists a, form nm y a) ->
  exists l, parameter_names nm f t b (root tr) = Got l /\
    (if b || is_leaf t (root tr) then Forall2 (fun z n => forall p, In (root tr) (kids t p) -> path_name t nm p z n) (flattened f t (root tr)) l
     else Forall2 (path_name t nm (root tr)) (flattened f t (root tr)) l).
Proof.
  induction f as [|f IH]; intros [x ts] b K Hh Hn; [simpl in Hh; lia|]. cbn [parameter_names flattened root] in *.
  destruct (Hn x (above_refl t x)) as [a Fa]. assert (Ea : adjusted nm x = Got a) by (unfold adjusted; unfold form in Fa; rewrite Fa; auto).
  destruct (is_leaf t x) eqn:El.
  - rewrite Ea. cbn [fbind]. exists [a]. split; auto. rewrite orb_true_r. constructor; [|constructor]. intros p Hp. constructor; auto.
  - assert (Hk : forall c, In c (kids t x) -> part t x c).
    { intros c Hi. apply In_nth_error in Hi as [i Hi]. exists (sum_sizes t (firstn i (kids t x)) + 0)%Z, 1. eapply below_kid; eauto. constructor. }
    assert (Q : exists ls, all_of (parameter_names nm f t true) (kids t x) = Got ls /\ Forall2 (path_name t nm x) (flat_map (flattened f t) (kids t x)) (concat ls)).
    { assert (Q1 : forall c, In c (kids t x) -> exists l, parameter_names nm f t true c = Got l /\ Forall2 (path_name t nm x) (flattened f t c) l).
      { intros c Hc. assert (Hc' := Hc). rewrite (krep_kids _ _ _ K) in Hc'. apply in_map_iff in Hc' as (d & <- & Hd). destruct (IH d true) as (l & E & F); [eapply krep_child; eauto | eapply heights; eauto | |].
        - intros y Py. apply Hn. eapply above_trans; eauto.
        - exists l. split; auto. cbn [orb] in F. clear - F Hc. induction F; constructor; auto. }
      clear - Q1. induction (kids t x) as [|c l IHl]; [exists []; split; [auto | constructor]|]. destruct (Q1 c (or_introl eq_refl)) as (r & Er & Fr). destruct IHl as (ls & Els & Fls); [intros; apply Q1; right; auto|].
      exists (r :: ls). cbn [all_of]. rewrite Er. cbn [fbind]. rewrite Els. split; auto. cbn [flat_map concat]. apply Forall2_app; auto. }
    destruct Q as (ls & -> & F). cbn [fbind]. rewrite orb_false_r. destruct b; [|exists (concat ls); auto].
    rewrite (all_of_ok _ _ _ (fun n => a ++ lit "." ++ n)) by (intros n _; rewrite Ea; auto). eexists. split; [reflexivity|].
    clear - F Fa. induction F as [|z n l l' H F IHF]; cbn [map]; constructor; auto. intros p Hp. apply (path_below p x a); auto.
Qed.
End Tree.
