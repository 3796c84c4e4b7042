(** Finding and setting parameters by name. *)
From Coq Require Import String List ZArith NArith Bool Arith Lia.
From Verif Require NamesModel NamesSpec NamesProofs NamesUnique NamesHalt NamesFinal.
From Verif Require Import NpModel NpProofs IndexOpsModel IndexOpsSpec IndexOpsProofs PzModel PzSpec PzTree PzStruct PzLink PzWalk PzMem PzIo PzInv PzConn PzFix PzLinkMem PzPres PzUnlink PzTraverse PzNotify PzNew PzCmd PzInit PzCons PzVal PzOpt PzRandom PzHist PzOrder PzGrad PzKeep PzFinal.
From Verif Require Import ConcatModel ConcatSpec ConcatProofs ConcatOps ConcatCalls ConcatCons ConcatFinal FlatModel FlatSpec FlatProofs FlatFinal.
Import ListNotations.
Local Open Scope list_scope.
Local Open Scope Z_scope.

Lemma kept_filter' : forall (A : Type) (p : A -> bool) (P : A -> Prop) l, (forall k, In k l -> (p k = true <-> P k)) -> kept_of P l (filter p l).
Proof.
  intros A p P l. induction l as [|a l IH]; intros H; [constructor|]. cbn [filter]. destruct (p a) eqn:E.
  - constructor; [apply H; auto; left; auto | apply IH; intros; apply H; right; auto].
  - constructor; [intros Q; apply H in Q; [congruence | left; auto] | apply IH; intros; apply H; right; auto].
Qed.
Lemma kept_in : forall (A : Type) (P : A -> Prop) l l', kept_of P l l' -> forall a, In a l' <-> In a l /\ P a.
Proof.
  intros A P l l' H. induction H as [|a l l' Pa H IH|a l l' Pa H IH]; intros b; cbn [In].
  - tauto.
  - rewrite IH. split; [intros [<-|[H1 H2]]; auto | intros [[<-|H1] H2]; auto].
  - rewrite IH. split; [intros [H1 H2]; auto | intros [[<-|H1] H2]; [contradiction | auto]].
Qed.

Section Find.
Context {V : Type}.
Implicit Types s : @state V.
(** [s'] differs from [s] in nothing that can be seen. *)
Definition looks s s' : Prop := st s' = st s /\ ios s' = ios s /\ fix_ s' = fix_ s /\ mem s' = mem s /\ nsame (nt s) (nt s').
Lemma looks_inv : forall s s', looks s s' -> Inv s -> Inv s'.
Proof.
  intros s s' (E1 & E2 & E3 & E4 & (E5 & E6)) [W I F M N J]. destruct E5 as (P1 & _). constructor; rewrite ?E1, ?E2, ?E3, ?E4; auto.
  destruct N as [N1 N2]. split; [intros y; rewrite P1; auto | intros y; rewrite E6; auto].
Qed.
Lemma looks_apart : forall s s', looks s s' -> apart s -> apart s'.
Proof. intros s s' (E1 & _ & _ & E4 & _) A. unfold apart in *. rewrite E1, E4. auto. Qed.
Lemma found_matches : forall t nm mt r x y, swf t -> named t nm x -> top t r x -> part t x y -> (found nm t mt x y = true <-> matches t nm mt r x y).
Proof.
  intros t nm mt r x y W Nm [Pr Er] Pxy. unfold found, matches. rewrite andb_true_iff, negb_true_iff, Nat.eqb_neq.
  destruct (named_full t nm x W Nm y) as [h Fh]; [exists x; split; [apply above_refl | auto]|]. rewrite (proj2 (hname_full t nm y h W) Fh).
  assert (Pry : part t r y) by (eapply above_trans; eauto).
  assert (Ne : y <> x -> r <> y).
  { intros Hn <-. apply Hn. destruct Pxy as (o & n & B), Pr as (o' & n' & B'). destruct (Nat.eq_dec x r) as [|Nx]; auto.
    exfalso. destruct (below_par _ (wf_par _ W) _ _ _ _ B Nx) as (p & _ & _ & Ep & _). congruence. }
  split.
  - intros [Hn Hm]. split; auto. split; auto. destruct (full_path t nm r y h W Er Pry (Ne Hn) Fh) as (b & a & Fb & Pa & ->). exists a. split; auto.
    rewrite after_dot_plain in Hm; auto. eapply form_plain; eauto.
  - intros (_ & Hn & a & Pa & Hm). split; auto. destruct (Nm r) as [b Fb]; [exists r; split; [auto | apply above_refl]|].
    pose proof (path_full t nm r y a W Er b Fb Pa) as Fh'. rewrite (full_fun _ _ _ _ _ W Fh Fh'), after_dot_plain; auto. eapply form_plain; eauto.
Qed.
Lemma grep_ok : forall s nm mt r x, Inv s -> named (st s) nm x -> top (st s) r x ->
  exists s' l l0, grep nm mt x s = (s', Got l) /\ looks s s' /\ preorder (st s) x l0 /\ NoDup l0 /\ (forall y, In y l0 <-> part (st s) x y) /\ kept_of (matches (st s) nm mt r x) l0 l.
Proof.
  intros s nm mt r x H Nm Tp. pose proof (inv_st _ H) as W. destruct (inv_nt _ H) as [N1 N2].
  set (stop := fun y => negb (y =? x)%nat && unnamed nm (st s) y).
  destruct (traverse_wf (st s) stop x (nt s) [] W N2) as (tr & E1 & E2 & E3 & E4 & n1 & seen & e & Et & Nr & T1 & _).
  destruct T1 as (-> & -> & Ns).
  { intros y Hy. unfold stop. apply andb_false_iff. right. unfold unnamed. destruct (named_full (st s) nm x W Nm y) as [h Fh]; [exists x; split; [apply above_refl | auto]|].
    rewrite (proj2 (hname_full _ nm y h W) Fh). auto. }
  exists (with_nt s n1), (filter (found nm (st s) mt x) (oids tr)), (oids tr). split.
  { unfold grep. change (fun y : oid => _) with stop. rewrite Et, app_nil_r, rev_involutive. auto. }
  split; [repeat (split; auto); apply Ns|]. split; [rewrite <- E1; apply rep_preorder, rep_krep; auto|]. split; auto. split; auto.
  apply kept_filter'. intros y Hy. apply E4 in Hy. apply found_matches; auto.
Qed.

Lemma set_all_ok : forall s y v, Inv s -> apart s -> (y < next (st s))%nat -> ready (st s) y ->
  exists s', set_all y v s = (s', None) /\ all_set s s' (eq y) v /\ (quiet s y -> all_updated s s' (eq y)).
Proof.
  intros s y v H A Hy Ry. destruct (assign_ok s y (fun _ _ => v) H Hy Ry) as (s' & l & E & H' & [C1 C2] & A' & E1 & E2 & E3 & Rn & Q).
  exists s'. split.
  { unfold set_all. assert (Eb : is_leaf (st s) y || match inited (st s) y with Some true => true | _ => false end = true) by (destruct Ry as [->| ->]; [auto | apply orb_true_r]). rewrite Eb, E. auto. }
  split.
  - split; auto. split; auto. intros z j Hz Rz Hj. split.
    + intros (y' & k & <- & Se). rewrite (C1 z j k Hz Rz Se). destruct (value_some s z j H Hz Rz Hj) as [w ->]. auto.
    + intros Hn. apply C2; auto. intros k Se. apply Hn. exists y, k. auto.
  - intros [On Fin]. exists l. split; [apply Rn|]. intros q z p <- Pp Hl Pq Kq. destruct (is_leaf (st s) y) eqn:El.
    + destruct Q as (u & Hu & ->). destruct (chain_order s (nt s) y u H Hu) as (_ & Hc & _); [intros w Hw; apply On; exists w; split; [auto | apply above_refl]|]. apply Hc. auto.
    + destruct (triggered_order s (nt s) y l H Hy Q) as (_ & Hc & _); [apply Fin; exists y; split; apply above_refl | auto|]. apply Hc. auto.
Qed.
Lemma set_many_ok : forall s xs v, Inv s -> apart s -> (forall x, In x xs -> (x < next (st s))%nat) ->
  let c := concatenation (st s) xs in cparams c <> [] ->
  exists s', conc_set (arange (conc_size s c)) [v] c s = (used c, s', None) /\ all_set s s' (fun z => In z xs) v /\
    ((forall x, In x xs -> quiet s x) -> all_updated s s' (fun z => In z xs)).
Proof.
  intros s xs v H A Hx c Ne. pose proof (inv_st _ H) as W. destruct (conc_params_ok (st s) xs W) as [Nd Hp].
  assert (Pc : conc_of (st s) c). { split; auto. intros p Q. apply Hp in Q as [Hl (x & Hi & Ha)]. split; auto. eapply above_lt'; eauto. }
  assert (Hs : sel_ok s c (arange (conc_size s c))) by (intros k Hk; apply arange_In in Hk; auto).
  assert (Hf : fits (arange (conc_size s c)) [v]) by (left; auto).
  destruct (set_values_conc s c _ [v] H A Pc Ne Hs Hf) as (s1 & R1 & H1 & A1 & E1 & E2 & E3 & E4 & C1 & C2).
  assert (Hit : forall y j, inside (st s) (fun z => In z xs) y j -> exists k p i, In k (arange (conc_size s c)) /\ position_of (st s) (cparams c) k p i /\ same_elem (st s) y j p i).
  { intros y j (z & k & Hz & Se). pose proof Se as (_ & Hk & _). destruct (cover_elem (st s) z k W Hk) as (p & i & Hl & Hzp & Sp).
    assert (In p (cparams c)) by (apply Hp; split; auto; exists z; auto). apply in_split in H0 as (l1 & l2 & El).
    assert (Po : position_of (st s) (cparams c) (sum_sizes (st s) l1 + i) p i) by (exists l1, l2; split; auto; split; [apply Sp | auto]).
    exists (sum_sizes (st s) l1 + i), p, i. split; [apply arange_In; exact (position_range _ _ _ _ _ W Po)|]. split; auto. eapply same_elem_trans; eauto. apply same_elem_sym; auto. }
  assert (Val : forall s2, st s2 = st s1 -> ios s2 = ios s1 -> mem s2 = mem s1 -> all_set s s2 (fun z => In z xs) v).
  { intros s2 B1 B2 B4. assert (Ev : forall y j, value s2 y j = value s1 y j) by (intros; unfold value; rewrite B4; auto).
    split; [congruence|]. split; [congruence|]. intros y j Hy Ry Hj. rewrite Ev. split.
    - intros Hin. destruct (Hit y j Hin) as (k & p & i & Hk & Po & Se). pose proof (position_in _ _ _ _ _ Po) as [_ Hi]. pose proof (position_range _ _ _ _ _ W Po) as Hr.
      destruct (C2 k p i y j i Hk Po Hy Ry Se) as [D _].
      { apply counted_front; [lia|]. intros i' Hi'. apply arange_In. destruct Po as (l1 & l2 & _ & _ & Ek). pose proof (ConcatProofs.sum_nonneg (st s) l1 W). unfold conc_size. lia. }
      apply D. replace (k - i + i) with k by lia. apply in_split in Hk as (a & b & Ea). exists a, b. split; auto. split; [|left; auto].
      assert (Na : NoDup (arange (conc_size s c))) by (apply FinFun.Injective_map_NoDup; [intros a' b'; lia | apply seq_NoDup]). rewrite Ea in Na. apply NoDup_remove_2 in Na. intros Q. apply Na, in_or_app; auto.
    - intros Hn. apply C1; auto. intros (k & p & i & Hk & Po & Se). apply Hn. pose proof (position_in _ _ _ _ _ Po) as [Hi _]. apply Hp in Hi as [Hl (z & Hz & Hzp)].
      destruct Hzp as (o & n & B). exists z, (i + o). split; auto. pose proof Se as (_ & Hi & _).
      eapply same_elem_trans; eauto. apply (below_elem (st s) z p o n i); auto. }
  assert (Rt : triggers (cleft c) s1 = triggers (conc_parents (st s) (cparams c)) s1) by reflexivity.
  destruct (triggers_any (cleft c) s1 H1) as (s2 & l & R2 & (B1 & B2 & B3 & B4 & B5)).
  { rewrite E1. intros q Hq. apply (conc_parents_ok (st s) _ W) in Hq. eapply over_lt; eauto. }
  exists s2. split; [apply R1; auto|]. split; [apply Val; auto|]. intros Qu.
  assert (Ot : forall p y, In p (cparams c) -> together (st s) p y -> updates (nt s) y = true /\ in_init (st s) y = false).
  { intros p y Hi T. apply Hp in Hi as [_ (z & Hz & Hzp)]. destruct (Qu z Hz) as [Q1 Q2]. assert (Tz : together (st s) z y) by (apply (together_trans s z p y); auto; exists z; split; [apply above_refl | auto]). auto. }
  destruct (update_first s1 (cparams c) H1) as (s3 & l3 & R3 & O3 & I3 & _).
  { rewrite E1. intros q (p & Hi & Pq & _). apply (Ot p q Hi). exists q. split; [auto | apply above_refl]. }
  { rewrite E1, E4. intros p y Hi T. apply (Ot p y Hi T). }
  rewrite E1 in R3. rewrite Rt, R3 in R2. injection R2 as <-. exists l3. destruct O3 as (_ & _ & _ & _ & (_ & Tr & _)). rewrite Tr, E4. split; auto.
  intros q z p Hz Hzp Hl Hqz Kq. apply I3. rewrite E1. exists p. split; [apply Hp; split; auto; exists z; auto|]. split; [eapply above_trans; eauto|]. intros ->. unfold is_leaf in Hl. rewrite Kq in Hl. discriminate.
Qed.
Lemma looks_set : forall s s1 s2 P Q v, looks s s1 -> (forall z, P z <-> Q z) -> all_set s1 s2 P v -> all_set s s2 Q v.
Proof.
  intros s s1 s2 P Q v (E1 & E2 & E3 & E4 & E5) Eq (A1 & A2 & A3). split; [congruence|]. split; [congruence|]. rewrite E1 in A3. intros y j Hy Ry Hj. destruct (A3 y j Hy Ry Hj) as [B1 B2].
  assert (Ei : inside (st s) P y j <-> inside (st s) Q y j) by (split; intros (z & k & Hz & Se); exists z, k; split; auto; apply Eq; auto). rewrite Ei in B1, B2. split; auto.
  intros Hn. rewrite (B2 Hn). unfold value. rewrite E4. auto.
Qed.
Lemma looks_updated : forall s s1 s2 (P Q : oid -> Prop), looks s s1 -> (forall z, P z <-> Q z) -> all_updated s1 s2 P -> all_updated s s2 Q.
Proof.
  intros s s1 s2 P Q (E1 & E2 & E3 & E4 & E5) Eq (l & T & Hl). exists l. destruct E5 as [(_ & _ & _ & _ & Et) _]. split; [congruence|]. rewrite E1 in Hl. intros q z p Hz. apply (Hl q z p), Eq. auto.
Qed.
Lemma looks_quiet : forall s s1 x, looks s s1 -> quiet s x -> quiet s1 x.
Proof. intros s s1 x (E1 & _ & _ & _ & ((_ & E5 & _) & _)) [A B]. unfold quiet. rewrite E1, E5. auto. Qed.
(** [m[regexp] = v]. *)
Lemma setitem_ok : forall s nm mt v r x, Inv s -> apart s -> (x < next (st s))%nat -> inited (st s) x = Some true -> named (st s) nm x -> top (st s) r x ->
  (exists y p, matches (st s) nm mt r x y /\ part (st s) y p /\ is_leaf (st s) p = true) ->
  exists s', setitem nm mt v x s = (s', None) /\ all_set s s' (matches (st s) nm mt r x) v /\ (quiet s x -> all_updated s s' (matches (st s) nm mt r x)).
Proof.
  intros s nm mt v r x H A Hx Ix Nm Tp Ex. pose proof (inv_st _ H) as W.
  destruct (grep_ok s nm mt r x H Nm Tp) as (s1 & l & l0 & G & Lk & Po & Nd & Hl0 & K). pose proof (looks_inv _ _ Lk H) as H1. pose proof (looks_apart _ _ Lk A) as A1.
  assert (Hl : forall y, In y l <-> matches (st s) nm mt r x y).
  { intros y. rewrite (kept_in _ _ _ _ K y), Hl0. split; [tauto|]. intros M. split; auto. apply M. }
  assert (Es : st s1 = st s) by apply Lk.
  assert (Lt : forall y, In y l -> (y < next (st s1))%nat) by (intros y Hy; apply Hl in Hy as (Hp & _); rewrite Es; eapply above_lt'; eauto).
  assert (Qx : quiet s x -> forall y, In y l -> quiet s1 y).
  { intros [Q1 Q2] y Hy. apply (looks_quiet _ _ _ Lk). apply Hl in Hy as (Hp & _). assert (T : together (st s) x y) by (exists x; split; [apply above_refl | auto]).
    split; intros z Hz; [apply Q1 | apply Q2]; apply (together_trans s x y z); auto. }
  unfold setitem, getitem. rewrite Ix, G. destruct l as [|y [|y2 l]].
  - exfalso. destruct Ex as (y & p & Hy & _). apply Hl in Hy. destruct Hy.
  - assert (Ry : ready (st s1) y).
    { rewrite Es. assert (M : In y [y]) by (left; auto). apply Hl in M as (Hp & _). destruct (kind (st s) y) as [n|] eqn:Ek; [left; unfold is_leaf; rewrite Ek; auto|]. right. eapply (ii_down _ (inv_init _ H)); eauto. }
    destruct (set_all_ok s1 y v H1 A1 (Lt y (or_introl eq_refl)) Ry) as (s2 & R2 & S2 & U2). exists s2. split; auto.
    assert (Eq : forall z, y = z <-> matches (st s) nm mt r x z) by (intros z; rewrite <- Hl; cbn; tauto).
    split; [eapply looks_set; eauto|]. intros Qs. eapply looks_updated; eauto. apply U2, (Qx Qs). left; auto.
  - set (xs := y :: y2 :: l) in *. assert (Ne : cparams (concatenation (st s1) xs) <> []).
    { destruct Ex as (z & p & Hz & Hp & Lp). apply Hl in Hz. destruct (conc_params_ok (st s1) xs (inv_st _ H1)) as [_ Q]. rewrite Es in Q. assert (M : In p (cparams (concatenation (st s) xs))) by (apply Q; eauto). rewrite Es. intros E0. rewrite E0 in M. destruct M. }
    destruct (set_many_ok s1 xs v H1 A1 Lt Ne) as (s2 & R2 & S2 & U2). exists s2. rewrite R2. split; auto.
    split; [exact (looks_set _ _ _ _ _ _ Lk Hl S2)|]. intros Qs. exact (looks_updated _ _ _ _ _ Lk Hl (U2 (Qx Qs))).
Qed.
Lemma setitem_none : forall s nm mt v r x, Inv s -> inited (st s) x = Some true -> named (st s) nm x -> top (st s) r x -> (forall y, ~ matches (st s) nm mt r x y) ->
  exists s', setitem nm mt v x s = (s', Some (Py AttributeError)) /\ looks s s'.
Proof.
  intros s nm mt v r x H Ix Nm Tp Nx. destruct (grep_ok s nm mt r x H Nm Tp) as (s1 & l & l0 & G & Lk & Po & Nd & Hl0 & K).
  assert (l = []) as ->. { destruct l as [|y l]; auto. exfalso. apply (Nx y). apply (kept_in _ _ _ _ K y). left; auto. }
  exists s1. unfold setitem, getitem. rewrite Ix, G. auto.
Qed.
(** [m.name = v]. *)
Lemma target_ok : forall t nm x n, (forall y, In y (kids t x) -> exists b, form nm y b) ->
  (forall y, In y (kids t x) -> form nm y n -> (forall z, In z (kids t x) -> form nm z n -> z = y) -> attr_target nm t x n = Got (Some y)) /\
  ((forall y, In y (kids t x) -> ~ form nm y n) -> attr_target nm t x n = Got None).
Proof.
  intros t nm x n Hf. unfold attr_target.
  assert (E : all_of (fun y => match NamesModel.adjust (nm y) with Some a => Got (y, a) | None => Err NameError end) (kids t x) =
    Got (map (fun y => (y, match NamesModel.adjust (nm y) with Some a => a | None => [] end)) (kids t x))).
  { apply FlatFinal.all_of_ok. intros y Hy. destruct (Hf y Hy) as [b Fb]. unfold form in Fb. rewrite Fb. auto. }
  rewrite E. cbn [fbind]. clear E.
  assert (Fs : forall y, In y (kids t x) -> (NamesModel.streq (match NamesModel.adjust (nm y) with Some a => a | None => [] end) n = true <-> form nm y n)).
  { intros y Hy. destruct (Hf y Hy) as [b Fb]. unfold form in *. rewrite Fb. unfold NamesModel.streq. destruct (list_eq_dec N.eq_dec b n) as [->|Ne]; split; auto; try discriminate. congruence. }
  split.
  - intros y Hy Fy U. destruct (find _ _) as [e|] eqn:Ef.
    + apply find_some in Ef as [Hi Es]. apply in_map_iff in Hi as (z & <- & Hz). cbn [fst snd] in *. apply Fs in Es; auto. rewrite (U z Hz Es). auto.
    + exfalso. pose proof (find_none _ _ Ef (y, match NamesModel.adjust (nm y) with Some a => a | None => [] end)) as Q. cbn [snd] in Q. apply Fs in Fy; auto. rewrite Fy in Q. discriminate Q. apply in_map_iff. exists y. auto.
  - intros Hn. destruct (find _ _) as [e|] eqn:Ef; auto. exfalso. apply find_some in Ef as [Hi Es]. apply in_map_iff in Hi as (z & <- & Hz). cbn [snd] in Es. apply Fs in Es; auto. apply (Hn z Hz Es).
Qed.
Lemma setattr_ok : forall s nm x n v y, Inv s -> apart s -> (forall y, In y (kids (st s) x) -> exists b, form nm y b) -> In y (kids (st s) x) -> form nm y n ->
  (forall z, In z (kids (st s) x) -> form nm z n -> z = y) -> ready (st s) y ->
  exists s', setattr nm x n v s = (s', None) /\ all_set s s' (eq y) v /\ (quiet s y -> all_updated s s' (eq y)).
Proof.
  intros s nm x n v y H A Hf Hy Fy U Ry. unfold setattr. rewrite (proj1 (target_ok (st s) nm x n Hf) y Hy Fy U). apply set_all_ok; auto.
  destruct (le_lt_dec (next (st s)) y) as [L|L]; auto. apply (wf_new _ (inv_st _ H)) in L as (_ & E & _). apply (wf_par _ (inv_st _ H)) in Hy. congruence.
Qed.
Lemma setattr_other : forall s nm x n v, (forall y, In y (kids (st s) x) -> exists b, form nm y b) -> (forall y, In y (kids (st s) x) -> ~ form nm y n) -> setattr nm x n v s = (s, None).
Proof. intros s nm x n v Hf Hn. unfold setattr. rewrite (proj2 (target_ok (st s) nm x n Hf) Hn). auto. Qed.
End Find.

(** * After calls of the public methods *)
Section Final.
Context {V : Type}.
Variables tinit tf tfinv : nat -> V -> V.
Variable junk : nat -> Z -> V.
Notation reachable := (reach tinit tf tfinv legal junk).
Implicit Types s : @state V.
Lemma looks_untouched : forall s s', looks s s' -> untouched s s'.
Proof. intros s s' (E1 & E2 & E3 & E4 & ((E5 & E6 & E7 & E8 & E9) & _)). repeat (split; auto). Qed.
Lemma names_final : forall s nm shp x, reachable s -> named (st s) nm x -> shaped (st s) shp x -> filled (st s) x ->
  exists l, parameter_names_flat nm shp s x true = Got (Flat l) /\ all_labelled (st s) nm shp x l.
Proof.
  intros s nm shp x R Nm Sh Fi. destruct (reach_legal _ _ _ _ _ R) as [H _]. destruct (names_all s nm shp x (inv_st _ H) Nm Sh Fi) as (l & E & _ & _ & Lb). eauto.
Qed.
Lemma names_free_final : forall s nm shp x ks, reachable s -> (x < next (st s))%nat -> named (st s) nm x -> shaped (st s) shp x -> filled (st s) x ->
  (par (st s) x = None /\ ready (st s) x) \/ (forall j, ~ has s x Fixed j) -> free s x ks ->
  exists l l', parameter_names_flat nm shp s x true = Got (Flat l) /\ all_labelled (st s) nm shp x l /\ parameter_names_flat nm shp s x false = Got (Flat l') /\
    length l' = length ks /\ forall i k, nth_error ks i = Some k -> nth_error l' i = nth_error l (Z.to_nat k).
Proof. intros s nm shp x ks R. apply names_free. apply (reach_legal _ _ _ _ _ R). Qed.
Lemma names_distinct : forall s nm shp x, reachable s -> named (st s) nm x -> shaped (st s) shp x -> filled (st s) x -> told_apart (st s) nm x ->
  exists l, parameter_names_flat nm shp s x true = Got (Flat l) /\ NoDup l.
Proof.
  intros s nm shp x R Nm Sh Fi Ta. destruct (names_final s nm shp x R Nm Sh Fi) as (l & E & Lb). exists l. split; auto.
  eapply labelled_nodup; eauto. apply (inv_st _ (proj1 (reach_legal _ _ _ _ _ R))).
Qed.
Lemma found_final : forall s nm mt r x, reachable s -> named (st s) nm x -> top (st s) r x ->
  exists s' l0 l, untouched s s' /\ grep nm mt x s = (s', Got l) /\ preorder (st s) x l0 /\ kept_of (matches (st s) nm mt r x) l0 l.
Proof.
  intros s nm mt r x R Nm Tp. destruct (grep_ok s nm mt r x (proj1 (reach_legal _ _ _ _ _ R)) Nm Tp) as (s' & l & l0 & G & Lk & Po & _ & _ & K).
  exists s', l0, l. split; [apply looks_untouched; auto|]. auto.
Qed.
Lemma item_final : forall s nm mt r x, reachable s -> named (st s) nm x -> top (st s) r x ->
  exists s' i, untouched s s' /\ getitem nm mt x s = (s', i) /\
    match i with
    | Err e => e = Py AttributeError /\ forall y, ~ matches (st s) nm mt r x y
    | Got (One y) => forall z, matches (st s) nm mt r x z <-> z = y
    | Got (Many c) => (exists y z, y <> z /\ matches (st s) nm mt r x y /\ matches (st s) nm mt r x z) /\ NoDup (cparams c) /\
        forall p, In p (cparams c) <-> is_leaf (st s) p = true /\ exists z, matches (st s) nm mt r x z /\ part (st s) z p
    end.
Proof.
  intros s nm mt r x R Nm Tp. destruct (reach_legal _ _ _ _ _ R) as [H _]. destruct (grep_ok s nm mt r x H Nm Tp) as (s' & l & l0 & G & Lk & Po & Nd & Hl0 & K).
  assert (Hl : forall y, In y l <-> matches (st s) nm mt r x y).
  { intros y. rewrite (kept_in _ _ _ _ K y), Hl0. split; [tauto|]. intros M. split; auto. apply M. }
  assert (Nl : NoDup l). { clear - K Nd. induction K as [|a l0 l Pa K IH|a l0 l Pa K IH]; [constructor| |]; inversion Nd; subst; auto. constructor; auto. intros Q. apply (kept_in _ _ _ _ K) in Q as [Q _]. contradiction. }
  exists s'. unfold getitem. rewrite G. destruct l as [|y [|y2 l]]; eexists; (split; [apply looks_untouched; eauto|]); (split; [reflexivity|]); cbn [cparams].
  - split; auto. intros y Hy. apply Hl in Hy. destruct Hy.
  - intros z. rewrite <- Hl. cbn. split; [intros [->|[]]; auto | intros ->; auto].
  - set (xs := y :: y2 :: l) in *. destruct (conc_params_ok (st s') xs) as [N1 N2]; [rewrite (proj1 Lk); apply (inv_st _ H)|]. split; [|split; auto].
    + exists y, y2. split; [|split; apply Hl; [left | right; left]; auto]. inversion Nl as [|a b N _]; subst. intros ->. apply N. left; auto.
    + intros p. unfold concatenation. cbn [cparams]. rewrite N2, (proj1 Lk). split; intros [A (z & B & C)]; split; auto; exists z; split; auto; apply Hl; auto.
Qed.
Lemma unnamed_final : forall s nm mt x y, reachable s -> part (st s) x y -> y <> x -> NamesModel.adjust (nm y) = None ->
  exists s', getitem nm mt x s = (s', Err NameError) /\ untouched s s'.
Proof.
  intros s nm mt x y R P Ne E. destruct (reach_legal _ _ _ _ _ R) as [H _]. pose proof (inv_st _ H) as W. destruct (inv_nt _ H) as [N1 N2].
  set (stop := fun y => negb (y =? x)%nat && unnamed nm (st s) y).
  destruct (traverse_wf (st s) stop x (nt s) [] W N2) as (tr & _ & _ & _ & _ & n1 & seen & e & Et & Nr & _ & T2).
  rewrite T2 in Et. { exists (with_nt s n1). unfold getitem, grep. change (fun y : oid => _) with stop. rewrite Et. split; auto. destruct Nr as (_ & E6 & _ & _ & E9). repeat (split; auto). }
  exists y. split; auto. unfold stop. rewrite (proj2 (Nat.eqb_neq y x) Ne). cbn [negb andb]. unfold unnamed. rewrite hname_step by auto. rewrite E.
  destruct (par (st s) y) as [p|]; [destruct (hname (st s) nm p)|]; auto.
Qed.
Notation creachable := (creach tinit tf tfinv junk).
Lemma setitem_final : forall s nm mt v r x, creachable s -> (x < next (st s))%nat -> inited (st s) x = Some true -> named (st s) nm x -> top (st s) r x ->
  (exists y p, matches (st s) nm mt r x y /\ part (st s) y p /\ is_leaf (st s) p = true) ->
  exists s', setitem nm mt v x s = (s', None) /\ all_set s s' (matches (st s) nm mt r x) v.
Proof.
  intros s nm mt v r x R Hx Ix Nm Tp Ex. destruct (creach_ok _ _ _ _ _ R) as (H & _ & A). destruct (setitem_ok s nm mt v r x H A Hx Ix Nm Tp Ex) as (s' & E & S' & _). eauto.
Qed.
Lemma setitem_updates : forall s nm mt v r x, creachable s -> (x < next (st s))%nat -> inited (st s) x = Some true -> named (st s) nm x -> top (st s) r x ->
  (exists y p, matches (st s) nm mt r x y /\ part (st s) y p /\ is_leaf (st s) p = true) -> quiet s x ->
  exists s', setitem nm mt v x s = (s', None) /\ all_updated s s' (matches (st s) nm mt r x).
Proof.
  intros s nm mt v r x R Hx Ix Nm Tp Ex Q. destruct (creach_ok _ _ _ _ _ R) as (H & _ & A). destruct (setitem_ok s nm mt v r x H A Hx Ix Nm Tp Ex) as (s' & E & _ & U). eauto.
Qed.
Lemma setitem_none_final : forall s nm mt v r x, creachable s -> inited (st s) x = Some true -> named (st s) nm x -> top (st s) r x -> (forall y, ~ matches (st s) nm mt r x y) ->
  exists s', setitem nm mt v x s = (s', Some (Py AttributeError)) /\ untouched s s'.
Proof.
  intros s nm mt v r x R Ix Nm Tp Nx. destruct (creach_ok _ _ _ _ _ R) as (H & _ & A). destruct (setitem_none s nm mt v r x H Ix Nm Tp Nx) as (s' & E & L). exists s'. split; auto. apply looks_untouched; auto.
Qed.
Lemma setattr_final : forall s nm x n v y, creachable s -> (forall z, In z (kids (st s) x) -> exists b, form nm z b) -> In y (kids (st s) x) -> form nm y n ->
  (forall z, In z (kids (st s) x) -> form nm z n -> z = y) -> ready (st s) y ->
  exists s', setattr nm x n v s = (s', None) /\ all_set s s' (eq y) v /\ (quiet s y -> all_updated s s' (eq y)).
Proof. intros s nm x n v y R. destruct (creach_ok _ _ _ _ _ R) as (H & _ & A). apply setattr_ok; auto. Qed.
(** What [m.name] reads is what [m.name = v] sets. *)
Lemma attribute_final : forall s x q n y v, creachable s -> NamesSpec.history q -> NamesModel.kids q = kids (st s) x ->
  (forall z, In z (kids (st s) x) -> exists b, form (NamesModel.nm q) z b) ->
  (forall z z' b, In z (kids (st s) x) -> In z' (kids (st s) x) -> form (NamesModel.nm q) z b -> form (NamesModel.nm q) z' b -> z = z') ->
  NamesSpec.attribute q n y -> ready (st s) y ->
  exists s', setattr (NamesModel.nm q) x n v s = (s', None) /\ all_set s s' (eq y) v.
Proof.
  intros s x q n y v R Hq Ek Hf U At Ry. destruct (NamesUnique.attributes_sound q n y Hq At) as [Hi Fy]. rewrite Ek in Hi.
  destruct (setattr_final s (NamesModel.nm q) x n v y R Hf Hi Fy) as (s' & E & S' & _); auto. { intros z Hz Fz. apply (U z y n); auto. } eauto.
Qed.
End Final.
