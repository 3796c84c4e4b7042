(** Concrete names used as examples beside the properties, and as witnesses. *)
From Coq Require Import String List ZArith NArith Bool Arith Lia.
From Verif Require NamesModel NamesSpec NamesProps.
From Verif Require Import NpModel NpProofs IndexOpsModel IndexOpsSpec PzModel PzSpec PzTree PzStruct PzLink PzInv PzPres PzCmd PzVal PzOpt PzRandom PzHist PzKeep PzOrder PzGrad PzCheck PzFinal PzEx.
From Verif Require Import RavelModel RavelSpec ConcatModel ConcatSpec ConcatCons ConcatEx FlatModel FlatSpec FlatProofs FlatLabels FlatFinal FlatFind.
Import ListNotations.
Local Open Scope list_scope.
Local Open Scope Z_scope.

(** Names and shapes for [ex]: m = [k(x) = [a, b], c]. *)
Definition fnm (y : oid) : str := nth y [lit "a"; lit "b"; lit "k(x)"; lit "c"; lit "m"; lit "d"; lit "n"; lit "e"] [].
Definition fshp (y : oid) : list nat := nth y [[2];[1];[];[2;1];[];[1];[];[1;2]]%nat [].
Definition is (names : list str) (a : str) : bool := existsb (NamesModel.streq a) names.
Lemma together_lt : forall {V} (s : @state V) x, Inv s -> (x < next (st s))%nat -> forall y, together (st s) x y -> (y < next (st s))%nat.
Proof.
  intros V s x H Hx y (r & A & B). assert (r < next (st s))%nat.
  { destruct A as (o & n & A). inversion A as [|z i c w o' n' En]; subst; auto. apply (kid_lt (st s) r c (inv_st _ H)). eapply nth_error_In; eauto. }
  eapply above_lt'; eauto.
Qed.
Definition namedb (s : @state Z) (nm : oid -> str) : bool := forallb (fun y => match NamesModel.adjust (nm y) with Some _ => true | None => false end) (seq 0 (next (st s))).
Lemma namedb_ok : forall s nm x, Inv s -> (x < next (st s))%nat -> namedb s nm = true -> named (st s) nm x.
Proof.
  intros s nm x H Hx E y T. unfold namedb in E. rewrite forallb_forall in E. specialize (E y). unfold form. destruct (NamesModel.adjust (nm y)); eauto.
  discriminate E. apply in_seq. split; [lia|]. cbn. eapply together_lt; eauto.
Qed.
Definition shapedb (s : @state Z) (shp : oid -> list nat) : bool :=
  forallb (fun y => negb (is_leaf (st s) y) || (negb (length (shp y) =? 0)%nat && (size (st s) y =? Z.of_nat (elements (shp y))) && (0 <? size (st s) y))) (seq 0 (next (st s))).
Lemma shapedb_ok : forall s shp x, Inv s -> (x < next (st s))%nat -> shapedb s shp = true -> shaped (st s) shp x /\ filled (st s) x.
Proof.
  intros s shp x H Hx E. unfold shapedb in E. rewrite forallb_forall in E.
  assert (G : forall y, part (st s) x y -> is_leaf (st s) y = true -> shp y <> [] /\ size (st s) y = Z.of_nat (elements (shp y)) /\ 0 < size (st s) y).
  { intros y P Hl. specialize (E y). rewrite Hl in E. cbn [negb orb] in E. rewrite !andb_true_iff, negb_true_iff, Nat.eqb_neq, Z.eqb_eq, Z.ltb_lt in E.
    destruct E as [[E1 E2] E3]; [apply in_seq; split; [lia|]; cbn; eapply above_lt'; eauto|]. split; auto. intros Q. apply E1. rewrite Q. auto. }
  split; intros y P Hl; destruct (G y P Hl) as (A & B & C); auto.
Qed.
Lemma ex_named : named (st ex) fnm 4 /\ named (st ex) fnm 2.
Proof. split; apply namedb_ok; try exact ex_Inv; try (vm_compute; lia); vm_compute; reflexivity. Qed.
Lemma ex_shaped : shaped (st ex) fshp 4 /\ filled (st ex) 4.
Proof. apply shapedb_ok; [exact ex_Inv | vm_compute; lia | vm_compute; reflexivity]. Qed.
Lemma ex_parts4 : forall y, part (st ex) 4 y -> In y [4;2;3;0;1]%nat.
Proof.
  intros y P. pose proof (above_lt' ex 4 y ex_Inv) as L. specialize (L ltac:(vm_compute; lia) P). change (next (st ex)) with 8%nat in L.
  apply partb_ok in P; [|exact ex_Inv]. do 8 (destruct y as [|y]; [vm_compute in P; try discriminate P; vm_compute; auto 10|]). lia.
Qed.
Lemma ex_told_apart : told_apart (st ex) fnm 4.
Proof.
  intros p y z b P Hy Hz Fy Fz. apply ex_parts4 in P. destruct P as [<-|[<-|[<-|[<-|[<-|[]]]]]]; vm_compute in Hy, Hz; try contradiction;
  destruct Hy as [<-|[<-|[]]]; destruct Hz as [<-|[<-|[]]]; auto; unfold form in Fy, Fz; vm_compute in Fy, Fz; congruence.
Qed.
Lemma ex_top4 : top (st ex) 4 4 /\ top (st ex) 4 2.
Proof. split; split; [pt ex_reachable | vm_compute; reflexivity | pt ex_reachable | vm_compute; reflexivity]. Qed.
Definition all_names : list str := [lit "m.k_of_x.a[[0]]"; lit "m.k_of_x.a[[1]]"; lit "m.k_of_x.b"; lit "m.c[[0 0]]"; lit "m.c[[1 0]]"].
Lemma ex_names : ex_reach ex /\ (4 < next (st ex))%nat /\ named (st ex) fnm 4 /\ shaped (st ex) fshp 4 /\ filled (st ex) 4 /\ told_apart (st ex) fnm 4 /\
  par (st ex) 4 = None /\ ready (st ex) 4 /\ free ex 4 [0;1;3] /\ parameter_names_flat fnm fshp ex 4 true = Got (Flat all_names) /\
  parameter_names_flat fnm fshp ex 4 false = Got (Flat [lit "m.k_of_x.a[[0]]"; lit "m.k_of_x.a[[1]]"; lit "m.c[[0 0]]"]).
Proof.
  split; [exact ex_reachable|]. split; [vm_compute; lia|]. split; [apply ex_named|]. split; [apply ex_shaped|]. split; [apply ex_shaped|]. split; [exact ex_told_apart|].
  split; [vm_compute; reflexivity|]. split; [rd|]. split; [fr|]. split; vm_compute; reflexivity.
Qed.
Lemma ex_labels : label [12;3]%nat (lit "m.k") 32 (lit "m.k[[10  2]]").
Proof.
  cbn [label]. exists [10;2]%nat, 2%nat, (lit "10  2"), 10%nat. split; [|split; [|split; [left; auto|split; [exists []; split; [reflexivity|split; [intros a []|reflexivity]]|reflexivity]]]].
  - apply (coords_place [12;3]%nat 32 [10;2]%nat); [discriminate | vm_compute; reflexivity].
  - apply (spaced_more 2 10 (lit "10") [2]%nat (lit " 2")).
    + exists []. split; [reflexivity|]. split; [intros a []|reflexivity].
    + apply spaced_one. exists [32%N]. split; [reflexivity|]. split; [intros a [<-|[]]; auto | reflexivity].
Qed.
(** An empty Param has a name too: more names than elements, and an exception when an element is fixed. *)
Notation ex_empty := (from_start [NewParam [1;2]; NewParam []; NewNode [0;1]%nat true; Fix 0%nat (Some [1])]).
Definition hnm (y : oid) : str := nth y [lit "a"; lit "b"; lit "m"] [].
Definition hshp (y : oid) : list nat := nth y [[2];[0];[]]%nat [].
Lemma empty_refuted : exists s nm shp x l, ex_reach s /\ named (st s) nm x /\ shaped (st s) shp x /\ par (st s) x = None /\ ready (st s) x /\
  parameter_names_flat nm shp s x true = Got (Flat l) /\ Z.of_nat (length l) <> size (st s) x /\ parameter_names_flat nm shp s x false = Err (Py IndexError).
Proof.
  exists ex_empty, hnm, hshp, 2%nat, [lit "m.a[[0]]"; lit "m.a[[1]]"; lit "m.b"].
  assert (R : ex_reach ex_empty) by (apply start_reach; vm_compute; reflexivity). pose proof (reach_Inv _ R) as H.
  split; auto. split; [apply namedb_ok; auto; vm_compute; auto|]. split.
  { intros y P Hl. pose proof (above_lt' ex_empty 2 y H) as L. specialize (L ltac:(vm_compute; lia) P). change (next (st ex_empty)) with 3%nat in L.
    do 3 (destruct y as [|y]; [vm_compute in Hl; try discriminate Hl; (split; [vm_compute; discriminate | vm_compute; reflexivity])|]). lia. }
  split; [vm_compute; reflexivity|]. split; [rd|]. split; [vm_compute; reflexivity|]. split; [vm_compute; discriminate | vm_compute; reflexivity].
Qed.
(** Siblings whose different names have the same printing form. *)
Definition gnm (y : oid) : str := if (y =? 1)%nat then lit "a_b" else if (y =? 0)%nat then lit "a b" else fnm y.
Definition gshp (y : oid) : list nat := if (y =? 0)%nat then [1]%nat else fshp y.
Notation ex_pair := (from_start [NewParam [1]; NewParam [2]; NewNode [1]%nat true; Link 2 0 (Some 0)]).
Lemma ex_pair_careful : reach ex_init ex_f ex_finv careful ex_junk ex_pair.
Proof. apply start_careful. vm_compute. reflexivity. Qed.
Lemma ex_pair_reach : ex_reach ex_pair.
Proof. apply start_reach. vm_compute. reflexivity. Qed.
Lemma ex_pair_named : named (st ex_pair) gnm 2.
Proof. apply namedb_ok; [apply reach_Inv, ex_pair_reach | vm_compute; lia | vm_compute; reflexivity]. Qed.
Lemma equal_refuted : exists s nm shp x l, ex_reach s /\ named (st s) nm x /\ shaped (st s) shp x /\ filled (st s) x /\
  (forall p y z, part (st s) x p -> In y (kids (st s) p) -> In z (kids (st s) p) -> nm y = nm z -> y = z) /\
  parameter_names_flat nm shp s x true = Got (Flat l) /\ ~ NoDup l.
Proof.
  exists ex_pair, gnm, gshp, 2%nat, [lit "k_of_x.a_b"; lit "k_of_x.a_b"]. pose proof (reach_Inv _ ex_pair_reach) as H.
  split; [exact ex_pair_reach|]. split; [exact ex_pair_named|]. split; [|split; [|split; [|split]]].
  - apply shapedb_ok; auto; vm_compute; auto.
  - apply (shapedb_ok ex_pair gshp); auto; vm_compute; auto.
  - intros p y z P Hy Hz E. pose proof (above_lt' ex_pair 2 p H) as L. specialize (L ltac:(vm_compute; lia) P). change (next (st ex_pair)) with 3%nat in L.
    do 3 (destruct p as [|p]; [vm_compute in Hy, Hz; try contradiction; destruct Hy as [<-|[<-|[]]]; destruct Hz as [<-|[<-|[]]]; auto; vm_compute in E; discriminate E|]). lia.
  - vm_compute. reflexivity.
  - intros N. inversion N as [|a l N1 N2]; subst. apply N1. left. reflexivity.
Qed.
(** For a part of a larger object nothing is left out, and the array has an axis more. *)
Lemma part_refuted : exists s nm shp x l, ex_reach s /\ (x < next (st s))%nat /\ named (st s) nm x /\ shaped (st s) shp x /\ filled (st s) x /\ ready (st s) x /\
  has s x Fixed 2 /\ parameter_names_flat nm shp s x false = Got (Deep l) /\ parameter_names_flat nm shp s x true = Got (Flat l).
Proof.
  exists ex, fnm, fshp, 2%nat, (firstn 3 all_names). split; [exact ex_reachable|]. split; [vm_compute; lia|]. split; [apply ex_named|].
  destruct (shapedb_ok ex fshp 2 ex_Inv) as [A B]; [vm_compute; lia | vm_compute; reflexivity|]. split; auto. split; auto. split; [rd|]. split; [hs|]. split; vm_compute; reflexivity.
Qed.

Definition two := is [lit "k_of_x.a"; lit "c"].
Fixpoint path_of (t : struct) (nm : oid -> str) (x : oid) (p : list nat) : option str :=
  match p with
  | [] => None
  | i :: q => match nth_error (kids t x) i with
              | None => None
              | Some c => match NamesModel.adjust (nm c), q with
                          | Some a, [] => Some a
                          | Some a, _ => match path_of t nm c q with Some e => Some (a ++ lit "." ++ e) | None => None end
                          | None, _ => None
                          end
              end
  end.
Lemma path_is : forall t nm p r x y b h, walk t x p = Some (y, r, h) -> p <> [] -> path_of t nm x p = Some b -> path_name t nm x y b.
Proof.
  intros t nm p.
  assert (Up : forall z x y a, In x (kids t z) -> path_name t nm x y a -> forall b, form nm x b -> path_name t nm z y (b ++ lit "." ++ a)).
  { intros z x y a Hx P. induction P as [y c Hy Fc|y w c d P IH Hw Fd]; intros b Fb.
    - apply path_step with (y := x); auto. constructor; auto.
    - specialize (IH b Fb). replace (b ++ lit "." ++ c ++ lit "." ++ d) with ((b ++ lit "." ++ c) ++ lit "." ++ d) by (rewrite !app_assoc; auto). apply path_step with (y := y); auto. }
  induction p as [|i q IH]; intros r x y b h W Ne G; [congruence|]. cbn [walk] in W. cbn [path_of] in G. destruct (nth_error (kids t x) i) as [c|] eqn:Ec; [|discriminate].
  destruct (walk t c q) as [[[y' o'] n']|] eqn:Ew; [|discriminate]. injection W as -> <- <-. pose proof (nth_error_In _ _ Ec) as Hc.
  destruct (NamesModel.adjust (nm c)) as [a|] eqn:Ea; [|destruct q; discriminate]. destruct q as [|j q].
  - cbn in Ew. injection Ew as <- <- <-. injection G as <-. constructor; auto.
  - destruct (path_of t nm c (j :: q)) as [e|] eqn:Eg; [|discriminate]. injection G as <-. apply (Up x c); auto. eapply IH; eauto. congruence.
Qed.
Lemma ex_path0 : path_name (st ex) fnm 4 0 (lit "k_of_x.a").
Proof. eapply (path_is (st ex) fnm [0;0]%nat); [vm_compute; reflexivity | congruence | vm_compute; reflexivity]. Qed.
Lemma ex_path3 : path_name (st ex) fnm 4 3 (lit "c").
Proof. eapply (path_is (st ex) fnm [1]%nat); [vm_compute; reflexivity | congruence | vm_compute; reflexivity]. Qed.
Lemma ex_path20 : path_name (st ex) fnm 2 0 (lit "a").
Proof. eapply (path_is (st ex) fnm [0]%nat); [vm_compute; reflexivity | congruence | vm_compute; reflexivity]. Qed.
Lemma ex_matches0 : matches (st ex) fnm two 4 4 0.
Proof. split; [pt ex_reachable|]. split; [congruence|]. exists (lit "k_of_x.a"). split; [exact ex_path0 | vm_compute; reflexivity]. Qed.
Lemma ex_matches3 : matches (st ex) fnm two 4 4 3.
Proof. split; [pt ex_reachable|]. split; [congruence|]. exists (lit "c"). split; [exact ex_path3 | vm_compute; reflexivity]. Qed.
Lemma ex_find : ex_reach ex /\ named (st ex) fnm 4 /\ top (st ex) 4 4 /\ matches (st ex) fnm two 4 4 0 /\ matches (st ex) fnm two 4 4 3 /\
  snd (grep fnm two 4 ex) = Got [0;3]%nat /\ snd (getitem fnm two 4 ex) = Got (Many ex_c) /\ snd (getitem fnm (is [lit "k_of_x"]) 4 ex) = Got (One 2%nat) /\
  snd (getitem fnm (is [lit "d"]) 4 ex) = Err (Py AttributeError).
Proof.
  split; [exact ex_reachable|]. split; [apply ex_named|]. split; [apply ex_top4|]. split; [exact ex_matches0|]. split; [exact ex_matches3|]. repeat (apply conj; [vm_compute; reflexivity|]); vm_compute; reflexivity.
Qed.
(** Below the top the names are still those seen from the top. *)
Lemma below_refuted : exists s nm mt x y a, ex_reach s /\ named (st s) nm x /\ path_name (st s) nm x y a /\ mt a = true /\ snd (getitem nm mt x s) = Err (Py AttributeError).
Proof.
  exists ex, fnm, (is [lit "a"]), 2%nat, 0%nat, (lit "a"). split; [exact ex_reachable|]. split; [apply ex_named|]. split; [exact ex_path20|]. split; vm_compute; reflexivity.
Qed.
(** The name of the top cannot be printed: an exception, after which nothing is found under any name. *)
Definition fbad (y : oid) : str := if (y =? 4)%nat then lit "2m" else fnm y.
Lemma getitem_st : forall nm mt x (s : @state Z), st (fst (getitem nm mt x s)) = st s.
Proof.
  intros nm mt x s. unfold getitem, grep. destruct (traverse _ _ _ _ _) as [[n l] [e|]]; [reflexivity|]. destruct (filter _ _) as [|a [|b c]]; reflexivity.
Qed.
Lemma stuck_refuted : exists s nm nm' mt x s1 y, ex_reach s /\ (forall z, z <> x -> nm' z = nm z) /\ named (st s) nm' x /\ top (st s) x x /\ matches (st s) nm' mt x x y /\
  getitem nm mt x s = (s1, Err NameError) /\ st s1 = st s /\ snd (getitem nm' mt x s1) = Err (Py AttributeError) /\ updates (nt s1) y = true /\ updates (nt (fst (update_model x false s1))) y = true.
Proof.
  exists ex, fbad, fnm, two, 4%nat, (fst (getitem fbad two 4 ex)), 0%nat. split; [exact ex_reachable|].
  split; [intros z Hz; unfold fbad; destruct (Nat.eqb_spec z 4); congruence|]. split; [apply ex_named|]. split; [apply ex_top4|]. split; [exact ex_matches0|].
  split; [apply pair_is; vm_compute; reflexivity|]. split; [apply getitem_st|].
  split; [vm_compute; reflexivity|]. split; vm_compute; reflexivity.
Qed.
Lemma ex_quiet : quiet ex 4.
Proof.
  split; [apply together_on; [exact ex_Inv | vm_compute; reflexivity | vm_compute; lia]|].
  intros y T. apply (together_lt ex 4 ex_Inv) in T; [|vm_compute; lia]. change (next (st ex)) with 8%nat in T. do 8 (destruct y as [|y]; [vm_compute; reflexivity|]). lia.
Qed.
Lemma ex_setitem : ex_creach ex /\ (4 < next (st ex))%nat /\ inited (st ex) 4 = Some true /\ named (st ex) fnm 4 /\ top (st ex) 4 4 /\ matches (st ex) fnm two 4 4 3 /\ quiet ex 4 /\
  map (fun k => value (fst (setitem fnm two 9 4 ex)) 4 k) [0;1;2;3;4] = [Some 9; Some 9; Some 3; Some 9; Some 9] /\
  trace (nt (fst (setitem fnm two 9 4 ex))) = [4;2;2]%nat ++ trace (nt ex) /\ snd (setitem fnm (is [lit "d"]) 9 4 ex) = Some (Py AttributeError).
Proof.
  split; [exact ex_creachable|]. split; [vm_compute; lia|]. split; [vm_compute; reflexivity|]. split; [apply ex_named|]. split; [apply ex_top4|]. split; [exact ex_matches3|]. split; [exact ex_quiet|].
  repeat (apply conj; [vm_compute; reflexivity|]); vm_compute; reflexivity.
Qed.
Lemma ex_setattr : ex_creach ex /\ In 2%nat (kids (st ex) 4) /\ form fnm 2 (lit "k_of_x") /\ (forall z, In z (kids (st ex) 4) -> exists b, form fnm z b) /\
  (forall z, In z (kids (st ex) 4) -> form fnm z (lit "k_of_x") -> z = 2%nat) /\ ready (st ex) 2 /\
  map (fun k => value (fst (setattr fnm 4 (lit "k_of_x") 9 ex)) 4 k) [0;1;2;3;4] = [Some 9; Some 9; Some 9; Some 4; Some 5] /\
  map (fun k => value (fst (setattr fnm 4 (lit "a") 9 ex)) 4 k) [0;1;2;3;4] = [Some 1; Some 2; Some 3; Some 4; Some 5].
Proof.
  split; [exact ex_creachable|]. split; [vm_compute; auto|]. split; [vm_compute; reflexivity|]. split; [|split; [|split; [rd|split; vm_compute; reflexivity]]].
  - intros z Hz. vm_compute in Hz. destruct Hz as [<-|[<-|[]]]; unfold form; vm_compute; eauto.
  - intros z Hz. vm_compute in Hz. destruct Hz as [<-|[<-|[]]]; unfold form; vm_compute; congruence.
Qed.
(** An attribute that reads one child and sets another. *)
Definition pair_names : NamesModel.nst := fst (NamesSpec.nrun 30 (NamesSpec.NLink true 0 (Some 0%nat)) (NamesProps.linked [lit "a b"; lit "a_b"] [1]%nat)).
Lemma pair_attr : NamesSpec.history pair_names /\ NamesSpec.attribute pair_names (lit "a_b") 1 /\ NamesModel.kids pair_names = [0;1]%nat.
Proof.
  split; [apply NamesSpec.Hcall, NamesProps.linked_history|]. split; [|vm_compute; reflexivity]. eexists. split; vm_compute; reflexivity.
Qed.
Lemma attribute_refuted : exists s x q n y z v s', ex_creach s /\ NamesSpec.history q /\ NamesModel.kids q = kids (st s) x /\ NamesSpec.distinct q /\
  NamesSpec.attribute q n y /\ ready (st s) y /\ z <> y /\ setattr (NamesModel.nm q) x n v s = (s', None) /\ value s' y 0 = value s y 0 /\ value s y 0 <> Some v /\ value s' z 0 = Some v.
Proof.
  exists ex_pair, 2%nat, pair_names, (lit "a_b"), 1%nat, 0%nat, 9, (fst (setattr (NamesModel.nm pair_names) 2 (lit "a_b") 9 ex_pair)).
  split; [apply reach_creach, ex_pair_careful|]. split; [apply pair_attr|]. split; [vm_compute; reflexivity|]. split.
  { intros a b Ha Hb. vm_compute in Ha, Hb. destruct Ha as [<-|[<-|[]]]; destruct Hb as [<-|[<-|[]]]; intros Q; try (exfalso; apply Q; reflexivity); vm_compute; discriminate. }
  split; [apply pair_attr|]. split; [rd|]. split; [congruence|]. split; [apply pair_is; vm_compute; reflexivity|]. split; [vm_compute; reflexivity|]. split; [vm_compute; congruence | vm_compute; reflexivity].
Qed.
Definition kx_names : NamesModel.nst := NamesProps.linked [[]; []; lit "k(x)"; lit "c"] [2;3]%nat.
Lemma ex_attribute : ex_creach ex /\ NamesSpec.history kx_names /\ NamesModel.kids kx_names = kids (st ex) 4 /\
  (forall z, In z (kids (st ex) 4) -> exists b, form (NamesModel.nm kx_names) z b) /\
  (forall z z' b, In z (kids (st ex) 4) -> In z' (kids (st ex) 4) -> form (NamesModel.nm kx_names) z b -> form (NamesModel.nm kx_names) z' b -> z = z') /\
  NamesSpec.attribute kx_names (lit "k_of_x") 2 /\ ready (st ex) 2.
Proof.
  split; [exact ex_creachable|]. split; [apply NamesProps.linked_history|]. split; [vm_compute; reflexivity|]. split; [|split; [|split; [|rd]]].
  - intros z Hz. vm_compute in Hz. destruct Hz as [<-|[<-|[]]]; unfold form; vm_compute; eauto.
  - intros z z' b Hz Hz' Fz Fz'. vm_compute in Hz, Hz'. destruct Hz as [<-|[<-|[]]]; destruct Hz' as [<-|[<-|[]]]; auto; unfold form in Fz, Fz'; vm_compute in Fz, Fz'; congruence.
  - eexists. split; vm_compute; reflexivity.
Qed.
