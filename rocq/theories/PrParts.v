(** Proofs about printing: parts of Params, and several Params. *)
From Coq Require Import String List ZArith NArith Bool Arith Lia.
From Verif Require NamesModel.
From Verif Require Import NpModel NpProofs IndexOpsModel IndexOpsSpec IndexOpsProofs PzModel PzSpec PzTree PzStruct PzLink PzWalk PzMem PzIo PzInv PzConn PzFix PzLinkMem PzPres PzUnlink PzTraverse PzNotify PzNew PzCmd PzInit PzCons PzVal PzOpt PzRandom PzHist PzOrder PzGrad PzKeep PzFinal.
From Verif Require SlModel SlSpec SlProofs SlHist SlFinal.
From Verif Require Import RavelModel RavelSpec RavelProofs ConcatModel ConcatSpec ConcatProofs ConcatFinal FlatModel FlatSpec FlatProofs FlatLabels FlatFinal FlatFind PrModel PrSpec PrProofs PrFinal.
Import ListNotations.
Local Open Scope list_scope.
Local Open Scope Z_scope.

Lemma all_of_ex : forall (A B : Type) (g : A -> fres B) (R : A -> B -> Prop) l, (forall a, In a l -> exists b, g a = Got b /\ R a b) -> exists bs, all_of g l = Got bs /\ Forall2 R l bs.
Proof.
  intros A B g R l. induction l as [|a l IH]; intros H; [exists []; split; [auto | constructor]|]. destruct (H a (or_introl eq_refl)) as (b & Eb & Rb). destruct IH as (bs & Es & Fs); [intros; apply H; right; auto|].
  exists (b :: bs). cbn [all_of]. rewrite Eb. cbn [fbind]. rewrite Es. split; auto.
Qed.
Lemma combine_map : forall (A B C : Type) (f : A -> B) (g : A -> C) l, combine (map f l) (map g l) = map (fun a => (f a, g a)) l.
Proof. intros A B C f g l. induction l as [|a l IH]; auto. cbn [map combine]. rewrite IH. auto. Qed.
Lemma combine_self : forall (A C : Type) (g : A -> C) l, combine l (map g l) = map (fun a => (a, g a)) l.
Proof. intros A C g l. induction l as [|a l IH]; auto. cbn [map combine]. rewrite IH. auto. Qed.
Lemma combine_map2 : forall (K A B C : Type) (f : A -> B) (g : A -> C) l (ks : list K), combine (combine ks (map f l)) (map g l) = map (fun e => (fst e, f (snd e), g (snd e))) (combine ks l).
Proof. intros K A B C f g l. induction l as [|a l IH]; intros [|k ks]; auto. cbn [map combine fst snd]. rewrite IH. auto. Qed.
Lemma all_of_compose : forall (A B C : Type) (h : A -> B) (g : B -> fres C) l, all_of g (map h l) = all_of (fun a => g (h a)) l.
Proof. intros A B C h g l. induction l as [|a l IH]; auto. cbn [map all_of]. rewrite IH. auto. Qed.
Lemma maximum_le : forall l, l <> [] -> exists m, maximum l = Got m /\ forall a, In a l -> (a <= m)%nat.
Proof.
  intros [|a l] H; [congruence|]. eexists. split; [reflexivity|]. clear H.
  assert (Q : forall l a, (a <= fold_left Nat.max l a)%nat /\ forall b, In b l -> (b <= fold_left Nat.max l a)%nat).
  { clear. induction l as [|c l IH]; intros a; cbn [fold_left]; [split; [lia | contradiction]|]. destruct (IH (Nat.max a c)) as [H1 H2]. split; [lia|]. intros b [<-|Hb]; [lia | auto]. }
  intros b Hb. destruct (Q l a) as [H1 H2]. destruct Hb as [<-|Hb]; auto.
Qed.
Lemma nth_combine : forall (A : Type) (l : list A) b i a, nth_error l i = Some a -> nth_error (combine (seq b (length l)) l) i = Some ((b + i)%nat, a).
Proof.
  intros A l. induction l as [|c l IH]; intros b [|i] a E; try discriminate; cbn [length seq combine nth_error] in *; [injection E as <-; rewrite Nat.add_0_r; auto|]. rewrite (IH (S b) i a E). f_equal. f_equal. lia.
Qed.
Lemma nth_coords : forall n j, (j < n)%nat -> nth_error (coords [n]) j = Some [j].
Proof.
  intros n j Hj. assert (Vd : valid [n] [j]) by (repeat constructor; auto). pose proof (dot_nth [n] [j] ltac:(discriminate) Vd) as E. rewrite strides_one in E. unfold dot in E. cbn [combine map fst snd fold_right] in E. rewrite Nat.add_0_r, Nat.mul_1_l in E. auto.
Qed.

Section Parts.
Context {V : Type}.
Implicit Types s : @state V.
Variable nm : oid -> str.
Variable shp : oid -> list nat.
Variable pstr : prop -> str.
Variables fixed_str short_str : V -> str.
Variable array_str : list nat -> list V -> str.

Lemma several_ok : forall vt s ps, Inv s -> ps <> [] ->
  (forall p, In p ps -> (p < next (st s))%nat /\ is_leaf (st s) p = true /\ shp p <> [] /\ size (st s) p = Z.of_nat (elements (shp p)) /\ 0 < size (st s) p /\ exists h, full_name (st s) nm p h) ->
  exists tbls w1 w3, several_tables nm shp pstr fixed_str short_str vt s ps = Got (concat tbls) /\ length tbls = length ps /\
    forall i p tbl, nth_error ps i = Some p -> nth_error tbls i = Some tbl ->
      exists h r, full_name (st s) nm p h /\ table_cells shp pstr fixed_str s p r /\ Forall2 (shows_loosely vt w1 w3) (heading w1 w3 i h :: r) tbl.
Proof.
  intros vt s ps H Hne Hp. pose proof (inv_st _ H) as W.
  set (I := fun p => match param_indices shp p with Got a => a | Err _ => [] end).
  set (C := fun p => match param_carried shp pstr s p with Got a => a | Err _ => [] end).
  set (h := fun p => match hname (st s) nm p with Got a => a | Err _ => [] end).
  assert (Q : forall p, In p ps -> param_indices shp p = Got (I p) /\ param_carried shp pstr s p = Got (C p) /\ hname (st s) nm p = Got (h p) /\ full_name (st s) nm p (h p) /\
    length (I p) = length (leaf_vals s p) /\ length (C p) = length (leaf_vals s p) /\
    forall r, map (fun c => fst (fst c)) r = I p -> map (fun c => snd (fst c)) r = map fixed_str (leaf_vals s p) -> map (@snd (str * str) str) r = C p -> table_cells shp pstr fixed_str s p r).
  { intros p Hin. destruct (Hp p Hin) as (H1 & H2 & H3 & H4 & H5 & h0 & Fh). destruct (pieces_ok nm shp pstr fixed_str array_str s p H H1 H2 H3 H4 H5) as (ind & con & Ei & Ec & Li & Lc & Hr).
    pose proof (proj2 (hname_full (st s) nm p h0 W) Fh) as Eh. unfold I, C, h. rewrite Ei, Ec, Eh. auto 10. }
  unfold several_tables. rewrite (all_of_ok _ _ _ (fun p => (p, I p))) by (intros p Hin; destruct (Q p Hin) as (-> & _); auto). cbn [fbind].
  rewrite (all_of_ok _ _ _ h) by (intros p Hin; apply Q; auto). cbn [fbind]. rewrite combine_self, map_map.
  destruct (maximum_le (map (fun x => value_width short_str (snd (x, h x)) (leaf_vals s (fst (x, h x)))) ps)) as (lx & -> & _); [destruct ps; [congruence | discriminate]|]. cbn [fbind]. rewrite map_map.
  destruct (maximum_le (map (fun x => widest (lit "index") (snd (x, I x))) ps)) as (li & -> & Hli); [destruct ps; [congruence | discriminate]|]. cbn [fbind].
  rewrite (all_of_ok _ _ _ C) by (intros p Hin; apply Q; auto). cbn [fbind]. rewrite map_map.
  destruct (maximum_le (map (fun x => widest (lit "constraints") (C x)) ps)) as (l3 & -> & Hl3); [destruct ps; [congruence | discriminate]|]. cbn [fbind].
  rewrite combine_map, combine_map2, all_of_compose.
  match goal with |- context [all_of ?f (combine (seq 0 (length ps)) ps)] => change f with (fun a : nat * oid => table_with fixed_str vt (negb (fst a =? 0)%nat) li lx l3 (h (snd a)) (I (snd a)) (leaf_vals s (snd a)) (C (snd a))) end.
  destruct (all_of_ex (nat * oid) (list str) (fun a => table_with fixed_str vt (negb (fst a =? 0)%nat) li lx l3 (h (snd a)) (I (snd a)) (leaf_vals s (snd a)) (C (snd a)))
    (fun a tbl => exists r, table_cells shp pstr fixed_str s (snd a) r /\ Forall2 (shows_loosely vt li l3) (heading li l3 (fst a) (h (snd a)) :: r) tbl) (combine (seq 0 (length ps)) ps)) as (tbls & Et & Ft).
  { intros [k p] Hin. apply in_combine_r in Hin. destruct (Q p Hin) as (_ & _ & _ & _ & Li & Lc & Hr). cbn [fst snd].
    assert (Wi : forall a, In a (lit "index" :: I p) -> (length a <= li)%nat). { intros a Ha. eapply Nat.le_trans; [apply widest_le; eauto|]. apply Hli. apply in_map_iff. exists p. auto. }
    assert (Wc : forall a, In a (lit "constraints" :: C p) -> (length a <= l3)%nat). { intros a Ha. eapply Nat.le_trans; [apply widest_le; eauto|]. apply Hl3. apply in_map_iff. exists p. auto. }
    destruct (table_ok fixed_str vt (negb (k =? 0)%nat) li lx l3 (h p) (I p) (leaf_vals s p) (C p) Li Lc) as (tbl & r & E & A & B & C' & F & _).
    { intros a Ha. apply Wi. right; auto. } { intros a Ha. apply Wc. right; auto. } { intros _. split; [apply Wi | apply Wc]; left; auto. }
    exists tbl. split; auto. exists r. split; [auto|]. cbn zeta in F. destruct k; exact F. }
  exists tbls, li, l3. split; [exact (f_equal (fun e => fbind e (fun ts => Got (concat ts))) Et)|]. split.
  { rewrite <- (f2_len _ _ _ _ _ Ft), combine_length, seq_length. apply Nat.min_id. }
  intros i p tbl Ep Etb. pose proof (nth_combine _ ps 0 i p Ep) as En. destruct (nth_f2 _ _ _ _ _ Ft _ _ En) as (tbl' & Et' & r & Hr & F). rewrite Etb in Et'. injection Et' as <-. cbn [fst snd Nat.add] in *.
  exists (h p), r. split; [apply Q; eapply nth_error_In; eauto|]. auto.
Qed.

Section Sl.
Import SlModel SlSpec SlProofs SlHist SlFinal.
Variables tinit tf tfinv : nat -> V -> V.
Variables junk junk' : nat -> Z -> V.
(** The cells of the [i]-th element of a part, which is element [j] of its Param. *)
Lemma part_ok : forall vt (z : @sstate V) k q l h, sreach tinit tf tfinv slegal junk junk' z -> part_at z k q l -> full_name (st (base z)) nm (of q) h ->
  exists lines r, part_table nm pstr fixed_str short_str vt z q = Got lines /\ length r = length l /\
    (forall i j c, nth_error l i = Some j -> nth_error r i = Some c ->
       index_text [Z.to_nat (size (st (base z)) (of q))] j (fst (fst c)) /\ carried_text pstr (base z) (of q) j (snd c) /\
       exists v, nth_error (look z q) i = Some v /\ snd (fst c) = fixed_str v /\ (shared q = true -> value (base z) (of q) j = Some v)) /\
    let all := (lit "index", h, lit "constraints") :: r in
    exists w1 w3, width_of (fun c => fst (fst c)) all w1 /\ width_of (fun c => snd c) all w3 /\ Forall2 (shows_loosely vt w1 w3) all lines.
Proof.
  intros vt z k q l h R P Fn. pose proof (reach_S tinit tf tfinv junk junk' z R) as Sz. pose proof (part_range z k q l Sz P) as Rg. assert (Rd := reads_final tinit tf tfinv junk junk' z k q l R P).
  destruct P as [_ Cu]. destruct Sz as (H & _). set (s := base z) in *. pose proof (inv_st _ H) as W.
  unfold part_table. fold s. unfold part_index. rewrite (cu_pos _ _ _ Cu). pose proof (cu_some _ _ _ Cu) as Hne.
  assert (Eo : of_res (match l with [] => Er ValueError | _ => Ok l end) = Got l) by (destruct l; [congruence | auto]).
  match goal with |- context [of_res ?e] => replace (of_res e) with (Got l) by (destruct l; [congruence | auto]) end. cbn [fbind].
  assert (Eh : part_hname nm (st s) q = Got h).
  { pose proof (proj2 (hname_full (st s) nm (of q) h W) Fn) as Eh. unfold hname in Eh. rewrite uppers_step in Eh by auto. unfold part_hname. rewrite (cu_par _ _ _ Cu). exact Eh. }
  rewrite Eh. cbn [fbind]. set (ind := map (fun k => row_str [Z.to_nat k]) l). set (con := carried pstr s (of q) l).
  pose proof (carried_ok nm shp pstr array_str s (of q) l H (cu_obj _ _ _ Cu)) as Fc. fold con in Fc. pose proof (f2_len _ _ _ _ _ Fc) as Lc.
  assert (Lk : length (look z q) = length l) by (unfold look; rewrite map_length; apply (cu_len _ _ _ Cu)).
  destruct (table_ok fixed_str vt false (widest (lit "index") ind) (value_width short_str h (look z q)) (widest (lit "constraints") con) h ind (look z q) con) as (lines & r & E & A & B & C & F & _).
  { unfold ind. rewrite map_length. auto. } { rewrite Lk. symmetry. exact Lc. } { intros a Ha. apply widest_le. right; auto. } { intros a Ha. apply widest_le. right; auto. } { intros _. split; apply widest_le; left; auto. }
  exists lines, r. split; auto. split; [rewrite <- Lk, <- (map_length fixed_str), <- B, map_length; auto|]. split.
  - intros i j c Hj Hc. specialize (Rg j (nth_error_In _ _ Hj)). split; [|split].
    + assert (En : nth_error (map (fun c : str * str * str => fst (fst c)) r) i = Some (row_str [Z.to_nat j])) by (rewrite A; unfold ind; rewrite nth_error_map, Hj; auto). rewrite nth_error_map, Hc in En. cbn [option_map] in En. injection En as ->.
      rewrite <- (Z2Nat.id j) at 1 by lia. apply row_index; [discriminate|]. apply nth_coords. lia.
    + destruct (nth_f2 _ _ _ _ _ Fc _ _ Hj) as (txt & Et & Ct). rewrite <- C, nth_error_map, Hc in Et. cbn in Et. injection Et as ->. auto.
    + assert (En : nth_error (map (fun c : str * str * str => snd (fst c)) r) i = Some (snd (fst c))) by (rewrite nth_error_map, Hc; auto). rewrite B, nth_error_map in En. destruct (nth_error (look z q) i) as [v|] eqn:Ev; [|discriminate]. cbn in En. injection En as En.
      exists v. split; auto. split; auto. intros Sh. specialize (Rd Sh). assert (Em : nth_error (map (value s (of q)) l) i = Some (value s (of q) j)) by (rewrite nth_error_map, Hj; auto). rewrite <- Rd, nth_error_map, Ev in Em. cbn in Em. congruence.
  - cbn zeta. exists (widest (lit "index") ind), (widest (lit "constraints") con). split; [rewrite <- A; apply width_widest; auto|]. split; [rewrite <- C; apply width_widest; auto|]. exact F.
Qed.
Lemma part_none : forall vt (z : @sstate V) q, positions (cur q) (size (st (base z)) (of q)) = Ok [] -> part_table nm pstr fixed_str short_str vt z q = Err (Py ValueError).
Proof. intros vt z q E. unfold part_table, part_index. rewrite E. reflexivity. Qed.
End Sl.
End Parts.
