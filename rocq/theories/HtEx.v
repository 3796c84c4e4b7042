(** Concrete HTML used as examples beside the properties, and as witnesses. *)
From Coq Require Import String List ZArith NArith Bool Arith Lia.
From Verif Require NamesModel.
From Verif Require Import NpModel NpProofs IndexOpsModel IndexOpsSpec PzModel PzSpec PzTree PzStruct PzLink PzMem PzConn PzLinkMem PzInv PzPres PzCmd PzVal PzOpt PzRandom PzHist PzKeep PzOrder PzGrad PzCheck PzFinal PzEx.
From Verif Require Import RavelModel RavelSpec ConcatModel ConcatSpec ConcatCons ConcatEx FlatModel FlatSpec FlatProofs FlatLabels FlatFinal FlatFind FlatEx PrModel PrSpec PrProofs PrFinal PrParts PrEx HtModel HtSpec HtProofs HtFinal HtLast.
Import ListNotations.
Local Open Scope list_scope.
Local Open Scope Z_scope.

Notation zsummary_html := (summary_html enm fshp zprop zarray).
Notation zparam_html := (param_html enm fshp zprop zfixed zstr).
Lemma nat_str_plain : forall n, plain (NamesModel.py_str n).
Proof. intros n. rewrite <- (N2Nat.id n). apply num_plain. Qed.
Lemma zstr_plain : forall v, plain (zstr v).
Proof. intros v. unfold zstr. apply plain_app; [destruct (v <? 0); apply plainb; reflexivity | apply nat_str_plain]. Qed.
Lemma zfixed_plain : forall v, plain (zfixed v).
Proof. intros v. apply plain_app; [apply zstr_plain | apply plainb; reflexivity]. Qed.
Lemma zprop_plain : forall p, plain (zprop p).
Proof. intros [|n]; [apply plainb; reflexivity|]. apply plain_app; [apply plainb; reflexivity | apply nat_str_plain]. Qed.
Lemma zarray_plain : forall d l, plain (zarray d l).
Proof.
  assert (G : forall l, plain (lit "[" ++ join (lit " ") (map zstr l) ++ lit "]")).
  { intros l. apply plain_app; [apply plainb; reflexivity|]. apply plain_app; [|apply plainb; reflexivity]. apply plain_join; [apply plainb; reflexivity|]. intros a Ha. apply in_map_iff in Ha as (v & <- & _). apply zstr_plain. }
  intros [|d ds] l; [|apply G]. destruct l as [|v [|w l]]; [apply (G []) | | apply (G (v :: w :: l))]. cbn [zarray]. apply plain_app; [apply zstr_plain | apply plainb; reflexivity].
Qed.
Definition ex_html : str := lit "<tr><th><b>  m.           </b></th><th><b> value</b></th><th><b>constraints</b></th></tr>
<tr><td class=tg-left>  k(x).variance</td><td class=tg-right>  (2,)</td><td class=tg-center>   {+7}    </td></tr>
<tr><td class=tg-left>  k(x).b       </td><td class=tg-right>   3.0</td><td class=tg-center>   fixed   </td></tr>
<tr><td class=tg-left>  lengthscale  </td><td class=tg-right>(2, 1)</td><td class=tg-center>  {fixed}  </td></tr>".
Lemma ex_shown : zsummary_html true ex 4 = Got (summary_style ++ nl ++ lit "<table class=""tg"">" ++ ex_html ++ nl ++ lit "</table>").
Proof. vm_compute. reflexivity. Qed.
Lemma ex_hyps : ex_reach ex /\ (4 < next (st ex))%nat /\ is_leaf (st ex) 4 = false /\ named (st ex) enm 4 /\ form enm 4 (lit "m") /\ shaped (st ex) fshp 4 /\ has_rows fshp (st ex) 4 /\
  (forall p, plain (zprop p)) /\ (forall d l, plain (zarray d l)) /\ free ex 4 [0;1;3].
Proof.
  destruct ex_summary as (A & B & C & D & E & F & G & _). destruct ex_model as (M & _). split; [exact A|]. split; [exact B|]. split; [exact C|]. split; [exact D|]. split; [exact E|]. split; [exact F|]. split; [exact G|].
  split; [exact zprop_plain|]. split; [exact zarray_plain | exact M].
Qed.
Lemma ex_param_hyps : ex_reach ex /\ (3 < next (st ex))%nat /\ is_leaf (st ex) 3 = true /\ fshp 3 <> [] /\ size (st ex) 3 = Z.of_nat (elements (fshp 3)) /\ 0 < size (st ex) 3 /\ full_name (st ex) enm 3 (lit "m.lengthscale") /\
  (forall p, plain (zprop p)) /\ (forall v, plain (zfixed v)).
Proof.
  destruct ex_table as (A & B & C & D & E & F & G & _). split; [exact A|]. split; [exact B|]. split; [exact C|]. split; [exact D|]. split; [exact E|]. split; [exact F|]. split; [exact G|]. split; [exact zprop_plain | exact zfixed_plain].
Qed.

(** ** Witnesses *)
Lemma raw_part : forall (t : struct) nm x y n, raw_path t nm x y n -> part t x y.
Proof.
  assert (Hk : forall t x c, In c (kids t x) -> part t x c).
  { intros t x c Hi. apply In_nth_error in Hi as [i Hi]. exists (sum_sizes t (firstn i (kids t x)) + 0)%Z, 1%nat. eapply below_kid; eauto. constructor. }
  intros t nm x y n P. induction P as [y Hy|y z a P IH Hz]; auto. eapply above_trans; eauto.
Qed.
Lemma ex_kids : forall z, In z [4;2;3;0;1]%nat -> (In 0%nat (kids (st ex) z) -> z = 2%nat) /\ (In 2%nat (kids (st ex) z) -> z = 4%nat) /\ ~ In 4%nat (kids (st ex) z).
Proof.
  intros z [<-|[<-|[<-|[<-|[<-|[]]]]]].
  - replace (kids (st ex) 4) with [2;3]%nat by (vm_compute; reflexivity). cbn. lia.
  - replace (kids (st ex) 2) with [0;1]%nat by (vm_compute; reflexivity). cbn. lia.
  - replace (kids (st ex) 3) with (@nil nat) by (vm_compute; reflexivity). cbn. lia.
  - replace (kids (st ex) 0) with (@nil nat) by (vm_compute; reflexivity). cbn. lia.
  - replace (kids (st ex) 1) with (@nil nat) by (vm_compute; reflexivity). cbn. lia.
Qed.
Lemma raw0 : forall (t : struct) nm (K : forall y, part t 4 y -> In y [4;2;3;0;1]%nat)
  (N : forall z, In z [4;2;3;0;1]%nat -> (In 0%nat (kids t z) -> z = 2%nat) /\ (In 2%nat (kids t z) -> z = 4%nat) /\ ~ In 4%nat (kids t z)) n, raw_path t nm 4 0 n -> n = nm 2%nat ++ lit "." ++ nm 0%nat.
Proof.
  intros t nm K N.
  assert (G4 : forall y n, raw_path t nm 4 y n -> y <> 4%nat).
  { intros y n P. destruct P as [y Hy|y z a P Hz]; intros ->; [apply (N 4%nat (or_introl eq_refl)); exact Hy | apply (N y (K y (raw_part _ _ _ _ _ P))); exact Hz]. }
  assert (G2 : forall y n, raw_path t nm 4 y n -> y = 2%nat -> n = nm 2%nat).
  { intros y n P. destruct P as [y Hy|y z a P Hz]; intros ->; [reflexivity|]. destruct (N y (K y (raw_part _ _ _ _ _ P))) as (_ & M & _). destruct (G4 _ _ P (M Hz)). }
  assert (G0 : forall y n, raw_path t nm 4 y n -> y = 0%nat -> n = nm 2%nat ++ lit "." ++ nm 0%nat).
  { intros y n P. destruct P as [y Hy|y z a P Hz]; intros ->.
    - destruct (N 4%nat (or_introl eq_refl)) as (M & _). specialize (M Hy). discriminate M.
    - destruct (N y (K y (raw_part _ _ _ _ _ P))) as (M & _). rewrite (G2 y a P (M Hz)). reflexivity. }
  intros n P. apply (G0 0%nat n P eq_refl).
Qed.
Lemma ex_raw0 : forall n, raw_path (st ex) enm 4 0 n -> n = enm 2%nat ++ lit "." ++ enm 0%nat.
Proof. exact (raw0 (st ex) enm ex_parts4 ex_kids). Qed.
Lemma ex_differ : enm 2%nat ++ lit "." ++ enm 0%nat <> lit "k_of_x.variance".
Proof. discriminate. Qed.
Lemma ex_path0 : path_name (st ex) enm 4 0 (lit "k_of_x.variance").
Proof.
  apply (path_step (st ex) enm 4 2 0 (lit "k_of_x") (lit "variance")); [apply path_kid| |].
  - replace (kids (st ex) 4) with [2;3]%nat by (vm_compute; reflexivity). left. reflexivity.
  - vm_compute. reflexivity.
  - replace (kids (st ex) 2) with [0;1]%nat by (vm_compute; reflexivity). left. reflexivity.
  - vm_compute. reflexivity.
Qed.
(** The HTML shows k(x).variance, the printed summary k_of_x.variance. *)
Lemma names_refuted : exists s x y b, ex_reach s /\ (x < next (st s))%nat /\ named (st s) enm x /\ part (st s) x y /\ is_leaf (st s) y = true /\
  path_name (st s) enm x y b /\ (exists a, raw_path (st s) enm x y a) /\ forall a, raw_path (st s) enm x y a -> a <> b.
Proof.
  assert (R : raw_path (st ex) enm 4 0 (lit "k(x)" ++ lit "." ++ enm 0)).
  { apply (raw_step (st ex) enm 4 2 0 (lit "k(x)")); [apply (raw_kid (st ex) enm 4 2)|].
    - replace (kids (st ex) 4) with [2;3]%nat by (vm_compute; reflexivity). left. reflexivity.
    - replace (kids (st ex) 2) with [0;1]%nat by (vm_compute; reflexivity). left. reflexivity. }
  exists ex, 4%nat, 0%nat, (lit "k_of_x.variance"). destruct ex_hyps as (A & B & _ & D & _). split; [exact A|]. split; [exact B|]. split; [exact D|]. split; [exact (raw_part _ _ _ _ _ R)|]. split; [vm_compute; reflexivity|].
  split; [exact ex_path0|]. split; [eexists; exact R|]. intros a P. rewrite (ex_raw0 a P). exact ex_differ.
Qed.
(** The table of a Param is not closed. *)
Definition ex_ptxt : str := match zparam_html ex 3 with Got txt => txt | Err _ => [] end.
Lemma ex_pshown : zparam_html ex 3 = Got ex_ptxt.
Proof. vm_compute. reflexivity. Qed.
Lemma param_refuted : exists s y h txt, ex_reach s /\ (y < next (st s))%nat /\ is_leaf (st s) y = true /\ full_name (st s) enm y h /\ zparam_html s y = Got txt /\ forall gs, tags txt gs -> ~ closed gs.
Proof.
  destruct ex_param_hyps as (A & B & C & D & E & F & G & P & Q). exists ex, 3%nat, (lit "m.lengthscale"), ex_ptxt. split; [exact A|]. split; [exact B|]. split; [exact C|]. split; [exact G|]. split; [exact ex_pshown|].
  exact (proj2 (phtml_open ex_init ex_f ex_finv ex_junk enm fshp zprop zfixed zstr zarray ex 3 (lit "m.lengthscale") ex_ptxt A B C D E F G P Q ex_pshown)).
Qed.
(** A constraint that is shown as [<1]. *)
Definition lprop (p : prop) : str := match p with Fixed => lit "fixed" | Tr n => lit "<1" end.
Definition ex_ltxt : str := match summary_html enm fshp lprop zarray true ex 4 with Got txt => txt | Err _ => [] end.
Lemma ex_lshown : summary_html enm fshp lprop zarray true ex 4 = Got ex_ltxt.
Proof. vm_compute. reflexivity. Qed.
Lemma ex_lread : rd ex_ltxt = None.
Proof. vm_compute. reflexivity. Qed.
Lemma escape_refuted : exists s x (pstr : prop -> str) txt, ex_reach s /\ (x < next (st s))%nat /\ is_leaf (st s) x = false /\ named (st s) enm x /\ shaped (st s) fshp x /\ has_rows fshp (st s) x /\
  summary_html enm fshp pstr zarray true s x = Got txt /\ forall gs, ~ tags txt gs.
Proof.
  destruct ex_hyps as (A & B & C & D & E & F & G & _). exists ex, 4%nat, lprop, ex_ltxt. split; [exact A|]. split; [exact B|]. split; [exact C|]. split; [exact D|]. split; [exact F|]. split; [exact G|]. split; [exact ex_lshown|].
  intros gs T. apply tags_rd in T. rewrite ex_lread in T. discriminate T.
Qed.
(** Names without blanks and parentheses. *)
Definition pnm (y : oid) : str := if (y =? 2)%nat then lit "k" else enm y.
Lemma ex_names_case : raw_path (st ex) pnm 4 0 (lit "k.variance") /\ forall z, part (st ex) 4 z -> form pnm z (pnm z).
Proof.
  split.
  - apply (raw_step (st ex) pnm 4 2 0 (lit "k")); [apply (raw_kid (st ex) pnm 4 2)|].
    + replace (kids (st ex) 4) with [2;3]%nat by (vm_compute; reflexivity). left. reflexivity.
    + replace (kids (st ex) 2) with [0;1]%nat by (vm_compute; reflexivity). left. reflexivity.
  - intros z P. apply ex_parts4 in P. destruct P as [<-|[<-|[<-|[<-|[<-|[]]]]]]; vm_compute; reflexivity.
Qed.
