(** Concrete tables used as examples beside the properties, and as witnesses. *)
From Coq Require Import String List ZArith NArith Bool Arith Lia.
From Verif Require NamesModel SlModel SlSpec SlFinal SlEx.
From Verif Require Import NpModel NpProofs IndexOpsModel IndexOpsSpec PzModel PzSpec PzTree PzStruct PzLink PzMem PzConn PzLinkMem PzInv PzPres PzCmd PzVal PzOpt PzRandom PzHist PzKeep PzOrder PzGrad PzCheck PzFinal PzEx.
From Verif Require Import RavelModel RavelSpec ConcatModel ConcatSpec ConcatCons ConcatEx FlatModel FlatSpec FlatProofs FlatLabels FlatFinal FlatFind FlatEx PrModel PrSpec PrProofs PrFinal PrParts.
Import ListNotations.
Local Open Scope list_scope.
Local Open Scope Z_scope.

(** The strings of numbers and constraints. *)
Definition zstr (v : Z) : str := (if v <? 0 then lit "-" else []) ++ NamesModel.py_str (Z.to_N (Z.abs v)).
Definition zfixed (v : Z) : str := zstr v ++ lit ".00000000".
Definition zprop (p : prop) : str := match p with Fixed => lit "fixed" | Tr n => lit "+" ++ NamesModel.py_str (N.of_nat n) end.
Definition zarray (d : list nat) (l : list Z) : str := match d, l with [], [v] => zstr v ++ lit ".0" | _, _ => lit "[" ++ join (lit " ") (map zstr l) ++ lit "]" end.
(** Names for [ex]. *)
Definition enm (y : oid) : str := if (y =? 3)%nat then lit "lengthscale" else if (y =? 0)%nat then lit "variance" else fnm y.
Notation ztable := (param_table enm fshp zprop zfixed zstr).
Notation zsummary := (summary enm fshp zprop zarray).
Definition plain_lines (r : fres (list str)) (l : list string) : Prop := r = Got (map NamesModel.lit l).

Lemma full_b : forall (s : @state Z) nm x h, Inv s -> hname (st s) nm x = Got h -> full_name (st s) nm x h.
Proof. intros s nm x h H E. apply hname_full; auto. apply (inv_st _ H). Qed.
Lemma ex_rows : has_rows fshp (st ex) 4.
Proof.
  intros y P L. apply ex_parts4 in P. destruct P as [<-|[<-|[<-|[<-|[<-|[]]]]]]; vm_compute in L; try discriminate L; vm_compute; eauto.
Qed.
Lemma enm_named : named (st ex) enm 4.
Proof. apply namedb_ok; [exact ex_Inv | vm_compute; lia | vm_compute; reflexivity]. Qed.
Lemma wide_b : forall (s : @state Z) y n, (forall v, In v (leaf_vals s y) -> (length (zfixed v) <= n)%nat) -> Inv s -> (y < next (st s))%nat -> is_leaf (st s) y = true ->
  forall j v, value s y j = Some v -> (length (zfixed v) <= n)%nat \/ (length (zfixed v) <= length (zstr v))%nat.
Proof.
  intros s y n Hn H Hy Ly j v E. left. apply Hn. destruct (ConcatProofs.leaf_vals_ok s y H Hy Ly) as [Ll Lv]. apply (nth_error_In _ (Z.to_nat j)). rewrite <- Lv; auto.
  unfold value in E. destruct (arr (mem s) y) as [[[b o] m]|] eqn:Ea; [|discriminate]. destruct (mm_size _ _ (inv_mem _ H) y _ o m Hy Ea) as [Q|[Q _]].
  - rewrite <- Q. destruct (Z.leb_spec 0 j); [|discriminate]. destruct (Z.ltb_spec j m); [lia | discriminate].
  - unfold is_leaf in Ly. rewrite Q in Ly. discriminate.
Qed.
Lemma ex_table : ex_reach ex /\ (3 < next (st ex))%nat /\ is_leaf (st ex) 3 = true /\ fshp 3 <> [] /\ size (st ex) 3 = Z.of_nat (elements (fshp 3)) /\ 0 < size (st ex) 3 /\ full_name (st ex) enm 3 (lit "m.lengthscale") /\
  (forall j v, value ex 3 j = Some v -> (length (zfixed v) <= length (lit "m.lengthscale"))%nat \/ (length (zfixed v) <= length (zstr v))%nat) /\
  plain_lines (ztable false ex 3)
   ["  index  |  m.lengthscale  |  constraints";
    "  [0 0]  |     4.00000000  |             ";
    "  [1 0]  |     5.00000000  |     fixed   "]%string.
Proof.
  split; [exact ex_reachable|]. split; [vm_compute; lia|]. split; [vm_compute; reflexivity|]. split; [discriminate|]. split; [vm_compute; reflexivity|]. split; [vm_compute; reflexivity|].
  split; [apply full_b; [exact ex_Inv | vm_compute; reflexivity]|]. split; [|vm_compute; reflexivity].
  apply wide_b; [|exact ex_Inv | vm_compute; lia | vm_compute; reflexivity]. assert (Ev : leaf_vals ex 3 = [4;5]) by (vm_compute; reflexivity). rewrite Ev. intros v Hv. destruct Hv as [<-|[<-|[]]]; vm_compute; lia.
Qed.
Lemma ex_summary : ex_reach ex /\ (4 < next (st ex))%nat /\ is_leaf (st ex) 4 = false /\ named (st ex) enm 4 /\ form enm 4 (lit "m") /\ shaped (st ex) fshp 4 /\ has_rows fshp (st ex) 4 /\
  plain_lines (zsummary true false ex 4)
   ["  m.               |   value  |  constraints";
    "  k_of_x.variance  |    (2,)  |     {+7}    ";
    "  k_of_x.b         |     3.0  |     fixed   ";
    "  lengthscale      |  (2, 1)  |    {fixed}  "]%string.
Proof.
  split; [exact ex_reachable|]. split; [vm_compute; lia|]. split; [vm_compute; reflexivity|]. split; [exact enm_named|]. split; [vm_compute; reflexivity|]. split; [apply ex_shaped|]. split; [exact ex_rows|]. vm_compute. reflexivity.
Qed.
Lemma ex_several : (forall p, In p [0;3]%nat -> (p < next (st ex))%nat /\ is_leaf (st ex) p = true /\ fshp p <> [] /\ size (st ex) p = Z.of_nat (elements (fshp p)) /\ 0 < size (st ex) p /\ exists h, full_name (st ex) enm p h) /\
  plain_lines (several_tables enm fshp zprop zfixed zstr false ex [0;3]%nat)
   ["  index  |  m.k_of_x.variance  |  constraints";
    "  [0]    |         1.00000000  |      +7     ";
    "  [1]    |         2.00000000  |             ";
    "  -----  |      m.lengthscale  |  -----------";
    "  [0 0]  |         4.00000000  |             ";
    "  [1 0]  |         5.00000000  |     fixed   "]%string.
Proof.
  split; [|vm_compute; reflexivity]. intros p [<-|[<-|[]]]; (split; [vm_compute; lia|]; split; [vm_compute; reflexivity|]; split; [discriminate|]; split; [vm_compute; reflexivity|]; split; [vm_compute; reflexivity|]; eexists; apply full_b; [exact ex_Inv | vm_compute; reflexivity]).
Qed.
Lemma ex_model : free ex 4 [0;1;3] /\ plain_lines (model_text enm fshp zprop zarray false ex 4 (Got (lit "5.0")))
   [""; "Name : m"; "Objective : 5.0"; "Number of Parameters : 5"; "Number of Optimization Parameters : 3"; "Updates : True"; "Parameters:";
    "  m.               |   value  |  constraints";
    "  k_of_x.variance  |    (2,)  |     {+7}    ";
    "  k_of_x.b         |     3.0  |     fixed   ";
    "  lengthscale      |  (2, 1)  |    {fixed}  "]%string.
Proof. split; [fr | vm_compute; reflexivity]. Qed.
(** An empty Param. *)
Lemma ex_nothing : ex_reach ex_empty /\ named (st ex_empty) hnm 2 /\ shaped (st ex_empty) hshp 2 /\ (2 < next (st ex_empty))%nat /\ is_leaf (st ex_empty) 2 = false /\ part (st ex_empty) 2 1 /\ is_leaf (st ex_empty) 1 = true /\ hshp 1 = [0%nat].
Proof.
  assert (R : ex_reach ex_empty) by (apply start_reach; vm_compute; reflexivity). pose proof (reach_Inv _ R) as H.
  split; auto. split; [apply namedb_ok; auto; vm_compute; auto|]. split.
  { intros y P Hl. pose proof (above_lt' ex_empty 2 y H) as L. specialize (L ltac:(vm_compute; lia) P). change (next (st ex_empty)) with 3%nat in L.
    do 3 (destruct y as [|y]; [vm_compute in Hl; try discriminate Hl; (split; [vm_compute; discriminate | vm_compute; reflexivity])|]). lia. }
  split; [vm_compute; lia|]. split; [vm_compute; reflexivity|]. split; [|split; [vm_compute; reflexivity | reflexivity]].
  exists (sum_sizes (st ex_empty) (firstn 1 (kids (st ex_empty) 2)) + 0), 1%nat. eapply below_kid; [|constructor]. vm_compute. reflexivity.
Qed.

(** ** Witnesses *)
(** A short name and a value: the column of the values is not wide enough. *)
Lemma table_refuted : exists s y h lines a b, ex_reach s /\ (y < next (st s))%nat /\ is_leaf (st s) y = true /\ fshp y <> [] /\ size (st s) y = Z.of_nat (elements (fshp y)) /\ 0 < size (st s) y /\ full_name (st s) fnm y h /\
  param_table fnm fshp zprop zfixed zstr true s y = Got lines /\ In a lines /\ In b lines /\ length a <> length b.
Proof.
  exists ex, 3%nat, (lit "m.c"). eexists. eexists. eexists. split; [exact ex_reachable|]. split; [vm_compute; lia|]. split; [vm_compute; reflexivity|]. split; [discriminate|]. split; [vm_compute; reflexivity|]. split; [vm_compute; reflexivity|].
  split; [apply full_b; [exact ex_Inv | vm_compute; reflexivity]|]. split; [vm_compute; reflexivity|]. split; [left; reflexivity|]. split; [right; left; reflexivity|]. vm_compute. discriminate.
Qed.
(** The first colon of a line. *)
Definition colon_at (n : nat) (ln : str) : Prop := nth_error ln n = Some 58%N /\ forall k, (k < n)%nat -> nth_error ln k <> Some 58%N.
Fixpoint first_colon (ln : str) : nat := match ln with [] => O | a :: r => if N.eqb a 58 then O else S (first_colon r) end.
Lemma first_colon_ok : forall ln, nth_error ln (first_colon ln) = Some 58%N -> colon_at (first_colon ln) ln.
Proof.
  intros ln E. split; auto. clear E. induction ln as [|a ln IH]; intros k Hk; cbn [first_colon] in *; [lia|]. destruct (N.eqb_spec a 58); [lia|]. destruct k; cbn; [congruence | apply IH; lia].
Qed.
Lemma labels_refuted : exists s x o lines a b i j, ex_reach s /\ (x < next (st s))%nat /\ model_text enm fshp zprop zarray true s x (Got o) = Got lines /\
  In a (firstn 5 (tl lines)) /\ In b (firstn 5 (tl lines)) /\ colon_at i a /\ colon_at j b /\ i <> j.
Proof.
  exists ex, 4%nat, (lit "5.0"). eexists. exists (lit "Name : m"), (lit "Objective : 5.0"), (first_colon (lit "Name : m")), (first_colon (lit "Objective : 5.0")). split; [exact ex_reachable|]. split; [vm_compute; lia|].
  split; [vm_compute; reflexivity|]. split; [left; vm_compute; reflexivity|]. split; [right; left; vm_compute; reflexivity|]. split; [apply first_colon_ok; vm_compute; reflexivity|]. split; [apply first_colon_ok; vm_compute; reflexivity|]. vm_compute. discriminate.
Qed.
Section Sl.
Import SlModel SlSpec SlEx.
Definition snm (y : oid) : str := nth y [lit "a"; lit "b"; lit "k"; lit "model"] [].
Lemma sx_name : full_name (st (base sx)) snm (of (sx_part 0)) (lit "model.k.a").
Proof. apply full_b; [exact sx_inv | vm_compute; reflexivity]. Qed.
Lemma ex_part : zreach sx /\ part_at sx 0 (sx_part 0) [1;2;3] /\ full_name (st (base sx)) snm (of (sx_part 0)) (lit "model.k.a") /\
  plain_lines (part_table snm zprop zfixed zstr false sx (sx_part 0))
   ["  index  |  model.k.a  |  constraints";
    "  [1]    |  2.00000000  |             ";
    "  [2]    |  -3.00000000  |             ";
    "  [3]    |  4.00000000  |             "]%string.
Proof. split; [exact sx_reach|]. split; [apply sx_part0|]. split; [exact sx_name|]. vm_compute. reflexivity. Qed.
(** [print(p[2:][0:1])] shows element 2 as element 0; [print(p[0:0])] fails. *)
Lemma nested_print : exists z k q a, zreach z /\ nth_error (parts z) k = Some (Some q) /\ shared q = true /\ map Some (look z q) = [value (base z) (of q) a] /\ a = 2 /\ value (base z) (of q) 0 <> value (base z) (of q) 2 /\
  plain_lines (part_table snm zprop zfixed zstr false z q)
   ["  index  |  model.k.a  |  constraints";
    "  [0]    |  -3.00000000  |             "]%string.
Proof.
  set (cs := sx_calls ++ [Take 0 (Slice 2 5 1); TakeOf 3 (Slice 0 1 1)]).
  assert (K : nth_error (parts (sstart cs)) 4 = Some (Some (piece_at (sstart cs) 4))) by (vm_compute; reflexivity).
  exists (sstart cs), 4%nat, (piece_at (sstart cs) 4), 2. split; [apply sstart_reach; vm_compute; reflexivity|]. split; [exact K|]. split; [vm_compute; reflexivity|]. split; [vm_compute; reflexivity|]. split; auto. split; [vm_compute; discriminate|]. vm_compute. reflexivity.
Qed.
Lemma empty_print : exists z k q, zreach z /\ nth_error (parts z) k = Some (Some q) /\ positions (cur q) (size (st (base z)) (of q)) = Ok [].
Proof.
  set (cs := sx_calls ++ [Take 0 (Slice 2 2 1)]).
  assert (K : nth_error (parts (sstart cs)) 3 = Some (Some (piece_at (sstart cs) 3))) by (vm_compute; reflexivity).
  exists (sstart cs), 3%nat, (piece_at (sstart cs) 3). split; [apply sstart_reach; vm_compute; reflexivity|]. split; [exact K|]. vm_compute. reflexivity.
Qed.
End Sl.
