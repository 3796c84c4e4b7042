(** The properties of printing, for the states that calls lead to. *)
From Coq Require Import String List ZArith NArith Bool Arith Lia.
From Verif Require NamesModel SlModel SlSpec SlFinal.
From Verif Require Import NpModel NpProofs IndexOpsModel IndexOpsSpec IndexOpsProofs PzModel PzSpec PzTree PzStruct PzLink PzWalk PzMem PzIo PzInv PzConn PzFix PzLinkMem PzPres PzUnlink PzTraverse PzNotify PzNew PzCmd PzInit PzCons PzVal PzOpt PzRandom PzHist PzOrder PzGrad PzKeep PzFinal.
From Verif Require Import RavelModel RavelSpec RavelProofs ConcatModel ConcatSpec ConcatProofs ConcatFinal FlatModel FlatSpec FlatProofs FlatLabels FlatFinal FlatFind PrModel PrSpec PrProofs PrFinal PrParts.
Import ListNotations.
Local Open Scope list_scope.
Local Open Scope Z_scope.
Section Last.
Context {V : Type}.
Variables tinit tf tfinv : nat -> V -> V.
Variables junk junk' : nat -> Z -> V.
Variable nm : oid -> str.
Variable shp : oid -> list nat.
Variable pstr : prop -> str.
Variables fixed_str short_str : V -> str.
Variable array_str : list nat -> list V -> str.
Notation reachable := (reach tinit tf tfinv legal junk).
Lemma reach_I : forall s, reachable s -> Inv s.
Proof. intros s R. apply (reach_legal tinit tf tfinv junk s R). Qed.
Lemma table_final : forall vt (s : @state V) y h, reachable s -> (y < next (st s))%nat -> is_leaf (st s) y = true -> shp y <> [] -> size (st s) y = Z.of_nat (elements (shp y)) ->
  0 < size (st s) y -> full_name (st s) nm y h ->
  exists lines r, param_table nm shp pstr fixed_str short_str vt s y = Got lines /\ table_cells shp pstr fixed_str s y r /\
    let all := (lit "index", h, lit "constraints") :: r in
    exists w1 w3, width_of (fun c => fst (fst c)) all w1 /\ width_of (fun c => snd c) all w3 /\ Forall2 (shows_loosely vt w1 w3) all lines.
Proof.
  intros vt s y h R H1 H2 H3 H4 H5 H6. destruct (param_table_ok nm shp pstr fixed_str short_str array_str vt s y h (reach_I s R) H1 H2 H3 H4 H5 H6) as (lines & r & E & T & w1 & w3 & W1 & W3 & F & _).
  exists lines, r. split; auto. split; auto. exists w1, w3. auto.
Qed.
Definition param_empty_final := @param_empty V.
Lemma table_aligned_final : forall vt (s : @state V) y h lines, reachable s -> (y < next (st s))%nat -> is_leaf (st s) y = true -> shp y <> [] -> size (st s) y = Z.of_nat (elements (shp y)) ->
  0 < size (st s) y -> full_name (st s) nm y h ->
  (forall j v, value s y j = Some v -> (length (fixed_str v) <= length h)%nat \/ (length (fixed_str v) <= length (short_str v))%nat) ->
  param_table nm shp pstr fixed_str short_str vt s y = Got lines -> exists n, forall ln, In ln lines -> length ln = n.
Proof.
  intros vt s y h lines R H1 H2 H3 H4 H5 H6 Hw E. destruct (param_table_ok nm shp pstr fixed_str short_str array_str vt s y h (reach_I s R) H1 H2 H3 H4 H5 H6) as (lines' & r & E' & T & w1 & w3 & W1 & W3 & F & G).
  rewrite E in E'. injection E' as <-. destruct (G Hw) as (w2 & _ & F2). exists ((if vt then 10 else 0) + w1 + w2 + w3 + 12)%nat. intros ln Hln. clear - F2 Hln. induction F2 as [|c ln' cs lines Hc F2 IH]; [contradiction|].
  destruct Hln as [<-|Hln]; [eapply shows_length; eauto | auto].
Qed.
Lemma several_final : forall vt (s : @state V) ps, reachable s -> ps <> [] ->
  (forall p, In p ps -> (p < next (st s))%nat /\ is_leaf (st s) p = true /\ shp p <> [] /\ size (st s) p = Z.of_nat (elements (shp p)) /\ 0 < size (st s) p /\ exists h, full_name (st s) nm p h) ->
  exists tbls w1 w3, several_tables nm shp pstr fixed_str short_str vt s ps = Got (concat tbls) /\ length tbls = length ps /\
    forall i p tbl, nth_error ps i = Some p -> nth_error tbls i = Some tbl ->
      exists h r, full_name (st s) nm p h /\ table_cells shp pstr fixed_str s p r /\ Forall2 (shows_loosely vt w1 w3) (heading w1 w3 i h :: r) tbl.
Proof. intros vt s ps R. apply (several_ok nm shp pstr fixed_str short_str array_str vt s ps (reach_I s R)). Qed.
Lemma summary_final : forall header vt (s : @state V) x b, reachable s -> (x < next (st s))%nat -> is_leaf (st s) x = false -> named (st s) nm x -> form nm x b -> shaped (st s) shp x -> has_rows shp (st s) x ->
  exists lines l r, summary nm shp pstr array_str header vt s x = Got lines /\ params_in_order (st s) x l /\ Forall2 (param_cells nm shp pstr array_str s x) l r /\
    let head := (b ++ lit ".", lit "value", lit "constraints") in
    exists w1 w2 w3, width_of (fun c => fst (fst c)) (head :: r) w1 /\ width_of (fun c => snd (fst c)) (head :: r) w2 /\ width_of (fun c => snd c) (head :: r) w3 /\
    Forall2 (shows vt w1 w2 w3) ((if header then [head] else []) ++ r) lines.
Proof. intros header vt s x b R. apply summary_ok. apply reach_I; auto. Qed.
Lemma summary_empty_final : forall header vt (s : @state V) x, reachable s -> (x < next (st s))%nat -> is_leaf (st s) x = false -> named (st s) nm x -> shaped (st s) shp x ->
  (exists y d, part (st s) x y /\ is_leaf (st s) y = true /\ shp y = 0%nat :: d) -> summary nm shp pstr array_str header vt s x = Err (Py IndexError).
Proof. intros header vt s x R. apply summary_fails. apply reach_I; auto. Qed.
Lemma aligned_final : forall header vt (s : @state V) x lines, reachable s -> (x < next (st s))%nat -> is_leaf (st s) x = false -> named (st s) nm x -> shaped (st s) shp x -> has_rows shp (st s) x ->
  summary nm shp pstr array_str header vt s x = Got lines -> exists n, forall ln, In ln lines -> length ln = n.
Proof. intros header vt s x lines R. apply aligned. apply reach_I; auto. Qed.
Lemma model_final : forall vt (s : @state V) x o ks ls, reachable s -> (x < next (st s))%nat -> free s x ks -> summary nm shp pstr array_str true vt s x = Got ls ->
  model_text nm shp pstr array_str vt s x (Got o) = Got
    ([[]; lit "Name : " ++ nm x; lit "Objective : " ++ o; lit "Number of Parameters : " ++ number (Z.to_nat (size (st s) x));
      lit "Number of Optimization Parameters : " ++ number (length ks); lit "Updates : " ++ (if updates (nt s) x then lit "True" else lit "False"); lit "Parameters:"] ++ ls).
Proof. intros vt s x o ks ls R. apply model_ok. apply reach_I; auto. Qed.
Section Sl.
Import SlModel SlSpec.
Lemma part_final : forall vt (z : @sstate V) k q l h, sreach tinit tf tfinv slegal junk junk' z -> part_at z k q l -> full_name (st (base z)) nm (of q) h ->
  exists lines r, part_table nm pstr fixed_str short_str vt z q = Got lines /\ length r = length l /\
    (forall i j c, nth_error l i = Some j -> nth_error r i = Some c ->
       index_text [Z.to_nat (size (st (base z)) (of q))] j (fst (fst c)) /\ carried_text pstr (base z) (of q) j (snd c) /\
       exists v, nth_error (look z q) i = Some v /\ snd (fst c) = fixed_str v /\ (shared q = true -> value (base z) (of q) j = Some v)) /\
    let all := (lit "index", h, lit "constraints") :: r in
    exists w1 w3, width_of (fun c => fst (fst c)) all w1 /\ width_of (fun c => snd c) all w3 /\ Forall2 (shows_loosely vt w1 w3) all lines.
Proof. exact (part_ok nm shp pstr fixed_str short_str array_str tinit tf tfinv junk junk'). Qed.
Definition part_empty_final := @part_none V.
End Sl.
End Last.
