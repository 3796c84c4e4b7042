(** Proofs about [unfixed_param_array]. *)
From Coq Require Import List ZArith Bool Lia Arith.
From Verif Require Import NpModel NpProofs IndexOpsModel IndexOpsSpec PzModel PzSpec PzTree PzStruct PzLink PzWalk PzMem PzIo PzInv PzConn PzFix PzLinkMem PzPres PzCons PzCmd PzVal PzOpt PzFinal PzNotify UfModel UfSpec.
Import ListNotations.
Open Scope Z_scope.

Section Uf.
Context {V : Type}.
Implicit Types s : @state V.
Variables tinit tf tfinv : nat -> V -> V.
Variable junk : nat -> Z -> V.
Notation reachable := (reach tinit tf tfinv legal junk).

Lemma stored_node : forall s x, reachable s -> (x < next (st s))%nat -> kind (st s) x = KNode -> ready (st s) x -> 0 < size (st s) x ->
  exists b o, stored s x = Some (b, o, size (st s) x) /\ arr (mem s) x = Some (b, o, size (st s) x).
Proof.
  intros s x R Hx Hk Rx Hs. destruct (reach_legal tinit tf tfinv junk s R) as [H _].
  destruct (ready_al (st s) (mem s) x (inv_st _ H) (inv_mem _ H) Hx Rx) as (b & o & A).
  pose proof (al_self _ _ _ _ _ A Hs) as E. exists b, o. split; auto. unfold stored, is_leaf. rewrite Hk. auto.
Qed.
Lemma entry_itself : forall s b o n x i, arr (mem s) x = Some (b, o, n) -> entry s (Itself (b, o, n)) i = value s x (Z.of_nat i).
Proof.
  intros s b o n x i E. unfold entry, value. rewrite E. destruct (Z.leb_spec 0 (Z.of_nat i)); [|lia]. reflexivity.
Qed.
Lemma value_read : forall s b o n x k, arr (mem s) x = Some (b, o, n) -> 0 <= k < n -> value s x k = nth_error (read_arr (mem s) (b, o, n)) (Z.to_nat k).
Proof.
  intros s b o n x k E Hk. unfold value, read_arr. rewrite E. destruct (Z.leb_spec 0 k); [|lia]. destruct (Z.ltb_spec k n); [|lia]. cbn [andb].
  rewrite nth_error_map, arange_nth_error. destruct (Nat.ltb_spec (Z.to_nat k) (Z.to_nat n)); [|lia]. cbn. rewrite Z2Nat.id by lia. auto.
Qed.

Lemma content : forall s x ks, reachable s -> (x < next (st s))%nat -> kind (st s) x = KNode -> ready (st s) x -> 0 < size (st s) x -> free s x ks ->
  exists u, unfixed_param_array x s = Ok u /\ holds s u x ks /\
    ((exists j, has s x Fixed j) -> exists l, u = Own l /\ length l = length ks) /\ ((forall j, ~ has s x Fixed j) -> arr (mem s) x <> None /\ Some u = option_map Itself (arr (mem s) x)).
Proof.
  intros s x ks R Hx Hk Rx Hs Hf. destruct (stored_node s x R Hx Hk Rx Hs) as (b & o & E1 & E2).
  destruct (reach_legal tinit tf tfinv junk s R) as [H _]. pose proof H as [W I F M N J]. pose proof (size_nonneg _ W x) as Hn.
  assert (Lr : length (read_arr (mem s) (b, o, size (st s) x)) = Z.to_nat (size (st s) x)) by (unfold read_arr; rewrite map_length, arange_len; lia).
  unfold unfixed_param_array. destruct (nonempty (cons_get (ios s) x Fixed)) eqn:Ef.
  - pose proof (proj1 (fixed_nonempty s x) Ef) as Hex.
    destruct (mask_set_ok (ones (size (st s) x)) (cons_get (ios s) x Fixed) false) as (m & E & L & Nm).
    { intros j Hj. rewrite ones_len by auto. apply (hasi_range (st s) (ios s) x Fixed j W I Hx). exact Hj. }
    rewrite E. cbn [rbind]. rewrite E1. pose proof (ones_len _ Hn) as Lo. assert (Lm : length m = Z.to_nat (size (st s) x)) by lia. rewrite Lr, Lm, Nat.eqb_refl.
    assert (Nn : forall j, 0 <= j < size (st s) x -> (nth (Z.to_nat j) m false = true <-> ~ has s x Fixed j)).
    { intros j Hj. rewrite Nm by lia. destruct (zmem j (cons_get (ios s) x Fixed)) eqn:Ez.
      - apply zmem_In in Ez. split; [discriminate|]. intros Q; exfalso; apply Q. exact Ez.
      - apply zmem_false in Ez. rewrite ones_nth by auto. split; auto. }
    destruct Hf as [Fi Fk].
    assert (Ek : ks = select m (arange (size (st s) x))) by (apply (mask_free m _ (fun j => ~ has s x Fixed j)); auto; lia).
    assert (Ll : length (select m (read_arr (mem s) (b, o, size (st s) x))) = length ks) by (rewrite Ek; apply select_length; rewrite Lr, arange_len; lia).
    eexists. split; [reflexivity|]. split; [|split; [|intros Q; destruct Hex as [j Hj]; destruct (Q j Hj)]].
    + intros i. cbn [entry]. destruct (nth_error ks i) as [k|] eqn:Ei.
      * rewrite Ek in Ei. destruct (free_pos m (size (st s) x) i k ltac:(lia) Ei) as (Hr & En & Er). subst i. rewrite select_nth by (auto; lia). symmetry. apply value_read; auto.
      * apply nth_error_None. apply nth_error_None in Ei. lia.
    + intros _. eauto.
  - assert (Nof : forall j, ~ has s x Fixed j) by (intros j Hj; rewrite (proj2 (fixed_nonempty s x)) in Ef; [discriminate | eauto]).
    rewrite E1. eexists. split; [reflexivity|]. split; [|split].
    + destruct Hf as [Fi Fk]. assert (Ek : ks = arange (size (st s) x)).
      { apply increasing_unique; auto; [apply arange_increasing|]. intros k. rewrite Fk, arange_In. split; [tauto | auto]. }
      intros i. rewrite (entry_itself s b o _ x i E2), Ek, arange_nth_error. destruct (Nat.ltb_spec i (Z.to_nat (size (st s) x))); auto.
      unfold value. rewrite E2. destruct (Z.ltb_spec (Z.of_nat i) (size (st s) x)); [lia|]. rewrite andb_false_r. auto.
    + intros [j Hj]. destruct (Nof j Hj).
    + intros _. rewrite E2. split; [discriminate | reflexivity].
Qed.

Lemma content_final : forall s x ks, reachable s -> (x < next (st s))%nat -> kind (st s) x = KNode -> ready (st s) x -> 0 < size (st s) x -> free s x ks ->
  exists u, unfixed_param_array x s = Ok u /\ holds s u x ks.
Proof. intros s x ks R Hx Hk Rx Hs Hf. destruct (content s x ks R Hx Hk Rx Hs Hf) as (u & E & Q & _). eauto. Qed.

(** Without fixed elements writing to the array is writing to the elements; nobody is told. *)
Lemma live_final : forall s x u k v, reachable s -> (x < next (st s))%nat -> kind (st s) x = KNode -> ready (st s) x -> 0 < size (st s) x ->
  (forall j, ~ has s x Fixed j) -> 0 <= k < size (st s) x -> unfixed_param_array x s = Ok u ->
  exists s', poke u k v s = (s', None) /\ changed s s' x (fun j w => if j =? k then v else w) /\ trace (nt s') = trace (nt s).
Proof.
  intros s x u k v R Hx Hk Rx Hs Nof Hkk E.
  destruct (content s x (arange (size (st s) x)) R Hx Hk Rx Hs) as (u' & E' & _ & _ & Q).
  { split; [apply arange_increasing|]. intros j. rewrite arange_In. split; [intros; split; auto | tauto]. }
  rewrite E in E'. injection E' as <-. destruct (Q Nof) as [_ Q2]. destruct (stored_node s x R Hx Hk Rx Hs) as (b & o & E1 & E2). rewrite E2 in Q2. injection Q2 as ->.
  destruct (reach_legal tinit tf tfinv junk s R) as [H _]. destruct (store_ok s x H Hx Rx) as (m1 & a & Ep & Hlen & _ & St).
  assert (Ea : param_array (st s) (mem s) x = (mem s, (b, o, size (st s) x))) by (unfold param_array; rewrite E2, Z.eqb_refl, orb_true_r; auto).
  rewrite Ea in Ep. injection Ep as <- <-. cbn [poke]. rewrite Hlen. destruct (Z.leb_spec 0 k); [|lia]. destruct (Z.ltb_spec k (size (st s) x)); [|lia]. cbn [andb].
  eexists. split; [reflexivity|]. split; [|reflexivity]. rewrite <- Hlen at 2.
  apply (St (map (fun e => (fun j w => if j =? k then v else w) (fst e) (snd e)) (combine (arange (Z.of_nat (length (read_arr (mem s) (b, o, size (st s) x))))) (read_arr (mem s) (b, o, size (st s) x))))).
  - apply (enum_len _ (fun j w => if j =? k then v else w)).
  - intros j Hj. apply (enum_map _ (fun j w => if j =? k then v else w)); auto.
Qed.

(** With a fixed element it changes nothing. *)
Lemma own_final : forall s x u k v, reachable s -> (x < next (st s))%nat -> kind (st s) x = KNode -> ready (st s) x -> 0 < size (st s) x ->
  (exists j, has s x Fixed j) -> unfixed_param_array x s = Ok u -> fst (poke u k v s) = s.
Proof.
  intros s x u k v R Hx Hk Rx Hs Hex E. destruct (reach_legal tinit tf tfinv junk s R) as [H _].
  destruct (unfixed_param_array x s) as [u'|] eqn:Eu; [|discriminate]. injection E as ->. unfold unfixed_param_array in Eu. rewrite (proj2 (fixed_nonempty s x) Hex) in Eu.
  destruct (mask_set _ _ _) as [m|]; [|discriminate]. cbn [rbind] in Eu. destruct (stored s x) as [a|]; [|discriminate].
  destruct (Nat.eqb _ _); [|discriminate]. injection Eu as <-. cbn [poke]. destruct (_ && _); auto.
Qed.

(** A Param never gives its values. *)
Lemma leaf_final : forall s x, reachable s -> (x < next (st s))%nat -> is_leaf (st s) x = true ->
  (exists j, has s x Fixed j) /\ unfixed_param_array x s = Er TypeError \/ (forall j, ~ has s x Fixed j) /\ unfixed_param_array x s = Ok Nothing.
Proof.
  intros s x R Hx Hl. destruct (reach_legal tinit tf tfinv junk s R) as [H _]. pose proof H as [W I F M N J]. pose proof (size_nonneg _ W x) as Hn.
  unfold unfixed_param_array, stored. rewrite Hl. destruct (nonempty (cons_get (ios s) x Fixed)) eqn:Ef.
  - left. split; [apply fixed_nonempty; auto|]. destruct (mask_set_ok (ones (size (st s) x)) (cons_get (ios s) x Fixed) false) as (m & E & _).
    { intros j Hj. rewrite ones_len by auto. apply (hasi_range (st s) (ios s) x Fixed j W I Hx). exact Hj. }
    rewrite E. reflexivity.
  - right. split; auto. intros j Hj. rewrite (proj2 (fixed_nonempty s x)) in Ef; [discriminate | eauto].
Qed.

(** The optimizer array of a part that keeps no mask. *)
Lemma part_final : forall s x ks, reachable s -> (x < next (st s))%nat -> kind (st s) x = KNode -> ready (st s) x -> fix_ s x = None -> free s x ks -> fresh (nt s) x = false ->
  exists l s', get_optimizer_array tfinv x s = Ok (l, s') /\ get_spec tfinv s x ks l.
Proof.
  intros s x ks R Hx Hk Rx Hf Hks Hfr. destruct (reach_legal tinit tf tfinv junk s R) as [H O].
  destruct (get_opt_ok tfinv s x ks H Hx Rx (O x Hx) Hks Hfr) as (l & s' & E & G & _).
  - left. right. unfold is_leaf. rewrite Hk. auto.
  - eauto.
Qed.
End Uf.
