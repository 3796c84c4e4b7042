(** Gradients, indices into the optimizer array, round trips, randomize. *)
From Coq Require Import List ZArith Bool Lia Arith.
From Verif Require Import NpModel NpProofs IndexOpsModel IndexOpsSpec IndexOpsProofs PzModel PzSpec PzTree PzStruct PzLink PzWalk PzMem PzIo PzInv PzConn PzFix PzLinkMem PzPres PzUnlink PzTraverse PzNotify PzNew PzCmd PzInit PzCons PzVal PzOpt PzRandom PzHist PzKeep PzOrder.
Import ListNotations.
Open Scope Z_scope.

Section Grad.
Context {V : Type}.
Implicit Types s : @state V.

Lemma value_some : forall s x k, Inv s -> (x < next (st s))%nat -> ready (st s) x -> 0 <= k < size (st s) x -> exists v, value s x k = Some v.
Proof.
  intros s x k H Hx Rx Hk. destruct (store_ok s x H Hx Rx) as (m1 & a & _ & Hlen & Hv & _). rewrite Hv by auto.
  destruct (nth_error (read_arr m1 a) (Z.to_nat k)) as [v|] eqn:E; eauto. apply nth_error_None in E. lia.
Qed.
Lemma free_in : forall s x ks i k, free s x ks -> nth_error ks i = Some k -> 0 <= k < size (st s) x /\ ~ has s x Fixed k.
Proof. intros s x ks i k [_ Hk] H. apply Hk. eapply nth_error_In; eauto. Qed.

(** The mask of the top of a hierarchy. *)
Lemma top_mask : forall s x ks, Inv s -> (x < next (st s))%nat -> ready (st s) x -> par (st s) x = None -> free s x ks ->
  if nonempty (cons_get (ios s) x Fixed)
  then exists mk, fix_ s x = Some mk /\ Z.of_nat (length mk) = size (st s) x /\ ks = select mk (arange (size (st s) x)) /\
    forall j, 0 <= j < size (st s) x -> (nth (Z.to_nat j) mk false = true <-> ~ has s x Fixed j)
  else ks = arange (size (st s) x) /\ forall j, ~ has s x Fixed j.
Proof.
  intros s x ks H Hx Rx Hp [Fi Fk]. pose proof (inv_fix _ H x Hx Hp Rx) as Mk. unfold mask_ok in Mk.
  destruct (nonempty (cons_get (ios s) x Fixed)) eqn:Ef.
  - destruct (fix_ s x) as [mk|]; [|exfalso; apply fixed_nonempty in Ef as [j Hj]; apply (Mk j); exact Hj].
    destruct Mk as (L & _ & Q). exists mk. split; auto. split; auto. split; auto. apply (mask_free mk _ (fun j => ~ has s x Fixed j)); auto.
  - assert (Nof : forall j, ~ has s x Fixed j) by (intros j Hj; rewrite (proj2 (fixed_nonempty s x)) in Ef; [discriminate | eauto]).
    split; auto. apply increasing_unique; auto; [apply arange_increasing|]. intros k. rewrite Fk, arange_In. split; [tauto | auto].
Qed.

(** C40 *)
Lemma grad_ok : forall tgrad s x ks g, Inv s -> (x < next (st s))%nat -> ready (st s) x -> one_tr s x -> par (st s) x = None -> free s x ks ->
  Z.of_nat (length g) = size (st s) x ->
  exists l, transform_gradients tgrad x s g = Ok l /\ grad_spec tgrad s x ks g l.
Proof.
  intros tgrad s x ks g H Hx Rx One Hp Hks Lg. destruct (store_ok s x H Hx Rx) as (m1 & a & Ep & Hlen & Hval & _).
  unfold transform_gradients. rewrite Ep. set (G := fun n k d => _). set (g1 := apply_all _ G g).
  assert (L1 : length g1 = length g) by apply (apply_all_nth V _ G g 0%nat).
  assert (E1 : forall k, 0 <= k < size (st s) x -> exists v d, value s x k = Some v /\ nth_error g (Z.to_nat k) = Some d /\
    (forall n, has s x (Tr n) k -> nth_error g1 (Z.to_nat k) = Some (tgrad n v d)) /\ ((forall n, ~ has s x (Tr n) k) -> nth_error g1 (Z.to_nat k) = Some d)).
  { intros k Hk. destruct (value_some s x k H Hx Rx Hk) as [v Hv]. destruct (nth_error g (Z.to_nat k)) as [d|] eqn:Ed; [|apply nth_error_None in Ed; lia].
    exists v, d. split; auto. split; auto. unfold g1. rewrite (proj1 (apply_all_nth V _ G g (Z.to_nat k))), Ed. rewrite Z2Nat.id by lia. cbn [option_map].
    destruct (through_items s x k H Hx One (fun n => G n k) d) as [Q1 Q2]. split.
    - intros n Hn. rewrite (Q1 n Hn). unfold G. rewrite Hval in Hv by auto. rewrite (nth_error_nth _ _ _ Hv). auto.
    - intros Hn. rewrite (Q2 Hn). auto. }
  pose proof (top_mask s x ks H Hx Rx Hp Hks) as Tm.
  destruct (nonempty (cons_get (ios s) x Fixed)).
  - destruct Tm as (mk & Em & Lm & Ek & Nm). rewrite Em. assert (Lq : length mk = length g1) by lia. rewrite Lq, Nat.eqb_refl.
    exists (select mk g1). split; auto. split.
    + rewrite Ek. apply select_length. rewrite arange_len. lia.
    + intros i k Hi. destruct (free_in s x ks i k Hks Hi) as [Hk _]. rewrite Ek in Hi. destruct (free_pos mk _ i k Lm Hi) as (_ & En & Er).
      destruct (E1 k Hk) as (v & d & Q1 & Q2 & Q3 & Q4). exists v, d. split; auto. split; auto.
      rewrite <- Er, select_nth by auto. auto.
  - destruct Tm as [Ek _]. exists g1. split; auto. split; [rewrite Ek, arange_len; lia|]. intros i k Hi.
    destruct (free_in s x ks i k Hks Hi) as [Hk _]. rewrite Ek, arange_nth_error in Hi. destruct (Nat.ltb_spec i (Z.to_nat (size (st s) x))); [|discriminate].
    injection Hi as <-. destruct (E1 _ Hk) as (v & d & Q1 & Q2 & Q3 & Q4). rewrite Nat2Z.id in *. exists v, d. auto.
Qed.

(** C41 *)
Lemma rank_false : forall mk k, nth k mk false = true -> (rank mk k + length (filter negb (firstn (k + 1) mk)) = k)%nat.
Proof.
  induction mk as [|b mk IH]; intros k H; [destruct k; discriminate|]. destruct k as [|k]; cbn [nth] in H.
  - subst b. reflexivity.
  - specialize (IH k H). unfold rank in *. cbn [Nat.add firstn filter]. destruct b; cbn [negb length]; lia.
Qed.
Lemma index_ok : forall s r x o n sel ks, Inv s -> (r < next (st s))%nat -> ready (st s) r -> par (st s) r = None -> below (st s) r x o n ->
  (forall k, selected (st s) x sel k -> 0 <= k < size (st s) x) -> free s r ks ->
  exists l fs p, index_for_transformed s r x sel = Ok l /\
    fs = filter p (map (fun k => k + o) (raveled_index (st s) x sel)) /\ (forall k, 0 <= k < size (st s) r -> (p k = true <-> ~ has s r Fixed k)) /\
    Forall2 (fun i k => 0 <= i /\ nth_error ks (Z.to_nat i) = Some k) l fs.
Proof.
  intros s r x o n sel ks H Hr Rr Hp B Hsel Hks. pose proof (inv_st _ H) as W.
  assert (Hin : forall k, In k (map (fun k => k + o) (raveled_index (st s) x sel)) -> 0 <= k < size (st s) r).
  { intros k Hk. apply in_map_iff in Hk as (j & <- & Hj). apply raveled_In, Hsel in Hj. destruct (below_range _ _ _ _ _ W B). lia. }
  unfold index_for_transformed, index_for. rewrite (offset_root _ _ _ _ _ W B Hp). cbn [rbind].
  set (el := map (fun k => k + o) (raveled_index (st s) x sel)) in *.
  pose proof (top_mask s r ks H Hr Rr Hp Hks) as Tm. destruct (nonempty (cons_get (ios s) r Fixed)).
  - destruct Tm as (mk & Em & Lm & Ek & Nm). rewrite Em. eexists; exists (filter (fun k => nth (Z.to_nat k) mk false) el), (fun k => nth (Z.to_nat k) mk false).
    split; [reflexivity|]. split; auto. split; auto. set (fs := filter _ el).
    assert (Hf : forall k, In k fs -> 0 <= k < size (st s) r /\ nth (Z.to_nat k) mk false = true) by (intros k Hk; apply filter_In in Hk as [Q1 Q2]; auto).
    clearbody fs. induction fs as [|k fs IH]; cbn [map]; constructor; [|apply IH; intros; apply Hf; right; auto].
    destruct (Hf k) as [Hk En]; [left; auto|]. pose proof (rank_false mk (Z.to_nat k) En) as Q. split; [lia|].
    replace (Z.to_nat _) with (rank mk (Z.to_nat k)) by lia. rewrite Ek. rewrite select_nth; auto; [|rewrite arange_len; lia].
    rewrite arange_nth_error. destruct (Nat.ltb_spec (Z.to_nat k) (Z.to_nat (size (st s) r))); [|lia]. rewrite Z2Nat.id by lia. auto.
  - destruct Tm as [Ek Nof]. exists el, el, (fun _ => true). split; auto. split; [symmetry; clear; induction el as [|a l IH]; cbn; f_equal; auto|]. split; [intros k _; split; auto; intros _; apply Nof|].
    assert (G : forall l, (forall k, In k l -> 0 <= k < size (st s) r) -> Forall2 (fun i k => 0 <= i /\ nth_error ks (Z.to_nat i) = Some k) l l).
    { induction l as [|k l IH]; intros Hl; constructor; [|apply IH; intros; apply Hl; right; auto]. specialize (Hl k (or_introl eq_refl)). split; [lia|].
      rewrite Ek, arange_nth_error. destruct (Nat.ltb_spec (Z.to_nat k) (Z.to_nat (size (st s) r))); [|lia]. rewrite Z2Nat.id by lia. auto. }
    apply G; auto.
Qed.

(** C37 *)
Lemma self_same : forall t x k, 0 <= k < size t x -> same_elem t x k x k.
Proof. intros t x k Hk. split; auto. split; auto. exists x, 0, 0%nat, 0, 0%nat. split; [constructor|]. split; [constructor | auto]. Qed.
Lemma same_elem_dec : forall t y j x, swf t -> 0 <= j < size t y -> (exists k, same_elem t y j x k) \/ forall k, ~ same_elem t y j x k.
Proof.
  intros t y j x W Hj. destruct (root_exists t x W) as (r & o & n & _ & Hp & B).
  destruct (above_dec t r y W) as [[oy [ny By]]|A]; [|right; intros k; eapply same_elem_outside; eauto; exists o, n; auto].
  assert (D : 0 <= j + oy - o < size t x \/ ~ 0 <= j + oy - o < size t x) by lia. destruct D as [D|D].
  - left. exists (j + oy - o). apply (same_elem_root t r x o n W Hp B). split; auto. split; auto. exists oy, ny. split; auto. lia.
  - right. intros k Se. destruct (proj1 (same_elem_root t r x o n W Hp B _ _ _) Se) as (_ & Hk & oy' & ny' & By' & E).
    destruct (below_unique _ _ _ _ _ _ _ W By By') as [-> _]. lia.
Qed.
Lemma nth_ext' : forall (A : Type) (l l' : list A), length l = length l' -> (forall i a, nth_error l' i = Some a -> nth_error l i = Some a) -> l = l'.
Proof.
  intros A l. induction l as [|a l IH]; intros [|b l'] L H; try discriminate; auto. f_equal.
  - specialize (H 0%nat b eq_refl). injection H. auto.
  - apply IH; [simpl in L; lia|]. intros i c Hc. apply (H (S i) c Hc).
Qed.
Lemma tr_dec : forall s x k, Inv s -> (x < next (st s))%nat -> (exists n, has s x (Tr n) k) \/ forall n, ~ has s x (Tr n) k.
Proof.
  intros s x k H Hx.
  destruct (existsb (fun e => match fst e with Tr _ => zmem k (snd e) | Fixed => false end) (cons_items (ios s) x)) eqn:E.
  - left. apply existsb_exists in E as ([q l] & Hi & Hk). destruct q as [|n]; [discriminate|]. exists n. apply items_has; auto. exists l. split; auto. apply zmem_In. auto.
  - right. intros n Hn. destruct (proj1 (items_has s x (Tr n) k H Hx) Hn) as (l & Hi & Hk).
    assert (Q : existsb (fun e => match fst e with Tr _ => zmem k (snd e) | Fixed => false end) (cons_items (ios s) x) = true); [|congruence].
    apply existsb_exists. exists (Tr n, l). split; auto. cbn. apply zmem_In. auto.
Qed.

Lemma set_get : forall tf tfinv s x p ks, Inv s -> (x < next (st s))%nat -> ready (st s) x -> one_tr s x -> free s x ks ->
  mask_fresh s x \/ (forall j, ~ has s x Fixed j) -> length p = length ks ->
  (forall i k n v, nth_error ks i = Some k -> has s x (Tr n) k -> nth_error p i = Some v -> tfinv n (tf n v) = v) ->
  exists s1 s2, set_optimizer_array tf x p s = (s1, None) /\ get_optimizer_array tfinv x s1 = Ok (p, s2).
Proof.
  intros tf tfinv s x p ks H Hx Rx One Hks Mf Lp Hinv.
  destruct (set_opt_ok tf s x p ks H Hx Rx One Hks) as (s1 & l & F & R & H1 & (C & _) & (_ & Se) & _ & E1 & E2 & E3 & (_ & _ & E4) & _).
  assert (Hh : forall y q j, has s1 y q j <-> has s y q j) by (intros; apply has_ext; auto).
  destruct (get_opt_ok tfinv s1 x ks) as (l' & s2 & R2 & (Ll & G) & _); try (rewrite E1; auto); auto.
  - intros k n m A B. apply Hh in A. apply Hh in B. eapply One; eauto.
  - destruct Hks as [Q1 Q2]. split; auto. intros k. rewrite Q2, E1, Hh. tauto.
  - rewrite E4. cbn. rewrite upd_eq. destruct (omem x l); auto.
  - destruct Mf as [Mf|Mf]; [left; unfold mask_fresh; rewrite E1, E3; auto | right; intros j Q; apply Hh in Q; apply (Mf j Q)].
  - exists s1, s2. split; auto. rewrite R2. f_equal. f_equal. apply nth_ext'; [congruence|]. intros i v Hv.
    destruct (nth_error ks i) as [k|] eqn:Ek; [|apply nth_error_None in Ek; assert (i < length p)%nat by (apply nth_error_Some; congruence); lia].
    destruct (free_in s x ks i k Hks Ek) as [Hk _]. destruct (G i k Ek) as (w & Hw & G1 & G2).
    rewrite (C x k k Hx Rx (self_same _ _ _ Hk)) in Hw. destruct (value_some s x k H Hx Rx Hk) as [u Hu]. rewrite Hu in Hw. cbn [option_map] in Hw. injection Hw as Hw.
    destruct (Se i k u Ek) as [S1 S2]. rewrite (cyc_in _ p i v u Hv) in S1, S2.
    destruct (tr_dec s x k H Hx) as [[n Hn]|Hn].
    + rewrite (G1 n) by (apply Hh; auto). rewrite <- Hw, (S1 n Hn), (Hinv i k n v Ek Hn Hv). auto.
    + rewrite G2 by (intros n Q; apply Hh in Q; apply (Hn n Q)). rewrite <- Hw, S2; auto.
Qed.

Lemma get_set : forall tf tfinv s x ks, Inv s -> (x < next (st s))%nat -> ready (st s) x -> one_tr s x -> free s x ks -> fresh (nt s) x = false ->
  mask_fresh s x \/ (forall j, ~ has s x Fixed j) ->
  (forall k n v, has s x (Tr n) k -> ~ has s x Fixed k -> value s x k = Some v -> tf n (tfinv n v) = v) ->
  exists p s1 s2, get_optimizer_array tfinv x s = Ok (p, s1) /\ length p = length ks /\ set_optimizer_array tf x p s1 = (s2, None) /\
    (forall y j k, (y < next (st s))%nat -> ready (st s) y -> same_elem (st s) y j x k -> value s2 y j = value s y j) /\
    (apart s -> forall y j, (y < next (st s))%nat -> ready (st s) y -> 0 <= j < size (st s) y -> value s2 y j = value s y j).
Proof.
  intros tf tfinv s x ks H Hx Rx One Hks Hfr Mf Hinv.
  destruct (get_opt_ok tfinv s x ks H Hx Rx One Hks Hfr Mf) as (p & s1 & R1 & (Lp & G) & H1 & (E1 & E2 & _ & V1 & _ & _ & _ & _ & _ & A1)).
  assert (Hh : forall y q j, has s1 y q j <-> has s y q j) by (intros; apply has_ext; auto).
  assert (Hks1 : free s1 x ks). { destruct Hks as [Q1 Q2]. split; auto. intros k. rewrite Q2, E1, Hh. tauto. }
  destruct (set_opt_ok tf s1 x p ks) as (s2 & l & F & R & H2 & (C & Co) & (Sf & Se) & _); try (rewrite E1; auto); auto.
  { intros k n m A B. apply Hh in A. apply Hh in B. eapply One; eauto. }
  rewrite E1 in *. exists p, s1, s2. split; auto. split; auto. split; auto.
  assert (Sm : forall y j k, (y < next (st s))%nat -> ready (st s) y -> same_elem (st s) y j x k -> value s2 y j = value s y j).
  { intros y j k Hy Ry Sj. rewrite (C y j k Hy Ry Sj). pose proof Sj as (Hj & Hk & _). rewrite V1 by auto.
    assert (Ev : value s y j = value s x k) by (apply (one_copy (st s) (mem s)); auto; apply H). rewrite Ev.
    destruct (value_some s x k H Hx Rx Hk) as [v Hv]. rewrite Hv. cbn [option_map]. f_equal.
    destruct (in_dec Z.eq_dec k ks) as [Hi|Hi].
    - apply In_nth_error in Hi as [i Hi]. destruct (G i k Hi) as (w & Hw & G1 & G2). assert (w = v) by congruence. subst w.
      destruct (free_in s x ks i k Hks Hi) as [_ Hnf]. destruct (Se i k v Hi) as [S1 S2]. destruct (tr_dec s x k H Hx) as [[n Hn]|Hn].
      + rewrite (S1 n) by (apply Hh; auto). rewrite (cyc_in _ p i (tfinv n v) v (G1 n Hn)). eauto.
      + rewrite S2 by (intros n Q; apply Hh in Q; apply (Hn n Q)). apply cyc_in. auto.
    - apply Sf. apply Hh. destruct (in_dec Z.eq_dec k (cons_get (ios s) x Fixed)) as [Q|Q]; [exact Q|].
      exfalso. apply Hi. apply Hks. split; auto. }
  split; auto. intros Ap y j Hy Ry Hj.
  assert (D : (exists k, same_elem (st s) y j x k) \/ forall k, ~ same_elem (st s) y j x k) by (apply same_elem_dec; auto; apply H).
  destruct D as [[k Hk]|D]; [eapply Sm; eauto|]. rewrite Co; auto.
Qed.

(** After a call that updates what is above [y], the optimizer arrays above [y] are computed anew. *)
Lemma chain_fresh : forall s x y u l n n', Inv s -> up (st s) y u -> (forall z, part (st s) z y -> updates n z = true) ->
  @ran V n l n' -> (exists a, l = a ++ chain (st s) n u) -> kind (st s) x = KNode -> part (st s) x y -> fresh n' x = false.
Proof.
  intros s x y u l n n' H Hu Hon (_ & _ & Hf) [a ->] Hk Hp. rewrite Hf.
  destruct (chain_order s n y u H Hu Hon) as (_ & Hc & _). rewrite (proj2 (omem_In _ _)); auto. apply in_or_app. right. apply Hc. auto.
Qed.
Lemma triggered_chain : forall t i (n : @ntst V) x l, triggered t i n x l -> updates n x = true -> in_init t x = false ->
  exists a u, up t x u /\ l = a ++ chain t n u.
Proof. intros t i n x l (tr & u & fx & _ & _ & _ & Hu & _ & ->) -> ->. cbn [andb negb]. eexists; exists u. split; [exact Hu|reflexivity]. Qed.

Lemma assign_fresh : forall s y g s1 x, Inv s -> (y < next (st s))%nat -> ready (st s) y -> in_init (st s) y = false ->
  (forall z, part (st s) z y -> updates (nt s) z = true) -> assign y g s = (s1, None) ->
  kind (st s) x = KNode -> part (st s) x y -> fresh (nt s1) x = false.
Proof.
  intros s y g s1 x H Hy Ry Hin Hon E Hk Hp. destruct (assign_ok s y g H Hy Ry) as (s2 & l & R & H' & _ & _ & E1 & E2 & E3 & Rn & Q).
  rewrite R in E. injection E as <-. destruct (is_leaf (st s) y).
  - destruct Q as (u & Hu & ->). apply (chain_fresh s x y u (chain (st s) (nt s) u) (nt s) (nt s2)); auto. exists []; auto.
  - destruct (triggered_chain _ _ _ _ _ Q) as (a & u & Hu & El); auto; [apply Hon, above_refl|]. apply (chain_fresh s x y u l (nt s) (nt s2)); auto. exists a; auto.
Qed.
Lemma constrain_fresh : forall tinit s y sel n s1 x, Inv s -> (y < next (st s))%nat -> ready (st s) y -> legal_sel (st s) y sel -> in_init (st s) y = false ->
  (forall z, part (st s) z y -> updates (nt s) z = true) -> constrain tinit y sel n s = (s1, None) ->
  kind (st s) x = KNode -> part (st s) x y -> fresh (nt s1) x = false.
Proof.
  intros tinit s y sel n s1 x H Hy Ry Ls Hin Hon E Hk Hp. destruct (constrain_ok tinit s y sel n H Hy Ry Ls) as (s2 & l & R & H' & _ & _ & E1 & Rn & (u & l5 & Hu & T & El) & _).
  rewrite R in E. injection E as <-. 
  destruct (triggered_chain _ _ _ _ _ T) as (a & u' & Hu' & El'); auto; [apply Hon, above_refl|]. apply (chain_fresh s x y u' l (nt s) (nt s2)); auto.
  rewrite El, El', app_assoc. eexists; reflexivity.
Qed.

End Grad.
