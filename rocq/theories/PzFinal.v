(** The properties of hierarchies, over all histories. *)
From Coq Require Import List ZArith Bool Lia Arith.
From Verif Require Import NpModel NpProofs IndexOpsModel IndexOpsSpec IndexOpsProofs PzModel PzSpec PzTree PzStruct PzLink PzWalk PzMem PzIo PzInv PzConn PzFix PzLinkMem PzPres PzUnlink PzTraverse PzNotify PzNew PzCmd PzInit PzCons PzVal PzOpt PzRandom PzGet PzHist PzKeep PzOrder PzGrad.
Import ListNotations.
Open Scope Z_scope.

Section Final.
Context {V : Type}.
Implicit Types s : @state V.
Variables tinit tf tfinv : nat -> V -> V.
Variable junk : nat -> Z -> V.
Notation reachable := (reach tinit tf tfinv legal junk).

Lemma reach_legal : forall s, reachable s -> Inv s /\ one s.
Proof. intros s R. apply (reach_inv tinit tf tfinv legal junk s); auto. Qed.

(** C28 *)
Lemma sizes_final : forall s, reachable s ->
  (forall x, kind (st s) x = KNode -> size (st s) x = sum_sizes (st s) (kids (st s) x)) /\
  (forall x n, kind (st s) x = KLeaf n -> size (st s) x = Z.of_nat n /\ kids (st s) x = []) /\
  (forall x i y, nth_error (kids (st s) x) i = Some y -> par (st s) y = Some x /\ pidx (st s) y = Some (Z.of_nat i)) /\
  (forall x y, par (st s) y = Some x -> In y (kids (st s) x)) /\
  (forall x, NoDup (kids (st s) x)) /\
  (forall x y, part (st s) x y -> part (st s) y x -> x = y).
Proof.
  intros s R. destruct (reach_legal s R) as [H _]. pose proof (inv_st _ H) as W.
  split; [apply (wf_node _ W)|]. split; [intros x n Hk; destruct (wf_leaf _ W x n Hk); auto|].
  split; [intros x i y Hn; split; [apply (PzTree.wf_par _ W); eapply nth_error_In; eauto | apply (wf_pidx _ W x); auto]|].
  split; [intros x y; apply (PzTree.wf_par _ W)|]. split; [intros; apply wf_nodup; auto | intros; eapply above_antisym; eauto].
Qed.

(** C28, C29: links *)
Lemma without_split : forall (p : oid) l k, NoDup (insert_at k p l) -> without p (insert_at k p l) = l.
Proof.
  intros p l k N. unfold insert_at, without in *. rewrite filter_app. cbn [filter]. rewrite Nat.eqb_refl. cbn [negb].
  rewrite <- filter_app, firstn_skipn. apply NoDup_remove_2 in N. rewrite firstn_skipn in N.
  assert (Q : forall q, In q l -> negb (Nat.eqb q p) = true).
  { intros q Hq. apply negb_true_iff, Nat.eqb_neq. intros ->. auto. }
  clear N. induction l as [|a l IH]; auto. cbn [filter]. rewrite Q by (left; auto). f_equal. apply IH. intros q Hq. apply Q. right; auto.
Qed.
Lemma without_same : forall (p : oid) l, ~ In p l -> without p l = l.
Proof.
  induction l as [|a l IH]; intros N; auto. cbn [without filter]. destruct (Nat.eqb_spec a p) as [->|Hne]; [exfalso; apply N; left; auto|]. cbn [negb]. f_equal. apply IH. intros Q; apply N; right; auto.
Qed.
Lemma detached_kids : forall s s' self param k, Inv s -> detached s s' self param k ->
  kids (st s') self = without param (kids (st s) self) /\ (forall y, y <> self -> kids (st s') y = kids (st s) y).
Proof.
  intros s s' self param k H D. pose proof (inv_st _ H) as W. pose proof (de_linked _ _ _ _ _ D) as L. split.
  - pose proof (ln_kids _ _ _ _ _ L) as E. fold (insert_at k param (kids (st s') self)) in E. rewrite E. symmetry. apply without_split. rewrite <- E. apply wf_nodup; auto.
  - intros y Hy. symmetry. apply (ln_kids' _ _ _ _ _ L); auto.
Qed.
Lemma link_final : forall s self param index, reachable s -> legal_link s self param index ->
  exists s', link self param index s = (s', None) /\ reachable s' /\
    (forall y p j, (y < next (st s))%nat -> is_leaf (st s) y = true -> (has s' y p j <-> has s y p j)) /\
    par (st s') param = Some self /\ (forall y, y <> param -> par (st s') y = par (st s) y) /\
    (let l := without param (kids (st s) self) in kids (st s') self = insert_at (position l index) param l) /\
    (forall y, y <> self -> kids (st s') y = without param (kids (st s) y)).
Proof.
  intros s self param index R L. destruct (reach_legal s R) as [H _]. pose proof (inv_st _ H) as W.
  destruct (link_ok s self param index H L) as (s' & E & H' & Rl). exists s'. split; auto.
  split; [eapply (reach_call tinit tf tfinv legal junk s (Link self param index)); eauto; left; auto|].
  split; [intros; apply (relinked_leaf s s' self param index); auto|].
  assert (Nk : forall q y, par (st s) q = None -> ~ In q (kids (st s) y)) by (intros q y Hq Hi; apply (PzTree.wf_par _ W) in Hi; congruence).
  destruct Rl as [[Hp (k & -> & A)]|(pp & s1 & s2 & k0 & k & Hp & E1 & E2 & E3 & E4 & Ns & H2 & D & -> & A)].
  - pose proof (at_linked _ _ _ _ _ A) as Ln. split; [rewrite (at_parent _ _ _ _ _ A), Nat.eqb_refl; auto|].
    split; [intros y Hy; rewrite (at_parent _ _ _ _ _ A); destruct (Nat.eqb_spec y param); [contradiction | auto]|].
    split; [|intros y Hy; rewrite (ln_kids' _ _ _ _ _ Ln) by auto; symmetry; apply without_same; auto].
    cbv zeta. rewrite without_same by auto. apply (ln_kids _ _ _ _ _ Ln).
  - pose proof (at_linked _ _ _ _ _ A) as Ln. assert (H1 : Inv s1).
    { assert (Es : s1 = with_nt s (nt s1)) by (destruct s, s1; cbn in *; subst; auto). rewrite Es. apply inv_nt_change; auto. apply (nsame_ntinv _ _ _ Ns). apply (inv_nt _ H). }
    destruct (detached_kids s1 s2 pp param k0 H1 D) as [K1 K2]. rewrite E1 in K1, K2.
    assert (K : forall y, kids (st s2) y = without param (kids (st s) y)).
    { intros y. destruct (Nat.eq_dec y pp) as [->|Hne]; auto. rewrite K2 by auto. symmetry. apply without_same. intros Q. apply (PzTree.wf_par _ W) in Q. congruence. }
    split; [rewrite (at_parent _ _ _ _ _ A), Nat.eqb_refl; auto|].
    split; [intros y Hy; rewrite (at_parent _ _ _ _ _ A), (de_parent _ _ _ _ _ D), E1; destruct (Nat.eqb_spec y param); [contradiction | auto]|].
    split; [|intros y Hy; rewrite (ln_kids' _ _ _ _ _ Ln) by auto; apply K].
    cbv zeta. rewrite <- K. apply (ln_kids _ _ _ _ _ Ln).
Qed.
Lemma unlink_final : forall s self param, reachable s -> (self < next (st s))%nat -> In param (kids (st s) self) ->
  (forall r, top (st s) r self -> in_init (st s) r = false) ->
  exists s', unlink self param s = (s', None) /\ reachable s' /\
    (forall y p j, (y < next (st s))%nat -> is_leaf (st s) y = true -> (has s' y p j <-> has s y p j)) /\
    par (st s') param = None /\ (forall y, y <> param -> par (st s') y = par (st s) y) /\
    kids (st s') self = without param (kids (st s) self) /\ (forall y, y <> self -> kids (st s') y = kids (st s) y).
Proof.
  intros s self param R Hs Hk Hr. destruct (reach_legal s R) as [H _]. destruct (In_nth_error _ _ Hk) as [k Ek].
  destruct (unlink_ok s self param k H) as (s' & E & H' & D); [constructor; auto; intros r A1 A2; apply Hr; split; auto|].
  exists s'. split; auto. split; [eapply (reach_call tinit tf tfinv legal junk s (Unlink self param)); eauto; split; auto|].
  split; [intros; apply (detached_leaf s s' self param k); auto|].
  split; [rewrite (de_parent _ _ _ _ _ D), Nat.eqb_refl; auto|].
  split; [intros y Hy; rewrite (de_parent _ _ _ _ _ D); destruct (Nat.eqb_spec y param); [contradiction | auto]|].
  apply (detached_kids s s' self param k); auto.
Qed.
Lemma everywhere_final : forall s x k y j p, reachable s -> (x < next (st s))%nat -> same_elem (st s) y j x k -> (has s y p j <-> has s x p k).
Proof. intros s x k y j p R. apply same_has. apply reach_legal; auto. Qed.
Lemma covered_final : forall s x p k, reachable s -> (x < next (st s))%nat -> has s x p k ->
  0 <= k < size (st s) x /\ exists z i, is_leaf (st s) z = true /\ part (st s) x z /\ same_elem (st s) z i x k.
Proof.
  intros s x p k R Hx Hh. destruct (reach_legal s R) as [H _]. pose proof (has_range s x p k H Hx Hh) as Hr. split; auto.
  apply (cover_elem (st s) x k (inv_st _ H)); auto.
Qed.

(** C30 *)
Notation touched s x sel y j := (exists k, selected (st s) x sel k /\ same_elem (st s) y j x k).
Lemma constrain_final : forall s x sel n, reachable s -> (x < next (st s))%nat -> ready (st s) x -> legal_sel (st s) x sel ->
  exists s', constrain tinit x sel n s = (s', None) /\ st s' = st s /\ forall y q j, (y < next (st s))%nat ->
    (has s' y q j <-> (has s y q j /\ ~ touched s x sel y j) \/ (q = Tr n /\ touched s x sel y j)).
Proof.
  intros s x sel n R Hx Rx Ls. destruct (reach_legal s R) as [H _]. destruct (constrain_ok tinit s x sel n H Hx Rx Ls) as (s' & l & E & _ & _ & _ & Es & _ & _ & Q). eauto.
Qed.
Lemma unconstrain_final : forall s x sel ts, reachable s -> (x < next (st s))%nat -> legal_sel (st s) x sel ->
  exists s', unconstrain x sel ts s = (s', None) /\ st s' = st s /\ mem s' = mem s /\ forall y q j, (y < next (st s))%nat ->
    (has s' y q j <-> has s y q j /\ ~ ((ts = [] \/ In q ts) /\ touched s x sel y j)).
Proof.
  intros s x sel ts R Hx Ls. destruct (reach_legal s R) as [H _]. destruct (unconstrain_ok s x sel ts H Hx Ls) as (s' & E & _ & (Es & Em & _) & Q). eauto 10.
Qed.
Lemma fix_final : forall s x sel, reachable s -> (x < next (st s))%nat -> legal_sel (st s) x sel ->
  exists s', fix_param x sel s = (s', None) /\ st s' = st s /\ mem s' = mem s /\ forall y q j, (y < next (st s))%nat ->
    (has s' y q j <-> has s y q j \/ (q = Fixed /\ touched s x sel y j)).
Proof.
  intros s x sel R Hx Ls. destruct (reach_legal s R) as [H _]. destruct (fix_ok s x sel H Hx Ls) as (s' & l & E & _ & Es & Em & _ & _ & Q). eauto 10.
Qed.
Lemma unfix_final : forall s x sel, reachable s -> (x < next (st s))%nat -> legal_sel (st s) x sel ->
  exists s', unfix_param x sel s = (s', None) /\ st s' = st s /\ mem s' = mem s /\ forall y q j, (y < next (st s))%nat ->
    (has s' y q j <-> has s y q j /\ ~ (q = Fixed /\ touched s x sel y j)).
Proof.
  intros s x sel R Hx Ls. destruct (reach_legal s R) as [H _]. destruct (unfix_ok s x sel H Hx Ls) as (s' & E & _ & (Es & Em & _) & Q). eauto 10.
Qed.

(** C33 *)
Lemma fix_unfix_final : forall s x sel s1, reachable s -> (x < next (st s))%nat -> legal_sel (st s) x sel ->
  (forall k, selected (st s) x sel k -> ~ has s x Fixed k) -> fix_param x sel s = (s1, None) ->
  exists s2, unfix_param x sel s1 = (s2, None) /\ mem s2 = mem s /\ forall y q j, (y < next (st s))%nat -> (has s2 y q j <-> has s y q j).
Proof.
  intros s x sel s1 R Hx Ls Hn E. destruct (fix_final s x sel R Hx Ls) as (s1' & E1 & Es & Em & Q). rewrite E1 in E. injection E as ->.
  assert (R1 : reachable s1) by (eapply (reach_call tinit tf tfinv legal junk s (Fix x sel)); eauto; split; auto).
  destruct (unfix_final s1 x sel R1) as (s2 & E2 & Es2 & Em2 & Q2); try (rewrite Es; auto); auto.
  exists s2. split; auto. split; [congruence|]. intros y q j Hy. rewrite Q2, Q by (rewrite ?Es; auto). rewrite Es. split.
  - intros [[A|[-> A]] B]; auto. exfalso. apply B. auto.
  - intros A. split; auto. intros [-> (k & Sk & Se)]. apply (Hn k Sk). apply (everywhere_final s x k y j Fixed R Hx Se). auto.
Qed.

(** C35 *)
Lemma one_copy_final : forall s x y j k, reachable s -> (x < next (st s))%nat -> (y < next (st s))%nat -> ready (st s) x -> ready (st s) y ->
  same_elem (st s) y j x k -> value s y j = value s x k /\ exists v, value s x k = Some v.
Proof.
  intros s x y j k R Hx Hy Rx Ry Se. destruct (reach_legal s R) as [H _]. split.
  - apply (one_copy (st s) (mem s) x y j k); auto; apply H.
  - apply (value_some s x k H Hx Rx). apply Se.
Qed.
Lemma assign_final : forall s x g, reachable s -> (x < next (st s))%nat -> ready (st s) x ->
  exists s', assign x g s = (s', None) /\ st s' = st s /\ ios s' = ios s /\ changed s s' x g.
Proof. intros s x g R Hx Rx. destruct (reach_legal s R) as [H _]. destruct (assign_ok s x g H Hx Rx) as (s' & l & E & _ & C & _ & Es & Ei & _). eauto. Qed.
Lemma constrain_values_final : forall s x sel n, reachable s -> (x < next (st s))%nat -> ready (st s) x -> legal_sel (st s) x sel ->
  exists s', constrain tinit x sel n s = (s', None) /\ changed s s' x (on_sel sel (tinit n)).
Proof.
  intros s x sel n R Hx Rx Ls. destruct (reach_legal s R) as [H _]. destruct (constrain_ok tinit s x sel n H Hx Rx Ls) as (s' & l & E & _ & C & _). eauto.
Qed.

(** C36 *)
Lemma link_values_final : forall s self param index s', reachable s -> legal_link s self param index -> roomy s self param ->
  (exists n, depth (st s) self n /\ (n <= 1)%nat) -> ready (st s) param ->
  (forall pp, par (st s) param = Some pp -> (exists n, depth (st s) pp n /\ (n <= 2)%nat) /\ forall r, top (st s) r pp -> inited (st s) r = Some true) ->
  link self param index s = (s', None) ->
  forall y j, (y < next (st s))%nat -> is_leaf (st s) y = true -> 0 <= j < size (st s) y -> value s' y j = value s y j.
Proof. intros s self param index s' R. apply link_values. apply reach_legal; auto. Qed.
Lemma unlink_values_final : forall s self param s', reachable s -> (self < next (st s))%nat -> In param (kids (st s) self) ->
  (forall r, top (st s) r self -> in_init (st s) r = false /\ inited (st s) r = Some true) ->
  (exists n, depth (st s) self n /\ (n <= 2)%nat) -> unlink self param s = (s', None) ->
  forall y j, (y < next (st s))%nat -> is_leaf (st s) y = true -> 0 <= j < size (st s) y -> value s' y j = value s y j.
Proof. intros s self param s' R. apply unlink_values. apply reach_legal; auto. Qed.

(** C34 *)
Lemma length_final : forall s x ks, reachable s -> (x < next (st s))%nat -> ready (st s) x -> par (st s) x = None -> free s x ks ->
  exists l s', get_optimizer_array tfinv x s = Ok (l, s') /\ length l = length ks /\ reachable s' /\ read_only s s' x.
Proof.
  intros s x ks R Hx Rx Hp Hks. destruct (reach_legal s R) as [H _]. destruct (get_any_ok tfinv s x H Hx Rx) as (l & s' & E & H' & Ro).
  exists l, s'. split; auto. split.
  2:{ split; auto. eapply (reach_call tinit tf tfinv legal junk s (ReadOptimizer x)); [auto | split; auto | cbn [exec]; rewrite E; eauto]. }
  pose proof (top_mask s x ks H Hx Rx Hp Hks) as Tm. revert E. unfold get_optimizer_array. destruct (param_array (st s) (mem s) x) as [m1 a] eqn:Ep.
  destruct (store_ok s x H Hx Rx) as (m1' & a' & Ep' & Hlen & _). rewrite Ep in Ep'. injection Ep' as <- <-. pose proof (size_nonneg _ (inv_st _ H) x) as Hn.
  set (new := if fresh (nt s) x then _ else _).
  assert (Ln : Z.of_nat (length new) = size (st s) x).
  { unfold new. destruct (fresh (nt s) x); [|rewrite put_all_len; auto]. destruct (copied (nt s) x) as [c|].
    - destruct (Z.eqb_spec (Z.of_nat (length c)) (size (st s) x)); auto. rewrite read_len; auto.
    - rewrite read_len; auto. }
  destruct (nonempty (cons_get (ios s) x Fixed)).
  - destruct Tm as (mk & Em & Lm & Ek & _). unfold ensure_fixes. rewrite Em, Lm, Z.eqb_refl. intros E. injection E as <- _. rewrite Ek. apply select_length. rewrite arange_len. lia.
  - destruct Tm as [Ek _]. intros E. injection E as <- _. rewrite Ek, arange_len. lia.
Qed.
Lemma get_final : forall s x ks, reachable s -> (x < next (st s))%nat -> ready (st s) x -> par (st s) x = None \/ (forall j, ~ has s x Fixed j) -> free s x ks ->
  fresh (nt s) x = false ->
  exists l s', get_optimizer_array tfinv x s = Ok (l, s') /\ get_spec tfinv s x ks l.
Proof.
  intros s x ks R Hx Rx Hm Hks Hf. destruct (reach_legal s R) as [H O]. destruct (get_opt_ok tfinv s x ks H Hx Rx (O x Hx) Hks Hf) as (l & s' & E & G & _).
  - destruct Hm as [Hp|Hn]; [left; left; auto | right; auto].
  - eauto.
Qed.

(** C37, C38 *)
Lemma set_final : forall s x p ks, reachable s -> (x < next (st s))%nat -> ready (st s) x -> free s x ks ->
  exists s' F, set_optimizer_array tf x p s = (s', None) /\ reachable s' /\ st s' = st s /\ ios s' = ios s /\ changed s s' x F /\ set_effect tf s x ks p F.
Proof.
  intros s x p ks R Hx Rx Hks. destruct (reach_legal s R) as [H O]. destruct (set_opt_ok tf s x p ks H Hx Rx (O x Hx) Hks) as (s' & l & F & E & H' & C & Se & _ & Es & Ei & _).
  exists s', F. split; auto. split; auto. eapply (reach_call tinit tf tfinv legal junk s (SetOptimizer x p)); eauto. split; auto.
Qed.
Lemma set_exact_final : forall s x p ks, reachable s -> (x < next (st s))%nat -> ready (st s) x -> free s x ks -> length p = length ks ->
  exists s', set_optimizer_array tf x p s = (s', None) /\
    (forall k, has s x Fixed k -> value s' x k = value s x k) /\
    (forall i k v, nth_error ks i = Some k -> nth_error p i = Some v ->
       (forall n, has s x (Tr n) k -> value s' x k = Some (tf n v)) /\ ((forall n, ~ has s x (Tr n) k) -> value s' x k = Some v)) /\
    (apart s -> forall y j, (y < next (st s))%nat -> ready (st s) y -> 0 <= j < size (st s) y -> (forall k, ~ same_elem (st s) y j x k) -> value s' y j = value s y j).
Proof.
  intros s x p ks R Hx Rx Hks Lp. destruct (reach_legal s R) as [H O]. destruct (set_final s x p ks R Hx Rx Hks) as (s' & F & E & R' & Es & Ei & [C1 C2] & [S1 S2]).
  exists s'. split; auto. split; [|split; auto].
  - intros k Hk. pose proof (has_range s x _ k H Hx Hk) as Hr. rewrite (C1 x k k Hx Rx (self_same _ _ _ Hr)). destruct (value s x k); cbn [option_map]; auto. rewrite S1; auto.
  - intros i k v Hi Hv. destruct (free_in s x ks i k Hks Hi) as [Hr _]. destruct (value_some s x k H Hx Rx Hr) as [w Hw].
    rewrite (C1 x k k Hx Rx (self_same _ _ _ Hr)), Hw. cbn [option_map]. destruct (S2 i k w Hi) as [Q1 Q2]. rewrite (cyc_in V p i v w Hv) in *. split; intros; f_equal; auto.
Qed.
Lemma set_get_final : forall s x p ks, reachable s -> (x < next (st s))%nat -> ready (st s) x -> par (st s) x = None \/ (forall j, ~ has s x Fixed j) -> free s x ks ->
  length p = length ks -> (forall i k n v, nth_error ks i = Some k -> has s x (Tr n) k -> nth_error p i = Some v -> tfinv n (tf n v) = v) ->
  exists s1 s2, set_optimizer_array tf x p s = (s1, None) /\ get_optimizer_array tfinv x s1 = Ok (p, s2).
Proof.
  intros s x p ks R Hx Rx Hm Hks Lp Ht. destruct (reach_legal s R) as [H O]. apply (set_get tf tfinv s x p ks); auto.
  destruct Hm as [Hp|Hn]; [left; left; auto | right; auto].
Qed.
Lemma get_set_final : forall s x ks, reachable s -> (x < next (st s))%nat -> ready (st s) x -> par (st s) x = None \/ (forall j, ~ has s x Fixed j) -> free s x ks -> fresh (nt s) x = false ->
  (forall k n v, has s x (Tr n) k -> ~ has s x Fixed k -> value s x k = Some v -> tf n (tfinv n v) = v) ->
  exists p s1 s2, get_optimizer_array tfinv x s = Ok (p, s1) /\ length p = length ks /\ set_optimizer_array tf x p s1 = (s2, None) /\
    (forall y j k, (y < next (st s))%nat -> ready (st s) y -> same_elem (st s) y j x k -> value s2 y j = value s y j) /\
    (apart s -> forall y j, (y < next (st s))%nat -> ready (st s) y -> 0 <= j < size (st s) y -> value s2 y j = value s y j).
Proof.
  intros s x ks R Hx Rx Hm Hks Hf Ht. destruct (reach_legal s R) as [H O]. apply (get_set tf tfinv s x ks); auto.
  destruct Hm as [Hp|Hn]; [left; left; auto | right; auto].
Qed.

(** C39 *)
Lemma fresh_assign_final : forall s y g s1 x ks, reachable s -> (y < next (st s))%nat -> ready (st s) y -> in_init (st s) y = false -> awake s y ->
  assign y g s = (s1, None) -> kind (st s) x = KNode -> part (st s) x y -> (x < next (st s))%nat -> ready (st s) x -> par (st s) x = None \/ (forall j, ~ has s x Fixed j) ->
  free s1 x ks -> exists l s2, get_optimizer_array tfinv x s1 = Ok (l, s2) /\ get_spec tfinv s1 x ks l.
Proof.
  intros s y g s1 x ks R Hy Ry Hin Aw E Hk Hp Hx Rx Hm Hks. destruct (reach_legal s R) as [H O].
  destruct (assign_final s y g R Hy Ry) as (s1' & E' & Es & Ei & _). rewrite E' in E. injection E as ->.
  assert (R1 : reachable s1) by (eapply (reach_call tinit tf tfinv legal junk s (Assign y g)); eauto; split; auto).
  apply get_final; rewrite ?Es; auto.
  - destruct Hm as [Hm|Hm]; auto. right. intros j Hj. apply (Hm j). apply (has_ext s s1); auto.
  - apply (assign_fresh s y g s1 x); auto.
Qed.
Lemma fresh_constrain_final : forall s y sel n s1 x ks, reachable s -> (y < next (st s))%nat -> ready (st s) y -> legal_sel (st s) y sel -> in_init (st s) y = false -> awake s y ->
  constrain tinit y sel n s = (s1, None) -> kind (st s) x = KNode -> part (st s) x y -> (x < next (st s))%nat -> ready (st s) x -> par (st s) x = None \/ (forall j, ~ has s1 x Fixed j) ->
  free s1 x ks -> exists l s2, get_optimizer_array tfinv x s1 = Ok (l, s2) /\ get_spec tfinv s1 x ks l.
Proof.
  intros s y sel n s1 x ks R Hy Ry Ls Hin Aw E Hk Hp Hx Rx Hm Hks. destruct (reach_legal s R) as [H O].
  destruct (constrain_final s y sel n R Hy Ry Ls) as (s1' & E' & Es & _). rewrite E' in E. injection E as ->.
  assert (R1 : reachable s1) by (eapply (reach_call tinit tf tfinv legal junk s (Constrain y sel n)); eauto; repeat split; auto).
  apply get_final; rewrite ?Es; auto. apply (constrain_fresh tinit s y sel n s1 x); auto.
Qed.

(** C40, C41 *)
Lemma grad_final : forall tgrad s x ks g, reachable s -> (x < next (st s))%nat -> ready (st s) x -> par (st s) x = None -> free s x ks ->
  Z.of_nat (length g) = size (st s) x -> exists l, transform_gradients tgrad x s g = Ok l /\ grad_spec tgrad s x ks g l.
Proof. intros tgrad s x ks g R Hx Rx Hp Hks Lg. destruct (reach_legal s R) as [H O]. apply (grad_ok tgrad s x ks g); auto. Qed.
Lemma kept_filter : forall (p : Z -> bool) (P : Z -> Prop) l, (forall k, In k l -> (p k = true <-> P k)) -> kept_of P l (filter p l).
Proof.
  induction l as [|a l IH]; intros H; cbn [filter]; [constructor|]. assert (IH' : kept_of P l (filter p l)) by (apply IH; intros k Hk; apply H; right; auto).
  destruct (p a) eqn:E; [apply kept_yes | apply kept_no]; auto; [apply H; [left; auto | auto] | intros Q; apply H in Q; [congruence | left; auto]].
Qed.
Lemma index_final : forall s r x o n sel ks, reachable s -> (r < next (st s))%nat -> ready (st s) r -> par (st s) r = None -> below (st s) r x o n ->
  legal_sel (st s) x sel -> free s r ks ->
  exists l fs, index_for_transformed s r x sel = Ok l /\
    kept_of (fun k => ~ has s r Fixed k) (map (fun k => k + o) (match sel with Some l => l | None => arange (size (st s) x) end)) fs /\
    Forall2 (fun i k => 0 <= i /\ nth_error ks (Z.to_nat i) = Some k) l fs.
Proof.
  intros s r x o n sel ks R Hr Rr Hp B Ls Hks. destruct (reach_legal s R) as [H O].
  destruct (index_ok s r x o n sel ks H Hr Rr Hp B) as (l & fs & p & E & Ef & Hpp & Fa); auto.
  { intros k Hk. eapply selected_range; eauto. }
  exists l, fs. split; auto. split; auto. rewrite Ef. replace (match sel with Some l => l | None => arange (size (st s) x) end) with (raveled_index (st s) x sel) by (destruct sel; reflexivity).
  apply kept_filter. intros k Hk. apply in_map_iff in Hk as (j & <- & Hj). apply Hpp. apply raveled_In in Hj.
  pose proof (selected_range _ _ _ _ Ls Hj). destruct (below_range _ _ _ _ _ (inv_st _ H) B). lia.
Qed.

(** C42, C43, C44 *)
Lemma assign_order_final : forall s x g, reachable s -> (x < next (st s))%nat -> is_leaf (st s) x = true -> awake s x ->
  exists s' l, assign x g s = (s', None) /\ bottom_up s s' l /\ forall y, In y l <-> kind (st s) y = KNode /\ part (st s) y x.
Proof.
  intros s x g R Hx Hl Aw. destruct (reach_legal s R) as [H O].
  destruct (assign_ok s x g H Hx (or_introl Hl)) as (s' & l & E & _ & _ & _ & Es & _ & _ & Rn & Q). rewrite Hl in Q. destruct Q as (u & Hu & ->).
  destruct (chain_order s (nt s) x u H Hu Aw) as (Nd & Hc & Ho). exists s', (chain (st s) (nt s) u). split; auto. split; [|auto]. split; [apply Rn | split; auto].
Qed.
Lemma trigger_order_final : forall s x, reachable s -> (x < next (st s))%nat -> in_init (st s) x = false -> (forall y, together (st s) x y -> updates (nt s) y = true) ->
  exists s' l, c_trigger x true s = (s', None) /\ st s' = st s /\ ios s' = ios s /\ mem s' = mem s /\ bottom_up s s' l /\
    forall y, In y l <-> kind (st s) y = KNode /\ (woken s x y \/ part (st s) y x).
Proof.
  intros s x R Hx Hin Hon. destruct (reach_legal s R) as [H O]. destruct (trigger_full s x H Hx) as (s' & l & E & (E1 & E2 & E3 & E4 & Rn) & T).
  destruct (triggered_order s (nt s) x l H Hx T Hin Hon) as (Nd & Hc & Ho). exists s', l. repeat (split; auto); try apply Rn; try apply Hc; auto.
Qed.
Lemma together_top : forall s x y r, Inv s -> top (st s) r x -> together (st s) x y -> part (st s) r y.
Proof.
  intros s x y r H [Hr Hp] (q & Q1 & Q2). pose proof (inv_st _ H) as W. destruct (root_out s q H) as (r' & o & n & B & Hp').
  assert (Aq : part (st s) r' q) by (exists o, n; auto).
  assert (r' = r) as <-; [|eapply above_trans; eauto]. apply (roots_eq (st s) r r' x); auto. eapply above_trans; eauto.
Qed.
Lemma together_sym : forall t x y, together t x y -> together t y x.
Proof. intros t x y (r & A & B). exists r. auto. Qed.
Lemma together_trans : forall s x y z, Inv s -> together (st s) x y -> together (st s) y z -> together (st s) x z.
Proof.
  intros s x y z H A B. destruct (root_out s x H) as (r & o & n & Bl & Hp). assert (T : top (st s) r x) by (split; auto; exists o, n; auto).
  pose proof (together_top s x y r H T A) as Hy. assert (T' : top (st s) r y) by (split; auto). pose proof (together_top s y z r H T' B) as Hz. exists r. split; [apply T | auto].
Qed.

Lemma chain_off : forall t (n : @ntst V) x u, up t x u -> updates n x = false -> chain t n u = [].
Proof. intros t n x u Hu Hf. unfold chain. destruct Hu; cbn [takewhile]; rewrite Hf; auto. Qed.
Lemma ran_nil_trace : forall n n', @ran V n [] n' -> trace n' = trace n /\ updates n' = updates n.
Proof. intros n n' (Q & T & _). split; auto. apply Q. Qed.

Lemma quiet_step : forall s x c s' e, reachable s -> silent s x -> legal s c -> quiet_call (st s) x c -> exec tinit tf tfinv c s = (s', e) ->
  st s' = st s /\ trace (nt s') = trace (nt s) /\ silent s' x.
Proof.
  intros s x c s' e R Si L Q E. destruct (reach_legal s R) as [H O]. 
  assert (K : forall s2, st s2 = st s -> trace (nt s2) = trace (nt s) -> (forall y, together (st s) x y -> updates (nt s2) y = updates (nt s) y) -> st s2 = st s /\ trace (nt s2) = trace (nt s) /\ silent s2 x).
  { intros s2 A1 A2 A3. split; auto. split; auto. intros y Hy. rewrite A1 in Hy. rewrite A3; auto. }
  destruct c; cbn [exec legal quiet_call] in *; try contradiction.
  - destruct L as (Hx & Ls & Rx). destruct (constrain_ok tinit s x0 sel n H Hx Rx Ls) as (s2 & l & E2 & _ & _ & _ & Es & Rn & (u & l5 & Hu & T & El) & _).
    rewrite E2 in E. injection E as <- <-. rewrite (chain_off _ _ _ _ Hu) in El by auto. apply triggered_off in T; auto. subst l5.
    assert (l = []) as -> by (rewrite El; destruct (is_leaf (st s) x0); auto). destruct (ran_nil_trace _ _ Rn) as [T1 T2]. apply K; auto. intros; rewrite T2; auto.
  - destruct L as (Hx & Ls). destruct (unconstrain_ok s x0 sel ts H Hx Ls) as (s2 & E2 & _ & (Es & Em & En) & _). rewrite E2 in E. injection E as <- <-. apply K; auto; rewrite En; auto.
  - destruct L as (Hx & Ls). destruct (fix_ok s x0 sel H Hx Ls) as (s2 & u & E2 & _ & Es & _ & Hu & Rn & _). rewrite E2 in E. injection E as <- <-.
    rewrite (chain_off _ _ _ _ Hu) in Rn by auto. destruct (ran_nil_trace _ _ Rn) as [T1 T2]. apply K; auto. intros; rewrite T2; auto.
  - destruct L as (Hx & Ls). destruct (unfix_ok s x0 sel H Hx Ls) as (s2 & E2 & _ & (Es & Em & En) & _). rewrite E2 in E. injection E as <- <-. apply K; auto; rewrite En; auto.
  - destruct L as (Hx & Rx). destruct (assign_ok s x0 g H Hx Rx) as (s2 & l & E2 & _ & _ & _ & Es & _ & _ & Rn & T). rewrite E2 in E. injection E as <- <-.
    assert (l = []) as ->. { destruct (is_leaf (st s) x0); [destruct T as (u & Hu & ->); apply (chain_off _ _ x0); auto | apply triggered_off in T; auto]. }
    destruct (ran_nil_trace _ _ Rn) as [T1 T2]. apply K; auto. intros; rewrite T2; auto.
  - destruct L as (Hx & Rx). destruct (free_exists s x0 H Hx) as [ks Hks]. destruct (set_opt_ok tf s x0 p ks H Hx Rx (O x0 Hx) Hks) as (s2 & l & F & E2 & _ & _ & _ & _ & Es & _ & _ & Rn & T).
    rewrite E2 in E. injection E as <- <-. apply triggered_off in T; auto. subst l. destruct (ran_nil_trace _ _ Rn) as [T1 T2]. apply K; auto. intros; rewrite T2; auto.
  - destruct L as (Hx & Rx). destruct (get_any_ok tfinv s x0 H Hx Rx) as (l & s2 & E2 & _ & (Es & _ & _ & _ & _ & Eu & _ & Et & _)). rewrite E2 in E. injection E as <- <-. apply K; auto. intros; rewrite Eu; auto.
  - destruct on; [contradiction|]. destruct (update_model_ok s x0 false H L) as (s2 & l & r & E2 & _ & Ar & Hr & Es & _ & _ & _ & U & Hl & _ & n1 & l' & U1 & Nr & Rn & T).
    rewrite E2 in E. injection E as <- <-. assert (Q' : forall y, together (st s) x y -> updates (nt s2) y = false) by (intros y Hy; rewrite U; destruct (omem y l); auto).
    apply triggered_off in T; auto. subst l'. destruct (ran_nil_trace _ _ Rn) as [T1 _]. apply K; auto.
    + rewrite T1. apply Nr.
    + intros y Hy. rewrite Q', Si; auto.
  - destruct (trigger_full s x0 H L) as (s2 & l & E2 & (Es & _ & _ & _ & Rn) & T). rewrite E2 in E. injection E as <- <-. apply triggered_off in T; auto. subst l.
    destruct (ran_nil_trace _ _ Rn) as [T1 T2]. apply K; auto. intros; rewrite T2; auto.
  - destruct L as (Hx & Rx). destruct (free_exists s x0 H Hx) as [ks Hks]. destruct (randomize_ok tf s x0 draw ks H Hx Rx (O x0 Hx) Hks) as (s2 & l & F & E2 & _ & _ & _ & _ & Es & _ & _ & U1 & U2 & Tr & T & _).
    rewrite E2 in E. injection E as <- <-. assert (Q' : forall y, together (st s) x y -> updates (nt s2) y = updates (nt s) y).
    { intros y Hy. rewrite U1; [rewrite !Si; auto|]. apply (together_trans s x0 x y H); auto. apply together_sym; auto. }
    apply triggered_off in T; [|rewrite Q'; auto]. subst l. apply K; auto.
Qed.
Lemma quiet_hist : forall s s2 x, reachable s -> silent s x -> hist tinit tf tfinv (fun s c => legal s c /\ quiet_call (st s) x c) s s2 ->
  reachable s2 /\ st s2 = st s /\ trace (nt s2) = trace (nt s) /\ silent s2 x.
Proof.
  intros s s2 x R Si Hh. induction Hh as [s|s c s1 e s2 [L Q] E Hh IH]; auto.
  destruct (quiet_step s x c s1 e R Si L Q E) as (A1 & A2 & A3). assert (R1 : reachable s1) by (eapply reach_call; eauto).
  destruct (IH R1 A3) as (B0 & B1 & B2 & B3). repeat split; auto; congruence.
Qed.
Lemma off_final : forall s x, reachable s -> (x < next (st s))%nat ->
  exists s1, update_model x false s = (s1, None) /\ reachable s1 /\ st s1 = st s /\ mem s1 = mem s /\ ios s1 = ios s /\ trace (nt s1) = trace (nt s) /\ silent s1 x /\
    (forall y, ~ together (st s) x y -> updates (nt s1) y = updates (nt s) y) /\
    forall s2, hist tinit tf tfinv (fun s c => legal s c /\ quiet_call (st s) x c) s1 s2 -> trace (nt s2) = trace (nt s) /\ silent s2 x.
Proof.
  intros s x R Hx. destruct (reach_legal s R) as [H O].
  destruct (update_model_ok s x false H Hx) as (s1 & l & r & E & H1 & Ar & Hr & Es & Ei & _ & Em & U & Hl & _ & n1 & l' & U1 & Nr & Rn & T).
  assert (R1 : reachable s1) by (eapply (reach_call tinit tf tfinv legal junk s (Updates x false)); eauto).
  assert (Si : silent s1 x).
  { intros y Hy. rewrite Es in Hy. rewrite U. rewrite (proj2 (omem_In _ _)); auto. apply Hl. apply (together_top s x y r H); auto. split; auto. }
  assert (Tr : trace (nt s1) = trace (nt s)).
  { apply triggered_off in T; [|apply Si; rewrite Es; apply part_together; apply above_refl]. subst l'. destruct (ran_nil_trace _ _ Rn) as [-> _]. apply Nr. }
  exists s1. repeat (split; auto).
  - intros y Hy. rewrite U. destruct (omem y l) eqn:Q; auto. apply omem_In, Hl in Q. exfalso. apply Hy. exists r. auto.
  - destruct (quiet_hist s1 s2 x R1 Si H0) as (_ & _ & Q & _). congruence.
  - destruct (quiet_hist s1 s2 x R1 Si H0) as (_ & _ & _ & Q). exact Q.
Qed.
Lemma on_final : forall s x, reachable s -> (x < next (st s))%nat -> in_init (st s) x = false ->
  exists s1 l, update_model x true s = (s1, None) /\ st s1 = st s /\ mem s1 = mem s /\ ios s1 = ios s /\
    (forall y, together (st s) x y -> updates (nt s1) y = true) /\ (forall y, ~ together (st s) x y -> updates (nt s1) y = updates (nt s) y) /\
    bottom_up s s1 l /\ forall y, In y l <-> kind (st s) y = KNode /\ (woken s x y \/ part (st s) y x).
Proof.
  intros s x R Hx Hin. destruct (reach_legal s R) as [H O].
  destruct (update_model_ok s x true H Hx) as (s1 & l & r & E & H1 & Ar & Hr & Es & Ei & _ & Em & U & Hl & _ & n1 & l' & U1 & Nr & Rn & T).
  assert (On : forall y, together (st s) x y -> updates (nt s1) y = true).
  { intros y Hy. rewrite U. rewrite (proj2 (omem_In _ _)); auto. apply Hl. apply (together_top s x y r H); auto. split; auto. }
  destruct (triggered_order s (nt s1) x l' H Hx T Hin On) as (Nd & Hc & Ho).
  exists s1, l'. repeat (split; auto); try apply Hc; auto.
  - intros y Hy. rewrite U. destruct (omem y l) eqn:Q; auto. apply omem_In, Hl in Q. exfalso. apply Hy. exists r. auto.
  - destruct Rn as (_ & -> & _). f_equal. apply Nr.
Qed.

(** C45 *)
Lemma rep_preorder : forall t tr, krep t tr -> preorder t (root tr) (oids tr).
Proof.
  intros t tr. induction tr as [x ts IH] using tree_ind'. intros R. inversion R as [x' ts' Ek Hts]; subst. cbn [oids root]. constructor.
  revert Ek. generalize (kids t x). clear R. induction ts as [|c ts IHt]; intros ks Ek; cbn [map concat] in *.
  - subst ks. constructor.
  - inversion IH; subst. inversion Hts; subst. apply pre_cons; auto.
Qed.
Lemma krep_fun : forall t a b, krep t a -> krep t b -> root a = root b -> a = b.
Proof.
  intros t a. induction a as [x ts IH] using tree_ind'. intros [y us] Ra Rb E. cbn in E. subst y. f_equal.
  inversion Ra as [x1 ts1 Ea Ha]; subst. inversion Rb as [x2 ts2 Eb Hb]; subst. rewrite Ea in Eb. clear Ea Ra Rb.
  revert us Eb Hb. induction ts as [|c ts IHt]; intros [|d us] Eb Hb; try discriminate; auto. cbn in Eb. injection Eb as E1 E2.
  inversion IH; subst. inversion Ha; subst. inversion Hb; subst. f_equal; auto.
Qed.
Lemma traverse_final : forall s x, reachable s ->
  exists n' l, traverse (fuel (st s)) (st s) (fun _ => false) x (nt s, []) = (n', rev l, None) /\
    preorder (st s) x l /\ NoDup l /\ (forall y, In y l <-> part (st s) x y) /\
    (passes n' = passes (nt s) /\ updates n' = updates (nt s) /\ copied n' = copied (nt s) /\ fresh n' = fresh (nt s) /\ trace n' = trace (nt s)) /\
    exists n'', traverse (fuel (st s)) (st s) (fun _ => false) x (n', []) = (n'', rev l, None).
Proof.
  intros s x R. destruct (reach_legal s R) as [H O]. pose proof (inv_st _ H) as W. destruct (inv_nt _ H) as [N1 N2].
  destruct (traverse_wf (st s) (fun _ => false) x (nt s) [] W N2) as (tr & E1 & E2 & E3 & E4 & n1 & seen & e & Et & Nr & T1 & _).
  destruct T1 as (-> & -> & Ns); [auto|]. rewrite app_nil_r in Et.
  exists n1, (oids tr). split; auto. split; [rewrite <- E1; apply rep_preorder, rep_krep; auto|]. split; auto. split; auto. split; [apply Nr|].
  destruct (traverse_wf (st s) (fun _ => false) x n1 [] W) as (tr' & F1 & F2 & F3 & F4 & n2 & seen' & e' & Et' & _ & T1' & _).
  { intros y. rewrite (proj2 Ns). apply N2. }
  destruct T1' as (-> & -> & _); [auto|]. rewrite app_nil_r in Et'. exists n2. rewrite Et'.
  assert (tr' = tr) as ->; auto. apply (krep_fun (st s)); try (apply rep_krep; auto). congruence.
Qed.

(** C60 *)
Lemma randomize_final : forall s x draw ks, reachable s -> (x < next (st s))%nat -> ready (st s) x -> free s x ks ->
  exists s', randomize tf x draw s = (s', None) /\ st s' = st s /\ ios s' = ios s /\
    (forall k, has s x Fixed k -> value s' x k = value s x k) /\
    (forall i k, nth_error ks i = Some k -> (forall n, has s x (Tr n) k -> value s' x k = Some (tf n (draw i))) /\ ((forall n, ~ has s x (Tr n) k) -> value s' x k = Some (draw i))) /\
    (apart s -> forall y j, (y < next (st s))%nat -> ready (st s) y -> 0 <= j < size (st s) y -> (forall k, ~ same_elem (st s) y j x k) -> value s' y j = value s y j) /\
    (forall y, together (st s) x y -> updates (nt s') y = updates (nt s) x) /\ (forall y, ~ together (st s) x y -> updates (nt s') y = updates (nt s) y) /\
    (updates (nt s) x = false -> trace (nt s') = trace (nt s)) /\
    (updates (nt s) x = true -> in_init (st s) x = false -> exists l, bottom_up s s' l /\ forall y, In y l <-> kind (st s) y = KNode /\ (woken s x y \/ part (st s) y x)).
Proof.
  intros s x draw ks R Hx Rx Hks. destruct (reach_legal s R) as [H O].
  destruct (randomize_ok tf s x draw ks H Hx Rx (O x Hx) Hks) as (s' & l & F & E & H' & [C1 C2] & [S1 S2] & _ & Es & Ei & _ & U1 & U2 & Tr & T & _).
  assert (Ux : updates (nt s') x = updates (nt s) x) by (apply U1; apply part_together; apply above_refl).
  exists s'. repeat (split; auto).
  - intros k Hk. pose proof (has_range s x _ k H Hx Hk) as Hr. rewrite (C1 x k k Hx Rx (self_same _ _ _ Hr)). destruct (value s x k); cbn [option_map]; auto. rewrite S1; auto.
  - intros n Hn. destruct (free_in s x ks i k Hks H0) as [Hr _]. destruct (value_some s x k H Hx Rx Hr) as [w Hw]. rewrite (C1 x k k Hx Rx (self_same _ _ _ Hr)), Hw. cbn [option_map].
    destruct (S2 i k w H0) as [Q1 _]. rewrite (Q1 n Hn), (cyc_in V _ i (draw i) w); auto.
    assert (i < length ks)%nat by (apply nth_error_Some; congruence). rewrite nth_error_map, (nth_error_nth' _ 0%nat), seq_nth by (rewrite ?seq_length; auto). auto.
  - intros Hn. destruct (free_in s x ks i k Hks H0) as [Hr _]. destruct (value_some s x k H Hx Rx Hr) as [w Hw]. rewrite (C1 x k k Hx Rx (self_same _ _ _ Hr)), Hw. cbn [option_map].
    destruct (S2 i k w H0) as [_ Q1]. rewrite (Q1 Hn), (cyc_in V _ i (draw i) w); auto.
    assert (i < length ks)%nat by (apply nth_error_Some; congruence). rewrite nth_error_map, (nth_error_nth' _ 0%nat), seq_nth by (rewrite ?seq_length; auto). auto.
  - intros Hu. apply triggered_off in T; [|congruence]. rewrite Tr, T. auto.
  - intros Hu Hin. destruct (triggered_order s (nt s') x l H Hx T Hin) as (Nd & Hc & Ho); [intros y Hy; rewrite U1; auto|].
    exists l. split; [|auto]. split; auto.
Qed.

(** C31, C32, C34, C35 *)
Lemma refused_final : forall s self param index, reachable s ->
  (In param (kids (st s) self) -> link self param None s = (s, Some HierarchyError)) /\
  (~ In param (kids (st s) self) -> unlink self param s = (s, Some HierarchyError)) /\
  (together (st s) self param -> ~ part (st s) param self -> ~ In param (kids (st s) self) ->
    exists s', link self param index s = (s', Some HierarchyError) /\ st s' = st s /\ ios s' = ios s /\ mem s' = mem s /\
      updates (nt s') = updates (nt s) /\ trace (nt s') = trace (nt s)).
Proof.
  intros s self param index R. destruct (reach_legal s R) as [H _]. pose proof (inv_st _ H) as W.
  split; [apply link_refused_kid|]. split; [apply unlink_refused|]. intros (q & Q1 & Q2) Hn Hk.
  destruct (root_out s q H) as (r & o & n & B & Hp). assert (A : part (st s) r q) by (exists o, n; auto).
  destruct (link_refused_loop s self param index r H Hp) as (n' & E & Nr); auto; try (eapply above_trans; eauto).
  exists (with_nt s n'). split; auto. repeat (split; auto); apply Nr.
Qed.
Lemma one_transformation_final : forall s x k n m, reachable s -> (x < next (st s))%nat -> has s x (Tr n) k -> has s x (Tr m) k -> n = m.
Proof. intros s x k n m R Hx. destruct (reach_legal s R) as [_ O]. apply (O x Hx). Qed.
Lemma length_only_final : forall s x ks, reachable s -> (x < next (st s))%nat -> ready (st s) x -> par (st s) x = None -> free s x ks ->
  exists l s', get_optimizer_array tfinv x s = Ok (l, s') /\ length l = length ks /\ st s' = st s /\ ios s' = ios s /\
    forall y j, (y < next (st s))%nat -> ready (st s) y -> 0 <= j < size (st s) y -> value s' y j = value s y j.
Proof.
  intros s x ks R Hx Rx Hp Hk. destruct (length_final s x ks R Hx Rx Hp Hk) as (l & s' & E & L & _ & Ro). exists l, s'. split; auto. split; auto.
  destruct Ro as (E1 & E2 & _ & E3 & _). auto.
Qed.
Lemma apart_final : forall s, reach tinit tf tfinv careful junk s -> apart s.
Proof. intros s. apply (reach_apart tinit tf tfinv careful junk s). auto. Qed.
End Final.
