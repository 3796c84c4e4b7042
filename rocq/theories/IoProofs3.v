(** Index operations beside the constraints: all programs. *)
From Coq Require Import List Bool Arith Lia.
From Verif Require Import IoModel IoSpec IoProofs IoProofs2.
Import ListNotations.

Lemma inv_ext : forall s t, nl t = nl s -> nn t = nn s -> leaf t = leaf s -> node t = node s -> Inv s -> Inv t.
Proof.
  intros s t A B C D V.
  assert (O : forall l x, offset t l x = offset s l x) by (intros; apply offset_ext; intros; rewrite C; reflexivity).
  assert (T : forall l, total t l = total s l) by (intros; apply total_ext; intros; rewrite C; reflexivity).
  constructor.
  - intros m. rewrite D. apply (i_dup s V).
  - intros m x. rewrite C, D. apply (i_par s V).
  - intros x H. rewrite A in H. rewrite C. apply (i_new s V). exact H.
  - intros x H. rewrite B in H. rewrite D. apply (i_newn s V). exact H.
  - intros x m H. rewrite C in *. rewrite D. rewrite O. exact (i_view s V x m H).
  - intros x H. rewrite C in *. exact (i_own s V x H).
  - intros m k i p H. rewrite D in *. rewrite T. exact (i_in s V m k i p H).
Qed.
Lemma inv_leaf : forall s x a, Inv s -> lpar (leaf s x) = None -> lpar a = None -> lsize a = lsize (leaf s x) ->
  (forall k c, In (k, c) (lops a) -> exists f, c = Own f /\ forall i p, f i p = true -> i < lsize a) -> Inv (set_leaf s x a).
Proof.
  intros s x a V P PA Z W.
  assert (E : forall y, y <> x -> leaf (set_leaf s x a) y = leaf s y) by (intros; cbn; apply upd_neq; assumption).
  assert (X : leaf (set_leaf s x a) x = a) by (cbn; apply upd_eq).
  assert (SZ : forall y, lsize (leaf (set_leaf s x a) y) = lsize (leaf s y)) by (intros y; destruct (Nat.eq_dec y x) as [N|N]; [subst y; rewrite X; exact Z | rewrite E by exact N; reflexivity]).
  assert (PP : forall y, lpar (leaf (set_leaf s x a) y) = lpar (leaf s y)) by (intros y; destruct (Nat.eq_dec y x) as [N|N]; [subst y; rewrite X; congruence | rewrite E by exact N; reflexivity]).
  constructor.
  - intros m. apply (i_dup s V).
  - intros m y. rewrite PP. apply (i_par s V).
  - intros y H. rewrite PP. apply (i_new s V). exact H.
  - intros y H. apply (i_newn s V). exact H.
  - intros y m H. rewrite PP in H. assert (N : y <> x) by congruence. rewrite E by exact N. rewrite (offset_ext s) by exact SZ. exact (i_view s V y m H).
  - intros y H. rewrite PP in H. destruct (Nat.eq_dec y x) as [N|N]; [subst y; rewrite X; exact W | rewrite E by exact N; exact (i_own s V y H)].
  - intros m k i p H. rewrite (total_ext s) by exact SZ. exact (i_in s V m k i p H).
Qed.
Lemma inv_node : forall s m F, Inv s -> (ch (node s m) = [] \/ forall k, haskey k F = haskey k (nops (node s m))) ->
  (forall k i p, getd k F i p = true -> i < total s (ch (node s m))) -> Inv (set_node s m (mkN (ch (node s m)) F)).
Proof.
  intros s m F V K W. set (t := set_node s m (mkN (ch (node s m)) F)).
  assert (E : forall n, n <> m -> node t n = node s n) by (intros; cbn; apply upd_neq; assumption).
  assert (X : node t m = mkN (ch (node s m)) F) by (cbn; apply upd_eq).
  assert (CH : forall n, ch (node t n) = ch (node s n)) by (intros n; destruct (Nat.eq_dec n m) as [N|N]; [subst n; rewrite X; reflexivity | rewrite E by exact N; reflexivity]).
  assert (O : forall l x, offset t l x = offset s l x) by (intros; apply offset_ext; reflexivity).
  assert (T : forall l, total t l = total s l) by (intros; apply total_ext; reflexivity).
  constructor.
  - intros n. rewrite CH. apply (i_dup s V).
  - intros n y. rewrite CH. apply (i_par s V).
  - intros y H. apply (i_new s V). exact H.
  - intros y H. rewrite CH. apply (i_newn s V). exact H.
  - intros y n H. change (leaf t y) with (leaf s y) in *. rewrite CH, O. destruct (i_view s V y n H) as [A B]. split; [exact A|].
    intros k. rewrite B. destruct (Nat.eq_dec n m) as [N|N]; [subst n; rewrite X; cbn [nops] | rewrite E by exact N; reflexivity].
    destruct K as [K|K]; [|symmetry; apply K]. apply (i_par s V) in H. rewrite K in H. contradiction.
  - intros y H. exact (i_own s V y H).
  - intros n k i p H. rewrite CH, T. destruct (Nat.eq_dec n m) as [N|N]; [subst n; rewrite X in H; exact (W k i p H) | rewrite E in H by exact N; exact (i_in s V n k i p H)].
Qed.
Lemma offset_ext_in : forall s t l x, (forall y, In y l -> lsize (leaf t y) = lsize (leaf s y)) -> offset t l x = offset s l x.
Proof. intros s t l x. induction l as [|y r IH]; intros H; cbn; [reflexivity|]. rewrite (H y) by (left; reflexivity). rewrite IH by (intros; apply H; right; assumption). reflexivity. Qed.
Lemma total_ext_in : forall s t l, (forall y, In y l -> lsize (leaf t y) = lsize (leaf s y)) -> total t l = total s l.
Proof. intros s t l H. unfold total. f_equal. apply map_ext_in. exact H. Qed.
Lemma inv_child : forall s, Inv s -> forall m x, In x (ch (node s m)) -> x < nl s /\ m < nn s.
Proof.
  intros s V m x H. split.
  - destruct (Nat.lt_ge_cases x (nl s)) as [B|B]; [exact B|]. apply (i_new s V) in B. apply (i_par s V) in H. congruence.
  - destruct (Nat.lt_ge_cases m (nn s)) as [B|B]; [exact B|]. apply (i_newn s V) in B. rewrite B in H. contradiction.
Qed.
Lemma fit_keys : forall s m x, (forall k, leaf_has s x k <-> node_has s m k) -> forall k, haskey k (lops (leaf s x)) = haskey k (nops (node s m)).
Proof.
  intros s m x H k. specialize (H k). unfold leaf_has, node_has in H. rewrite !entry_get in H. unfold haskey.
  destruct (get k (lops (leaf s x))), (get k (nops (node s m))); try reflexivity; exfalso; [assert (None <> @None rel) by (apply H; discriminate) | assert (None <> @None cell) by (apply H; discriminate)]; congruence.
Qed.
Lemma has_key : forall s x k, leaf_has s x k <-> haskey k (lops (leaf s x)) = true.
Proof. intros. unfold leaf_has. rewrite entry_get, haskey_get. reflexivity. Qed.
Lemma nhas_key : forall s x k, node_has s x k <-> haskey k (nops (node s x)) = true.
Proof. intros. unfold node_has. rewrite entry_get, haskey_get. reflexivity. Qed.
Lemma kept_keys : forall s t, kept s t -> forall m x, (forall k, haskey k (lops (leaf s x)) = haskey k (nops (node s m))) -> forall k, haskey k (lops (leaf t x)) = haskey k (nops (node t m)).
Proof. intros s t (_ & _ & _ & _ & _ & A & B & _) m x H k. rewrite A, B. apply H. Qed.

(** Linking and unlinking of what fits. *)
Lemma link_ok : forall s m x, Inv s -> x < nl s -> m < nn s -> (forall k, haskey k (lops (leaf s x)) = haskey k (nops (node s m))) ->
  ~ In x (ch (node s m)) ->
  let o := exec (Link m x) s in
  exn o = None /\ Inv (st o) /\ kept s (st o) /\ ch (node (st o) m) = ch (node s m) ++ [x] /\
  (forall n, n <> m -> ch (node (st o) n) = others x (ch (node s n))).
Proof.
  intros s m x V X M K N. cbn [exec].
  assert (EX : existsb (Nat.eqb x) (ch (node s m)) = false).
  { destruct (existsb (Nat.eqb x) (ch (node s m))) eqn:E; [|reflexivity]. apply existsb_exists in E. destruct E as [y [Y E]]. apply Nat.eqb_eq in E. subst y. contradiction. }
  rewrite EX. destruct (lpar (leaf s x)) as [m'|] eqn:P.
  - destruct (unlink_ok s m' x V P) as (A & B & C & D & E & F). cbv zeta in *. rewrite A. set (t := st (unlink s m' x)) in *.
    assert (NE : m <> m') by (intros Q; subst m'; apply N; apply (i_par s V); exact P).
    destruct (link_free_ok t m x B) as (G1 & G2 & G3 & G4 & G5); [destruct C as (-> & _); exact X | destruct C as (_ & -> & _); exact M | exact D | exact (kept_keys s t C m x K)|].
    split; [exact G1|]. split; [exact G2|]. split; [exact (kept_trans _ _ _ C G3)|]. split; [rewrite G4, F by exact NE; reflexivity|].
    intros n Q. rewrite G5 by exact Q. destruct (Nat.eq_dec n m') as [R|R]; [subst n; exact E|]. rewrite F by exact R.
    symmetry. apply others_id. rewrite (i_par s V), P. congruence.
  - destruct (link_free_ok s m x V X M P K) as (G1 & G2 & G3 & G4 & G5). cbv zeta. split; [exact G1|]. split; [exact G2|]. split; [exact G3|]. split; [exact G4|].
    intros n Q. rewrite G5 by exact Q. symmetry. apply others_id. rewrite (i_par s V), P. congruence.
Qed.

Lemma in_app1 : forall (A : Type) (x y : A) l, In x (l ++ [y]) -> In x l \/ x = y.
Proof. intros A x y l H. apply in_app_or in H. destruct H as [H|[H|[]]]; auto. Qed.
Theorem inv_step : forall s c, Inv s -> legal s c -> fitting s c -> Inv (st (exec c s)).
Proof.
  intros s c V G FI. destruct c as [n| |[x|m] k f|[x|m] k|x k i p|m x|m x|x k v|x k]; cbn [legal fitting] in G, FI.
  - (* NewLeaf *) cbn [exec st].
    match goal with |- Inv ?t => set (u := t) end.
    assert (X : leaf u (nl s) = mkL n None [(0, Own none)]) by (cbn; apply upd_eq).
    assert (E : forall y, y <> nl s -> leaf u y = leaf s y) by (intros; cbn; apply upd_neq; assumption).
    assert (SZ : forall m y, In y (ch (node s m)) -> lsize (leaf u y) = lsize (leaf s y)) by (intros m y Y; rewrite E; [reflexivity | destruct (inv_child s V m y Y); lia]).
    assert (PP : forall y, lpar (leaf u y) = lpar (leaf s y)) by (intros y; destruct (Nat.eq_dec y (nl s)) as [N|N]; [subst y; rewrite X; symmetry; apply (i_new s V); lia | rewrite E by exact N; reflexivity]).
    constructor.
    + intros m. apply (i_dup s V).
    + intros m y. rewrite PP. apply (i_par s V).
    + intros y H. rewrite PP. apply (i_new s V). cbn in H. lia.
    + intros y H. apply (i_newn s V). exact H.
    + intros y m H. rewrite PP in H. assert (Y : In y (ch (node s m))) by (apply (i_par s V); exact H).
      rewrite E by (destruct (inv_child s V m y Y); lia). change (node u m) with (node s m). rewrite (offset_ext_in s u) by (intros z Z; exact (SZ m z Z)). exact (i_view s V y m H).
    + intros y H. rewrite PP in H. destruct (Nat.eq_dec y (nl s)) as [N|N].
      * subst y. rewrite X. cbn. intros k c [Q|[]]. inversion Q. exists none. split; [reflexivity | discriminate].
      * rewrite E by exact N. exact (i_own s V y H).
    + intros m k i p H. change (node u m) with (node s m) in *. rewrite (total_ext_in s u) by (intros z Z; exact (SZ m z Z)). exact (i_in s V m k i p H).
  - (* NewNode *) cbn [exec st].
    match goal with |- Inv ?t => set (u := t) end.
    assert (X : node u (nn s) = mkN [] [(0, none)]) by (cbn; apply upd_eq).
    assert (E : forall y, y <> nn s -> node u y = node s y) by (intros; cbn; apply upd_neq; assumption).
    assert (CH : forall m, ch (node u m) = ch (node s m)) by (intros y; destruct (Nat.eq_dec y (nn s)) as [N|N]; [subst y; rewrite X; symmetry; apply (i_newn s V); lia | rewrite E by exact N; reflexivity]).
    assert (O : forall l x, offset u l x = offset s l x) by (intros; apply offset_ext; reflexivity).
    assert (T : forall l, total u l = total s l) by (intros; apply total_ext; reflexivity).
    constructor.
    + intros m. rewrite CH. apply (i_dup s V).
    + intros m y. rewrite CH. apply (i_par s V).
    + intros y H. apply (i_new s V). exact H.
    + intros y H. rewrite CH. apply (i_newn s V). cbn in H. lia.
    + intros y m H. change (leaf u y) with (leaf s y) in *. rewrite CH, O. assert (Y : In y (ch (node s m))) by (apply (i_par s V); exact H).
      rewrite E by (destruct (inv_child s V m y Y); lia). exact (i_view s V y m H).
    + intros y H. exact (i_own s V y H).
    + intros m k i p H. rewrite CH, T. destruct (Nat.eq_dec m (nn s)) as [N|N]; [subst m; rewrite X in H; unfold getd in H; cbn in H; destruct k; discriminate H | rewrite E in H by exact N; exact (i_in s V m k i p H)].
  - (* AddOp of a leaf *) cbn [exec]. destruct G as [X [P W]]. destruct (haskey k (lops (leaf s x))); [exact V|]. cbn [st].
    apply (inv_ext (set_leaf s x (mkL (lsize (leaf s x)) (lpar (leaf s x)) (lops (leaf s x) ++ [(k, Own f)])))); try reflexivity.
    apply inv_leaf; [exact V | exact P | exact P | reflexivity|]. cbn [lops lsize]. intros j c H. apply in_app1 in H. destruct H as [H|H]; [exact (i_own s V x P j c H)|].
    inversion H; subst. exists f. split; [reflexivity | exact W].
  - (* AddOp of a node *) cbn [exec]. destruct G as [X [P W]]. destruct (haskey k (nops (node s m))); [exact V|]. cbn [st].
    apply (inv_ext (set_node s m (mkN (ch (node s m)) (nops (node s m) ++ [(k, f)])))); try reflexivity.
    apply inv_node; [exact V | left; exact P|]. intros j i p H. unfold getd in H. rewrite get_app1 in H.
    destruct (get j (nops (node s m))) as [h|] eqn:Q; [apply (i_in s V m j i p); rewrite (getd_get _ _ _ Q); exact H|].
    destruct (Nat.eqb k j); [rewrite W in H; discriminate | discriminate].
  - (* RemoveOp of a leaf *) cbn [exec]. destruct G as [X [P W]]. destruct (haskey k (lops (leaf s x))); [|exact V]. cbn [st].
    apply inv_leaf; [exact V | exact P | exact P | reflexivity|]. cbn [lops lsize]. intros j c H. apply in_del in H. exact (i_own s V x P j c (proj1 H)).
  - (* RemoveOp of a node *) cbn [exec]. destruct G as [X [P W]]. destruct (haskey k (nops (node s m))); [|exact V]. cbn [st].
    apply inv_node; [exact V | left; exact P|]. intros j i p H. unfold getd in H. rewrite get_del in H. destruct (Nat.eqb j k); [discriminate|].
    apply (i_in s V m j i p). exact H.
  - (* Mark *) cbn [exec]. destruct G as [X B]. destruct (get k (lops (leaf s x))) as [[f|off]|] eqn:Q; [| |exact V].
    + cbn [st]. destruct (lpar (leaf s x)) as [m|] eqn:P.
      { exfalso. apply get_in in Q. pose proof (proj1 (i_view s V x m P) k (Own f) Q). discriminate. }
      apply inv_leaf; [exact V | exact P | reflexivity | reflexivity|]. cbn [lops lsize]. intros j c H. apply in_set in H. destruct H as [[H1 H2]|H]; [|exact (i_own s V x P j c H)].
      subst j c. exists (add1 f i p). split; [reflexivity|]. intros j q H. unfold add1 in H. apply orb_true_iff in H. destruct H as [H|H].
      * destruct (i_own s V x P k (Own f) (get_in _ _ _ _ Q)) as [g [E1 E2]]. inversion E1; subst g. exact (E2 j q H).
      * apply andb_true_iff in H. destruct H as [H _]. apply Nat.eqb_eq in H. lia.
    + destruct (lpar (leaf s x)) as [m|] eqn:P; [|exact V]. destruct (get k (nops (node s m))) as [F|] eqn:QF; [|exact V]. cbn [st].
      assert (OFF : off = offset s (ch (node s m)) x) by (apply get_in in Q; pose proof (proj1 (i_view s V x m P) k (View off) Q) as E; inversion E; reflexivity).
      apply inv_node; [exact V | right; intros j; apply haskey_set|]. intros j q r H. unfold getd in H. rewrite get_set in H.
      destruct (Nat.eqb_spec j k) as [E|E]; [|exact (i_in s V m j q r H)]. subst j. unfold haskey in H. rewrite QF in H. unfold add1 in H. apply orb_true_iff in H.
      destruct H as [H|H]; [apply (i_in s V m k q r); rewrite (getd_get _ _ _ QF); exact H|]. apply andb_true_iff in H. destruct H as [H _]. apply Nat.eqb_eq in H.
      apply (i_par s V) in P. pose proof (offset_total s (ch (node s m)) x P). lia.
  - (* Link *) destruct G as [M X]. destruct (in_dec Nat.eq_dec x (ch (node s m))) as [Q|Q].
    + cbn [exec]. assert (EX : existsb (Nat.eqb x) (ch (node s m)) = true) by (apply existsb_exists; exists x; split; [exact Q | apply Nat.eqb_refl]). rewrite EX. exact V.
    + destruct (link_ok s m x V X M (fit_keys s m x FI) Q) as (_ & A & _). exact A.
  - (* Unlink *) cbn [exec]. destruct (in_dec Nat.eq_dec x (ch (node s m))) as [Q|Q].
    + apply (i_par s V) in Q. destruct (unlink_ok s m x V Q) as (_ & A & _). exact A.
    + unfold unlink. destruct (node s m) as [c F] eqn:NM. cbn [ch] in Q. destruct (existsb (Nat.eqb x) c) eqn:EX; [|exact V].
      apply existsb_exists in EX. destruct EX as [y [Y E]]. apply Nat.eqb_eq in E. subst y. contradiction.
  - apply (inv_ext s); try reflexivity. exact V.
  - cbn [exec]. destruct (existsb (Nat.eqb k) (props s)); [destruct (haskey k (lops (leaf s x))) | destruct (attr s x k)]; exact V.
Qed.
Lemma inv_start : Inv start.
Proof.
  constructor; cbn; intros; try reflexivity; try constructor; try discriminate; try contradiction.
Qed.
Lemma inv_reach : forall s, reach fitting s -> Inv s.
Proof. intros s H. induction H as [|s c H IH L F]; [exact inv_start | apply inv_step; assumption]. Qed.
