(** Constrained parameters stay in their domains: proofs. *)
From Coq Require Import List ZArith Bool Lia Arith.
From Verif Require Import NpModel NpProofs IndexOpsModel IndexOpsSpec IndexOpsProofs PzModel CopyModel PzSpec PzTree PzStruct PzLink PzWalk PzMem PzIo PzInv PzConn PzFix PzLinkMem PzPres PzUnlink PzTraverse PzNotify PzNew PzCmd PzInit PzCons PzVal PzOpt PzRandom PzGet PzHist PzKeep PzOrder PzGrad PzFinal CopySpec CopyTree CopyDeep CopyJoin CopyConn CopyCall CopyFinal DomSpec.
Import ListNotations.
Open Scope Z_scope.

Section Dom.
Context {V : Type}.
Implicit Types s : @state V.
Variables tinit tf tfinv : nat -> V -> V.
Variable D : nat -> V -> Prop.
Hypothesis D_f : forall n v, D n (tf n v).
Hypothesis D_init : forall n v, D n (tinit n v).

Lemma inside_leaf : forall s, Inv s -> (forall y n j, (y < next (st s))%nat -> is_leaf (st s) y = true -> has s y (Tr n) j -> exists v, value s y j = Some v /\ D n v) -> inside D s.
Proof.
  intros s H Hl y n j Hy Ry Hh. pose proof (has_range s y _ j H Hy Hh) as Hr.
  destruct (cover_elem (st s) y j (inv_st _ H) Hr) as (z & i & Hz & Ha & Se).
  assert (Hzn : (z < next (st s))%nat) by (eapply above_lt'; eauto).
  assert (Hhz : has s z (Tr n) i) by (apply (same_has s y j z i (Tr n) H Hy Se); auto).
  destruct (Hl z n i Hzn Hz Hhz) as (v & Ev & Dv). exists v. split; auto.
  rewrite <- Ev. symmetry. apply (one_copy (st s) (mem s) y z i j); auto; try apply H. left; auto.
Qed.

(** Nothing happened to the Params there were, and new ones carry nothing. *)
Lemma inside_spared : forall s s', Inv s' -> inside D s ->
  (forall y n j, (y < next (st s'))%nat -> is_leaf (st s') y = true -> has s' y (Tr n) j -> (y < next (st s))%nat /\ is_leaf (st s) y = true /\ has s y (Tr n) j) ->
  (forall y j, (y < next (st s))%nat -> is_leaf (st s) y = true -> 0 <= j < size (st s) y -> value s' y j = value s y j) -> Inv s -> inside D s'.
Proof.
  intros s s' H' I Hh Hv H. apply inside_leaf; auto. intros y n j Hy Hl Hn. destruct (Hh y n j Hy Hl Hn) as (Hy0 & Hl0 & Hn0).
  rewrite Hv; auto; [|eapply has_range; eauto]. apply I; auto. left; auto.
Qed.
Lemma inside_ext : forall s s', Inv s' -> Inv s -> inside D s -> st s' = st s -> (forall y n j, (y < next (st s))%nat -> has s' y (Tr n) j -> has s y (Tr n) j) ->
  (forall y j, (y < next (st s))%nat -> is_leaf (st s) y = true -> 0 <= j < size (st s) y -> value s' y j = value s y j) -> inside D s'.
Proof. intros s s' H' H I Es Hh Hv. apply (inside_spared s); auto. rewrite Es. intros y n j Hy Hl Hn. auto. Qed.

Lemma inside_changed : forall s s' x F, Inv s -> Inv s' -> apart s -> inside D s -> st s' = st s -> (x < next (st s))%nat -> changed s s' x F ->
  (forall y n j, (y < next (st s))%nat -> has s' y (Tr n) j -> (forall k, ~ same_elem (st s) y j x k) -> has s y (Tr n) j) ->
  (forall n k v, (has s' x (Tr n) k) -> value s x k = Some v -> D n (F k v)) -> ready (st s) x -> inside D s'.
Proof.
  intros s s' x F H H' Ap I Es Hx [C1 C2] Hh HF Rx y n j Hy Ry Hn. rewrite Es in Hy, Ry.
  assert (Hr : 0 <= j < size (st s) y) by (rewrite <- Es; eapply has_range; eauto; rewrite Es; auto).
  destruct (same_elem_dec (st s) y j x (inv_st _ H) Hr) as [[k Se]|Ne].
  - rewrite (C1 y j k Hy Ry Se). assert (Ev : value s y j = value s x k) by (apply (one_copy (st s) (mem s) x y j k); auto; apply H).
    destruct (value_some s x k H Hx Rx (proj1 (proj2 Se))) as [v Hv]. rewrite Ev, Hv. exists (F k v). split; auto. apply HF; auto.
    apply (same_has s' x k y j (Tr n) H'); rewrite ?Es; auto.
  - rewrite (C2 Ap y j Hy Ry Hr Ne). apply I; auto.
Qed.

Lemma has_dec : forall s x p k, has s x p k \/ ~ has s x p k.
Proof. intros s x p k. destruct (in_dec Z.eq_dec k (cons_get (ios s) x p)) as [Q|Q]; [left|right]; exact Q. Qed.
Lemma set_inside : forall s x ks p F n k v, Inv s -> (x < next (st s))%nat -> ready (st s) x -> inside D s -> free s x ks -> set_effect tf s x ks p F ->
  has s x (Tr n) k -> value s x k = Some v -> D n (F k v).
Proof.
  intros s x ks p F n k v H Hx Rx I [Hi Hf] [S1 S2] Hn Hv. destruct (in_dec Z.eq_dec k ks) as [Q|Q].
  - destruct (In_nth_error _ _ Q) as [i Ei]. destruct (S2 i k v Ei) as [T _]. rewrite (T n Hn). auto.
  - assert (Fx : has s x Fixed k).
    { destruct (has_dec s x Fixed k) as [?|Nf]; auto. exfalso. apply Q. apply Hf. split; auto. eapply has_range; eauto. }
    rewrite S1; auto. destruct (I x n k Hx Rx Hn) as (w & Ew & Dw). congruence.
Qed.
Lemma inside_step : forall s c s' e, Inv s -> one s -> apart s -> careful s c -> respects tinit tf tfinv D s c -> inside D s -> exec tinit tf tfinv c s = (s', e) -> inside D s'.
Proof.
  intros s c s' e H O Ap [L Cf] Rs I E. pose proof (inv_st _ H) as W. destruct c; cbn [exec legal respects] in *.
  - destruct (new_leaf_ok s vals H) as (s2 & R & H' & G & _). rewrite R in E. injection E as <- <-. apply (inside_spared s); auto.
    + intros y n j Hy Hl Hh. destruct (Nat.eq_dec y (next (st s))) as [->|Hne]; [exfalso; apply (gr_has_new _ _ G (Tr n) j); auto|].
      rewrite (gr_next _ _ G) in Hy. assert (y < next (st s))%nat by lia. split; auto. destruct (gr_old _ _ G y Hne) as (K & _). split; [unfold is_leaf in *; rewrite <- K; auto | apply (gr_has _ _ G); auto].
    + intros y j Hy Hl Hj. apply kept_value; auto. apply (gr_kept _ _ G).
  - destruct (new_node_ok s ps initialize H L) as (s2 & R & H' & B). pose proof (Rs s2 None R) as Sp. rewrite R in E. injection E as <- <-. apply (inside_spared s); auto.
    intros y n j Hy Hl Hh. rewrite (bu_next _ _ _ _ _ B) in Hy.
    assert (y <> next (st s)). { intros ->. unfold is_leaf in Hl. rewrite (proj1 (bu_kind _ _ _ _ _ B)) in Hl. discriminate. }
    assert (y < next (st s))%nat by lia. split; auto. split; [|apply (bu_has _ _ _ _ _ B); auto].
    unfold is_leaf in *. destruct (bu_kind _ _ _ _ _ B) as (_ & _ & Kd). rewrite <- (proj1 (Kd y ltac:(auto))). auto.
  - destruct (bare_node_ok s H) as (s2 & R & H' & G & _). rewrite R in E. injection E as <- <-. apply (inside_spared s); auto.
    + intros y n j Hy Hl Hh. destruct (Nat.eq_dec y (next (st s))) as [->|Hne]; [exfalso; apply (gr_has_new _ _ G (Tr n) j); auto|].
      rewrite (gr_next _ _ G) in Hy. assert (y < next (st s))%nat by lia. split; auto. destruct (gr_old _ _ G y Hne) as (K & _). split; [unfold is_leaf in *; rewrite <- K; auto | apply (gr_has _ _ G); auto].
    + intros y j Hy Hl Hj. apply kept_value; auto. apply (gr_kept _ _ G).
  - pose proof (Rs s' e E) as Sp. destruct (exec_ok tinit tf tfinv s (End x initialize) H O L) as (s0 & e0 & E0 & H0 & _). cbn [exec] in E0. rewrite E in E0. injection E0 as <- <-.
    destruct L as (Hx & Hk & Hi). destruct (ii_in _ (inv_init _ H) x Hi) as [Hp Hin].
    assert (H1 : Inv (with_st s (set_inited (set_in_init (st s) x false) x (Some false)))) by (apply finish_inv; auto; rewrite Hin; discriminate).
    set (s1 := with_st s (set_inited (set_in_init (st s) x false) x (Some false))) in *.
    assert (R1 : upd_st (fun t => set_inited (set_in_init t x false) x (Some false)) s = (s1, None)) by reflexivity.
    unfold end_init in E. rewrite (andthen_ok _ _ _ _ R1) in E. apply (inside_spared s); auto. intros y n j Hy Hl Hh. destruct initialize.
    + destruct (initialize_ok s1 x x 0 0%nat H1) as (s2 & R2 & H2 & I2); auto; [constructor | cbn; apply upd_eq |].
      rewrite R2 in E. injection E as <- <-. destruct (in_same _ _ _ I2) as (Q1 & Q2 & _). rewrite Q1 in Hy. split; auto. split; [unfold is_leaf in *; rewrite Q2 in Hl; auto | apply (in_has _ _ _ I2) in Hh; auto].
    + injection E as <- <-. auto.
  - pose proof (Rs s' e E) as Sp. destruct L as [L|[Hk ->]].
    + destruct (link_ok s self param index H L) as (s2 & R & H' & Rl). rewrite R in E. injection E as <- <-. apply (inside_spared s); auto.
      destruct (relinked_next _ _ _ _ _ Rl) as [Nx Kd]. intros y n j Hy Hl Hh. rewrite Nx in Hy. rewrite (leaf_ext _ _ _ (Kd y)) in Hl. split; auto. split; auto.
      apply (relinked_leaf s s2 self param index H H' Rl); auto.
    + rewrite (link_refused_kid s self param Hk) in E. injection E as <- <-. auto.
  - pose proof (Rs s' e E) as Sp. destruct L as [Hs L]. destruct (in_dec Nat.eq_dec param (kids (st s) self)) as [Hk|Hk].
    + destruct (In_nth_error _ _ Hk) as [k Ek].
      destruct (unlink_ok s self param k H) as (s2 & R & H' & De); [constructor; auto; intros r A1 A2; apply L; [auto | split; auto]|].
      rewrite R in E. injection E as <- <-. apply (inside_spared s); auto. intros y n j Hy Hl Hh. rewrite (de_next _ _ _ _ _ De) in Hy.
      rewrite (leaf_ext _ _ _ (de_kind _ _ _ _ _ De y)) in Hl. split; auto. split; auto. apply (detached_leaf s s2 self param k H De); auto.
    + rewrite (unlink_refused s self param Hk) in E. injection E as <- <-. auto.
  - pose proof (Rs s' e E) as Sp. destruct L as [Hx L]. destruct (root_out s x H) as (r & o & n & B & Hp).
    destruct (initialize_ok s x r o n H Hx B Hp) as (s2 & R2 & H2 & I2); [apply L; split; auto; exists o, n; auto|].
    rewrite R2 in E. injection E as <- <-. apply (inside_spared s); auto. intros y m j Hy Hl Hh. destruct (in_same _ _ _ I2) as (Q1 & Q2 & _). rewrite Q1 in Hy. split; auto.
    split; [unfold is_leaf in *; rewrite Q2 in Hl; auto | apply (in_has _ _ _ I2) in Hh; auto].
  - destruct L as (Hx & Ls & Rx). destruct (constrain_ok tinit s x sel n H Hx Rx Ls) as (s2 & l & R & H' & C & _ & Es & _ & _ & Hh).
    rewrite R in E. injection E as <- <-. apply (inside_changed s s2 x (on_sel sel (tinit n))); auto.
    + intros y m j Hy Hm Ne. apply Hh in Hm; auto. destruct Hm as [[Hm _]|[_ (k & _ & Se)]]; auto. exfalso. apply (Ne k Se).
    + intros m k v Hm Hv. apply Hh in Hm; auto. destruct Hm as [[Hm Nt]|[Q (k' & Sk & Se)]].
      * assert (Q : on_sel sel (tinit n) k v = v \/ selected (st s) x sel k).
        { unfold on_sel. destruct sel as [ll|]; cbn [selected]; [|right; eapply has_range; eauto]. destruct (zmem k ll) eqn:Ez; auto. right. apply zmem_In; auto. }
        destruct Q as [Q|Q]; [|exfalso; apply Nt; exists k; split; auto; apply self_same; eapply has_range; eauto].
        rewrite Q. destruct (I x m k Hx Rx Hm) as (w & Ew & Dw). congruence.
      * injection Q as ->. assert (k' = k) as ->.
        { symmetry. apply (same_elem_self (st s) x); auto. }
        unfold on_sel. destruct sel as [ll|]; auto. cbn [selected] in Sk. rewrite (proj2 (zmem_In _ _) Sk). auto.
  - destruct L as (Hx & Ls). destruct (unconstrain_ok s x sel ts H Hx Ls) as (s2 & R & H' & (Es & Em & _) & Hh). rewrite R in E. injection E as <- <-.
    apply (inside_ext s); auto; [intros y n j Hy Hn; apply Hh in Hn; tauto | intros; unfold value; rewrite Em; auto].
  - destruct L as (Hx & Ls). destruct (fix_ok s x sel H Hx Ls) as (s2 & l & R & H' & Es & Em & _ & _ & Hh). rewrite R in E. injection E as <- <-.
    apply (inside_ext s); auto; [intros y n j Hy Hn; apply Hh in Hn; auto; destruct Hn as [?|[? _]]; [auto | discriminate] | intros; unfold value; rewrite Em; auto].
  - destruct L as (Hx & Ls). destruct (unfix_ok s x sel H Hx Ls) as (s2 & R & H' & (Es & Em & _) & Hh). rewrite R in E. injection E as <- <-.
    apply (inside_ext s); auto; [intros y n j Hy Hn; apply Hh in Hn; tauto | intros; unfold value; rewrite Em; auto].
  - destruct L as (Hx & Rx). destruct (assign_ok s x g H Hx Rx) as (s2 & l & R & H' & C & _ & Es & Ei & _). rewrite R in E. injection E as <- <-.
    apply (inside_changed s s2 x g); auto; [intros y n j Hy Hn _; apply (has_ext s s2); auto | intros n k v Hn Hv; apply Rs; auto; apply (has_ext s s2); auto].
  - destruct L as (Hx & Rx). destruct (free_exists s x H Hx) as [ks Hks].
    destruct (set_opt_ok tf s x p ks H Hx Rx (O x Hx) Hks) as (s2 & l & F & R & H' & C & Se & _ & Es & Ei & _). rewrite R in E. injection E as <- <-.
    apply (inside_changed s s2 x F); auto; [intros y n j Hy Hn _; apply (has_ext s s2); auto | intros n k v Hn Hv; apply (has_ext s s2) in Hn; auto; apply (set_inside s x ks p F); auto].
  - destruct L as (Hx & Rx). destruct (get_any_ok tfinv s x H Hx Rx) as (l & s2 & R & H' & (Es & Ei & _ & Hv & _)). rewrite R in E. injection E as <- <-.
    apply (inside_ext s); auto; [intros y n j Hy Hn; apply (has_ext s s2); auto | intros; apply Hv; auto; left; auto].
  - destruct (update_model_ok s x on H L) as (s2 & l & r & R & H' & _ & _ & Es & Ei & _ & Em & _). rewrite R in E. injection E as <- <-.
    apply (inside_ext s); auto; [intros y n j Hy Hn; apply (has_ext s s2); auto | intros; unfold value; rewrite Em; auto].
  - destruct (trigger_full s x H L) as (s2 & l & R & Or & _). pose proof (only_ran_inv _ _ _ Or H) as H'. destruct Or as (Es & Ei & _ & Em & _). rewrite R in E. injection E as <- <-.
    apply (inside_ext s); auto; [intros y n j Hy Hn; apply (has_ext s s2); auto | intros; unfold value; rewrite Em; auto].
  - destruct L as (Hx & Rx). destruct (free_exists s x H Hx) as [ks Hks].
    destruct (randomize_ok tf s x draw ks H Hx Rx (O x Hx) Hks) as (s2 & l & F & R & H' & C & Se & _ & Es & Ei & _). rewrite R in E. injection E as <- <-.
    apply (inside_changed s s2 x F); auto; [intros y n j Hy Hn _; apply (has_ext s s2); auto | intros n k v Hn Hv; apply (has_ext s s2) in Hn; auto; apply (set_inside s x ks (map draw (seq 0 (length ks))) F); auto].
  - destruct L as (Hx & Rx & Ix & Fx). destruct (copy_object_ok tfinv s x H Hx Rx Ix Fx) as (s2 & R & H' & (Co & Un & _) & _). rewrite R in E. injection E as <- <-.
    apply inside_leaf; auto. intros y n j Hy Hl Hh. destruct (Nat.lt_ge_cases y (next (st s))) as [Hlt|Hge].
    + destruct (Un y Hlt) as (A & _). apply (aw_has _ _ _ _ A) in Hh. assert (Ly : ready (st s) y) by (left; unfold is_leaf in *; rewrite <- (aw_kind _ _ _ _ A); auto).
      rewrite (aw_values _ _ _ _ A) by (auto; eapply has_range; eauto). apply I; auto.
    + destruct (copy_source s s2 x (next (st s)) y Co) as (path & z & Ez & _ & A); [lia|].
      assert (Hz : (z < next (st s))%nat) by (apply follow_below in Ez; destruct Ez as (o & m & B); eapply above_lt'; eauto; exists o, m; auto).
      apply (aw_has _ _ _ _ A) in Hh. assert (Ly : ready (st s) z) by (left; unfold is_leaf in *; rewrite <- (aw_kind _ _ _ _ A); auto).
      rewrite (aw_values _ _ _ _ A) by (auto; eapply has_range; eauto). apply I; auto.
Qed.

Variable junk : nat -> Z -> V.
Notation reached := (reach tinit tf tfinv careful junk).
Lemma reached_all : forall s, reached s -> Inv s /\ one s /\ apart s.
Proof.
  intros s R. destruct (reach_inv tinit tf tfinv careful junk s) as [H O]; auto; [intros s0 c [Q _]; exact Q|].
  split; auto. split; auto. apply (reach_apart tinit tf tfinv careful junk s); auto.
Qed.

Lemma inside_hist_any : forall s s2, Inv s -> one s -> apart s -> inside D s ->
  hist tinit tf tfinv (fun s c => careful s c /\ respects tinit tf tfinv D s c) s s2 -> inside D s2.
Proof.
  intros s s2 H O Ap I Hh. induction Hh as [s|s c s1 e s2 [Cf Rs] E Hh IH]; auto.
  destruct (exec_ok tinit tf tfinv s c H O (proj1 Cf)) as (s0 & e0 & E0 & H0 & O0 & _). rewrite E in E0. injection E0 as <- <-.
  apply IH; auto; [apply (exec_apart tinit tf tfinv s c s1 e); auto | apply (inside_step s c s1 e); auto].
Qed.
Lemma inside_final : forall s s2, reached s -> inside D s ->
  hist tinit tf tfinv (fun s c => careful s c /\ respects tinit tf tfinv D s c) s s2 -> inside D s2.
Proof. intros s s2 R I Hh. destruct (reached_all s R) as (H & O & Ap). apply (inside_hist_any s); auto. Qed.
Lemma inside_start : inside D (init_state junk).
Proof. intros y n j Hy. cbn in Hy. lia. Qed.
Lemma inside_always : forall s, reach tinit tf tfinv (fun s c => careful s c /\ respects tinit tf tfinv D s c) junk s -> inside D s.
Proof.
  intros s R. assert (Q : Inv s /\ one s /\ apart s /\ inside D s).
  { induction R as [|s c s' e R IH [Cf Rs] E].
    - destruct (reached_all (init_state junk)) as (H & O & Ap); [constructor|]. split; auto. split; auto. split; auto. apply inside_start.
    - destruct IH as (H & O & Ap & I).
      destruct (exec_ok tinit tf tfinv s c H O (proj1 Cf)) as (s0 & e0 & E0 & H0 & O0 & _). rewrite E in E0. injection E0 as <- <-.
      split; auto. split; auto. split; [apply (exec_apart tinit tf tfinv s c s' e); auto | apply (inside_step s c s' e); auto]. }
  apply Q.
Qed.
End Dom.

(** ** Whole optimisations *)
Section Tuning.
Context {V : Type}.
Implicit Types s : @state V.
Variables tinit tf tfinv : nat -> V -> V.

(** What may have happened to element [j] of [y] between [s] and [s']. *)
Definition moved s s' (y : oid) (j : Z) : Prop :=
  value s' y j = value s y j \/
  ~ has s y Fixed j /\ ((exists n u, has s y (Tr n) j /\ value s' y j = Some (tf n u)) \/ (forall n, ~ has s y (Tr n) j)).
Definition tuned s s' : Prop :=
  st s' = st s /\ ios s' = ios s /\ forall y j, (y < next (st s))%nat -> ready (st s) y -> 0 <= j < size (st s) y -> moved s s' y j.

Lemma has_ios : forall s s' y p j, ios s' = ios s -> (has s' y p j <-> has s y p j).
Proof. intros s s' y p j E. unfold has. rewrite E. tauto. Qed.
Lemma tuned_refl : forall s, tuned s s.
Proof. intros s. split; auto. split; auto. intros. left. auto. Qed.
Lemma tuned_trans : forall s1 s2 s3, tuned s1 s2 -> tuned s2 s3 -> tuned s1 s3.
Proof.
  intros s1 s2 s3 (A1 & A2 & A3) (B1 & B2 & B3). split; [congruence|]. split; [congruence|]. intros y j Hy Ry Hj.
  assert (Q := B3 y j). rewrite A1 in Q. specialize (Q Hy Ry Hj). destruct Q as [Q|(Nf & Q)].
  - unfold moved. rewrite Q. apply A3; auto.
  - right. split; [intros F; apply Nf; apply (has_ios s1 s2); auto|]. destruct Q as [(n & u & Hn & Q)|Q].
    + left. exists n, u. split; auto. apply (has_ios s1 s2); auto.
    + right. intros n Hn. apply (Q n). apply (has_ios s1 s2); auto.
Qed.
Lemma tuned_changed : forall s s' x ks p F, Inv s -> apart s -> (x < next (st s))%nat -> ready (st s) x -> free s x ks -> set_effect tf s x ks p F ->
  changed s s' x F -> st s' = st s -> ios s' = ios s -> tuned s s'.
Proof.
  intros s s' x ks p F H Ap Hx Rx [Hi Hf] [S1 S2] [C1 C2] Es Ei. split; auto. split; auto. intros y j Hy Ry Hj.
  destruct (same_elem_dec (st s) y j x (inv_st _ H) Hj) as [[k Se]|Ne]; [|left; apply C2; auto].
  unfold moved. rewrite (C1 y j k Hy Ry Se). assert (Ev : value s y j = value s x k) by (apply (one_copy (st s) (mem s) x y j k); auto; apply H).
  destruct (value_some s x k H Hx Rx (proj1 (proj2 Se))) as [v Hv]. rewrite Ev, Hv. cbn [option_map].
  destruct (in_dec Z.eq_dec k ks) as [Q|Q].
  - right. destruct (proj1 (Hf k) Q) as [_ Nf]. split; [intros Fx; apply Nf; apply (same_has s x k y j Fixed H Hx Se); auto|].
    destruct (In_nth_error _ _ Q) as [i Ek]. destruct (S2 i k v Ek) as [T1 T2]. destruct (tr_dec s x k H Hx) as [[n Hn]|Nn].
    + left. exists n, (cyc p i v). split; [apply (same_has s x k y j (Tr n) H Hx Se); auto | f_equal; auto].
    + right. intros n Hn. apply (Nn n). apply (same_has s x k y j (Tr n) H Hx Se); auto.
  - left. assert (Fx : has s x Fixed k). { destruct (has_dec s x Fixed k) as [?|Nf]; auto. exfalso. apply Q. apply Hf. split; auto. apply Se. }
    rewrite S1; auto.
Qed.
Lemma tuned_step : forall s c s' e, Inv s -> one s -> apart s -> legal s c -> tuning c -> exec tinit tf tfinv c s = (s', e) -> tuned s s'.
Proof.
  intros s c s' e H O Ap L T E. destruct c; cbn [tuning] in T; try contradiction; cbn [exec legal] in *.
  - destruct L as (Hx & Rx). destruct (free_exists s x H Hx) as [ks Hks].
    destruct (set_opt_ok tf s x p ks H Hx Rx (O x Hx) Hks) as (s2 & l & F & R & H' & C & Se & _ & Es & Ei & _). rewrite R in E. injection E as <- <-.
    apply (tuned_changed s s2 x ks p F); auto.
  - destruct L as (Hx & Rx). destruct (get_any_ok tfinv s x H Hx Rx) as (l & s2 & R & H' & (Es & Ei & _ & Hv & _)). rewrite R in E. injection E as <- <-.
    split; auto. split; auto. intros y j Hy Ry Hj. left. apply Hv; auto.
  - destruct (update_model_ok s x on H L) as (s2 & l & r & R & H' & _ & _ & Es & Ei & _ & Em & _). rewrite R in E. injection E as <- <-.
    split; auto. split; auto. intros y j Hy Ry Hj. left. unfold value. rewrite Em. auto.
  - destruct (trigger_full s x H L) as (s2 & l & R & (Es & Ei & _ & Em & _) & _). rewrite R in E. injection E as <- <-.
    split; auto. split; auto. intros y j Hy Ry Hj. left. unfold value. rewrite Em. auto.
  - destruct L as (Hx & Rx). destruct (free_exists s x H Hx) as [ks Hks].
    destruct (randomize_ok tf s x draw ks H Hx Rx (O x Hx) Hks) as (s2 & l & F & R & H' & C & Se & _ & Es & Ei & _). rewrite R in E. injection E as <- <-.
    apply (tuned_changed s s2 x ks (map draw (seq 0 (length ks))) F); auto.
Qed.
Lemma tuned_hist : forall s s2, Inv s -> one s -> apart s -> hist tinit tf tfinv (fun s c => legal s c /\ tuning c) s s2 -> tuned s s2.
Proof.
  intros s s2 H O Ap Hh. induction Hh as [s|s c s1 e s2 [L T] E Hh IH]; [apply tuned_refl|].
  destruct (exec_ok tinit tf tfinv s c H O L) as (s0 & e0 & E0 & H0 & O0 & _). rewrite E in E0. injection E0 as <- <-.
  apply (tuned_trans s s1); [apply (tuned_step s c s1 e); auto|]. apply IH; auto. apply (exec_apart tinit tf tfinv s c s1 e); auto.
  split; auto. destruct c; auto; contradiction.
Qed.
Lemma tuned_final : forall junk s s2, reach tinit tf tfinv careful junk s -> hist tinit tf tfinv (fun s c => legal s c /\ tuning c) s s2 ->
  st s2 = st s /\ (forall y p j, has s2 y p j <-> has s y p j) /\
  forall y j, (y < next (st s))%nat -> ready (st s) y -> 0 <= j < size (st s) y ->
    (has s y Fixed j -> value s2 y j = value s y j) /\
    (forall n, has s y (Tr n) j -> value s2 y j = value s y j \/ exists u, value s2 y j = Some (tf n u)).
Proof.
  intros junk s s2 R Hh. destruct (reached_all tinit tf tfinv junk s R) as (H & O & Ap).
  destruct (tuned_hist s s2 H O Ap Hh) as (A & B & C). split; auto. split; [intros; apply has_ios; auto|].
  intros y j Hy Ry Hj. destruct (C y j Hy Ry Hj) as [Q|[Nf Q]].
  - split; auto.
  - split; [intros; contradiction|]. intros n Hn. right. destruct Q as [(m & u & Hm & Q)|Q]; [|exfalso; apply (Q n); auto].
    assert (m = n) as -> by (apply (O y Hy j); auto). eauto.
Qed.
End Tuning.
