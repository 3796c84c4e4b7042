(** Proofs about checkgrad. *)
From Coq Require Import List ZArith Bool Lia Arith.
From Verif Require Import NpModel NpProofs IndexOpsModel IndexOpsSpec IndexOpsProofs PzModel PzSpec PzTree PzStruct PzLink PzWalk PzMem PzIo PzInv PzConn PzFix PzLinkMem PzPres PzUnlink PzTraverse PzNotify PzNew PzCmd PzInit PzCons PzVal PzOpt PzRandom PzHist PzKeep PzOrder PzGrad PzFinal CheckModel CheckSpec.
Import ListNotations.
Open Scope Z_scope.

Lemma nth_error_ext : forall (A : Type) (a b : list A), (forall n, nth_error a n = nth_error b n) -> a = b.
Proof.
  induction a as [|x a IH]; intros [|y b] H; auto; try (specialize (H 0%nat); discriminate).
  f_equal; [specialize (H 0%nat); cbn in H; congruence|]. apply IH. intros n. apply (H (S n)).
Qed.
Section Proofs.
Context {V W : Type}.
Variables tinit tf tfinv : nat -> V -> V.
Variable tgrad : nat -> V -> V -> V.
Variable fobj : list V -> W.
Variable fgrad : list V -> list V.
Variable own : bool.
Variable junk : nat -> Z -> V.
Notation reachable := (reach tinit tf tfinv legal junk).
Notation gset := (gset tf fgrad).
Notation objective := (objective tf fobj fgrad).
Notation grads := (grads tf tgrad fgrad own).

Lemma vals_ok : forall (s : @state V) x, Inv s -> (x < next (st s))%nat -> ready (st s) x ->
  Z.of_nat (length (vals s x)) = size (st s) x /\ forall k, 0 <= k < size (st s) x -> nth_error (vals s x) (Z.to_nat k) = value s x k.
Proof.
  intros s x H Hx Rx. destruct (store_ok s x H Hx Rx) as (m1 & a & Ep & Hl & Hv & _). unfold vals. rewrite Ep. split; auto.
  intros k Hk. symmetry. auto.
Qed.
Lemma vals_eq : forall (s s' : @state V) x, Inv s -> Inv s' -> st s' = st s -> (x < next (st s))%nat -> ready (st s) x ->
  (forall k, 0 <= k < size (st s) x -> value s' x k = value s x k) -> vals s' x = vals s x.
Proof.
  intros s s' x H H' Es Hx Rx E. destruct (vals_ok s x H Hx Rx) as [L1 N1].
  destruct (vals_ok s' x H') as [L2 N2]; [rewrite Es; auto|rewrite Es; auto|]. rewrite Es in *.
  apply nth_error_ext. intros n. destruct (Nat.lt_ge_cases n (length (vals s x))) as [Hn|Hn].
  - specialize (N1 (Z.of_nat n)). specialize (N2 (Z.of_nat n)). rewrite Nat2Z.id in *. rewrite N1, N2 by lia. apply E. lia.
  - rewrite (proj2 (nth_error_None _ _)) by lia. symmetry. apply nth_error_None. lia.
Qed.

Lemma map_snd_combine : forall A B (l : list B) (a : list A), length a = length l -> map snd (combine a l) = l.
Proof. induction l as [|b l IH]; intros [|c a] L; try discriminate; auto. cbn. f_equal. apply IH. cbn in L. lia. Qed.
Lemma shift_len : forall mv idx (p : list V), length (shift mv idx p) = length p.
Proof. intros. unfold shift. rewrite map_length, combine_length, arange_len. lia. Qed.
Lemma shift_moved : forall mv idx (p : list V), moved mv idx p (shift mv idx p).
Proof.
  intros mv idx p. split; [apply shift_len|]. intros i v Hi.
  assert (Hc : nth_error (combine (arange (Z.of_nat (length p))) p) i = Some (Z.of_nat i, v)).
  { assert (Li : (i < length p)%nat) by (apply nth_error_Some; congruence).
    rewrite (nth_error_nth' _ (0, v)) by (rewrite combine_length, arange_len; lia). f_equal.
    rewrite combine_nth by (rewrite arange_len; lia). rewrite arange_nth by lia. f_equal. apply nth_error_nth. auto. }
  assert (E : nth_error (shift mv idx p) i = Some (if zmem (Z.of_nat i) idx then mv i v else v)).
  { unfold shift. rewrite (map_nth_error (fun e => if zmem (fst e) idx then mv (Z.to_nat (fst e)) (snd e) else snd e) _ _ Hc). cbn [fst snd]. rewrite Nat2Z.id. auto. }
  rewrite E. destruct (zmem (Z.of_nat i) idx) eqn:M; split; intros Hq; auto.
  - apply zmem_In in M. contradiction.
  - apply zmem_In in Hq. congruence.
Qed.
Lemma pick_ok : forall idx (d : list V), (forall k, In k idx -> 0 <= k < Z.of_nat (length d)) -> picked idx d (pick idx d).
Proof.
  induction idx as [|k idx IH]; intros d H; [constructor|]. unfold pick. cbn [flat_map].
  pose proof (H k (or_introl eq_refl)) as Hk. destruct (nth_error d (Z.to_nat k)) as [v|] eqn:E; [|apply nth_error_None in E; lia].
  cbn [app]. constructor; [split; auto; lia|]. apply IH. intros j Hj. apply H. right. auto.
Qed.
Lemma tested_in : forall (s : @state V) x ks target idx, tested s x ks target idx -> forall k, In k idx -> 0 <= k < Z.of_nat (length ks).
Proof.
  intros s x ks [[y sel]|] idx T k Hk.
  - destruct T as (o & n & fs & _ & _ & F). induction F as [|i e idx' fs' [H0 H1] F IH]; [destruct Hk|].
    destruct Hk as [->|Hk]; auto. assert (Z.to_nat k < length ks)%nat by (apply nth_error_Some; congruence). lia.
  - cbn in T. subst idx. apply arange_In in Hk. lia.
Qed.
Lemma values_vals : forall (s : @state V) x l, Inv s -> (x < next (st s))%nat -> ready (st s) x -> values_of s x l -> l = vals s x.
Proof.
  intros s x l H Hx Rx [Ll Hl]. destruct (vals_ok s x H Hx Rx) as [Lv Hv]. apply nth_error_ext. intros n.
  destruct (Nat.lt_ge_cases n (length l)) as [Hn|Hn].
  - rewrite <- (Nat2Z.id n), Hl, Hv by lia. auto.
  - transitivity (@None V); [|symmetry]; apply nth_error_None; lia.
Qed.
Section Here.
Variable x : oid.
Variable s0 : @state V.
Variable ks : list Z.
Hypothesis R0 : reachable s0.
Hypothesis Hx : (x < next (st s0))%nat.
Hypothesis Rx : ready (st s0) x.
Hypothesis Hp : par (st s0) x = None.
Hypothesis Hks : free s0 x ks.

(** What evaluations keep. *)
Record same (s : @state V) : Prop := mkSame {
  sm_reach : reachable s; sm_st : st s = st s0; sm_ios : ios s = ios s0; sm_upd : updates (nt s) = updates (nt s0);
  sm_fix : forall k, has s0 x Fixed k -> value s x k = value s0 x k;
  sm_out : apart s0 -> apart s /\ forall y j, (y < next (st s0))%nat -> ready (st s0) y -> 0 <= j < size (st s0) y ->
    (forall k, ~ same_elem (st s0) y j x k) -> value s y j = value s0 y j }.
Lemma same_free : forall s, same s -> free s x ks.
Proof.
  intros s [R Es Ei _ _ _]. destruct Hks as [A B]. split; auto. intros k. rewrite Es, B, (has_ext s0 s x Fixed k Ei). tauto.
Qed.
Lemma same_inv : forall s, same s -> Inv s /\ one_tr s x.
Proof.
  intros s [R Es _ _ _ _]. destruct (reach_legal tinit tf tfinv junk s R) as [H O]. split; auto. apply O. rewrite Es. auto.
Qed.
Lemma same_refl : same s0.
Proof. constructor; auto. Qed.
Definition on : Prop := forall y, together (st s0) x y -> updates (nt s0) y = true.
Hypothesis Hn : kind (st s0) x = KNode.
Hypothesis Hin : in_init (st s0) x = false.

Lemma gset_ok : forall g p, same (gs g) -> length p = length ks ->
  exists g', gset x p g = (g', None) /\ same (gs g') /\ at_point tf s0 x ks p (vals (gs g') x) /\
    (grad g' = grad g \/ grad g' = fgrad (vals (gs g') x)) /\ (on -> grad g' = fgrad (vals (gs g') x)).
Proof.
  intros g p Sm Lp. destruct (same_inv _ Sm) as [H O1]. pose proof (same_free _ Sm) as Fr. destruct g as [s gr]. cbn [gs] in *.
  pose proof Sm as [R Es Ei Eu Fx Ou].
  destruct (set_opt_ok tf s x p ks H) as (s' & l & F & E & H' & [C1 C2] & [S1 S2] & Ap & Es' & Ei' & _ & Rn & T); rewrite ?Es; auto.
  assert (Hh : forall q k, has s x q k <-> has s0 x q k) by (intros; apply has_ext; auto).
  assert (R' : reachable s'). { eapply (reach_call tinit tf tfinv legal junk s (SetOptimizer x p)); eauto. split; rewrite Es; auto. }
  assert (Hval : forall k, 0 <= k < size (st s0) x -> value s' x k = option_map (F k) (value s x k)).
  { intros k Hk. apply C1; rewrite ?Es; auto. apply self_same. auto. }
  destruct (vals_ok s' x H') as [L1 N1]; [rewrite Es', Es; auto | rewrite Es', Es; auto |]. rewrite Es', Es in L1, N1.
  assert (H0 : Inv s0) by (apply (same_inv _ same_refl)).
  assert (Sm' : same s').
  { constructor; auto; try congruence.
    - destruct Rn as ((_ & U & _) & _). rewrite U. cbn [set_fresh updates]. auto.
    - intros k Hk. pose proof (has_range s0 x _ k H0 Hx Hk) as Hr. rewrite Hval, Fx by auto. destruct (value s0 x k); auto. cbn [option_map]. rewrite S1; auto. apply Hh. auto.
    - intros A. destruct (Ou A) as [A1 O]. split; auto. intros y j Hy Ry Hj Nj. rewrite C2; rewrite ?Es; auto. }
  exists (mkG s' (if omem x (firstn (length (trace (nt s')) - length (trace (nt s))) (trace (nt s'))) then fgrad (vals s' x) else gr)).
  split; [unfold CheckModel.gset; cbn [gs grad]; rewrite E; reflexivity|]. cbn [gs grad].
  split; auto. split.
  - split; auto. split.
    + intros k Hk. pose proof (has_range s0 x _ k H0 Hx Hk) as Hr. rewrite N1 by auto. apply (sm_fix _ Sm'). auto.
    + intros i k Hi. destruct (nth_error p i) as [v|] eqn:Ev.
      2:{ apply nth_error_None in Ev. assert (i < length ks)%nat by (apply nth_error_Some; congruence). lia. }
      exists v. split; auto. destruct (free_in s0 x ks i k Hks Hi) as [Hr _].
      assert (Rs : ready (st s) x) by (rewrite Es; auto). assert (Hxs : (x < next (st s))%nat) by (rewrite Es; auto). 
      destruct (value_some s x k H Hxs Rs) as [w Hw]; [rewrite Es; auto|].
      rewrite N1 by auto. rewrite Hval, Hw by auto. cbn [option_map]. destruct (S2 i k w Hi) as [Q1 Q2]. rewrite (cyc_in V p i v w Ev) in Q1, Q2.
      split; [intros n Hk; rewrite (Q1 n); auto; apply Hh; auto | intros Hk; rewrite Q2; auto; intros n Hq; apply Hh in Hq; eapply Hk; eauto].
  - destruct Rn as (_ & Tr & _). cbn [set_fresh trace] in Tr. rewrite Tr.
    rewrite app_length, Nat.add_sub, firstn_app, Nat.sub_diag, firstn_all. cbn [firstn]. rewrite app_nil_r.
    split; [destruct (omem x (rev l)); auto|]. intros Hon.
    rewrite (proj2 (omem_In x (rev l))); auto. apply (proj1 (in_rev l x)).
    destruct (triggered_order s (nt s) x l H) as (_ & Hc & _); auto; [rewrite Es; auto | rewrite Es; auto | rewrite Es, Eu; auto |].
    apply Hc. rewrite Es. split; auto. right. apply above_refl.
Qed.
Lemma objective_ok : forall g p, same (gs g) -> length p = length ks -> Z.of_nat (length (grad g)) = size (st s0) x ->
  (forall l, length (fgrad l) = length l) ->
  exists g' l, objective x p g = (g', inl (fobj l)) /\ same (gs g') /\ at_point tf s0 x ks p l /\ Z.of_nat (length (grad g')) = size (st s0) x.
Proof.
  intros g p Sm Lp Lg Lf. destruct (gset_ok g p Sm Lp) as (g' & E & Sm' & P & G & _). exists g', (vals (gs g') x).
  unfold CheckModel.objective. rewrite E. split; auto. split; auto. split; auto.
  destruct G as [->| ->]; auto. rewrite Lf. apply P.
Qed.
Lemma no_tr_apply : forall s (G : nat -> Z -> V -> V) g, same s -> (forall n k, ~ has s0 x (Tr n) k) -> apply_all (cons_items (ios s) x) G g = g.
Proof.
  intros s G g Sm Nt. assert (Q : forall n l, In (Tr n, l) (cons_items (ios s) x) -> l = []).
  { intros n l Hl. destruct l as [|k l]; auto. exfalso. apply (Nt n k). apply (has_ext s0 s); [apply (sm_ios _ Sm)|].
    destruct (same_inv _ Sm) as [H _]. apply items_has; auto; [rewrite (sm_st _ Sm); auto|]. exists (k :: l). split; [auto | left; auto]. }
  revert Q. generalize (cons_items (ios s) x). intros items. revert g. induction items as [|[q l] items IH]; intros g Q; auto.
  unfold apply_all in *. cbn [fold_left fst snd]. destruct q as [|n]; [apply IH; intros; eapply Q; right; eauto|].
  assert (l = []) by (eapply Q; left; eauto). subst l. cbn [zmem existsb].
  replace (map (fun kv : Z * V => snd kv) (combine (arange (Z.of_nat (length g))) g)) with g; [apply IH; intros; eapply Q; right; eauto|].
  symmetry. apply (map_snd_combine Z V). rewrite arange_len. lia.
Qed.
Lemma grads_ok : forall g p, same (gs g) -> length p = length ks -> Z.of_nat (length (grad g)) = size (st s0) x ->
  (forall l, length (fgrad l) = length l) ->
  exists g' d, grads x p g = (g', inl d) /\ same (gs g') /\ at_point tf s0 x ks p (vals (gs g') x) /\ Z.of_nat (length (grad g')) = size (st s0) x /\
    (on -> grad_spec tgrad (gs g') x ks (fgrad (vals (gs g') x)) d) /\
    (on -> own = false \/ (forall n k, ~ has s0 x (Tr n) k) -> grad g' = fgrad (vals (gs g') x)).
Proof.
  intros g p Sm Lp Lg Lf. destruct (gset_ok g p Sm Lp) as (g' & E & Sm' & P & G & Hon).
  assert (Lg' : Z.of_nat (length (grad g')) = size (st s0) x) by (destruct G as [->| ->]; auto; rewrite Lf; apply P).
  destruct (same_inv _ Sm') as [H O1]. pose proof (sm_st _ Sm') as Es.
  destruct (grad_ok tgrad (gs g') x ks (grad g') H) as (d & Ed & Gd); rewrite ?Es; auto. { apply same_free; auto. }
  unfold CheckModel.grads. rewrite E, Ed. eexists; exists d. split; [reflexivity|]. cbn [gs grad]. split; auto. split; auto. split.
  { destruct own; auto. rewrite (proj2 (apply_all_nth V _ _ (grad g') 0%nat)). auto. }
  split; [intros Q; rewrite <- (Hon Q); auto|]. intros Q [->|Nt]; auto. rewrite no_tr_apply by auto. destruct own; auto.
Qed.

Section Back.
Variable p0 : list V.
Hypothesis Gp : get_spec tfinv s0 x ks p0.
Hypothesis Hinv : forall k n v, has s0 x (Tr n) k -> ~ has s0 x Fixed k -> value s0 x k = Some v -> tf n (tfinv n v) = v.
(** Back at the array read at the start, all values are as they were. *)
Lemma back : forall s, same s -> at_point tf s0 x ks p0 (vals s x) -> values_kept s0 s x /\ vals s x = vals s0 x.
Proof.
  intros s Sm [_ [P1 P2]]. destruct (same_inv _ Sm) as [H O1]. destruct (same_inv _ same_refl) as [H0 _].
  pose proof (sm_st _ Sm) as Es.
  assert (Q : forall k, 0 <= k < size (st s0) x -> value s x k = value s0 x k).
  { intros k Hk. destruct (in_dec Z.eq_dec k ks) as [Hi|Hi].
    - apply In_nth_error in Hi as [i Hi]. destruct (P2 i k Hi) as (v & Ev & T1 & U1). destruct Gp as [_ G]. destruct (G i k Hi) as (w & Hw & G1 & G2).
      destruct (free_in s0 x ks i k Hks Hi) as [_ Nf]. rewrite Hw.
      destruct (vals_ok s x H) as [_ N1]; [rewrite Es; auto | rewrite Es; auto |]. rewrite Es in N1. rewrite <- N1 by auto.
      destruct (tr_dec s0 x k H0 Hx) as [[n Hk']|Hk'].
      + rewrite (T1 n Hk'). rewrite (G1 n Hk') in Ev. injection Ev as <-. f_equal. eauto.
      + rewrite (U1 Hk'). rewrite (G2 Hk') in Ev. auto.
    - assert (Hf : has s0 x Fixed k).
      { destruct (in_dec Z.eq_dec k (cons_get (ios s0) x Fixed)) as [Q|Q]; [exact Q|]. exfalso. apply Hi. apply Hks. split; auto. }
      apply (sm_fix _ Sm). auto. }
  assert (Q2 : forall y j k, (y < next (st s0))%nat -> ready (st s0) y -> same_elem (st s0) y j x k -> value s y j = value s0 y j).
  { intros y j k Hy Ry Sj. pose proof Sj as (_ & Hk & _).
    transitivity (value s x k); [apply (one_copy (st s) (mem s) x y j k); rewrite ?Es; auto; try (rewrite <- Es); apply H|].
    rewrite Q by auto. symmetry. apply (one_copy (st s0) (mem s0) x y j k); auto; apply H0. }
  split; [|apply vals_eq; auto]. split; auto. intros A y j Hy Ry Hj.
  destruct (same_elem_dec (st s0) y j x) as [[k Hk]|D]; auto; [apply H0 | eapply Q2; eauto | apply (sm_out _ Sm A); auto].
Qed.
End Back.
Hypothesis Lf : forall l, length (fgrad l) = length l.
Lemma each_ok : forall p d up down (decide : W -> W -> option V -> bool) idx g, same (gs g) -> length p = length ks -> Z.of_nat (length (grad g)) = size (st s0) x ->
  exists g' bs, check_each tf fobj fgrad x up down decide p d idx g = (g', inl (forallb (fun b => b) bs)) /\ same (gs g') /\ Z.of_nat (length (grad g')) = size (st s0) x /\
    Forall2 (fun k b => compared tf fobj s0 x ks p up down [k] (fun f1 f2 => decide f1 f2 (nth_error d (Z.to_nat k))) b) idx bs.
Proof.
  intros p d up down decide. induction idx as [|k idx IH]; intros g Sm Lp Lg.
  - exists g, []. split; [reflexivity|]. split; [auto|]. split; [auto|constructor].
  - cbn [check_each].
    destruct (objective_ok g (shift up [k] p) Sm) as (g1 & l1 & E1 & S1 & P1 & L1); rewrite ?shift_len; auto. rewrite E1.
    destruct (objective_ok g1 (shift down [k] p) S1) as (g2 & l2 & E2 & S2 & P2 & L2); rewrite ?shift_len; auto. rewrite E2.
    destruct (IH g2 S2 Lp L2) as (g3 & bs & E3 & S3 & L3 & F3). rewrite E3.
    exists g3, (decide (fobj l1) (fobj l2) (nth_error d (Z.to_nat k)) :: bs). split; auto. split; auto. split; auto.
    constructor; auto. exists (shift up [k] p), (shift down [k] p), l1, l2. auto using shift_moved.
Qed.
End Here.

Lemma get_same : forall (s : @state V) x ks, reachable s -> (x < next (st s))%nat -> ready (st s) x -> par (st s) x = None -> free s x ks ->
  (forall p s', get_optimizer_array tfinv x s = Ok (p, s') -> get_spec tfinv s x ks p) ->
  exists p s1, get_optimizer_array tfinv x s = Ok (p, s1) /\ get_spec tfinv s x ks p /\ same x s s1 /\ values_kept s s1 x.
Proof.
  intros s x ks R Hx Rx Hp Hks Hf. destruct (reach_legal tinit tf tfinv junk s R) as [H O].
  destruct (length_final tinit tf tfinv junk s x ks R Hx Rx Hp Hks) as (p & s1 & E & _ & R1 & (E1 & E2 & _ & V1 & _ & U & _ & _ & _ & A1)).
  exists p, s1. split; auto. split; [eauto|]. split.
  - constructor; auto. intros k Hk. apply V1; auto. eapply has_range; eauto.
  - split; auto. intros y j k Hy Ry Sj. apply V1; auto. apply Sj.
Qed.
Lemma target_ok : forall (s s1 : @state V) x ks (p : list V) target, reachable s -> (x < next (st s))%nat -> ready (st s) x -> par (st s) x = None -> free s x ks -> same x s s1 ->
  legal_target (st s) x target -> length p = length ks ->
  exists idx, match target with None => Ok (arange (Z.of_nat (length p))) | Some (y, sel) => index_for_transformed s1 x y sel end = Ok idx /\
    tested s x ks target idx.
Proof.
  intros s s1 x ks p target R Hx Rx Hp Hks Sm Lt Lp. destruct target as [[y sel]|]; [|exists (arange (Z.of_nat (length p))); rewrite Lp; split; reflexivity].
  destruct Lt as [(o & n & B) Ls]. pose proof (sm_st _ _ _ Sm) as Es.
  destruct (index_final tinit tf tfinv junk s1 x y o n sel ks) as (l & fs & E & K & F); rewrite ?Es; auto.
  - apply (sm_reach _ _ _ Sm).
  - apply (same_free x s ks Hks s1 Sm).
  - exists l. split; auto. exists o, n, fs. split; auto. split; auto. rewrite Es in K.
    assert (Q : forall L fs', kept_of (fun k => ~ has s1 x Fixed k) L fs' -> kept_of (fun k => ~ has s x Fixed k) L fs').
    { intros L fs' Hk. induction Hk; [constructor | apply kept_yes | apply kept_no]; auto; rewrite <- (has_ext s s1 x Fixed a (sm_ios _ _ _ Sm)); auto. }
    auto.
Qed.
Lemma grad_spec_back : forall (s s1 : @state V) x ks g d, same x s s1 -> (forall k, 0 <= k < size (st s) x -> value s1 x k = value s x k) -> free s x ks ->
  grad_spec tgrad s1 x ks g d -> grad_spec tgrad s x ks g d.
Proof.
  intros s s1 x ks g d Sm Ev Hks [L G]. split; auto. intros i k Hi. destruct (G i k Hi) as (v & e & Hv & He & T & U).
  destruct (free_in s x ks i k Hks Hi) as [Hr _]. rewrite Ev in Hv by auto. exists v, e. split; auto. split; auto.
  assert (Hh : forall n, has s1 x (Tr n) k <-> has s x (Tr n) k) by (intros; apply has_ext; apply (sm_ios _ _ _ Sm)).
  split; [intros n Hn; apply T, Hh; auto | intros Hn; apply U; intros n Hq; apply (Hn n), Hh; auto].
Qed.

Hypothesis Lf : forall l, length (fgrad l) = length l.

Lemma values_kept_trans : forall (s s1 s2 : @state V) x, st s1 = st s -> (apart s -> apart s1) -> values_kept s s1 x -> values_kept s1 s2 x -> values_kept s s2 x.
Proof.
  intros s s1 s2 x Es Ap [A1 A2] [B1 B2]. rewrite Es in *. split.
  - intros y j k Hy Ry Sj. rewrite (B1 y j k), (A1 y j k); auto.
  - intros A y j Hy Ry Hj. rewrite B2, A2; auto.
Qed.
Lemma nonempty_false : forall (l : list Z), nonempty l = false -> l = [].
Proof. intros [|a l] H; auto. discriminate. Qed.
Lemma self_value : forall (s s1 : @state V) x, reachable s -> (x < next (st s))%nat -> ready (st s) x -> values_kept s s1 x ->
  forall k, 0 <= k < size (st s) x -> value s1 x k = value s x k.
Proof. intros s s1 x R Hx Rx [K _] k Hk. apply (K x k k); auto. apply self_same. auto. Qed.

Lemma quick_final : forall g x ks target up down (decide : W -> W -> list V -> bool), reachable (gs g) -> checkable tf tfinv g x ks -> legal_target (st (gs g)) x target ->
  exists g' b, check_quick tf tfinv tgrad fobj fgrad own x target up down decide g = (g', inl b) /\
    st (gs g') = st (gs g) /\ ios (gs g') = ios (gs g) /\ values_kept (gs g) (gs g') x /\
    (all_on (gs g) x -> grad g = fgrad (vals (gs g) x) -> own = false \/ (forall n k, ~ has (gs g) x (Tr n) k) -> grad g' = grad g) /\
    exists p idx, get_spec tfinv (gs g) x ks p /\ tested (gs g) x ks target idx /\
      ((idx = [] /\ target <> None /\ b = true) \/
       (all_on (gs g) x -> exists d, grad_spec tgrad (gs g) x ks (fgrad (vals (gs g) x)) d /\
          compared tf fobj (gs g) x ks p up down idx (fun f1 f2 => decide f1 f2 (pick idx d)) b)).
Proof.
  intros [s gr] x ks target up down decide R [Hx Hn Hi Hin Hp Hks Hf Hinv Lg] Lt. cbn [gs grad] in *.
  assert (Rx : ready (st s) x) by (right; auto).
  destruct (get_same s x ks R Hx Rx Hp Hks Hf) as (p & s1 & E & G & S1 & K1).
  destruct (target_ok s s1 x ks p target R Hx Rx Hp Hks S1 Lt (proj1 G)) as (idx & Ei & T).
  unfold check_quick. cbn [gs grad]. rewrite Hi, E, Ei.
  destruct (match target with None => false | Some _ => negb (nonempty idx) end) eqn:Q.
  - exists (mkG s1 gr), true. cbn [gs grad]. split; auto. split; [apply (sm_st _ _ _ S1)|]. split; [apply (sm_ios _ _ _ S1)|]. split; auto. split; auto.
    exists p, idx. split; auto. split; auto. left. destruct target as [t|]; [|discriminate]. apply negb_true_iff, nonempty_false in Q. repeat split; auto. discriminate.
  - destruct (objective_ok x s ks R Hx Rx Hks Hn Hin (mkG s1 gr) (shift up idx p) S1) as (g1 & l1 & E1 & S2 & P1 & L1); rewrite ?shift_len; auto; [apply G|]. rewrite E1.
    destruct (objective_ok x s ks R Hx Rx Hks Hn Hin g1 (shift down idx p) S2) as (g2 & l2 & E2 & S3 & P2 & L2); rewrite ?shift_len; auto; [apply G|]. rewrite E2.
    destruct (grads_ok x s ks R Hx Rx Hp Hks Hn Hin g2 p S3) as (g3 & d & E3 & S4 & P3 & L3 & D3 & G3); auto; [apply G|]. rewrite E3.
    destruct (back x s ks R Hx Rx Hks p G Hinv (gs g3) S4 P3) as [K V3].
    exists g3, (decide (fobj l1) (fobj l2) (pick idx d)). split; auto. split; [apply (sm_st _ _ _ S4)|]. split; [apply (sm_ios _ _ _ S4)|]. split; auto.
    split; [intros On Gr No; rewrite (G3 On No), V3; auto|].
    exists p, idx. split; auto. split; auto. right. intros On. exists d. split; [|exists (shift up idx p), (shift down idx p), l1, l2; auto using shift_moved].
    rewrite <- V3. apply (grad_spec_back s (gs g3) x ks _ d S4); auto. apply self_value; auto.
Qed.
Lemma verbose_final : forall g x ks target up down (decide : W -> W -> option V -> bool), reachable (gs g) -> checkable tf tfinv g x ks -> legal_target (st (gs g)) x target ->
  exists g' b, check_verbose tf tfinv tgrad fobj fgrad own x target up down decide g = (g', inl b) /\
    st (gs g') = st (gs g) /\ ios (gs g') = ios (gs g) /\ values_kept (gs g) (gs g') x /\
    (all_on (gs g) x -> grad g = fgrad (vals (gs g) x) -> grad g' = grad g) /\
    exists p idx bs, get_spec tfinv (gs g) x ks p /\ tested (gs g) x ks (Some match target with None => (x, None) | Some t => t end) idx /\
      b = forallb (fun c => c) bs /\
      (all_on (gs g) x -> exists d, grad_spec tgrad (gs g) x ks (fgrad (vals (gs g) x)) d /\
        Forall2 (fun k c => compared tf fobj (gs g) x ks p up down [k] (fun f1 f2 => decide f1 f2 (nth_error d (Z.to_nat k))) c) idx bs).
Proof.
  intros [s gr] x ks target up down decide R [Hx Hn Hi Hin Hp Hks Hf Hinv Lg] Lt. cbn [gs grad] in *.
  assert (Rx : ready (st s) x) by (right; auto).
  destruct (get_same s x ks R Hx Rx Hp Hks Hf) as (p & s1 & E & G & S1 & K1).
  set (t := match target with None => (x, None) | Some t => t end).
  assert (Lt' : legal_target (st s) x (Some t)).
  { destruct target as [[y sel]|]; auto. split; [apply above_refl | exact Logic.I]. }
  destruct (target_ok s s1 x ks p (Some t) R Hx Rx Hp Hks S1 Lt' (proj1 G)) as (idx & Ei & T).
  unfold check_verbose. cbn [gs grad]. rewrite Hi, E. fold t. clearbody t. destruct t as [y sel]. rewrite Ei.
  destruct (grads_ok x s ks R Hx Rx Hp Hks Hn Hin (mkG s1 gr) p S1) as (g2 & d & E3 & S4 & P3 & L3 & D3 & G3); auto; [apply G|].
  destruct (back x s ks R Hx Rx Hks p G Hinv (gs g2) S4 P3) as [K3 V3].
  destruct (negb (nonempty idx)) eqn:Q.
  - exists (mkG s1 gr), true. cbn [gs grad]. split; auto. split; [apply (sm_st _ _ _ S1)|]. split; [apply (sm_ios _ _ _ S1)|]. split; auto. split; auto.
    exists p, idx, []. split; auto. split; auto. split; auto. intros On. apply negb_true_iff, nonempty_false in Q. subst idx. exists d. split; [|constructor].
    rewrite <- V3. apply (grad_spec_back s (gs g2) x ks _ d S4); auto. apply self_value; auto.
  - rewrite E3.
    destruct (each_ok x s ks R Hx Rx Hks Hn Hin Lf p d up down decide idx g2 S4 (proj1 G) L3) as (g3 & bs & E4 & S5 & L4 & F4). rewrite E4.
    destruct (gset_ok x s ks R Hx Rx Hks Hn Hin g3 p S5 (proj1 G)) as (g4 & E5 & S6 & P6 & _ & D6). rewrite E5.
    destruct (back x s ks R Hx Rx Hks p G Hinv (gs g4) S6 P6) as [K V6].
    exists g4, (forallb (fun c => c) bs). split; auto. split; [apply (sm_st _ _ _ S6)|]. split; [apply (sm_ios _ _ _ S6)|]. split; auto.
    split; [intros On Gr; rewrite (D6 On), V6; auto|].
    exists p, idx, bs. split; auto. split; auto. split; auto. intros On. exists d. split; auto.
    rewrite <- V3. apply (grad_spec_back s (gs g2) x ks _ d S4); auto. apply self_value; auto.
Qed.
End Proofs.
Lemma not_checked : forall V W tf tfinv tgrad (fobj : list V -> W) fgrad own g x target up down decide decide1, inited (st (gs g)) x <> Some true ->
  check_quick tf tfinv tgrad fobj fgrad own x target up down decide g = (g, inl false) /\ check_verbose tf tfinv tgrad fobj fgrad own x target up down decide1 g = (g, inl false).
Proof. intros V W tf tfinv tgrad fobj fgrad own g x target up down decide decide1 H. unfold check_quick, check_verbose. destruct (inited (st (gs g)) x) as [[|]|]; [contradiction H; auto | auto | auto]. Qed.
