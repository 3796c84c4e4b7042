(** Proofs about the hierarchy, part 14: notification of parents, [is_fixed] and [trigger_update]. *)
From Coq Require Import List ZArith Bool Lia Arith.
From Verif Require Import NpModel NpProofs IndexOpsModel IndexOpsSpec IndexOpsProofs PzModel PzSpec PzTree PzStruct PzLink PzWalk PzMem PzIo PzInv PzConn PzFix PzLinkMem PzPres PzTraverse.
Import ListNotations.
Open Scope Z_scope.

Fixpoint takewhile {A : Type} (f : A -> bool) (l : list A) : list A :=
  match l with [] => [] | a :: l' => if f a then a :: takewhile f l' else [] end.

(** ** [is_fixed] *)
Lemma range_count : forall l n, NoDup l -> (forall j, In j l -> 0 <= j < n) -> 0 <= n ->
  (Z.of_nat (length l) = n <-> forall j, 0 <= j < n -> In j l).
Proof.
  intros l n Nd Hr Hn. set (l' := map Z.of_nat (seq 0 (Z.to_nat n))).
  assert (Hl' : forall j, In j l' <-> 0 <= j < n).
  { intros j. unfold l'. rewrite in_map_iff. split.
    - intros [m [<- Hm]]. apply in_seq in Hm. lia.
    - intros Hj. exists (Z.to_nat j). split; [lia|]. apply in_seq. lia. }
  assert (Nd' : NoDup l') by (unfold l'; apply FinFun.Injective_map_NoDup; [intros a b; lia | apply seq_NoDup]).
  assert (Len : length l' = Z.to_nat n) by (unfold l'; rewrite map_length, seq_length; auto).
  split.
  - intros E j Hj. apply Hl' in Hj. revert j Hj. apply NoDup_length_incl; auto; [lia|]. intros j Hj. apply Hl'; auto.
  - intros H. assert (length l' <= length l)%nat by (apply NoDup_incl_length; auto; intros j Hj; apply H, Hl'; auto).
    assert (length l <= length l')%nat by (apply NoDup_incl_length; auto; intros j Hj; apply Hl'; auto). lia.
Qed.
Lemma hasi_range : forall t i x p j, swf t -> ioinv t i -> (x < next t)%nat -> hasi i x p j -> 0 <= j < size t x.
Proof.
  intros t i x p j W I Hx H. destruct (root_exists t x W) as (r & o & n & _ & Hr & B).
  apply (has_below t i r x o n p j W I) in H; auto; [tauto | eapply root_lt; eauto].
Qed.
Lemma sum_split : forall t l j, (forall c, In c l -> 0 <= size t c) -> 0 <= j < sum_sizes t l ->
  exists k c, nth_error l k = Some c /\ sum_sizes t (firstn k l) <= j < sum_sizes t (firstn k l) + size t c.
Proof.
  intros t l. induction l as [|c l IH]; intros j Hn Hj; [unfold sum_sizes in Hj; simpl in Hj; lia|].
  rewrite sum_sizes_cons in Hj. destruct (Z.lt_ge_cases j (size t c)) as [L|L].
  - exists 0%nat, c. simpl. unfold sum_sizes; simpl. split; auto; lia.
  - destruct (IH (j - size t c)) as (k & d & E & H); [intros; apply Hn; right; auto | lia|].
    exists (S k), d. split; [exact E|]. cbn [firstn]. rewrite sum_sizes_cons. lia.
Qed.

Definition all_fixed (t : struct) (i : iost) (x : oid) : Prop := forall j, 0 <= j < size t x -> hasi i x Fixed j.

Lemma dict_of : forall t i x, swf t -> ioinv t i -> (x < next t)%nat -> dwf (dof i x).
Proof.
  intros t i x W I Hx. destruct (root_exists t x W) as (r & o & n & _ & Hr & B).
  assert (Hrt : (r < next t)%nat) by (eapply root_lt; eauto).
  destruct (Nat.eq_dec x r) as [->|Hne]; [apply (io_dict _ _ I r Hrt Hr)|].
  unfold dof, rid. rewrite (io_view _ _ I r x o n Hrt Hr B Hne). simpl. apply (io_dict _ _ I r Hrt Hr).
Qed.
Lemma cons_get_nodup : forall t i x p, swf t -> ioinv t i -> (x < next t)%nat -> NoDup (cons_get i x p).
Proof.
  intros t i x p W I Hx. unfold cons_get. rewrite getitem_fst. apply ssorted_NoDup, vlk_sorted, lk_sorted. exact (dict_of t i x W I Hx).
Qed.

Lemma is_fixed_spec : forall f t i tr, swf t -> ioinv t i -> krep t tr -> (height tr <= f)%nat -> (root tr < next t)%nat ->
  exists b, is_fixed f t i (root tr) = Ok b /\ (b = true <-> all_fixed t i (root tr)).
Proof.
  induction f as [|f IH]; intros t i [x ts] W I K Hh Hx; [simpl in Hh; lia|].
  cbn [is_fixed root] in *. destruct (is_leaf t x) eqn:El.
  - eexists. split; [reflexivity|]. rewrite Z.eqb_eq. unfold all_fixed.
    rewrite range_count; [tauto | eapply cons_get_nodup; eauto | | apply size_nonneg; auto].
    intros j Hj. eapply (hasi_range t i x Fixed); eauto.
  - rewrite (krep_kids _ _ _ K).
    assert (Hc : forall c, In c ts -> exists b, is_fixed f t i (root c) = Ok b /\ (b = true <-> all_fixed t i (root c))).
    { intros c Hc. apply IH; auto; [eapply krep_child; eauto| |].
      - simpl in Hh. assert (height c <= fold_right Nat.max 0 (map height ts))%nat; [|lia].
        clear - Hc. induction ts as [|d l IHl]; [contradiction|]. simpl. destruct Hc as [->|Hc]; [lia | specialize (IHl Hc); lia].
      - assert (Hk : In (root c) (kids t x)) by (rewrite (krep_kids _ _ _ K); apply in_map; auto).
        apply In_nth_error in Hk as [q Hq]. exact (below_lt t x (root c) _ _ W (below_one t x q _ Hq) Hx). }
    assert (G : forall l b0, incl l ts -> exists b, rfold (fun p (b : bool) => if b then is_fixed f t i p else Ok false) (map root l) b0 = Ok b /\
       (b = true <-> b0 = true /\ forall c, In c l -> all_fixed t i (root c))).
    { induction l as [|c l IHl]; intros b0 Hin.
      - exists b0. split; auto. split; [intros; split; auto; intros c [] | tauto].
      - cbn [map rfold]. destruct b0.
        + destruct (Hc c) as [b [Eb Hb]]; [apply Hin; left; auto|]. rewrite Eb. cbn [rbind].
          destruct (IHl b) as [b' [Eb' Hb']]; [intros d Hd; apply Hin; right; auto|]. exists b'. split; auto. rewrite Hb', Hb. split.
          * intros [A B]. split; auto. intros d [<-|Hd]; auto.
          * intros [_ A]. split; [apply A; left; auto|]. intros d Hd. apply A; right; auto.
        + cbn [rbind]. destruct (IHl false) as [b' [Eb' Hb']]; [intros d Hd; apply Hin; right; auto|]. exists b'. split; auto. rewrite Hb'. split; intros [A _]; discriminate. }
    destruct (G ts true (incl_refl _)) as [b [Eb Hb]]. exists b. split; auto. rewrite Hb.
    assert (Hnode : kind t x = KNode) by (unfold is_leaf in El; destruct (kind t x); [discriminate | auto]).
    split.
    + intros [_ H] j Hj. rewrite (PzTree.wf_node _ W x Hnode) in Hj.
      destruct (sum_split t (kids t x) j) as (k & c & Ek & Hk); [intros; apply size_nonneg; auto | auto|].
      pose proof (below_one t x k c Ek) as B.
      assert (Q : exists c', In c' ts /\ root c' = c).
      { assert (Q : In c (kids t x)) by (eapply nth_error_In; eauto). rewrite (krep_kids _ _ _ K) in Q. apply in_map_iff in Q as [c' [E Q]]. eauto. }
      destruct Q as [c' [Hc' <-]]. specialize (H c' Hc' (j - sum_sizes t (firstn k (kids t x)))).
      assert (Q : hasi i (root c') Fixed (j - sum_sizes t (firstn k (kids t x)))) by (apply H; lia).
      apply (has_down t i x _ _ _ Fixed _ W I Hx B) in Q as [Q _].
      replace (j - sum_sizes t (firstn k (kids t x)) + sum_sizes t (firstn k (kids t x))) with j in Q by lia. auto.
    + intros H. split; auto. intros c Hc' j Hj.
      assert (Q : In (root c) (kids t x)) by (rewrite (krep_kids _ _ _ K); apply in_map; auto).
      apply In_nth_error in Q as [k Ek]. pose proof (below_one t x k _ Ek) as B.
      apply (has_down t i x _ _ _ Fixed _ W I Hx B). split; auto. apply H.
      destruct (below_range _ _ _ _ _ W B). lia.
Qed.
Lemma is_fixed_ok : forall t i x, swf t -> ioinv t i -> (x < next t)%nat ->
  exists b, is_fixed (fuel t) t i x = Ok b /\ (b = true <-> all_fixed t i x).
Proof.
  intros t i x W I Hx. destruct (tree_exists t W x) as [tr [E [R N]]].
  destruct (is_fixed_spec (fuel t) t i tr W I (rep_krep _ _ R) (rep_new_height _ _ W R N)) as [b Hb]; [congruence|].
  exists b. rewrite E in Hb. auto.
Qed.

Section Nt.
Context {V : Type}.
Implicit Types n : @ntst V.

(** Everything but the calls made and the validity of the optimizer copies. *)
Definition nq n n' : Prop := passes n' = passes n /\ updates n' = updates n /\ visited n' = visited n /\ copied n' = copied n.
Lemma nq_refl : forall n, nq n n.
Proof. repeat split. Qed.
Lemma nq_trans : forall a b c, nq a b -> nq b c -> nq a c.
Proof. unfold nq. intros a b c (A1 & A2 & A3 & A4) (B1 & B2 & B3 & B4). repeat split; congruence. Qed.
Lemma nq_ntinv : forall t n n', nq n n' -> ntinv t n -> ntinv t n'.
Proof. intros t n n' (A1 & _ & A3 & _) [H1 H2]. split; intros; rewrite ?A1, ?A3; auto. Qed.

(** [parameters_changed] ran on the objects of [l] in this order, nothing else happened. *)
Definition ran n (l : list oid) n' : Prop :=
  nq n n' /\ trace n' = rev l ++ trace n /\ forall y, fresh n' y = if omem y l then false else fresh n y.
Lemma ran_nil : forall n, ran n [] n.
Proof. intros n. split; [apply nq_refl|]. split; auto. Qed.
Lemma omem_app : forall y a b, omem y (a ++ b) = omem y a || omem y b.
Proof. intros. unfold omem. apply existsb_app. Qed.
Lemma ran_app : forall n a n1 b n2, ran n a n1 -> ran n1 b n2 -> ran n (a ++ b) n2.
Proof.
  intros n a n1 b n2 (A1 & A2 & A3) (B1 & B2 & B3). split; [eapply nq_trans; eauto|]. split.
  - rewrite B2, A2, rev_app_distr, app_assoc. auto.
  - intros y. rewrite B3, A3, omem_app. destruct (omem y a), (omem y b); auto.
Qed.
Lemma ran_one : forall n x, ran n [x] (add_trace (set_fresh n x false) x).
Proof.
  intros n x. split; [repeat split|]. split; auto. intros y. simpl. unfold upd. destruct (Nat.eqb y x); auto.
Qed.

(** The objects an object notifies. *)
Definition chain (t : struct) n (l : list oid) : list oid :=
  filter (fun y => negb (is_leaf t y)) (takewhile (updates n) l).

Lemma notify_up : forall t x l, up t x l -> forall f n, (length l <= f)%nat -> ntinv t n ->
  exists n', notify f t x true n = Ok n' /\ ran n (chain t n l) n'.
Proof.
  intros t x l H. induction H as [x Hp|x p l Hp Hup IH]; intros f n Hl Hn; (destruct f as [|f]; [simpl in Hl; lia|]);
    cbn [notify]; unfold chain; cbn [takewhile]; (destruct (updates n x) eqn:Eu; [|exists n; split; [auto | apply ran_nil]]);
    destruct Hn as [N1 N2].
  - rewrite N1, Hp. cbn [rfold]. cbn [takewhile filter]. destruct (is_leaf t x); cbn [negb].
    + exists n. split; auto. apply ran_nil.
    + eexists. split; [reflexivity|]. apply ran_one.
  - rewrite N1, Hp. cbn [rfold]. cbn [filter].
    destruct (is_leaf t x); cbn [negb].
    + destruct (IH f n) as (n' & E & R); [simpl in Hl; lia | split; auto|]. rewrite E. exists n'. split; auto.
    + destruct (IH f (add_trace (set_fresh n x false) x)) as (n' & E & R); [simpl in Hl; lia | split; auto|]. rewrite E. exists n'. split; auto.
      apply (ran_app n [x] _ (chain t (add_trace (set_fresh n x false) x) l) n' (ran_one n x) R).
Qed.
Lemma notify_self : forall t x f n, (0 < f)%nat -> exists n', notify f t x false n = Ok n' /\ ran n (chain t n [x]) n'.
Proof.
  intros t x f n Hf. destruct f as [|f]; [lia|]. cbn [notify]. unfold chain. cbn [takewhile]. destruct (updates n x); [|exists n; split; [auto | apply ran_nil]].
  cbn [takewhile filter]. destruct (is_leaf t x); cbn [negb]; eexists; (split; [reflexivity|]); [apply ran_nil | apply ran_one].
Qed.

(** The objects below that are updated, children first; [fx]: fixed. *)
Fixpoint post (fx : oid -> bool) (tr : tree) : list oid :=
  match tr with T x ts => concat (map (fun c => if fx (root c) then [] else post fx c) ts) ++ [x] end.
Definition inner (fx : oid -> bool) (tr : tree) : list oid :=
  match tr with T x ts => concat (map (fun c => if fx (root c) then [] else post fx c) ts) end.
Definition active (t : struct) n (y : oid) : bool := updates n y && negb (is_leaf t y).

Lemma ran_upd : forall n l n', ran n l n' -> updates n' = updates n.
Proof. intros n l n' ((_ & H & _) & _). auto. Qed.
Lemma chain_one : forall t n x, chain t n [x] = filter (active t n) [x].
Proof. intros. unfold chain, active. simpl. destruct (updates n x); simpl; auto. Qed.

Lemma trigger_spec : forall fx f t i tr n, swf t -> ioinv t i ->
  (forall y, (y < next t)%nat -> exists b, is_fixed (fuel t) t i y = Ok b /\ fx y = b) ->
  krep t tr -> (height tr <= f)%nat -> (root tr < next t)%nat -> ntinv t n ->
  (exists n', trigger_params f t i (root tr) false n = Ok n' /\ ran n (filter (active t n) (post fx tr)) n') /\
  (exists n' l, up t (root tr) l /\ trigger_params f t i (root tr) true n = Ok n' /\ ran n (filter (active t n) (inner fx tr) ++ chain t n l) n').
Proof.
  intros fx. induction f as [|f IH]; intros t i [x ts] n W I Hfx K Hh Hx N; [simpl in Hh; lia|].
  assert (Hc : forall c, In c ts -> krep t c /\ (height c <= f)%nat /\ (root c < next t)%nat).
  { intros c Hc. split; [eapply krep_child; eauto|]. split.
    - simpl in Hh. assert (height c <= fold_right Nat.max 0 (map height ts))%nat; [|lia].
      clear - Hc. induction ts as [|d l IHl]; [contradiction|]. simpl. destruct Hc as [->|Hc]; [lia | specialize (IHl Hc); lia].
    - assert (Hk : In (root c) (kids t x)) by (rewrite (krep_kids _ _ _ K); apply in_map; auto).
      apply In_nth_error in Hk as [q Hq]. exact (below_lt t x (root c) _ _ W (below_one t x q _ Hq) Hx). }
  set (g := fun p n0 => rbind (is_fixed (fuel t) t i p) (fun b : bool => if b then Ok n0 else trigger_params f t i p false n0)).
  assert (G : forall l n0, incl l ts -> ntinv t n0 -> updates n0 = updates n ->
    exists n', rfold g (map root l) n0 = Ok n' /\ ran n0 (filter (active t n) (concat (map (fun c => if fx (root c) then [] else post fx c) l))) n').
  { induction l as [|c l IHl]; intros n0 Hin Hn0 Hu; [exists n0; split; [auto | apply ran_nil]|].
    cbn [map rfold concat]. destruct (Hc c) as (Kc & Hhc & Hxc); [apply Hin; left; auto|].
    destruct (Hfx (root c) Hxc) as [b [Eb Efx]]. unfold g at 1. rewrite Eb. cbn [rbind]. rewrite Efx.
    assert (A : exists n1, (if b then Ok n0 else trigger_params f t i (root c) false n0) = Ok n1 /\
       ran n0 (filter (active t n) (if b then [] else post fx c)) n1).
    { destruct b; [exists n0; split; [auto | apply ran_nil]|].
      destruct (IH t i c n0 W I Hfx Kc Hhc Hxc Hn0) as [[n1 [E1 R1]] _]. exists n1. split; auto.
      assert (Ea : active t n0 = active t n) by (unfold active; rewrite Hu; auto). rewrite Ea in R1. auto. }
    destruct A as (n1 & E1 & R1). rewrite E1. cbn [rbind].
    destruct (IHl n1) as (n2 & E2 & R2).
    { intros d Hd. apply Hin. right; auto. }
    { eapply nq_ntinv; [apply R1 | auto]. }
    { rewrite (ran_upd _ _ _ R1). auto. }
    exists n2. split; auto. rewrite filter_app. eapply ran_app; eauto. }
  destruct (G ts n (incl_refl _) N eq_refl) as (n1 & E1 & R1).
  assert (N1 : ntinv t n1) by (eapply nq_ntinv; [apply R1 | auto]).
  assert (Hu1 : updates n1 = updates n) by (eapply ran_upd; eauto).
  split.
  - cbn [trigger_params root]. rewrite (krep_kids _ _ _ K). fold g. rewrite E1. cbn [rbind].
    destruct (notify_self t x (fuel t) n1) as (n2 & E2 & R2); [unfold fuel; lia|]. exists n2. split; auto.
    cbn [post]. rewrite filter_app. eapply ran_app; eauto. rewrite chain_one in R2. unfold active in *. rewrite Hu1 in R2. auto.
  - cbn [trigger_params root inner]. rewrite (krep_kids _ _ _ K). fold g. rewrite E1. cbn [rbind].
    destruct (wf_up t W x) as [l Hl]. destruct (notify_up t x l Hl (fuel t) n1 (up_length _ _ _ W Hl) N1) as (n2 & E2 & R2).
    exists n2, l. split; auto. split; auto. eapply ran_app; eauto. unfold chain in *. rewrite Hu1 in R2. auto.
Qed.

Lemma fixed_fun : forall t i, swf t -> ioinv t i -> exists fx : oid -> bool,
  (forall y, (y < next t)%nat -> is_fixed (fuel t) t i y = Ok (fx y)) /\ (forall y, (y < next t)%nat -> (fx y = true <-> all_fixed t i y)).
Proof.
  intros t i W I. exists (fun y => match is_fixed (fuel t) t i y with Ok b => b | Er _ => false end).
  split; intros y Hy; destruct (is_fixed_ok t i y W I Hy) as [b [E H]]; rewrite E; auto.
Qed.

Lemma trigger_ok : forall t i x n, swf t -> ioinv t i -> (x < next t)%nat -> ntinv t n -> forall up_,
  exists n' l, trigger_update t i x up_ n = Ok n' /\ ran n l n'.
Proof.
  intros t i x n W I Hx N up_. unfold trigger_update. destruct (updates n x && negb (in_init t x)); [|exists n, []; split; [auto | apply ran_nil]].
  destruct (fixed_fun t i W I) as [fx [F1 F2]]. destruct (tree_exists t W x) as [tr [E [R Nd]]].
  destruct (trigger_spec fx (fuel t) t i tr n W I) as [[n1 [E1 R1]] [n2 [l [Hl [E2 R2]]]]]; auto.
  { intros y Hy. exists (fx y). auto. }
  { apply rep_krep; auto. } { apply rep_new_height; auto. } { congruence. }
  rewrite E in *. destruct up_; eauto.
Qed.
End Nt.
