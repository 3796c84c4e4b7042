(** Proofs about copying, part 3: the old objects together with the copies. *)
From Coq Require Import List ZArith Bool Lia Arith.
From Verif Require Import NpModel NpProofs IndexOpsModel IndexOpsSpec IndexOpsProofs PzModel CopyModel PzSpec PzTree PzStruct PzLink PzWalk PzMem PzIo PzInv PzConn PzFix PzLinkMem PzPres PzUnlink PzTraverse PzNotify PzNew PzCmd PzInit CopyTree CopyDeep.
Import ListNotations.
Open Scope Z_scope.

Lemma iso_in : forall P t u b, iso P t u -> In b (oids u) -> exists a, In a (oids t) /\ P a b.
Proof.
  intros P t. induction t as [x ts IH] using tree_ind'. intros u b H Hb. inversion H as [x0 y ts0 us Hxy Hl]; subst.
  destruct Hb as [<-|Hb]; [exists x; split; [left|]; auto|]. apply in_concat in Hb as (l & Hl' & Hb). apply in_map_iff in Hl' as (d & <- & Hd).
  apply In_nth_error in Hd as [i Hi]. destruct (Forall2_nth _ _ _ _ _ _ _ Hl Hi) as (c & Hc & Hcd). apply nth_error_In in Hc.
  rewrite Forall_forall in IH. destruct (IH c Hc d b Hcd Hb) as (a & Ha & Hp). exists a. split; auto. eapply in_child; eauto.
Qed.

Section Join.
Context {V : Type}.
Implicit Types s : @state V.

(** Everything about the old objects and the new ones, before the copy is connected again. *)
Record joined s s2 (x : oid) (tr tr' : tree) : Prop := mkJoined {
  jn_next : (next (st s) < next (st s2))%nat;
  jn_old : forall z, (z < next (st s))%nat -> kind (st s2) z = kind (st s) z /\ par (st s2) z = par (st s) z /\ pidx (st s2) z = pidx (st s) z /\
    kids (st s2) z = kids (st s) z /\ size (st s2) z = size (st s) z /\ in_init (st s2) z = in_init (st s) z /\ inited (st s2) z = inited (st s) z;
  jn_has : forall z p j, (z < next (st s))%nat -> (has s2 z p j <-> has s z p j);
  jn_val : forall z j, (z < next (st s))%nat -> value s2 z j = value s z j;
  jn_upd : forall z, (z < next (st s))%nat -> updates (nt s2) z = updates (nt s) z;
  jn_par : par (st s2) (next (st s)) = None;
  jn_ids : forall z, In z (oids tr') <-> (next (st s) <= z < next (st s2))%nat;
  jn_root : root tr' = next (st s);
  jn_rep : rep (st s2) tr';
  jn_nd : NoDup (oids tr');
  jn_iso : iso (alike s s2) tr tr';
  jn_init : forall z, In z (oids tr') -> kind (st s2) z = KNode -> inited (st s2) z = Some true;
  jn_top : forall p j, has s2 (next (st s)) p j <-> has s x p j;
  jn_disj : disj (st s) (mem s) -> disj (st s2) (mem s2);
  jn_trace : exists l, trace (nt s2) = l ++ trace (nt s) /\ (forall z, In z l -> (next (st s) <= z < next (st s2))%nat) /\
    forall z, (next (st s) <= z < next (st s2))%nat -> kind (st s2) z = KNode -> In z l }.

Lemma join_inv : forall s s1 x tr tr', Inv s -> (x < next (st s))%nat -> root tr = x -> rep (st s) tr -> in_init (st s) x = false ->
  (is_leaf (st s) x = true -> forall j, ~ has s x Fixed j) -> copied_tree s s s1 x None tr tr' ->
  let s2 := with_st s1 (set_pidx (st s1) (next (st s)) None) in Inv s2 /\ joined s s2 x tr tr'.
Proof.
  intros s s1 x tr tr' Hinv Hx Er Rtr Hin Hfx [E Bd Md Pr _ Lt Ti] s2. pose proof Hinv as [W I F M N J].
  set (y := next (st s)) in *. set (t := st s). set (t2 := st s2).
  pose proof (md_ids _ _ _ _ _ _ Md) as Ids. pose proof (md_nd _ _ _ _ _ _ Md) as Nd. pose proof (md_root _ _ _ _ _ _ Md) as Rt.
  assert (N2 : next t2 = next (st s1)) by reflexivity.
  assert (Hxl : forall z, outside s s1 z -> kind t2 z = kind t z /\ par t2 z = par t z /\ pidx t2 z = pidx t z /\ kids t2 z = kids t z /\
     size t2 z = size t z /\ in_init t2 z = in_init t z /\ inited t2 z = inited t z).
  { intros z Hz. destruct (ex_st _ _ E z Hz) as (q1 & q2 & q3 & q4 & q5 & q6 & q7). cbn. rewrite upd_ne by (unfold outside in Hz; fold y in Hz; lia). auto 10. }
  assert (Hnw : forall z, kind t2 z = kind (st s1) z /\ par t2 z = par (st s1) z /\ kids t2 z = kids (st s1) z /\
     size t2 z = size (st s1) z /\ in_init t2 z = in_init (st s1) z /\ inited t2 z = inited (st s1) z) by (intros z; cbn; auto 10).
  assert (Cls : forall z, outside s s1 z \/ In z (oids tr')) by (intros z; rewrite Ids; unfold outside; fold y; lia).
  assert (R2 : rep t2 tr').
  { apply (rep_frame (st s1)); [apply (md_rep _ _ _ _ _ _ Md) | auto | | auto]. intros z Hz Hne. rewrite Rt in Hne. split; auto. cbn. apply upd_ne; auto. }
  pose proof (rep_krep _ _ R2) as K2.
  assert (Ab : forall z, In z (oids tr') <-> above t2 y z) by (intros z; rewrite (koids_below t2 tr' z K2), Rt; tauto).
  assert (Oldk : forall a c, outside s s1 a -> In c (kids t a) -> (a < y)%nat /\ (c < y)%nat).
  { intros a c _ Hc. apply (kid_lt t a c W) in Hc. auto. }
  assert (Newk : forall a c, In a (oids tr') -> In c (kids t2 a) -> In c (oids tr') /\ par t2 c = Some a /\ (a < c)%nat).
  { intros a c Ha Hc. assert (Hca : In c (oids tr')) by (apply Ab; eapply above_trans; [apply Ab; eauto | apply above_kid; auto]).
    split; auto. split; [|apply (md_rank _ _ _ _ _ _ Md a); auto].
    assert (G : forall tt, rep t2 tt -> In a (oids tt) -> par t2 c = Some a).
    { intros tt. induction tt as [a' ts IH] using tree_ind'. intros Rr [Ea|Ha'].
      - subst a'. inversion Rr as [? ? Q1 Q2 Q3]. rewrite Q1 in Hc. apply in_map_iff in Hc as (d & <- & Hd).
        apply In_nth_error in Hd as [i Hi]. apply (Q2 _ _ Hi).
      - inversion Rr as [? ? Q1 Q2 Q3]. apply in_concat in Ha' as (l & Hl & Ha'). apply in_map_iff in Hl as (d & <- & Hd).
        rewrite Forall_forall in IH, Q3. apply (IH d Hd); auto. }
    apply (G tr'); auto. }
  assert (Pnew : forall c, In c (oids tr') -> c <> y -> exists a i, In a (oids tr') /\ nth_error (kids t2 a) i = Some c /\ par t2 c = Some a).
  { intros c Hc Hne. apply Ab in Hc as (o & n & B). apply below_last in B as [[Q _]|(a & i & o' & n' & B & Hi & _)]; [congruence|].
    assert (Ha : In a (oids tr')) by (apply Ab; exists o', n'; auto). exists a, i. split; auto. split; auto. apply (Newk a c Ha). eapply nth_error_In; eauto. }
  assert (Hy : In y (oids tr')) by (apply Ids; fold y; lia).
  assert (W2 : swf t2).
  { constructor.
    - destruct (PzTree.wf_rank t W) as [rk Hrk]. exists (fun z => if in_dec Nat.eq_dec z (oids tr') then (next (st s1) - z)%nat else rk z).
      intros a c Hc. destruct (Cls a) as [Ha|Ha].
      + destruct (Hxl a Ha) as (_ & _ & _ & q4 & _). rewrite q4 in Hc. destruct (Oldk a c Ha Hc).
        destruct (in_dec Nat.eq_dec a (oids tr')) as [Q|Q]; [apply Ids in Q; fold y in Q; lia|].
        destruct (in_dec Nat.eq_dec c (oids tr')) as [Q'|Q']; [apply Ids in Q'; fold y in Q'; lia|]. auto.
      + destruct (Newk a c Ha Hc) as (Q1 & Q2 & Q3). destruct (in_dec Nat.eq_dec a (oids tr')); [|contradiction]. destruct (in_dec Nat.eq_dec c (oids tr')); [|contradiction].
        apply Ids in Q1. lia.
    - intros a c. split.
      + intros Hc. destruct (Cls a) as [Ha|Ha]; [|apply (Newk a c); auto]. destruct (Hxl a Ha) as (_ & _ & _ & q4 & _). rewrite q4 in Hc.
        destruct (Oldk a c Ha Hc) as [_ Q]. destruct (Hxl c (or_introl Q)) as (_ & -> & _). apply (PzTree.wf_par t W); auto.
      + intros Hp. destruct (Cls c) as [Hc|Hc].
        * destruct (Hxl c Hc) as (_ & q2 & _). rewrite q2 in Hp. apply (PzTree.wf_par t W) in Hp. destruct (kid_lt t a c W Hp) as [Q _].
          destruct (Hxl a (or_introl Q)) as (_ & _ & _ & -> & _). auto.
        * destruct (Nat.eq_dec c y) as [->|Hne]; [destruct (Hnw y) as (_ & Q & _); congruence|].
          destruct (Pnew c Hc Hne) as (a' & i & Ha' & Hi & Hp'). assert (a' = a) by congruence. subst a'. eapply nth_error_In; eauto.
    - intros a i c Hi. assert (Hc : In c (kids t2 a)) by (eapply nth_error_In; eauto). destruct (Cls a) as [Ha|Ha].
      + destruct (Hxl a Ha) as (_ & _ & _ & q4 & _). rewrite q4 in Hi, Hc. destruct (Oldk a c Ha Hc) as [_ Q]. destruct (Hxl c (or_introl Q)) as (_ & _ & -> & _).
        apply (PzTree.wf_pidx t W a); auto.
      + assert (G : forall tt, rep t2 tt -> In a (oids tt) -> pidx t2 c = Some (Z.of_nat i)).
        { intros tt. induction tt as [a' ts IH] using tree_ind'. intros Rr [Ea|Ha'].
          - subst a'. inversion Rr as [? ? Q1 Q2 Q3]. rewrite Q1 in Hi. rewrite nth_error_map in Hi. destruct (nth_error ts i) as [d|] eqn:Ei; [|discriminate].
            inversion Hi; subst c. apply (Q2 _ _ Ei).
          - inversion Rr as [? ? Q1 Q2 Q3]. apply in_concat in Ha' as (l & Hl & Ha'). apply in_map_iff in Hl as (d & <- & Hd).
            rewrite Forall_forall in IH, Q3. apply (IH d Hd); auto. }
        apply (G tr'); auto.
    - intros c Hp. destruct (Cls c) as [Hc|Hc].
      + destruct (Hxl c Hc) as (_ & q2 & -> & _). rewrite q2 in Hp. apply (PzTree.wf_root t W); auto.
      + destruct (Nat.eq_dec c y) as [->|Hne]; [cbn; apply upd_eq|]. destruct (Pnew c Hc Hne) as (a' & i & _ & _ & Q). congruence.
    - intros c n Hk. destruct (Cls c) as [Hc|Hc].
      + destruct (Hxl c Hc) as (q1 & _ & _ & -> & -> & _). rewrite q1 in Hk. apply (PzTree.wf_leaf t W); auto.
      + pose proof (md_node _ _ _ _ _ _ Md c Hc) as Q. unfold node_ok in Q. destruct (Hnw c) as (q1 & _ & -> & -> & _). rewrite q1 in Hk. rewrite Hk in Q. auto.
    - intros c Hk. destruct (Cls c) as [Hc|Hc].
      + destruct (Hxl c Hc) as (q1 & _ & _ & -> & -> & _). rewrite q1 in Hk. rewrite (PzTree.wf_node t W c Hk). apply sum_sizes_ext.
        intros d Hd. symmetry. apply Hxl. left. apply (Oldk c d Hc Hd).
      + pose proof (md_node _ _ _ _ _ _ Md c Hc) as Q. unfold node_ok in Q. destruct (Hnw c) as (q1 & _ & -> & -> & _). rewrite q1 in Hk. rewrite Hk in Q. rewrite Q.
        apply sum_sizes_ext. intros d Hd. symmetry. apply Hnw.
    - intros z Hz. rewrite N2 in Hz. destruct (Hxl z (or_intror Hz)) as (-> & -> & _ & -> & _ & _ & ->). apply (PzTree.wf_new t W). fold y in Lt. unfold t. fold y. lia. }
  assert (Bo : forall a b o n, (a < y)%nat -> below t2 a b o n -> below t a b o n /\ (b < y)%nat).
  { intros a b o n Ha B. induction B as [a|a i c b o n Hi B IH]; [split; [constructor | auto]|].
    destruct (Hxl a (or_introl Ha)) as (_ & _ & _ & q4 & _). rewrite q4 in Hi. assert (Hc : In c (kids t a)) by (eapply nth_error_In; eauto).
    destruct (Oldk a c (or_introl Ha) Hc) as [_ Q]. destruct (IH Q) as [B1 B2]. split; auto. rewrite q4.
    replace (sum_sizes t2 (firstn i (kids t a))) with (sum_sizes t (firstn i (kids t a))); [econstructor; eauto|].
    apply sum_sizes_ext. intros d Hd. symmetry. apply Hxl. left. apply (Oldk a d (or_introl Ha)). eapply firstn_In; eauto. }
  assert (Bo' : forall a b o n, (a < y)%nat -> below t a b o n -> below t2 a b o n).
  { intros a b o n Ha B. induction B as [a|a i c b o n Hi B IH]; [constructor|].
    assert (Hc : In c (kids t a)) by (eapply nth_error_In; eauto). destruct (Oldk a c (or_introl Ha) Hc) as [_ Q].
    destruct (Hxl a (or_introl Ha)) as (_ & _ & _ & q4 & _).
    replace (sum_sizes t (firstn i (kids t a))) with (sum_sizes t2 (firstn i (kids t2 a))); [econstructor; [rewrite q4|]; eauto|].
    rewrite q4. apply sum_sizes_ext. intros d Hd. apply Hxl. left. apply (Oldk a d (or_introl Ha)). eapply firstn_In; eauto. }
  assert (Root2 : forall r, (r < next t2)%nat -> par t2 r = None -> ((r < y)%nat /\ par t r = None) \/ r = y).
  { intros r Hr Hp. destruct (Cls r) as [Q|Q].
    - left. destruct (Hxl r Q) as (_ & q2 & _). rewrite q2 in Hp. split; auto. destruct Q as [Q|Q]; auto. rewrite N2 in Hr. lia.
    - right. destruct (Nat.eq_dec r y) as [|Hne]; auto. destruct (Pnew r Q Hne) as (a' & i & _ & _ & Q'). congruence. }
  destruct (ti_rid _ _ _ _ _ Ti) as (r0 & Iy & Hr0 & Wd & Ld & Vw).
  assert (Iold : forall z, (z < y)%nat -> iop (ios s1) z = iop (ios s) z) by (intros z Hz; apply (ex_iop _ _ E); left; auto).
  assert (Dold : forall z, (z < y)%nat -> dicts (ios s1) (fst (iop (ios s) z)) = dicts (ios s) (fst (iop (ios s) z))).
  { intros z Hz. apply (ex_dicts _ _ E). destruct (root_exists t z W) as (q & a & c & _ & Hq & B).
    assert (Hqt : (q < next t)%nat) by (eapply root_lt; eauto).
    destruct (Nat.eq_dec z q) as [Q|Q]; [subst q; apply (io_rid _ _ I); auto|].
    rewrite (io_view _ _ I q z a c Hqt Hq B Q). apply (io_rid _ _ I q); auto. }
  assert (Hold : forall z p j, (z < y)%nat -> (hasi (ios s1) z p j <-> hasi (ios s) z p j)).
  { intros z p j Hz. unfold hasi. rewrite Iold, Dold by auto. tauto. }
  assert (Htop : forall p j, hasi (ios s1) y p j <-> hasi (ios s) x p j).
  { intros p j. rewrite <- Ld. unfold hasi. rewrite carries_lk, Iy. cbn. rewrite Z.add_0_r. tauto. }
  assert (Al : alike s s1 x y) by (pose proof (iso_root _ _ _ (md_iso _ _ _ _ _ _ Md)) as Q; rewrite Er, Rt in Q; exact Q).
  destruct Al as (l1 & l2 & l3 & l4 & l5).
  assert (B21 : forall a b o n, below t2 a b o n -> below (st s1) a b o n).
  { intros a b o n B. induction B as [|a i c b o n Hi B IH]; [constructor|]. destruct (Hnw a) as (_ & _ & q4 & _).
    rewrite q4 in *. replace (sum_sizes t2 (firstn i (kids (st s1) a))) with (sum_sizes (st s1) (firstn i (kids (st s1) a))); [econstructor; eauto|].
    apply sum_sizes_ext. intros d Hd. symmetry. apply Hnw. }
  assert (I2 : ioinv t2 (ios s1)).
  { constructor.
    - intros r Hr Hp. destruct (Root2 r Hr Hp) as [[Q1 Q2]| ->]; [rewrite Iold by auto; apply (io_root _ _ I); auto | rewrite Iy; auto].
    - intros r Hr Hp. unfold rid. destruct (Root2 r Hr Hp) as [[Q1 Q2]| ->]; [rewrite Iold by auto; pose proof (io_rid _ _ I r Q1 Q2); pose proof (ex_nrid _ _ E); unfold rid in *; lia | rewrite Iy; cbn; lia].
    - intros r q Hr Hp Hq Hpq. unfold rid. destruct (Root2 r Hr Hp) as [[Q1 Q2]| ->]; destruct (Root2 q Hq Hpq) as [[Q3 Q4]| ->]; auto.
      + rewrite !Iold by auto. apply (io_inj _ _ I); auto.
      + rewrite (Iold r Q1), Iy. pose proof (io_rid _ _ I r Q1 Q2). unfold rid in *. cbn. lia.
      + rewrite (Iold q Q3), Iy. pose proof (io_rid _ _ I q Q3 Q4). unfold rid in *. cbn. lia.
    - intros r z o n Hr Hp B Hne. unfold rid. destruct (Root2 r Hr Hp) as [[Q1 Q2]| ->].
      + destruct (Bo r z o n Q1 B) as [B1 B2]. rewrite !Iold by auto. destruct (Hxl z (or_introl B2)) as (_ & _ & _ & _ & -> & _). apply (io_view _ _ I r z o n); auto.
      + rewrite Iy. cbn [fst]. destruct (Hnw z) as (_ & _ & _ & -> & _). apply (Vw z o n); auto.
    - intros r Hr Hp. destruct (Root2 r Hr Hp) as [[Q1 Q2]| ->].
      + unfold dof, rid. rewrite Iold, Dold by auto. destruct (Hxl r (or_introl Q1)) as (_ & _ & _ & _ & -> & _). apply (io_dict _ _ I r); auto.
      + unfold dof, rid. rewrite Iy. cbn [fst]. split; auto. intros p j Hj. apply Ld in Hj. destruct (Hnw y) as (_ & _ & _ & -> & _). rewrite l2.
        eapply (hasi_range (st s)); eauto. }
  assert (Arro : forall z, outside s s1 z -> arr (mem s1) z = arr (mem s) z) by (intros z Hz; apply (ex_arr _ _ E z Hz)).
  destruct (md_al _ _ _ _ _ _ Md) as (ba & oa & Hba & Aly).
  assert (Aly2 : al t2 (mem s1) y ba oa).
  { intros z k n B Hp. destruct (Hnw z) as (_ & _ & _ & q5 & _). rewrite q5 in *. apply (Aly z k n); auto. }
  assert (M2 : meminv t2 (mem s1)).
  { constructor.
    - exact Bd.
    - intros z Hz Hk Hi. destruct (Cls z) as [Hc|Hc].
      + rewrite Arro by auto. destruct (Hxl z Hc) as (q1 & _ & _ & _ & _ & _ & q7). rewrite q1 in Hk. rewrite q7 in Hi. apply (mm_none _ _ M); auto.
        destruct Hc as [Hc|Hc]; auto. rewrite N2 in Hz. lia.
      + exfalso. apply Hi. apply (md_init _ _ _ _ _ _ Md); auto.
    - intros z b o n Hz Ea. destruct (Cls z) as [Hc|Hc].
      + rewrite Arro in Ea by auto. destruct (Hxl z Hc) as (-> & _ & _ & -> & -> & _). eapply (mm_size _ _ M); eauto. destruct Hc as [Hc|Hc]; auto. rewrite N2 in Hz. lia.
      + pose proof (md_arr _ _ _ _ _ _ Md z Hc) as Q. rewrite Ea in Q. left. exact Q.
    - intros z Hz Hl. destruct (Cls z) as [Hc|Hc].
      + rewrite Arro by auto. destruct (Hxl z Hc) as (q1 & _). apply (mm_leaf _ _ M); [destruct Hc as [Hc|Hc]; auto; rewrite N2 in Hz; lia|]. unfold is_leaf in *. unfold t in q1. rewrite <- q1. auto.
      + pose proof (md_arr _ _ _ _ _ _ Md z Hc) as Q. intros Ea. rewrite Ea in Q. unfold is_leaf in Hl. destruct (Hnw z) as (q1 & _). rewrite q1 in Hl. destruct Q as [Q _]. rewrite Q in Hl. discriminate.
    - intros z Hz. destruct (Cls z) as [Hc|Hc].
      + destruct (Hxl z Hc) as (_ & _ & _ & _ & _ & _ & q7). rewrite q7 in Hz. destruct Hc as [Hc|Hc].
        * destruct (mm_al _ _ M z Hz) as (b & o & Q). exists b, o. intros z' k n B Hp. destruct (Bo z z' k n Hc B) as [B1 B2].
          destruct (Hxl z' (or_introl B2)) as (_ & _ & _ & _ & q5 & _). rewrite q5 in *. rewrite Arro by (left; auto). apply (Q z' k n); auto.
        * exfalso. destruct (PzTree.wf_new t W z) as (_ & _ & _ & Q); [unfold t; fold y; lia|]. unfold t in *. congruence.
      + apply Ab in Hc as (k & n & B). exists ba, (oa + k). eapply al_sub; eauto. }
  assert (N2' : ntinv t2 (nt s1)).
  { split; intros z; destruct (Cls z) as [Hc|Hc].
    - destruct (ex_nt _ _ E z Hc) as (q1 & _). destruct (Hxl z Hc) as (_ & -> & _). rewrite q1. apply N.
    - apply (md_nt _ _ _ _ _ _ Md z Hc).
    - destruct (ex_nt _ _ E z Hc) as (_ & _ & q3 & _). rewrite q3. apply N.
    - apply (md_nt _ _ _ _ _ _ Md z Hc). }
  assert (Hal : forall b, In b (oids tr') -> exists a, In a (oids tr) /\ alike s s1 a b) by (intros b Hb; apply (iso_in _ _ _ _ (md_iso _ _ _ _ _ _ Md) Hb)).
  assert (Ini : forall b, In b (oids tr') -> in_init t2 b = false).
  { intros b Hb. destruct (Hal b Hb) as (a & Ha & _ & _ & Q & _). destruct (Hnw b) as (_ & _ & _ & _ & -> & _). rewrite Q. clear Q.
    destruct (Nat.eq_dec a x) as [->|Hne]; auto. destruct (in_init (st s) a) eqn:Ei; auto. exfalso.
    destruct (ii_in _ J a Ei) as [Q _]. apply (koids_below (st s)) in Ha as (o & n & B); [|apply rep_krep; auto]. rewrite Er in B.
    apply below_last in B as [[Q' _]|(p & i & o' & n' & B & Hi & _)]; [congruence|]. apply nth_error_In in Hi. apply (PzTree.wf_par (st s) W) in Hi. congruence. }
  assert (J2 : initinv t2).
  { constructor.
    - intros z Hz. destruct (Cls z) as [Hc|Hc]; [|apply Ini; auto]. destruct (Hxl z Hc) as (q1 & _ & _ & _ & _ & -> & _). apply (ii_leaf _ J). unfold is_leaf in *. unfold t in q1. rewrite <- q1. auto.
    - intros z Hz Hk Hi. destruct (Cls z) as [Hc|Hc]; [|destruct (Hnw z) as (_ & _ & _ & _ & _ & ->); rewrite (md_init _ _ _ _ _ _ Md z Hc); [discriminate | auto]].
      destruct (Hxl z Hc) as (q1 & _ & _ & _ & _ & q6 & ->). apply (ii_node _ J); [destruct Hc as [Hc|Hc]; auto; rewrite N2 in Hz; lia | |]; unfold t in *; congruence.
    - intros z Hz. destruct (Cls z) as [Hc|Hc]; [|rewrite Ini in Hz by auto; discriminate].
      destruct (Hxl z Hc) as (_ & -> & _ & _ & _ & q6 & ->). apply (ii_in _ J). unfold t in *. congruence.
    - intros a b Ha Hab Hk. destruct (Cls a) as [Hc|Hc].
      + destruct (Hxl a Hc) as (_ & _ & _ & _ & _ & _ & q7). rewrite q7 in Ha. destruct Hc as [Hc|Hc].
        * destruct Hab as (o & n & B). destruct (Bo a b o n Hc B) as [B1 B2]. destruct (Hxl b (or_introl B2)) as (q1 & _ & _ & _ & _ & _ & ->).
          apply (ii_down _ J a b); auto; [exists o, n; auto | unfold t in *; congruence].
        * exfalso. destruct (PzTree.wf_new t W a) as (_ & _ & _ & Q); [unfold t; fold y; lia|]. unfold t in *. congruence.
      + destruct (Hnw b) as (q1 & _ & _ & _ & _ & ->). rewrite q1 in Hk. apply (md_init _ _ _ _ _ _ Md); auto. apply Ab. eapply above_trans; [apply Ab; eauto | auto]. }
  assert (F2 : fixinv t2 (ios s1) (fix_ s1)).
  { intros r Hr Hp Hl. destruct (Root2 r Hr Hp) as [[Q1 Q2]| ->].
    - destruct (Hxl r (or_introl Q1)) as (q1 & _ & _ & _ & q5 & _ & q7). apply (mask_ok_ext t (ios s) (fix_ s)); auto.
      + apply (ex_fix _ _ E). left. auto.
      + apply F; auto. unfold is_leaf, t in *. rewrite q1, q7 in Hl. auto.
    - destruct (is_leaf (st s) x) eqn:Lx.
      + unfold mask_ok. rewrite (ti_fixl _ _ _ _ _ Ti Lx). intros j Hj. apply Htop in Hj. apply (Hfx eq_refl j). exact Hj.
      + apply (mask_ok_ext (st s1) (ios s1) (fix_ s1)); auto; [tauto | apply (ti_fix _ _ _ _ _ Ti Lx)]. }
  split; [constructor; auto|].
  constructor.
  - exact Lt.
  - intros z Hz. apply Hxl. left. auto.
  - intros z p j Hz. apply Hold; auto.
  - intros z j Hz. change (value s1 z j = value s z j). apply ext_value; auto. apply (mm_bnd _ _ M).
  - intros z Hz. apply (ex_nt _ _ E z (or_introl Hz)).
  - exact Pr.
  - exact Ids.
  - exact Rt.
  - exact R2.
  - exact Nd.
  - eapply iso_mono; [apply (md_iso _ _ _ _ _ _ Md)|]. intros a b _ _ (a1 & a2 & a3 & a4 & a5).
    split; auto.
  - intros z Hz. apply (md_init _ _ _ _ _ _ Md); auto.
  - exact Htop.
  - intros D a b b' o1 o2 La Lb Hne Ea Eb Pa Pb. cbn [s2 with_st st mem] in *. fold t2 in La, Lb, Ea, Eb, Pa, Pb |- *.
    assert (Ok2 : forall z, above t2 y z -> node_ok t2 z /\ 0 <= size t2 z) by (intros z _; split; [apply wf_node_ok; auto | apply size_nonneg; auto]).
    destruct (Cls a) as [Ha|Ha]; destruct (Cls b) as [Hb|Hb].
    + rewrite Arro in Ea, Eb by auto. destruct (Hxl a Ha) as (qa1 & _ & _ & _ & qa5 & _). destruct (Hxl b Hb) as (qb1 & _ & _ & _ & qb5 & _).
      unfold is_leaf in La, Lb. rewrite qa1 in La. rewrite qb1 in Lb. rewrite qa5, qb5 in *. apply (D a b b'); auto.
    + exfalso. rewrite Arro in Ea by auto. apply (mm_bnd _ _ M) in Ea. apply Ab in Hb as (k & n & B). rewrite (Aly2 b k n B Pb) in Eb. inversion Eb; subst. lia.
    + exfalso. rewrite Arro in Eb by auto. apply (mm_bnd _ _ M) in Eb. apply Ab in Ha as (k & n & B). rewrite (Aly2 a k n B Pa) in Ea. inversion Ea; subst. lia.
    + apply Ab in Ha as (ka & na & Ba). apply Ab in Hb as (kb & nb & Bb). rewrite (Aly2 a ka na Ba Pa) in Ea. rewrite (Aly2 b kb nb Bb Pb) in Eb. inversion Ea; inversion Eb; subst.
      destruct (below_disjoint t2 y a b ka kb na nb Ok2 Ba Bb) as [Q|Q]; try lia.
      * intros Q. apply Hne. apply (kids_nil_above t2); auto. apply leaf_kids; auto.
      * intros Q. apply Hne. symmetry. apply (kids_nil_above t2); auto. apply leaf_kids; auto.
  - destruct (ex_trace _ _ E) as (l & Q1 & Q2). exists l. split; auto. split; auto.
    intros z Hz Hk. apply (md_ids _ _ _ _ _ _ Md) in Hz. destruct (md_ran _ _ _ _ _ _ Md z Hz Hk) as (k & Ek & Ik).
    rewrite Ek in Q1. apply app_inv_tail in Q1. rewrite <- Q1. auto.
Qed.
End Join.
