(** Proofs about gradients, part 3: the properties. *)
From Coq Require Import List ZArith Bool Lia Arith.
From Verif Require Import NpModel NpProofs IndexOpsModel IndexOpsSpec IndexOpsProofs PzModel PzSpec PzTree PzStruct PzLink PzWalk PzMem PzIo PzInv PzConn PzFix PzLinkMem PzPres PzUnlink PzTraverse PzNotify PzNew PzCmd PzInit PzCons PzVal PzOpt PzRandom PzGet PzHist PzKeep PzOrder PzGrad GmModel GmSpec GmInd GmProofs.
Import ListNotations.
Open Scope Z_scope.

Section Final.
Context {V : Type}.
Implicit Types q : @gstate V.
Variables tinit tf tfinv : nat -> V -> V.
Variable tgrad : nat -> V -> V -> V.
Variables junk junk' : nat -> Z -> V.
Notation greachable := (greach tinit tf tfinv tgrad glegal junk junk').
Notation run := (gexec tinit tf tfinv tgrad).

Lemma reach_ginv : forall q, greachable q -> GInv q.
Proof. intros q R. eapply greach_inv; [|exact R]; auto. Qed.
Lemma careful_ginv : forall q, greach tinit tf tfinv tgrad gcareful junk junk' q -> GInv q.
Proof. intros q R. eapply greach_inv; [|exact R]. intros ? ? [Q _]; exact Q. Qed.

Lemma gradient_some : forall q x k, GInv q -> (x < next (st (base q)))%nat -> ready (st (base q)) x -> 0 <= k < size (st (base q)) x -> exists d, gradient q x k = Some d.
Proof. intros q x k [H O M] Hx Rx Hk. apply (value_some (twin (base q) (grd q)) x k (twin_inv _ _ H M) Hx Rx Hk). Qed.
Lemma one_gradient_g : forall q x y j k, GInv q -> (x < next (st (base q)))%nat -> (y < next (st (base q)))%nat ->
  ready (st (base q)) x -> ready (st (base q)) y -> same_elem (st (base q)) y j x k -> gradient q y j = gradient q x k.
Proof. intros q x y j k [H O M] Hx Hy Rx Ry Se. apply (one_copy (st (base q)) (grd q) x y j k); auto; apply H. Qed.

(** C90 *)
Lemma one_gradient_final : forall q x y j k, greachable q -> (x < next (st (base q)))%nat -> (y < next (st (base q)))%nat ->
  ready (st (base q)) x -> ready (st (base q)) y -> same_elem (st (base q)) y j x k ->
  gradient q y j = gradient q x k /\ exists d, gradient q x k = Some d.
Proof.
  intros q x y j k R Hx Hy Rx Ry Se. pose proof (reach_ginv q R) as G. split; [apply one_gradient_g; auto | apply gradient_some; auto; apply Se].
Qed.
Lemma set_final : forall q x f, greachable q -> (x < next (st (base q)))%nat -> ready (st (base q)) x ->
  is_leaf (st (base q)) x = true \/ 0 < size (st (base q)) x ->
  exists q', run (SetGradient x f) q = (q', None) /\ base q' = base q /\ gchanged q q' x f.
Proof.
  intros q x f R Hx Rx Hn. destruct (reach_ginv q R) as [H O M]. cbn [gexec].
  destruct (set_gradient (st (base q)) x f (grd q)) as [g' e] eqn:E. destruct (set_ok q x f g' e H M Hx Rx E) as (_ & _ & Q).
  destruct (Q Hn) as [-> C]. eexists. split; [reflexivity|]. auto.
Qed.
Lemma edit_final : forall q x f, greachable q -> (x < next (st (base q)))%nat -> ready (st (base q)) x ->
  exists q', run (EditGradient x f) q = (q', None) /\ base q' = base q /\ gchanged q q' x f.
Proof.
  intros q x f R Hx Rx. destruct (reach_ginv q R) as [H O M]. cbn [gexec]. eexists. split; [reflexivity|]. split; auto. apply (edit_ok q x f H M Hx Rx).
Qed.
Lemma gapart_final : forall q, greach tinit tf tfinv tgrad gcareful junk junk' q -> gapart q.
Proof. exact (greach_apart tinit tf tfinv tgrad junk junk'). Qed.

(** C91 *)
Lemma base_call : forall q c q' e, run (Call c) q = (q', e) -> exec tinit tf tfinv c (base q) = (base q', e) /\ grd q' = grd_after tinit tf tfinv c (base q) (grd q).
Proof. intros q c q' e E. cbn [gexec] in E. destruct (exec tinit tf tfinv c (base q)) as [s1 e1]. injection E as <- <-. auto. Qed.
Lemma twin_call : forall q c q' e, GInv q -> legal (base q) c -> structural c = true -> run (Call c) q = (q', e) ->
  exists t', exec tinit tf tfinv c (twin (base q) (grd q)) = (t', e) /\ st t' = st (base q').
Proof.
  intros q c q' e [H O M] L Hs E. apply base_call in E as [E _]. destruct (twin_run tinit tf tfinv (base q) (grd q) c (base q') e H O M L Hs E) as (t' & A & _ & B). eauto.
Qed.
Lemma unlink_final : forall q self param q', greachable q -> (self < next (st (base q)))%nat -> In param (kids (st (base q)) self) ->
  (forall r, top (st (base q)) r self -> in_init (st (base q)) r = false /\ inited (st (base q)) r = Some true) ->
  (exists n, depth (st (base q)) self n /\ (n <= 2)%nat) -> run (Call (Unlink self param)) q = (q', None) ->
  forall y j, (y < next (st (base q)))%nat -> is_leaf (st (base q)) y = true -> 0 <= j < size (st (base q)) y -> gradient q' y j = gradient q y j.
Proof.
  intros q self param q' R Hs Hk Hr Hd E y j Hy Hl Hj. pose proof (reach_ginv q R) as G. pose proof G as [H O M].
  assert (L : legal (base q) (Unlink self param)) by (split; auto; intros r Tr; apply Hr; auto).
  destruct (twin_call q (Unlink self param) q' None G L eq_refl E) as (t' & E' & Es).
  apply base_call in E as [_ Eg]. cbn [grd_after] in Eg. rewrite E' in Eg. cbn [fst] in Eg.
  change (gradient q y j) with (value (twin (base q) (grd q)) y j). unfold gradient. rewrite Eg. change (value t' y j = value (twin (base q) (grd q)) y j).
  eapply (unlink_values (twin (base q) (grd q)) self param t'); auto. apply twin_inv; auto.
Qed.
Lemma link_final : forall q self param index q', greachable q -> legal_link (base q) self param index -> groomy q self param ->
  (exists n, depth (st (base q)) self n /\ (n <= 1)%nat) -> ready (st (base q)) param ->
  (forall pp, par (st (base q)) param = Some pp -> (exists n, depth (st (base q)) pp n /\ (n <= 2)%nat) /\ forall r, top (st (base q)) r pp -> inited (st (base q)) r = Some true) ->
  run (Call (Link self param index)) q = (q', None) ->
  forall y j, (y < next (st (base q)))%nat -> is_leaf (st (base q)) y = true -> 0 <= j < size (st (base q)) y -> gradient q' y j = gradient q y j.
Proof.
  intros q self param index q' R Lk Ro Hd Rp Hpp E y j Hy Hl Hj. pose proof (reach_ginv q R) as G. pose proof G as [H O M].
  destruct (twin_call q (Link self param index) q' None G (or_introl Lk) eq_refl E) as (t' & E' & Es).
  apply base_call in E as [_ Eg]. cbn [grd_after] in Eg. rewrite E' in Eg. cbn [fst] in Eg.
  change (gradient q y j) with (value (twin (base q) (grd q)) y j). unfold gradient. rewrite Eg. change (value t' y j = value (twin (base q) (grd q)) y j).
  eapply (link_values (twin (base q) (grd q)) self param index t'); eauto; [apply twin_inv; auto|]. destruct Lk as [A1 A2 A3 A4 A5 A6 A7 A8]. constructor; auto.
Qed.

(** C92 *)
Lemma take_final : forall q x ks, greachable q -> (x < next (st (base q)))%nat -> ready (st (base q)) x -> par (st (base q)) x = None -> free (base q) x ks ->
  exists q' r, take_gradient tgrad x q = Ok (q', r) /\ base q' = base q /\ length (look q' r) = length ks /\
    (forall i k, nth_error ks i = Some k -> exists d w, gradient q x k = Some d /\ nth_error (look q' r) i = Some w /\ chain_rule tgrad (base q) x k d w) /\
    (exists F, (forall k d, 0 <= k < size (st (base q)) x -> chain_rule tgrad (base q) x k d (F k d)) /\ gchanged q q' x F).
Proof.
  intros q x ks R Hx Rx Hp Hks. pose proof (reach_ginv q R) as G. pose proof G as [H O M].
  destruct (take_ok tgrad q x ks H O M Hx Rx Hp Hks) as (q' & r & E & Eb & _ & _ & C & Ll & Ln & _). exists q', r. split; auto. split; auto. split; auto. split.
  - intros i k Hi. destruct (free_in (base q) x ks i k Hks Hi) as [Hk _]. destruct (gradient_some q x k G Hx Rx Hk) as [d Hd].
    exists d, (factor tgrad (base q) x k d). split; auto. rewrite (Ln i k Hi), Hd. split; auto. apply factor_ok; auto.
  - exists (factor tgrad (base q) x). split; auto. intros k d Hk. apply factor_ok; auto.
Qed.

(** Writing to a Param below [x] leaves the other Params below [x] alone, apart or not. *)
Lemma write_near : forall q x y z f j, GInv q -> (x < next (st (base q)))%nat -> ready (st (base q)) x ->
  part (st (base q)) x y -> part (st (base q)) x z -> is_leaf (st (base q)) y = true -> is_leaf (st (base q)) z = true -> y <> z ->
  0 <= j < size (st (base q)) z ->
  forall q', run (SetGradient y f) q = (q', None) -> gradient q' z j = gradient q z j.
Proof.
  intros q x y z f j [H O M] Hx Rx [oy [ny By]] [oz [nz Bz]] Ly Lz Hne Hj q' E. pose proof (inv_st _ H) as W.
  destruct (ready_al _ _ x W M Hx Rx) as (b & o & Ax). pose proof (Ax z oz nz Bz ltac:(lia)) as Az.
  cbn [gexec] in E. unfold set_gradient, gradient_array in E. rewrite Ly in E.
  assert (Hy : (y < next (st (base q)))%nat) by (eapply below_lt; eauto).
  destruct (leaf_valid _ _ y M Hy Ly) as (b' & o' & Ay). rewrite (pa_valid _ _ _ _ _ Ay) in E. apply pair_equal_spec in E as [<- _].
  unfold gradient, write_all. cbn [grd]. unfold write_arr. cbn [arr cell]. rewrite Az.
  destruct ((0 <=? j) && (j <? size (st (base q)) z)) eqn:Ej; auto. f_equal. unfold upd. destruct (Nat.eqb_spec b b') as [<-|]; auto.
  destruct ((o' <=? o + oz + j) && (o + oz + j <? o' + size (st (base q)) y)) eqn:Eo; auto. exfalso.
  apply andb_true_iff in Eo as [E1 E2]. apply Z.leb_le in E1. apply Z.ltb_lt in E2.
  pose proof (Ax y oy ny By ltac:(lia)) as Ay'. rewrite Ay in Ay'. injection Ay' as ->.
  destruct (below_disjoint (st (base q)) x y z oy oz ny nz); auto; try lia.
  - intros a _. split; [apply wf_node_ok; auto | apply size_nonneg; auto].
  - intros Q. apply Hne. apply (leaf_above (st (base q))); auto.
  - intros Q. apply Hne. symmetry. apply (leaf_above (st (base q))); auto.
Qed.
Lemma store_all_ok : forall x gs ys q, GInv q -> (x < next (st (base q)))%nat -> ready (st (base q)) x ->
  (forall y, In y ys -> part (st (base q)) x y /\ is_leaf (st (base q)) y = true) ->
  exists q', store_all tinit tf tfinv tgrad ys gs q = (q', None) /\ GInv q' /\ base q' = base q /\
    forall y j, part (st (base q)) x y -> is_leaf (st (base q)) y = true -> 0 <= j < size (st (base q)) y ->
      gradient q' y j = if in_dec Nat.eq_dec y ys then Some (gs y j) else gradient q y j.
Proof.
  intros x gs ys. induction ys as [|y ys IH]; intros q G Hx Rx Hys.
  - exists q. auto.
  - destruct (Hys y (or_introl eq_refl)) as [Py Ly]. pose proof G as [H O M].
    assert (Hy : (y < next (st (base q)))%nat) by (destruct Py as (o & n & B); eapply below_lt; eauto; apply H).
    assert (E1 : exists q1, run (SetGradient y (fun j _ => gs y j)) q = (q1, None) /\ base q1 = base q /\ gchanged q q1 y (fun j _ => gs y j) /\ GInv q1).
    { cbn [gexec]. destruct (set_gradient (st (base q)) y (fun j _ => gs y j) (grd q)) as [g' e] eqn:E.
      destruct (set_ok q y _ g' e H M Hy (or_introl Ly) E) as (M' & _ & Q). destruct (Q (or_introl Ly)) as [-> C].
      eexists. split; [reflexivity|]. split; auto. split; auto. constructor; auto. }
    destruct E1 as (q1 & E1 & Eb & C & G1). cbn [store_all]. rewrite E1.
    destruct (IH q1 G1) as (q2 & E2 & G2 & Eb2 & Q); [rewrite Eb; auto | rewrite Eb; auto | rewrite Eb; intros; apply Hys; right; auto |].
    exists q2. split; auto. split; auto. split; [congruence|]. intros z j Pz Lz Hj. rewrite Eb in Q. rewrite (Q z j Pz Lz Hj).
    destruct (in_dec Nat.eq_dec z ys) as [Hi|Hi].
    + destruct (in_dec Nat.eq_dec z (y :: ys)) as [|Q']; auto. exfalso. apply Q'. right; auto.
    + destruct (in_dec Nat.eq_dec z (y :: ys)) as [[<-|Q']|Q'].
      * rewrite (proj1 C y j j Hy (or_introl Ly) (self_same _ _ _ Hj)).
        destruct (gradient_some q y j G Hy (or_introl Ly) Hj) as [d ->]. auto.
      * contradiction.
      * apply (write_near q x y z (fun j _ => gs y j) j G Hx Rx Py Pz Ly Lz); auto. intros ->. apply Q'. left; auto.
Qed.
Lemma stored_final : forall q x ys gs ks, greachable q -> (x < next (st (base q)))%nat -> ready (st (base q)) x -> par (st (base q)) x = None -> free (base q) x ks ->
  (forall y, In y ys -> part (st (base q)) x y /\ is_leaf (st (base q)) y = true) ->
  (forall y, part (st (base q)) x y -> is_leaf (st (base q)) y = true -> 0 < size (st (base q)) y -> In y ys) ->
  exists q1 q2 r, store_all tinit tf tfinv tgrad ys gs q = (q1, None) /\ take_gradient tgrad x q1 = Ok (q2, r) /\ base q2 = base q /\
    length (look q2 r) = length ks /\
    forall i k y j, nth_error ks i = Some k -> is_leaf (st (base q)) y = true -> same_elem (st (base q)) y j x k ->
      exists w, nth_error (look q2 r) i = Some w /\ chain_rule tgrad (base q) x k (gs y j) w.
Proof.
  intros q x ys gs ks R Hx Rx Hp Hks H1 H2. pose proof (reach_ginv q R) as G.
  destruct (store_all_ok x gs ys q G Hx Rx H1) as (q1 & E1 & G1 & Eb & Q). pose proof G1 as [I1 O1 M1].
  destruct (take_ok tgrad q1 x ks I1 O1 M1) as (q2 & r & E2 & Eb2 & _ & _ & _ & Ll & Ln & _); try (rewrite Eb; auto).
  exists q1, q2, r. split; auto. split; auto. split; [congruence|]. split; auto. intros i k y j Hi Ly Se.
  pose proof (inv_st _ (gi_base _ G)) as W. pose proof Se as (Hj & Hk & _).
  destruct (cover_elem (st (base q)) x k W Hk) as (z & i' & Hz & Pz & Sz).
  assert (S2 : same_elem (st (base q)) z i' y j) by (eapply same_elem_trans; eauto; apply same_elem_sym; auto).
  apply same_elem_leaf in S2 as [-> ->]; auto.
  assert (Hy : (y < next (st (base q)))%nat) by (destruct Pz as (o & n & B); eapply below_lt; eauto).
  rewrite (Ln i k Hi). exists (factor tgrad (base q1) x k (gs y j)). split.
  - rewrite <- (one_gradient_g q1 x y j k G1); try (rewrite Eb; auto); [|left; auto]. rewrite (Q y j) by auto.
    destruct (in_dec Nat.eq_dec y ys) as [|Hn]; auto. exfalso. apply Hn. apply H2; auto. lia.
  - rewrite Eb. apply factor_ok; auto; apply G.
Qed.

(** C93 *)
Lemma again_final : forall q x q1 r1 q2 r2 k, greachable q -> (x < next (st (base q)))%nat -> ready (st (base q)) x -> par (st (base q)) x = None ->
  take_gradient tgrad x q = Ok (q1, r1) -> take_gradient tgrad x q1 = Ok (q2, r2) -> 0 <= k < size (st (base q)) x ->
  exists d d1 d2, gradient q x k = Some d /\ gradient q1 x k = Some d1 /\ gradient q2 x k = Some d2 /\
    chain_rule tgrad (base q) x k d d1 /\ chain_rule tgrad (base q) x k d1 d2.
Proof.
  intros q x q1 r1 q2 r2 k R Hx Rx Hp E1 E2 Hk. pose proof (reach_ginv q R) as G. pose proof G as [H O M].
  destruct (free_exists (base q) x H Hx) as [ks Hks].
  destruct (take_ok tgrad q x ks H O M Hx Rx Hp Hks) as (q1' & r1' & E1' & Eb1 & M1 & _ & C1 & _). rewrite E1 in E1'. injection E1' as <- <-.
  destruct (take_ok tgrad q1 x ks) as (q2' & r2' & E2' & Eb2 & M2 & _ & C2 & _); try (rewrite Eb1; auto). rewrite E2 in E2'. injection E2' as <- <-.
  destruct (gradient_some q x k G Hx Rx Hk) as [d Hd]. exists d, (factor tgrad (base q) x k d), (factor tgrad (base q) x k (factor tgrad (base q) x k d)).
  split; auto. pose proof (proj1 C1 x k k Hx Rx (self_same _ _ _ Hk)) as V1. rewrite Hd in V1. cbn [option_map] in V1.
  split; auto. unfold gchanged in C2. rewrite Eb1 in C2. pose proof (proj1 C2 x k k Hx Rx (self_same _ _ _ Hk)) as V2. rewrite V1 in V2. cbn [option_map] in V2.
  split; auto. split; apply factor_ok; auto.
Qed.

(** C94 *)
Lemma still_step : forall q c q' e x, GInv q -> glegal q c -> still c -> run c q = (q', e) ->
  (x < next (st (base q)))%nat -> ready (st (base q)) x -> 0 < size (st (base q)) x ->
  (x < next (st (base q')))%nat /\ ready (st (base q')) x /\ size (st (base q')) x = size (st (base q)) x /\ arr (grd q') x = arr (grd q) x.
Proof.
  intros q c q' e x G L Sc E Hx Rx Hp. pose proof G as [H O M].
  assert (Pa : forall y g1 a, param_array (st (base q)) (grd q) y = (g1, a) -> arr g1 x = arr (grd q) x).
  { intros y g1 a Ep. destruct (Nat.eq_dec y x) as [->|Hne].
    - destruct (ready_al _ _ x (inv_st _ H) M Hx Rx) as (b & o & Ax). rewrite (pa_valid _ _ _ _ _ (al_self _ _ _ _ _ Ax Hp)) in Ep. injection Ep as <- _. auto.
    - unfold param_array in Ep. destruct (arr (grd q) y) as [[[b o] n]|]; [destruct (_ || _)|]; injection Ep as <- _; auto; cbn; apply upd_ne; auto. }
  destruct c as [c|y f|y f|y]; cbn [glegal] in L.
  - destruct (structural c) eqn:Hs.
    + apply base_call in E as [E Eg]. rewrite Eg. destruct c; try discriminate; try (destruct Sc; fail); cbn [exec grd_after] in *.
      * destruct (new_leaf_ok (base q) vals H) as (s2 & R2 & _ & G2 & _). rewrite E in R2. injection R2 as <- _.
        destruct (gr_old _ _ G2 x ltac:(lia)) as (Ek & _ & _ & Es & _ & Ei). rewrite (gr_next _ _ G2). unfold ready, is_leaf in *. rewrite Ek, Es, Ei.
        split; [lia|]. split; auto. split; auto. set (vals' := read_arr _ _).
        destruct (new_leaf_ok (twin (base q) (grd q)) vals' (twin_inv _ _ H M)) as (t2 & R & _ & G3 & _). rewrite R. cbn [fst].
        rewrite (gr_arr _ _ G3); [reflexivity | cbn; lia].
      * destruct (bare_node_ok (base q) H) as (s2 & R2 & _ & G2 & _). rewrite E in R2. injection R2 as <- _.
        destruct (gr_old _ _ G2 x ltac:(lia)) as (Ek & _ & _ & Es & _ & Ei). rewrite (gr_next _ _ G2). unfold ready, is_leaf in *. rewrite Ek, Es, Ei.
        split; [lia|]. split; auto. split; auto.
        destruct (bare_node_ok (twin (base q) (grd q)) (twin_inv _ _ H M)) as (t2 & R & _ & G3 & _). rewrite R. cbn [fst].
        rewrite (gr_arr _ _ G3); [reflexivity | cbn; lia].
    + apply base_call in E as [E Eg]. rewrite (value_call_st tinit tf tfinv _ _ _ _ H O L Hs E), Eg. split; auto. split; auto. split; auto.
      destruct c; try discriminate; reflexivity.
  - cbn [gexec] in E. unfold set_gradient, gradient_array in E. destruct (is_leaf (st (base q)) y).
    + destruct (param_array (st (base q)) (grd q) y) as [g1 [[b o] n]] eqn:Ep. apply pair_equal_spec in E as [<- _]. cbn [base grd]. split; auto. split; auto. split; auto. apply (Pa y g1 _ Ep).
    + destruct (arr (grd q) y) as [[[b o] n]|] eqn:Ea; apply pair_equal_spec in E as [<- _]; cbn [base grd]; auto.
  - cbn [gexec] in E. unfold edit_gradient, gradient_array in E. destruct (param_array (st (base q)) (grd q) y) as [g1 [[b o] n]] eqn:Ep.
    apply pair_equal_spec in E as [<- _]. cbn [base grd]. split; auto. split; auto. split; auto. apply (Pa y g1 _ Ep).
  - cbn [gexec] in E. unfold take_gradient, gradient_array in E. destruct (param_array (st (base q)) (grd q) y) as [g1 [[b o] n]] eqn:Ep.
    destruct (param_array (st (base q)) (mem (base q)) y) as [m1 pa].
    assert (Q : forall gg : @memst V, arr gg = arr g1 -> arr gg x = arr (grd q) x) by (intros gg ->; apply (Pa y g1 _ Ep)).
    destruct (nonempty _); [destruct (fix_ (base q) y) as [mk|]; [destruct (Nat.eqb _ _)|]|]; apply pair_equal_spec in E as [<- _]; cbn [base grd]; auto;
      (split; auto; split; auto; split; auto; apply Q; reflexivity).
Qed.
Lemma still_hist : forall q q2 x, GInv q -> (x < next (st (base q)))%nat -> ready (st (base q)) x -> 0 < size (st (base q)) x ->
  ghist tinit tf tfinv tgrad (fun q c => glegal q c /\ still c) q q2 ->
  GInv q2 /\ (x < next (st (base q2)))%nat /\ ready (st (base q2)) x /\ size (st (base q2)) x = size (st (base q)) x /\ arr (grd q2) x = arr (grd q) x.
Proof.
  intros q q2 x G Hx Rx Hp Hh. induction Hh as [|q1 c q2 e Hh IH [L Sc] E]; auto. destruct IH as (G1 & A1 & A2 & A3 & A4).
  split; [eapply gexec_ok; eauto|]. destruct (still_step q1 c q2 e x G1 L Sc E A1 A2) as (B1 & B2 & B3 & B4); [lia|]. split; auto. split; auto. split; congruence.
Qed.
(** What was handed out while nothing was fixed stays the gradient of the model itself. *)
Lemma alias_final : forall q x q1 r q2, greachable q -> (x < next (st (base q)))%nat -> ready (st (base q)) x -> par (st (base q)) x = None ->
  (forall j, ~ has (base q) x Fixed j) -> 0 < size (st (base q)) x -> take_gradient tgrad x q = Ok (q1, r) ->
  ghist tinit tf tfinv tgrad (fun q c => glegal q c /\ still c) q1 q2 ->
  Z.of_nat (length (look q2 r)) = size (st (base q)) x /\ forall k, 0 <= k < size (st (base q)) x -> nth_error (look q2 r) (Z.to_nat k) = gradient q2 x k.
Proof.
  intros q x q1 r q2 R Hx Rx Hp Hno Hpos E Hh. pose proof (reach_ginv q R) as G. pose proof G as [H O M].
  destruct (free_exists (base q) x H Hx) as [ks Hks].
  destruct (take_ok tgrad q x ks H O M Hx Rx Hp Hks) as (q1' & r' & E' & Eb & M1 & _ & _ & _ & _ & _ & Al). rewrite E in E'. injection E' as <- <-.
  destruct (Al Hno Hpos) as (b & o & -> & Ea).
  assert (G1 : GInv q1) by (constructor; rewrite Eb; auto).
  destruct (still_hist q1 q2 x G1) as (_ & _ & _ & _ & Ea2); try (rewrite Eb; auto); auto. cbn [look].
  split; [apply read_len; lia|]. intros k Hk. unfold gradient. rewrite Ea2, Ea.
  destruct (Z.leb_spec 0 k), (Z.ltb_spec k (size (st (base q)) x)); try lia. cbn [andb].
  rewrite (nth_error_nth' _ (cell (grd q2) b o)) by (unfold read_arr; rewrite map_length, arange_len; lia). f_equal. apply read_nth. auto.
Qed.
(** With a fixed element it is a list of its own. *)
Lemma fresh_final : forall q x q1 r, greachable q -> (x < next (st (base q)))%nat -> ready (st (base q)) x -> par (st (base q)) x = None ->
  (exists j, has (base q) x Fixed j) -> take_gradient tgrad x q = Ok (q1, r) -> forall q2, look q2 r = look q1 r.
Proof.
  intros q x q1 r R Hx Rx Hp Hfx E q2. pose proof (reach_ginv q R) as G. pose proof G as [H O M].
  destruct (free_exists (base q) x H Hx) as [ks Hks].
  destruct (take_ok tgrad q x ks H O M Hx Rx Hp Hks) as (q1' & r' & E' & _ & _ & _ & _ & _ & _ & Fx & _). rewrite E in E'. injection E' as <- <-.
  destruct (Fx Hfx) as (l & ->). reflexivity.
Qed.

(** A history of calls on the hierarchy is a history here. *)
Lemma lift_reach : forall (ok : state -> call -> Prop) s, reach tinit tf tfinv ok junk s -> forall okg : gstate -> gcall -> Prop, (forall q c, ok (base q) c -> okg q (Call c)) ->
  exists q, greach tinit tf tfinv tgrad okg junk junk' q /\ base q = s.
Proof.
  intros ok s R okg Hok. induction R as [|s c s' e R (q & Rq & Eb) L E]; [eexists; split; [constructor | reflexivity]|].
  exists (mkG s' (grd_after tinit tf tfinv c (base q) (grd q))). split; auto. subst s. eapply (greach_call tinit tf tfinv tgrad okg junk junk' q (Call c)); eauto.
  cbn [gexec]. rewrite E. reflexivity.
Qed.
Lemma base_reach : forall q, greachable q -> reach tinit tf tfinv legal junk (base q).
Proof.
  intros q R. induction R as [|q c q' e R IH L E]; [constructor|]. destruct c as [c|y f|y f|y].
  - apply base_call in E as [E _]. eapply reach_call; eauto.
  - cbn [gexec] in E. destruct (set_gradient _ _ _ _). injection E as <- <-. auto.
  - cbn [gexec] in E. injection E as <- <-. auto.
  - destruct L as (Hx & Rx & Hp). pose proof (reach_ginv q R) as G. destruct (free_exists (base q) y (gi_base _ G) Hx) as [ks Hks].
    destruct (take_ok tgrad q y ks (gi_base _ G) (gi_one _ G) (gi_grd _ G) Hx Rx Hp Hks) as (q1 & r & E1 & Eb & _). cbn [gexec] in E. rewrite E1 in E. injection E as <- <-. rewrite Eb. auto.
Qed.
End Final.
