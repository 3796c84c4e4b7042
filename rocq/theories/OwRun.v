From Coq Require Import List Reals Bool Arith Lia Lra.
From Verif Require Import ScgModel ScgSpec ScgProofs OwModel OwSpec OwProofs.
Import ListNotations.
Open Scope R_scope.

Lemma dot_self_r : forall a c, dot a (vsub c c) = 0.
Proof.
  unfold vsub. induction a as [|y a IH]; intros c; [reflexivity|]. destruct c as [|z c]; [reflexivity|].
  simpl. rewrite IH. lra.
Qed.
Lemma dot_self_l : forall c a, dot (vsub c c) a = 0.
Proof.
  unfold vsub. induction c as [|z c IH]; intros a; [reflexivity|]. destruct a as [|y a]; [reflexivity|].
  simpl. rewrite IH. lra.
Qed.
Lemma vsub_zero : forall d g, length d = length g -> vsub (vscale 0 d) g = vneg g.
Proof.
  unfold vsub. induction d as [|y d IH]; intros [|z g] H; try discriminate; [reflexivity|].
  simpl. f_equal; [lra|]. apply IH. simpl in H. lia.
Qed.
Lemma dot_neg_r : forall a b, dot a (vneg b) = - dot a b.
Proof. induction a as [|y a IH]; simpl; intros [|z b]; simpl; try ring. rewrite IH. ring. Qed.

Lemma one_betamax : 1 <= betamax.
Proof. unfold betamax. apply pow_R1_Rle. lra. Qed.

Section R.
Variable E : list elem.
Variable obj : vec -> R.
Variable raw : vec -> vec.
Variables xtol ftol gtol : R.
Variable wst : world.
Variable x0 : vec.
Notation p0 := (params wst).
Notation FF := (F E obj p0).
Notation GG := (G E raw p0).
Hypothesis Hg0 : 0 <= gtol.
Hypothesis Hlen : forall v, length (GG v) = length x0.
Hypothesis Hx0 : nonzero (GG x0).

(** What the invariant of ScgProofs speaks of; of gradients only that of the present point. *)
Definition abs2 (w : world) (l : loc) : st :=
  mkS (cells w (lx l)) (lfold l) (GG (cells w (lx l))) (GG (cells w (lx l))) (ld l) (lok l) (lns l) (lbeta l) (lmu l) (lkappa l) (ltheta l)
      (llog l) (lev l) (repeat (CallF []) (lev l)) (lsteps l).
(** With the gradient array shared, a step of gradient descent. *)
Definition gd_step (i : stepinfo) : Prop :=
  exists b, betamin <= b <= betamax /\ i_d i = vneg (GG (i_x i)) /\ i_alpha i = / b /\ i_beta i <= betamax.
Definition gd (w : world) (l : loc) : Prop :=
  ld l = vneg (GG (cells w (lx l))) /\ lbeta l <= betamax /\ (lok l = false -> ltheta l = 0) /\ Forall gd_step (lsteps l).
Definition ginv (w : world) (l : loc) : Prop :=
  inv FF GG xtol ftol gtol x0 (abs2 w l) /\ places E wst w l /\ (lok l = true -> cells w (lgn l) = GG (cells w (lx l))) /\
  (made w = made wst + lev l)%nat /\ (has_fixes E = false -> gd w l).
Definition gfinal (n : nat) (w : world) (l : loc) (stat : status) : Prop :=
  final FF GG xtol ftol gtol x0 n (abs2 w l) stat /\ keeps E wst w /\ (made w = made wst + lev l)%nat /\
  (has_fixes E = false -> Forall gd_step (lsteps l)).

Lemma made_set : forall w v, made (set_array E raw w v) = made w.
Proof. reflexivity. Qed.
Lemma made_objective : forall w v w' r, objective E obj raw w v = (w', r) -> made w' = S (made w).
Proof. intros w v w' r H. unfold objective in H. injection H as <- <-. reflexivity. Qed.
Lemma made_grads : forall w v w' a, grads E raw w v = (w', a) -> made w' = S (made w).
Proof.
  intros w v w' a H. unfold grads in H. destruct (has_fixes E).
  - unfold alloc in H. injection H as <- <-. reflexivity.
  - injection H as <- <-. reflexivity.
Qed.
Lemma made_alloc : forall w v w' a, alloc w v = (w', a) -> made w' = made w.
Proof. intros w v w' a H. unfold alloc in H. injection H as <- <-. reflexivity. Qed.

Lemma x0_pos : (0 < length x0)%nat.
Proof. destruct Hx0 as (a & Ha & _). rewrite <- (Hlen x0). destruct (GG x0); [destruct Ha | simpl; lia]. Qed.

(** After lines 91-101. *)
Lemma dir_ok : forall w l, ginv w l -> exists w' l', scg_directional E raw w l = Some (w', l') /\
  inv2 FF GG xtol ftol gtol x0 (abs2 w' l') /\ lsteps l' = lsteps l /\ places E wst w' l' /\ (made w' = made wst + lev l')%nat /\
  (has_fixes E = false -> ld l' = vneg (GG (cells w' (lx l'))) /\ lbeta l' <= betamax /\ ltheta l' = 0 /\ Forall gd_step (lsteps l')).
Proof.
  intros w l (HI & Hp & Hc & Hm & Hgd). pose proof Hp as (K & Hg & Hx & Hxg & Hn & Ho).
  destruct HI as (L & (E1 & E2) & GS & A1 & A2 & A3 & A4 & A5 & A6 & A7 & A8 & A9).
  cbn [abs2 success d gradnew x fold gradold nsuccess beta flog fevals calls steps mu kappa theta] in *.
  unfold scg_directional. destruct (lok l) eqn:Hs.
  - rewrite (Hc eq_refl). set (g := GG (cells w (lx l))) in *.
    set (m0 := dot (ld l) g). set (d' := if Rle_dec 0 m0 then vneg g else ld l).
    assert (Hd : dot d' g = (if Rle_dec 0 m0 then dot d' g else m0) /\ dot d' g < 0 /\ length d' = length (cells w (lx l))).
    { unfold d'. destruct (Rle_dec 0 m0).
      - rewrite dot_neg_l, vneg_length. split; [reflexivity|]. split; [lra|]. unfold g. rewrite Hlen. symmetry. assumption.
      - split; [reflexivity|]. split; [unfold m0 in n; lra | assumption]. }
    destruct Hd as (Hd1 & Hd2 & Hd3).
    assert (Hk : 0 < dot d' d') by (eapply dot_pos_neg; eassumption).
    assert (Hsq : 0 < sqrt (dot d' d')) by (apply sqrt_lt_R0; assumption).
    rewrite rdiv_ok by lra.
    assert (Hsig : 0 < sigma0 / sqrt (dot d' d')).
    { apply Rmult_lt_0_compat; [apply sigma0_pos | apply Rinv_0_lt_compat; assumption]. }
    destruct (grads E raw w (vadd (cells w (lx l)) (vscale (sigma0 / sqrt (dot d' d')) d'))) as [w1 gplus] eqn:Hgr.
    destruct (grads_keeps E raw _ _ _ _ Hg Hgr) as (K1 & Kc & Kn & Kf). pose proof K1 as (M1 & M2 & M3 & M4 & M5).
    rewrite rdiv_ok by lra. eexists w1, _. split; [reflexivity|]. cbn [lx ld lbeta ltheta lsteps lev].
    assert (Cx : cells w1 (lx l) = cells w (lx l)) by (apply M4; assumption).
    split; [|split; [reflexivity|split; [|split]]].
    + unfold inv2, log_ok, evals_ok in *. unfold abs2. cbn [x fold gradnew gradold d success nsuccess beta mu kappa theta flog fevals calls steps lx lfold lok ld lns lbeta lmu lkappa ltheta llog lev lsteps].
      rewrite Cx, repeat_length. fold g.
      split; [exact L|]. rewrite <- Hd1. repeat split; auto; try lia; apply GS.
    + unfold places; cbn [lx lgn lgo]. rewrite M2. split; [exact (keeps_trans _ _ _ _ K K1)|].
      split; [lia|]. split; [lia|]. split; [assumption|]. split; [lia|]. destruct (has_fixes E); [|exact Ho].
      destruct Ho as (O1 & O2 & O3). repeat split; auto; lia.
    + rewrite (made_grads _ _ _ _ Hgr). lia.
    + intros Hf. destruct (Hgd Hf) as (D1 & D2 & D3 & D4). rewrite Hf in Kf, Ho. rewrite Cx. fold g in D1 |- *.
      split; [|split; [assumption|split; [|assumption]]].
      * unfold d'. destruct (Rle_dec 0 m0); [reflexivity | exact D1].
      * rewrite Kf, Ho, dot_self_r. unfold Rdiv. ring.
  - exists w, l. split; [reflexivity|]. destruct (A9 eq_refl) as (B1 & B2 & B3).
    split; [|split; [reflexivity|split; [exact Hp|split; [exact Hm|]]]].
    + unfold inv2. split; [exact L|].
      cbn [abs2 x fold gradnew gradold d success nsuccess beta mu kappa theta flog fevals calls steps].
      repeat split; auto; try lia; apply GS.
    + intros Hf. destruct (Hgd Hf) as (D1 & D2 & D3 & D4). auto.
Qed.

Lemma curv_ok : forall l, 0 < lkappa l -> 0 < lbeta l ->
  exists delta b, scg_curvature l = Some (delta, b) /\ 0 < delta /\ lbeta l <= b /\ (ltheta l = 0 -> delta = lbeta l * lkappa l /\ b = lbeta l).
Proof.
  intros l Hk Hb. unfold scg_curvature. destruct (Rle_dec _ 0) as [H|H].
  - rewrite rdiv_ok by lra. eexists _, _. split; [reflexivity|]. split; [nra|].
    assert (ltheta l / lkappa l <= 0).
    { unfold Rdiv. assert (0 < / lkappa l) by (apply Rinv_0_lt_compat; assumption). assert (ltheta l <= 0) by nra. nra. }
    split; [lra|]. intros E0. rewrite E0 in H. nra.
  - eexists _, _. split; [reflexivity|]. split; [lra|]. split; [lra|]. intros ->. split; lra.
Qed.
Lemma adjust_le : forall D b, b <= betamax -> betamin <= b -> adjust D b <= betamax.
Proof.
  intros D b H H2. unfold adjust. pose proof betamin_le. pose proof betamin_pos.
  destruct (Rlt_dec D (1/4)); destruct (Rlt_dec (3/4) D); try lra.
  - apply Rmin_r.
  - apply Rmax_lub; lra.
Qed.

Lemma scg_body_ok : forall w l, ginv w l ->
  match scg_body E obj raw xtol ftol gtol w l with
  | None => False
  | Some (inl (w', l')) => ginv w' l' /\ length (lsteps l') = S (length (lsteps l))
  | Some (inr (w', l', stat)) => stat <> MaxIter /\ forall n, gfinal n w' l' stat /\ length (lsteps l') = S (length (lsteps l))
  end.
Proof.
  intros w0 l0 Hi. unfold scg_body. destruct (dir_ok _ _ Hi) as (w & l & -> & I2 & Hst & Hp & Hm & Hgd).
  pose proof Hp as (K & Hg & Hx & Hxg & Hn & Ho).
  destruct I2 as ((L1 & L2 & (l1 & L3) & L4 & L5 & L6 & L7) & (E1 & E2) & (GS & Q) & A1 & _ & A3 & _ & A5 & A6 & A7 & A8 & B1 & B2 & B3).
  cbn [abs2 success d gradnew x fold gradold nsuccess beta flog fevals calls steps mu kappa theta] in *.
  pose proof betamin_pos as Hbm. pose proof betamin_le as Hbl. pose proof one_betamax as Hb1.
  set (X := cells w (lx l)) in *. set (g := GG X) in *.
  assert (Hk : 0 < lkappa l) by (rewrite B3; apply dot_pos_neg with g; lra).
  destruct (curv_ok l Hk ltac:(lra)) as (delta & b & -> & Hdelta & Hb & Hth).
  rewrite rdiv_ok by lra.
  assert (Ha : 0 < - lmu l / delta) by (apply Rmult_lt_0_compat; [lra | apply Rinv_0_lt_compat; assumption]).
  set (alpha := - lmu l / delta) in *.
  assert (Ham : alpha * lmu l < 0) by nra.
  set (xv := vadd X (vscale alpha (ld l))).
  assert (Hxl : length xv = length X) by (apply vadd_length; rewrite vscale_length; auto).
  destruct (alloc w xv) as [w2 xnew] eqn:Hal.
  destruct (alloc_keeps E _ _ _ _ Hal) as (C1 & C2 & C3 & C4 & C5 & C6). rewrite C4.
  destruct (objective E obj raw w2 xv) as [w3 fnew] eqn:Hob.
  destruct (objective_keeps E obj raw _ _ _ _ Hob) as (D1 & D2 & D3).
  pose proof (keeps_trans _ _ _ _ C1 D1) as K3. pose proof (keeps_trans _ _ _ _ K K3) as K03.
  assert (Hf : fnew = FF xv).
  { rewrite D2. rewrite (F_keeps E obj _ _ _ C1). apply F_keeps. exact K. }
  pose proof K3 as (M1 & M2 & M3 & M4 & M5). pose proof D1 as (N1 & N2 & N3 & N4 & N5). pose proof C1 as (O1 & O2 & O3 & _ & _).
  assert (Cx : cells w3 xnew = xv) by (rewrite N4; [exact C4 | lia | rewrite O2; lia]).
  assert (Cx0 : cells w3 (lx l) = X) by (apply M4; assumption).
  assert (Hm3 : (made w3 = made wst + S (lev l))%nat).
  { rewrite (made_objective _ _ _ _ Hob), (made_alloc _ _ _ _ Hal). lia. }
  rewrite rdiv_ok by lra.
  set (Delta := 2 * (fnew - lfold l) / (alpha * lmu l)).
  assert (Gs : forall b', betamin <= b' -> good_step GG (mkI X (ld l) (lmu l) delta alpha b')).
  { intros b' Hb'. unfold good_step; cbn. fold g. repeat split; auto; lra. }
  assert (Gd : has_fixes E = false -> b = lbeta l /\ b <= betamax /\ forall b', b' <= betamax -> gd_step (mkI X (ld l) (lmu l) delta alpha b')).
  { intros Hfx. destruct (Hgd Hfx) as (G1 & G2 & G3 & G4). destruct (Hth G3) as [T1 T2]. split; [exact T2|]. split; [lra|].
    intros b' Hb'. exists b. cbn [i_d i_x i_alpha i_beta]. split; [lra|]. split; [exact G1|]. split; [|exact Hb'].
    unfold alpha. rewrite T1, T2, B1, B3, G1. rewrite dot_neg_l, dot_neg_r.
    assert (0 < dot g g) by exact A6.
    rewrite dot_neg_l. fold g. field. split; [lra|]. lra. }
  clear D2. subst fnew.
  destruct (Rle_dec 0 Delta) as [HD|HD].
  - cbv beta iota zeta. assert (Hle : FF xv <= lfold l).
    { unfold Delta, Rdiv in HD. assert (/ (alpha * lmu l) < 0) by (apply Rinv_lt_0_compat; assumption). nra. }
    destruct (log_app _ _ _ L1 L2 Hle) as [N1' N2'].
    assert (LO : forall fo gn go d' ok ns b' b2 m k t ev cl r, lsteps l = r ->
       log_ok FF x0 (mkS xv fo gn go d' ok ns b' m k t (llog l ++ [FF xv]) ev cl
                   (mkI X (ld l) (lmu l) delta alpha b2 :: r)) (FF xv)).
    { intros. subst r. unfold log_ok; simpl.
      assert (P : path FF x0 (mkI X (ld l) (lmu l) delta alpha b2 :: lsteps l) xv).
      { change xv with (proposal (mkI X (ld l) (lmu l) delta alpha b2)). apply path_yes; [assumption|].
        unfold accepted, proposal; simpl. fold xv. lra. }
      repeat split; auto; [eexists; reflexivity | apply hd_app; assumption | | ].
      - rewrite app_length. simpl. lia.
      - apply values_cons; assumption. }
    assert (FI : forall b', (Rabs (FF xv - lfold l) < ftol \/ maxabs (vscale alpha (ld l)) < xtol \/
        dot (GG xv) (GG xv) <= gtol) -> fired FF GG xtol ftol gtol (mkI X (ld l) (lmu l) delta alpha b')).
    { intros b' H. unfold fired, accepted, proposal; simpl. fold xv. rewrite <- A1. split; [assumption | exact H]. }
    assert (FQ : forall b', ~ (Rabs (FF xv - lfold l) < ftol \/ maxabs (vscale alpha (ld l)) < xtol \/
        dot (GG xv) (GG xv) <= gtol) -> quiet FF GG xtol ftol gtol (mkI X (ld l) (lmu l) delta alpha b')).
    { intros b' H. unfold quiet, fired, accepted, proposal; simpl. fold xv. rewrite <- A1. tauto. }
    destruct (Rlt_dec (Rabs (FF xv - lfold l)) ftol) as [Hft|Hft].
    { split; [discriminate|]. intros n. split; [unfold gfinal|cbn [lsteps length]; rewrite Hst; reflexivity].
      split; [|split; [exact K03|split; [exact Hm3|]]].
      2:{ intros Hfx. destruct (Gd Hfx) as (G1 & G2 & G3). constructor; [apply G3; lra|]. apply Hgd. exact Hfx. }
      unfold abs2; cbn [lx lfold lok lns lbeta lmu lkappa ltheta llog lev lsteps ld]. rewrite Cx.
      unfold final; simpl. split; [apply LO; reflexivity|]. split; [unfold evals_ok; simpl; rewrite repeat_length; lia|].
      split; [constructor; [apply Gs; lra | assumption]|].
      split; [exists l1, (lfold l); rewrite L3, <- app_assoc; split; [reflexivity | assumption]|].
      eexists _, _. split; [reflexivity|]. split; [apply FI; tauto | assumption]. }
    destruct (Rlt_dec (maxabs (vscale alpha (ld l))) xtol) as [Hxt|Hxt].
    { split; [discriminate|]. intros n. split; [unfold gfinal|cbn [lsteps length]; rewrite Hst; reflexivity].
      split; [|split; [exact K03|split; [exact Hm3|]]].
      2:{ intros Hfx. destruct (Gd Hfx) as (G1 & G2 & G3). constructor; [apply G3; lra|]. apply Hgd. exact Hfx. }
      unfold abs2; cbn [lx lfold lok lns lbeta lmu lkappa ltheta llog lev lsteps ld]. rewrite Cx.
      unfold final; simpl. split; [apply LO; reflexivity|]. split; [unfold evals_ok; simpl; rewrite repeat_length; lia|].
      split; [constructor; [apply Gs; lra | assumption]|].
      split; [eexists _, _; split; [reflexivity|]; simpl; split; [reflexivity | assumption]|].
      eexists _, _. split; [reflexivity|]. split; [apply FI; tauto | assumption]. }
    rewrite Cx. destruct (grads E raw w3 xv) as [w4 gn] eqn:Hgr.
    assert (Hg3 : (garr w3 < nexta w3)%nat) by (rewrite M2; lia).
    destruct (grads_keeps E raw _ _ _ _ Hg3 Hgr) as (Q1 & Qc & Qn & Qf). pose proof Q1 as (R1 & R2 & R3 & R4 & R5).
    rewrite (G_keeps _ _ _ _ _ K03) in Qc. rewrite Qc.
    assert (Cx4 : cells w4 xnew = xv) by (rewrite R4; [exact Cx | lia | rewrite M2; lia]).
    assert (K04 : keeps E wst w4) by exact (keeps_trans _ _ _ _ K03 Q1).
    assert (Hm4 : (made w4 = made wst + S (S (lev l)))%nat) by (rewrite (made_grads _ _ _ _ Hgr); lia).
    destruct (Rle_dec (dot (GG xv) (GG xv)) gtol) as [Hgt|Hgt].
    { split; [discriminate|]. intros n. split; [unfold gfinal|cbn [lsteps length]; rewrite Hst; reflexivity].
      split; [|split; [exact K04|split; [exact Hm4|]]].
      2:{ intros Hfx. destruct (Gd Hfx) as (G1 & G2 & G3). constructor; [apply G3; lra|]. apply Hgd. exact Hfx. }
      unfold abs2; cbn [lx lfold lok lns lbeta lmu lkappa ltheta llog lev lsteps ld]. rewrite Cx4.
      unfold final; simpl. split; [apply LO; reflexivity|]. split; [unfold evals_ok; simpl; rewrite repeat_length; lia|].
      split; [constructor; [apply Gs; lra | assumption]|]. split; [assumption|].
      eexists _, _. split; [reflexivity|]. split; [apply FI; tauto | assumption]. }
    assert (P4 : forall l', lx l' = xnew -> lgn l' = gn -> lgo l' = lgn l -> places E wst w4 l').
    { intros l' F1 F2 F3. unfold places. rewrite F1, F2, F3, R2, M2. split; [exact K04|]. split; [lia|]. split; [lia|]. split; [lia|]. split; [lia|].
      destruct (has_fixes E); [|congruence]. destruct Ho as (O1' & O2' & O3'). repeat split; auto; lia. }
    assert (Hgl : length (GG xv) = length xv) by (rewrite Hlen, Hxl; symmetry; exact A5).
    pose proof (adjust_ok Delta b ltac:(lra)) as Hadj.
    rewrite Cx4. destruct (Nat.eqb_spec (S (lns l)) (length xv)) as [Hnn|Hnn].
    + split; [|cbn [lsteps length]; rewrite Hst; reflexivity].
      split; [|split; [apply P4; reflexivity|split; [|split; [exact Hm4|]]]].
      * unfold abs2; cbn [lx lfold lok lns lbeta lmu lkappa ltheta llog lev lsteps ld]. rewrite Cx4.
        unfold inv; simpl. split; [apply LO; reflexivity|]. split; [unfold evals_ok; simpl; rewrite repeat_length; lia|].
        split; [split; constructor; [apply Gs; lra | assumption | apply FQ; tauto | assumption]|]. rewrite vneg_length.
        repeat split; auto; try lia; try lra; try discriminate; try (intros; discriminate).
      * intros _. cbn [lgn lx]. rewrite Qc, Cx4. reflexivity.
      * intros Hfx. destruct (Gd Hfx) as (G1 & G2 & G3). unfold gd; cbn [lx ld lbeta lok lsteps]. rewrite Cx4.
        split; [reflexivity|]. split; [lra|]. split; [discriminate|]. constructor; [apply G3; lra|]. apply Hgd. exact Hfx.
    + rewrite rdiv_ok by lra. split; [|cbn [lsteps length]; rewrite Hst; reflexivity].
      split; [|split; [apply P4; reflexivity|split; [|split; [exact Hm4|]]]].
      * unfold abs2; cbn [lx lfold lok lns lbeta lmu lkappa ltheta llog lev lsteps ld]. rewrite Cx4.
        unfold inv; simpl. split; [apply LO; reflexivity|]. split; [unfold evals_ok; simpl; rewrite repeat_length; lia|].
        split; [split; constructor; [apply Gs; lra | assumption | apply FQ; tauto | assumption]|].
        assert (HH : forall c, length (vsub (vscale c (ld l)) (GG xv)) = length xv).
        { intros c. rewrite vsub_length; rewrite vscale_length; [|rewrite Hgl]; congruence. }
        rewrite HH. repeat split; auto; try lia; try lra; try (intros; discriminate).
      * intros _. cbn [lgn lx]. rewrite Qc, Cx4. reflexivity.
      * intros Hfx. destruct (Gd Hfx) as (G1 & G2 & G3). unfold gd; cbn [lx ld lbeta lok lsteps]. rewrite Cx4.
        rewrite Hfx in Qf, Ho. split; [|split; [apply adjust_le; lra|]].
        -- assert (Z : cells w4 (lgn l) = GG xv) by (rewrite Ho, <- M2, <- Qf; exact Qc).
           rewrite Z, dot_self_l. unfold Rdiv. rewrite Rmult_0_l. apply vsub_zero. rewrite Hgl, Hxl. exact A3.
        -- split; [discriminate|]. constructor; [|apply Hgd; exact Hfx]. apply G3. apply adjust_le; lra.
  - cbv beta iota zeta. assert (Hlt : lfold l < FF xv).
    { apply Rnot_le_lt. intros H. apply HD. unfold Delta, Rdiv.
      assert (/ (alpha * lmu l) < 0) by (apply Rinv_lt_0_compat; assumption). nra. }
    destruct (log_app _ _ _ L1 L2 (Rle_refl (lfold l))) as [N1' N2'].
    pose proof (adjust_ok Delta b ltac:(lra)) as Hadj.
    rewrite Cx0. destruct (Nat.eqb_spec (lns l) (length X)) as [Hnn|Hnn]; [lia|].
    split; [|cbn [lsteps length]; rewrite Hst; reflexivity].
    split; [|split; [|split; [|split; [exact Hm3|]]]].
    + unfold abs2; cbn [lx lfold lok lns lbeta lmu lkappa ltheta llog lev lsteps ld]. rewrite Cx0.
      unfold inv; simpl. split.
      { assert (P : path FF x0 (mkI X (ld l) (lmu l) delta alpha (adjust Delta b) :: lsteps l) X).
        { apply (path_no FF x0 (mkI X (ld l) (lmu l) delta alpha (adjust Delta b))); [assumption|].
          unfold accepted, proposal; simpl. fold xv. lra. }
        unfold log_ok; simpl. repeat split; auto; [eexists; reflexivity | apply hd_app; assumption | | ].
        - rewrite app_length. simpl. lia.
        - rewrite A1. apply values_cons; assumption. }
      split; [unfold evals_ok; simpl; rewrite repeat_length; lia|].
      split.
      { split; constructor; [apply Gs; lra | assumption | | assumption].
        unfold quiet, fired, accepted, proposal; simpl. fold xv. lra. }
      fold g. repeat split; auto; try lia; try lra. unfold g. rewrite Hlen. symmetry. exact A5.
    + unfold places; cbn [lx lgn lgo]. rewrite M2. split; [exact K03|]. split; [lia|]. split; [lia|]. split; [assumption|]. split; [lia|].
      destruct (has_fixes E); [|exact Ho]. destruct Ho as (O1' & O2' & O3'). repeat split; auto; lia.
    + discriminate.
    + intros Hfx. destruct (Gd Hfx) as (G1 & G2 & G3). destruct (Hgd Hfx) as (T1 & T2 & T3 & T4). unfold gd; cbn [lx ld lbeta lok ltheta lsteps]. rewrite Cx0.
      split; [exact T1|]. split; [apply adjust_le; lra|]. split; [intros _; exact T3|]. constructor; [|exact T4]. apply G3. apply adjust_le; lra.
Qed.

Lemma scg_loop_ok : forall n w l, ginv w l -> exists w' l' stat,
  scg_loop E obj raw xtol ftol gtol n w l = Some (w', l', stat) /\ gfinal (length (lsteps l) + n) w' l' stat /\
  (length (lsteps l') <= length (lsteps l) + n)%nat.
Proof.
  induction n as [|n IH]; cbn [scg_loop]; intros w l Hs.
  - exists w, l, MaxIter. split; [reflexivity|]. split; [|lia].
    destruct Hs as ((L & Ev & (GS & Q) & A1 & _) & (K & _) & _ & Hm & Hgd).
    split; [|split; [exact K|split; [exact Hm|intros Hf; apply Hgd; exact Hf]]].
    unfold final. rewrite <- A1. split; [exact L|]. split; [exact Ev|]. split; [exact GS|]. split; [cbn; lia | exact Q].
  - pose proof (scg_body_ok w l Hs) as H. destruct (scg_body E obj raw xtol ftol gtol w l) as [[[w' l']|[[w' l'] stat]]|]; [| |destruct H].
    + destruct H as [H1 H2]. destruct (IH w' l' H1) as (w2 & l2 & st2 & H3 & H4 & H5).
      exists w2, l2, st2. split; [assumption|]. rewrite H2 in H4, H5.
      replace (length (lsteps l) + S n)%nat with (S (length (lsteps l)) + n)%nat by lia. split; assumption.
    + destruct H as [_ H]. exists w', l', stat. split; [reflexivity|]. split; [apply H|].
      destruct (H 0%nat) as [_ ->]. lia.
Qed.
Lemma start_ok : forall ix, (garr wst < nexta wst)%nat -> (ix < nexta wst)%nat -> ix <> garr wst -> cells wst ix = x0 ->
  exists w l, scg_start E obj raw wst ix = (w, l) /\ ginv w l /\ lsteps l = [].
Proof.
  intros ix Hg Hx Hn E0. destruct (start_places E obj raw wst ix Hg Hx Hn) as (w & l & H1 & Hp & El & Ex & Ef & Eg & Ego & Eq).
  exists w, l. split; [exact H1|]. split; [|rewrite Eq; reflexivity].
  pose proof x0_pos. pose proof betamin_le. pose proof one_betamax. rewrite E0 in *.
  split; [|split; [exact Hp|split; [|split]]].
  - rewrite Eq. unfold abs2, inv, log_ok, evals_ok, non_increasing. cbn. rewrite Ex, Ef, Eg.
    repeat split; auto; try lra; try lia; try discriminate.
    + repeat constructor.
    + constructor; [lra | constructor].
    + exists []. reflexivity.
    + constructor.
    + constructor.
    + rewrite vneg_length. apply Hlen.
    + apply dot_nonzero. assumption.
  - intros _. rewrite Eg, El, Ex. reflexivity.
  - assert (M : made w = S (S (made wst))).
    { unfold scg_start in H1. destruct (objective E obj raw wst (cells wst ix)) as [w1 f1] eqn:O1.
      destruct (grads E raw w1 (cells w1 ix)) as [w2 g] eqn:G1. destruct (alloc w2 (cells w2 g)) as [w3 go] eqn:Al.
      apply pair_equal_spec in H1 as [<- _]. rewrite (made_alloc _ _ _ _ Al), (made_grads _ _ _ _ G1), (made_objective _ _ _ _ O1). reflexivity. }
    rewrite Eq. cbn. lia.
  - intros Hf. unfold gd. rewrite El, Ex, <- Eg.
    assert (Q1 : ld l = vneg (cells w (lgn l))) by (rewrite Eq at 1; reflexivity). assert (Q2 : lbeta l = 1) by (rewrite Eq; reflexivity).
    assert (Q3 : lok l = true) by (rewrite Eq; reflexivity). assert (Q4 : lsteps l = []) by (rewrite Eq; reflexivity).
    rewrite Q2, Q3, Q4. split; [exact Q1|]. split; [lra|]. split; [discriminate | constructor].
Qed.
Lemma scg_ok : forall ix n, (garr wst < nexta wst)%nat -> (ix < nexta wst)%nat -> ix <> garr wst -> cells wst ix = x0 ->
  exists w l stat, scg E obj raw xtol ftol gtol wst ix n = Some (w, l, stat) /\ gfinal n w l stat /\ (length (lsteps l) <= n)%nat.
Proof.
  intros ix n Hg Hx Hn E0. unfold scg. destruct (start_ok ix Hg Hx Hn E0) as (w & l & -> & HI & Hl).
  destruct (scg_loop_ok n w l HI) as (w' & l' & stat & H1 & H2 & H3). rewrite Hl in H2, H3. exists w', l', stat. auto.
Qed.
End R.
