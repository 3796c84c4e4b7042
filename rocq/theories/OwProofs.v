From Coq Require Import List Reals Bool Arith Lia Lra.
From Verif Require Import ScgModel ScgSpec ScgProofs OwModel OwSpec.
Import ListNotations.
Open Scope R_scope.

Section P.
Variable E : list elem.
Variable obj : vec -> R.
Variable raw : vec -> vec.

Lemma put_put : forall E v u p, put E v (put E u p) = put E v p.
Proof.
  induction E0 as [|e E' IH]; intros v u p; [destruct p; reflexivity|]. destruct p as [|q p]; [reflexivity|].
  simpl. destruct (efree e) eqn:He; simpl; rewrite IH; reflexivity.
Qed.
Definition F (p v : vec) : R := obj (put E v p).
Definition G (p v : vec) : vec :=
  let q := put E v p in let g := chained E q (raw q) in if has_fixes E then pick_free E g else g.

Definition wf (w : world) : Prop :=
  (garr w < nexta w)%nat /\ match ocopy w with Some c => (c < nexta w)%nat /\ c <> garr w | None => True end.
(** From [w] to [w'] no array but the gradient array changed, and only free elements did. *)
Definition keeps (w w' : world) : Prop :=
  (nexta w <= nexta w')%nat /\ garr w' = garr w /\ ocopy w' = ocopy w /\
  (forall a, (a < nexta w)%nat -> a <> garr w -> cells w' a = cells w a) /\ (forall v, put E v (params w') = put E v (params w)).
Lemma keeps_refl : forall w, keeps w w.
Proof. intros w. unfold keeps. repeat split; auto. Qed.
Lemma keeps_trans : forall a b c, keeps a b -> keeps b c -> keeps a c.
Proof.
  intros a b c (A1 & A2 & A3 & A4 & A5) (B1 & B2 & B3 & B4 & B5). unfold keeps.
  split; [lia|]. split; [congruence|]. split; [congruence|]. split.
  - intros i Hi Hn. rewrite B4; [apply A4; assumption | lia | congruence].
  - intros v. rewrite B5, A5. reflexivity.
Qed.
Lemma keeps_wf : forall w w', wf w -> keeps w w' -> wf w'.
Proof.
  intros w w' (H1 & H2) (A1 & A2 & A3 & _). unfold wf. rewrite A2, A3. split; [lia|]. destruct (ocopy w); [|exact Logic.I].
  destruct H2. split; [lia | assumption].
Qed.
Lemma alloc_keeps : forall w v w' a, alloc w v = (w', a) ->
  keeps w w' /\ a = nexta w /\ nexta w' = S (nexta w) /\ cells w' a = v /\ params w' = params w /\ (forall b, b <> a -> cells w' b = cells w b).
Proof.
  intros w v w' a H. unfold alloc in H. injection H as <- <-. cbn. split; [|split; [reflexivity|split; [reflexivity|split; [|split; [reflexivity|]]]]].
  - unfold keeps; cbn. split; [lia|]. split; [reflexivity|]. split; [reflexivity|]. split; [|reflexivity].
    intros a Ha _. destruct (Nat.eqb_spec a (nexta w)); [lia | reflexivity].
  - rewrite Nat.eqb_refl. reflexivity.
  - intros b Hb. destruct (Nat.eqb_spec b (nexta w)); [contradiction | reflexivity].
Qed.
Lemma set_keeps : forall w v, keeps w (set_array E raw w v).
Proof.
  intros w v. unfold set_array, set_cell, keeps. cbn. split; [lia|]. split; [reflexivity|]. split; [reflexivity|]. split.
  - intros a _ Ha. destruct (Nat.eqb_spec a (garr w)); [contradiction | reflexivity].
  - intros u. apply put_put.
Qed.
Lemma objective_keeps : forall w v w' r, objective E obj raw w v = (w', r) ->
  keeps w w' /\ r = F (params w) v /\ nexta w' = nexta w.
Proof.
  intros w v w' r H. unfold objective in H. injection H as <- <-. split; [|split; reflexivity].
  pose proof (set_keeps w v) as K. unfold keeps, count in *. cbn in *. exact K.
Qed.
Lemma grads_keeps : forall w v w' a, (garr w < nexta w)%nat -> grads E raw w v = (w', a) ->
  keeps w w' /\ cells w' a = G (params w) v /\ (a < nexta w')%nat /\
  (if has_fixes E then a = nexta w else a = garr w).
Proof.
  intros w v w' a Hg H. unfold grads in H.
  set (w2 := set_cell (count (set_array E raw w v)) (garr (count (set_array E raw w v)))
     (chained E (params (count (set_array E raw w v))) (cells (count (set_array E raw w v)) (garr (count (set_array E raw w v)))))) in *.
  assert (K2 : keeps w w2 /\ garr w2 = garr w /\ nexta w2 = nexta w /\
     cells w2 (garr w2) = chained E (put E v (params w)) (raw (put E v (params w)))).
  { unfold w2, set_cell, count, set_array, set_cell, keeps. cbn. rewrite !Nat.eqb_refl.
    split; [|split; [reflexivity|split; reflexivity]]. split; [lia|]. split; [reflexivity|]. split; [reflexivity|]. split.
    - intros b _ Hb. destruct (Nat.eqb_spec b (garr w)); [contradiction | reflexivity].
    - intros u. apply put_put. }
  clearbody w2. destruct K2 as (K & Kg & Kn & Kc). unfold G. destruct (has_fixes E) eqn:Hf.
  - destruct (alloc_keeps _ _ _ _ H) as (A1 & A2 & A3 & A4 & _). split; [exact (keeps_trans _ _ _ K A1)|].
    rewrite A4, Kc. split; [reflexivity|]. split; [lia | congruence].
  - injection H as <- <-. split; [exact K|]. rewrite Kc. split; [reflexivity|]. split; [lia | exact Kg].
Qed.
Lemma objective_at_F : forall w v, objective_at E obj raw w v = F (params w) v.
Proof. reflexivity. Qed.
Lemma gradient_at_G : forall w v, gradient_at E raw w v = G (params w) v.
Proof.
  intros w v. unfold gradient_at, grads, G. set (p := put E v (params w)).
  set (w2 := set_cell _ _ _).
  assert (Kc : cells w2 (garr w2) = chained E p (raw p)).
  { unfold w2, set_cell, count, set_array, set_cell. cbn. rewrite !Nat.eqb_refl. reflexivity. }
  clearbody w2. destruct (has_fixes E); [|exact Kc]. unfold alloc. cbn. rewrite Nat.eqb_refl, Kc. reflexivity.
Qed.
Lemma F_keeps : forall w w' v, keeps w w' -> F (params w') v = F (params w) v.
Proof. intros w w' v (_ & _ & _ & _ & H). unfold F. rewrite H. reflexivity. Qed.
Lemma G_keeps : forall w w' v, keeps w w' -> G (params w') v = G (params w) v.
Proof. intros w w' v (_ & _ & _ & _ & H). unfold G. rewrite H. reflexivity. Qed.

Variables xtol ftol gtol : R.
Variable wst : world.
Notation p0 := (params wst).

(** ** What holds of the arrays during a run *)
Definition places (w : world) (l : loc) : Prop :=
  keeps wst w /\ (garr w < nexta w)%nat /\ (lx l < nexta w)%nat /\ lx l <> garr w /\ (lgn l < nexta w)%nat /\
  (if has_fixes E then lgn l <> garr w /\ lgo l <> garr w /\ (lgo l < nexta w)%nat else lgn l = garr w).

(** ** New arrays: the run is that of ScgModel *)
Definition abs (w : world) (l : loc) (cl : list evaluation) : st :=
  mkS (cells w (lx l)) (lfold l) (cells w (lgn l)) (cells w (lgo l)) (ld l) (lok l) (lns l) (lbeta l) (lmu l) (lkappa l) (ltheta l)
      (llog l) (lev l) cl (lsteps l).

Section Own.
Hypothesis Hfix : has_fixes E = true.

Lemma dir_sim : forall w l cl, places w l ->
  match directional (G p0) (abs w l cl) with
  | None => scg_directional E raw w l = None
  | Some s => exists w' l' cl', scg_directional E raw w l = Some (w', l') /\ s = abs w' l' cl' /\ places w' l'
  end.
Proof.
  intros w l cl Hp. pose proof Hp as (K & Hg & Hx & Hxg & Hn & Ho). rewrite Hfix in Ho. destruct Ho as (O1 & O2 & O3).
  unfold directional, scg_directional. cbn [abs success d gradnew x fold gradold nsuccess beta flog fevals calls steps].
  destruct (lok l) eqn:Hok; [|exists w, l, cl; split; [reflexivity|]; split; [reflexivity | exact Hp]].
  set (d' := if Rle_dec 0 (dot (ld l) (cells w (lgn l))) then vneg (cells w (lgn l)) else ld l).
  destruct (rdiv sigma0 (sqrt (dot d' d'))) as [sigma|]; [|reflexivity].
  destruct (grads E raw w (vadd (cells w (lx l)) (vscale sigma d'))) as [w1 gplus] eqn:Hgr.
  destruct (grads_keeps _ _ _ _ Hg Hgr) as (K1 & Kc & Kn & Kf). rewrite Hfix in Kf.
  rewrite Kc, (G_keeps _ _ _ K). pose proof K1 as (M1 & M2 & M3 & M4 & M5).
  rewrite (M4 (lgn l)) by assumption.
  destruct (rdiv _ sigma) as [t|]; [|reflexivity].
  eexists w1, _, (CallG (vadd (cells w (lx l)) (vscale sigma d')) :: cl). split; [reflexivity|]. split.
  - unfold abs; cbn. rewrite !M4 by assumption. reflexivity.
  - unfold places; cbn. rewrite Hfix, M2. split; [exact (keeps_trans _ _ _ K K1)|]. repeat split; auto; lia.
Qed.
Lemma body_sim : forall w l cl, places w l ->
  match body (F p0) (G p0) xtol ftol gtol (abs w l cl) with
  | None => scg_body E obj raw xtol ftol gtol w l = None
  | Some (inl s) => exists w' l' cl', scg_body E obj raw xtol ftol gtol w l = Some (inl (w', l')) /\ s = abs w' l' cl' /\ places w' l'
  | Some (inr (s, stat)) => exists w' l' cl', scg_body E obj raw xtol ftol gtol w l = Some (inr (w', l', stat)) /\ s = abs w' l' cl'
  end.
Proof.
  intros w0 l0 cl0 Hp0. unfold body, scg_body. pose proof (dir_sim w0 l0 cl0 Hp0) as HD.
  destruct (directional (G p0) (abs w0 l0 cl0)) as [s|]; [|rewrite HD; reflexivity].
  destruct HD as (w & l & cl & -> & -> & Hp). pose proof Hp as (K & Hg & Hx & Hxg & Hn & Ho). rewrite Hfix in Ho. destruct Ho as (O1 & O2 & O3).
  replace (curvature (abs w l cl)) with (scg_curvature l) by reflexivity.
  destruct (scg_curvature l) as [[delta b]|]; [|reflexivity].
  cbn [abs success d gradnew x fold gradold nsuccess beta flog fevals calls steps mu kappa theta].
  destruct (rdiv (- lmu l) delta) as [alpha|]; [|reflexivity].
  destruct (alloc w (vadd (cells w (lx l)) (vscale alpha (ld l)))) as [w2 xnew] eqn:Ha.
  destruct (alloc_keeps _ _ _ _ Ha) as (A1 & A2 & A3 & A4 & A5 & A6). rewrite A4.
  destruct (objective E obj raw w2 (vadd (cells w (lx l)) (vscale alpha (ld l)))) as [w3 fnew] eqn:Hob.
  destruct (objective_keeps _ _ _ _ Hob) as (B1 & B2 & B3).
  pose proof (keeps_trans _ _ _ A1 B1) as K3. pose proof (keeps_trans _ _ _ K K3) as K03.
  assert (Hf : fnew = F p0 (vadd (cells w (lx l)) (vscale alpha (ld l)))).
  { rewrite B2. rewrite (F_keeps _ _ _ A1). apply F_keeps. exact K. }
  rewrite <- Hf. pose proof K3 as (M1 & M2 & M3 & M4 & M5). pose proof B1 as (N1 & N2 & N3 & N4 & N5). pose proof A1 as (L1 & L2 & L3 & _ & _).
  assert (Cx : cells w3 xnew = vadd (cells w (lx l)) (vscale alpha (ld l))).
  { rewrite N4; [exact A4 | lia | rewrite L2; lia]. }
  destruct (rdiv (2 * (fnew - lfold l)) (alpha * lmu l)) as [Delta|]; [|reflexivity].
  destruct (Rle_dec 0 Delta).
  - destruct (Rlt_dec (Rabs (fnew - lfold l)) ftol).
    { eexists w3, _, _. split; [reflexivity|]. unfold abs; cbn. rewrite Cx, !M4 by assumption. reflexivity. }
    destruct (Rlt_dec (maxabs (vscale alpha (ld l))) xtol).
    { eexists w3, _, _. split; [reflexivity|]. unfold abs; cbn. rewrite Cx, !M4 by assumption. reflexivity. }
    rewrite Cx. destruct (grads E raw w3 (vadd (cells w (lx l)) (vscale alpha (ld l)))) as [w4 gn] eqn:Hgr.
    assert (Hg3 : (garr w3 < nexta w3)%nat) by (rewrite M2; lia).
    destruct (grads_keeps _ _ _ _ Hg3 Hgr) as (Q1 & Qc & Qn & Qf). rewrite Hfix in Qf. pose proof Q1 as (R1 & R2 & R3 & R4 & R5).
    rewrite (G_keeps _ _ _ K03) in Qc. rewrite Qc.
    assert (Cx4 : cells w4 xnew = vadd (cells w (lx l)) (vscale alpha (ld l))).
    { rewrite R4; [exact Cx | lia | rewrite M2; lia]. }
    assert (M : forall a, (a < nexta w)%nat -> a <> garr w -> cells w4 a = cells w a).
    { intros a H1 H2. rewrite R4; [apply M4; assumption | lia | congruence]. }
    destruct (Rle_dec (dot _ _) gtol).
    { eexists w4, _, _. split; [reflexivity|]. unfold abs; cbn. rewrite Cx4, Qc, !M by assumption. reflexivity. }
    assert (P4 : forall l', lx l' = xnew -> lgn l' = gn -> lgo l' = lgn l -> places w4 l').
    { intros l' E1 E2 E3. unfold places. rewrite E1, E2, E3, Hfix, R2, M2. split; [exact (keeps_trans _ _ _ K03 Q1)|]. repeat split; auto; lia. }
    rewrite Cx4. destruct (Nat.eqb _ _).
    { eexists w4, _, _. split; [reflexivity|]. split; [|apply P4; reflexivity]. unfold abs; cbn. rewrite Cx4, Qc, !M by assumption. reflexivity. }
    rewrite (M (lgn l)) by assumption. destruct (rdiv (dot _ _) (lmu l)) as [Gam|]; [|reflexivity].
    eexists w4, _, _. split; [reflexivity|]. split; [|apply P4; reflexivity]. unfold abs; cbn. rewrite Cx4, Qc, !M by assumption. reflexivity.
  - assert (P3 : forall l', lx l' = lx l -> lgn l' = lgn l -> lgo l' = lgo l -> places w3 l').
    { intros l' E1 E2 E3. unfold places. rewrite E1, E2, E3, Hfix, M2. split; [exact K03|]. repeat split; auto; lia. }
    rewrite !M4 by assumption. destruct (Nat.eqb _ _).
    { eexists w3, _, _. split; [reflexivity|]. split; [|apply P3; reflexivity]. unfold abs; cbn. rewrite !M4 by assumption. reflexivity. }
    eexists w3, _, _. split; [reflexivity|]. split; [|apply P3; reflexivity]. unfold abs; cbn. rewrite !M4 by assumption. reflexivity.
Qed.
Lemma loop_sim : forall n w l cl, places w l ->
  match loop (F p0) (G p0) xtol ftol gtol n (abs w l cl) with
  | None => scg_loop E obj raw xtol ftol gtol n w l = None
  | Some (s, stat) => exists w' l' cl', scg_loop E obj raw xtol ftol gtol n w l = Some (w', l', stat) /\ s = abs w' l' cl'
  end.
Proof.
  induction n as [|n IH]; intros w l cl Hp; cbn [loop scg_loop].
  - exists w, l, cl. split; reflexivity.
  - pose proof (body_sim w l cl Hp) as HB. destruct (body _ _ _ _ _ _) as [[s|[s stat]]|].
    + destruct HB as (w' & l' & cl' & -> & -> & Hp'). apply IH. exact Hp'.
    + destruct HB as (w' & l' & cl' & -> & ->). exists w', l', cl'. split; reflexivity.
    + rewrite HB. reflexivity.
Qed.
End Own.

Lemma start_places : forall ix, (garr wst < nexta wst)%nat -> (ix < nexta wst)%nat -> ix <> garr wst ->
  exists w l, scg_start E obj raw wst ix = (w, l) /\ places w l /\ lx l = ix /\ cells w ix = cells wst ix /\
    lfold l = F p0 (cells wst ix) /\ cells w (lgn l) = G p0 (cells wst ix) /\ cells w (lgo l) = G p0 (cells wst ix) /\
    l = mkL ix (lfold l) (lgn l) (lgo l) (vneg (cells w (lgn l))) true 0 1 0 0 0 [lfold l] 2 [].
Proof.
  intros ix Hg Hx Hn. unfold scg_start.
  destruct (objective E obj raw wst (cells wst ix)) as [w1 f0] eqn:H1. destruct (objective_keeps _ _ _ _ H1) as (A1 & A2 & A3).
  pose proof A1 as (P1 & P2 & P3 & P4 & P5).
  destruct (grads E raw w1 (cells w1 ix)) as [w2 g] eqn:H2.
  assert (Hg1 : (garr w1 < nexta w1)%nat) by (rewrite P2; lia).
  destruct (grads_keeps _ _ _ _ Hg1 H2) as (B1 & B2 & B3 & B4). pose proof B1 as (Q1 & Q2 & Q3 & Q4 & Q5).
  destruct (alloc w2 (cells w2 g)) as [w3 go] eqn:H3. destruct (alloc_keeps _ _ _ _ H3) as (C1 & C2 & C3 & C4 & C5 & C6).
  pose proof C1 as (R1 & R2 & R3 & R4 & R5).
  assert (Hx1 : cells w1 ix = cells wst ix) by (apply P4; assumption). rewrite Hx1 in B2. rewrite (G_keeps _ _ _ A1) in B2.
  assert (Hx3 : cells w3 ix = cells wst ix).
  { rewrite C6 by lia. rewrite Q4; [exact Hx1 | lia | congruence]. }
  assert (Hg3 : cells w3 g = G p0 (cells wst ix)) by (rewrite C6 by lia; exact B2).
  eexists w3, _. split; [reflexivity|]. cbn [lx lfold lgn lgo].
  split; [|repeat split; try assumption; [rewrite C4; exact B2 ]].
  unfold places; cbn [lx lgn lgo]. split; [exact (keeps_trans _ _ _ (keeps_trans _ _ _ A1 B1) C1)|].
  rewrite R2, Q2, P2. split; [lia|]. split; [lia|]. split; [exact Hn|]. split; [lia|].
  destruct (has_fixes E); [|rewrite B4; exact P2]. repeat split; lia.
Qed.
Lemma refines : forall ix n m, has_fixes E = true -> (garr wst < nexta wst)%nat -> (ix < nexta wst)%nat -> ix <> garr wst ->
  returned (scg E obj raw xtol ftol gtol wst ix n) = returned_by (SCG (F p0) (G p0) xtol ftol gtol (cells wst ix) n m).
Proof.
  intros ix n m Hfix Hg Hx Hn. destruct (start_places ix Hg Hx Hn) as (w & l & H1 & Hp & El & Ex & Ef & Eg & Ego & Eq).
  unfold scg. rewrite H1. pose proof (loop_sim Hfix n w l [CallG (cells wst ix); CallF (cells wst ix)] Hp) as H.
  unfold SCG. replace (start (F p0) (G p0) (cells wst ix)) with (abs w l [CallG (cells wst ix); CallF (cells wst ix)]).
  2: { rewrite Eq. unfold abs, start. cbn. rewrite Ex, Ef, Eg, Ego. reflexivity. }
  destruct (loop _ _ _ _ _ _ _) as [[s stat]|]; [|rewrite H; reflexivity].
  destruct H as (w' & l' & cl' & -> & ->). reflexivity.
Qed.
End P.
