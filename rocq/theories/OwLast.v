(** Proofs about arrays that pass between a model and the optimizer, part 4: the properties. *)
From Coq Require Import List Reals Bool Arith Lia Lra FunctionalExtensionality.
From Verif Require Import ScgModel ScgSpec ScgProofs OwModel OwSpec OwProofs OwRun OwFinal.
Import ListNotations.
Open Scope R_scope.

Section L.
Variable E : list elem.
Variable obj : vec -> R.
Variable raw : vec -> vec.
Variables xtol ftol gtol : R.
Notation oreached := (oreach E obj raw xtol ftol gtol).
Notation ohistory := (ohist E obj raw xtol ftol gtol).
Notation run := (scg E obj raw xtol ftol gtol).

(** ** C95 *)
Lemma refines_final : forall p w pts grs x n m, oreached p w pts grs -> some_fixed E -> In x pts ->
  returned (run w x n) = returned_by (SCG (objective_at E obj raw w) (gradient_at E raw w) xtol ftol gtol (cells w x) n m).
Proof.
  intros p w pts grs x n m R Hf Hx. destruct (reach_ok E obj raw xtol ftol gtol p w pts grs R) as (A1 & A2 & A3 & _). destruct (A3 x Hx) as [X1 X2].
  apply has_fixes_iff in Hf.
  replace (gradient_at E raw w) with (G E raw (params w)) by (extensionality v; symmetry; apply gradient_at_G).
  replace (objective_at E obj raw w) with (F E obj (params w)) by (extensionality v; symmetry; apply objective_at_F).
  exact (refines E obj raw xtol ftol gtol w x n m Hf (proj1 A1) X1 X2).
Qed.

(** ** C96 *)
Lemma run_final : forall p w pts grs x n, oreached p w pts grs -> shaped E raw p -> In x pts -> length (cells w x) = nfree E ->
  0 <= gtol -> nonzero (gradient_at E raw w (cells w x)) ->
  exists w' l stat, run w x n = Some (w', l, stat) /\
    non_increasing (llog l) /\ hd_error (llog l) = Some (objective_at E obj raw w (cells w x)) /\
    (exists k, llog l = k ++ [objective_at E obj raw w (cells w' (lx l))]) /\
    objective_at E obj raw w (cells w' (lx l)) <= objective_at E obj raw w (cells w x) /\
    (length (lsteps l) <= n)%nat /\ (made w' = made w + lev l)%nat /\ (lev l <= 2 + 3 * n)%nat /\
    path (objective_at E obj raw w) (cells w x) (lsteps l) (cells w' (lx l)) /\
    values (objective_at E obj raw w) (cells w x) (lsteps l) (llog l) /\
    (~ some_fixed E -> Forall (fun i => exists b, betamin <= b <= betamax /\ i_d i = vneg (gradient_at E raw w (i_x i)) /\ i_alpha i = / b) (lsteps l)).
Proof.
  intros p w pts grs x n R [Hl Hr] Hx Hlx Hg0 Hnz. destruct (reach_ok E obj raw xtol ftol gtol p w pts grs R) as (A1 & A2 & A3 & _). destruct (A3 x Hx) as [X1 X2].
  assert (EO : objective_at E obj raw w = F E obj (params w)) by (extensionality v; apply objective_at_F).
  rewrite gradient_at_G in Hnz. rewrite EO.
  destruct (scg_ok E obj raw xtol ftol gtol w (cells w x) Hg0) with (ix := x) (n := n) as (w' & l & stat & H1 & (Hfi & K & Hm & Hgd) & Hs); auto.
  { intros v. rewrite Hlx. apply G_length; [congruence | exact Hr]. }
  { apply (proj1 A1). }
  exists w', l, stat. split; [exact H1|]. destruct Hfi as ((L1 & L2 & L3 & L4 & L5 & L6 & L7) & (V1 & V2) & _). cbn [abs2 ScgModel.flog ScgModel.steps ScgModel.x ScgModel.fevals] in *.
  split; [exact L1|]. split; [exact L4|]. split; [exact L3|].
  split. { destruct (llog l) as [|a k]; [discriminate|]. simpl in L4. injection L4 as ->. apply Forall_cons_iff in L2. apply L2. }
  split; [exact Hs|]. split; [exact Hm|]. split; [lia|]. split; [exact L6|]. split; [exact L7|].
  intros Hnf. apply no_fixes in Hnf. eapply Forall_impl; [|exact (Hgd Hnf)]. intros i (b & B1 & B2 & B3 & _). exists b.
  rewrite gradient_at_G. auto.
Qed.

(** ** C97 *)
Definition no_edit (c : ocall) : Prop := match c with OEdit _ _ => False | _ => True end.
Lemma hist_weaken : forall (ok ok' : ocall -> Prop) w pts grs w' pts' grs', (forall c, ok c -> ok' c) -> ohistory ok w pts grs w' pts' grs' -> ohistory ok' w pts grs w' pts' grs'.
Proof. intros ok ok' w pts grs w' pts' grs' H Hh. induction Hh; econstructor; eauto. Qed.
Lemma hist_trans : forall ok w pts grs w1 pts1 grs1 w2 pts2 grs2, ohistory ok w pts grs w1 pts1 grs1 -> ohistory ok w1 pts1 grs1 w2 pts2 grs2 -> ohistory ok w pts grs w2 pts2 grs2.
Proof. intros ok w pts grs w1 pts1 grs1 w2 pts2 grs2 H1 H2. induction H2; [exact H1 | econstructor; eauto]. Qed.
Lemma hist_kept : forall n w pts grs w' pts' grs' a, reach_inv E n w pts grs -> (a < nexta w)%nat -> a <> garr w -> Some a <> ocopy w ->
  ohistory no_edit w pts grs w' pts' grs' -> cells w' a = cells w a /\ (a < nexta w')%nat /\ a <> garr w' /\ Some a <> ocopy w'.
Proof.
  intros n w pts grs w' pts' grs' a HI H1 H2 H3 H. apply (hist_same E obj raw xtol ftol gtol n w pts grs w' pts' grs' a HI H1 H2 H3).
  eapply hist_weaken; [|exact H]. intros [] Hc; cbn in *; auto; contradiction.
Qed.
(** Fixed elements never change. *)
Lemma step_put : forall n w pts grs c w' r, reach_inv E n w pts grs -> allowed pts grs c -> ostep E obj raw xtol ftol gtol c w = Some (w', r) ->
  forall v, put E v (params w') = put E v (params w).
Proof.
  intros n w pts grs c w' r HI Ha H v. pose proof HI as (A1 & A2 & A3 & _). destruct c as [|u|a g|u|u|x k]; cbn [ostep allowed] in *.
  - destruct (read_array E w) as [w1 a] eqn:HR. injection H as <- _. destruct (read_ok E _ _ _ A1 HR) as (_ & _ & _ & -> & _). reflexivity.
  - injection H as <- _. apply (set_keeps E raw w u).
  - injection H as <- _. reflexivity.
  - destruct (objective E obj raw w u) as [w1 f] eqn:Ho. injection H as <- _. apply (objective_keeps E obj raw _ _ _ _ Ho).
  - destruct (grads E raw w u) as [w1 b] eqn:Hgr. injection H as <- _. apply (grads_keeps E raw _ _ _ _ (proj1 A1) Hgr).
  - destruct (run w x k) as [[[w1 l] stat]|] eqn:Hs; [|discriminate]. injection H as <- _.
    destruct (A3 x Ha) as [X1 X2]. apply (scg_leads E obj raw xtol ftol gtol _ _ _ _ _ _ (proj1 A1) X1 X2 Hs).
Qed.
Lemma hist_put : forall ok n w pts grs w' pts' grs', reach_inv E n w pts grs -> ohistory ok w pts grs w' pts' grs' -> forall v, put E v (params w') = put E v (params w).
Proof.
  intros ok n w pts grs w' pts' grs' HI H. induction H as [|w1 pts1 grs1 c w2 r H IH Hal Hok Hs]; [reflexivity|]. intros v.
  rewrite (step_put n w1 pts1 grs1 c w2 r); auto. eapply hist_ok; eauto.
Qed.

Definition improved (r : orun) : Prop := f_opt r < f0 r.
(** A run in the list: its array, and what it had when the run ended. *)
Definition run_ok (p0 : vec) (w : world) (r : orun) : Prop := f_opt r = F E obj p0 (xend r) /\
  (has_fixes E = true \/ improved r -> cells w (x_opt r) = xend r /\ (x_opt r < nexta w)%nat /\ x_opt r <> garr w /\ Some (x_opt r) <> ocopy w).
Lemma optimize_ok : forall m n w pts grs runs w' runs', reach_inv E m w pts grs -> existsb efree E = true ->
  optimize E obj raw xtol ftol gtol n w runs = Some (w', runs') ->
  exists r pts', runs' = runs ++ [r] /\ ohistory no_edit w pts grs w' pts' grs /\ run_ok (params w) w' r /\ params w' = put E (xend r) (params w) /\
    f0 r = F E obj (params w) (let (w1, x) := read_array E w in cells w1 x).
Proof.
  intros m n w pts grs runs w' runs' HI Hfr H. unfold optimize in H. rewrite Hfr in H.
  destruct (read_array E w) as [w1 x] eqn:HR. destruct (run w1 x n) as [[[w2 l] stat]|] eqn:HS; [|discriminate]. injection H as <- <-.
  exists (run_of w2 l), (lx l :: x :: pts).
  assert (S1 : ostep E obj raw xtol ftol gtol ORead w = Some (w1, Some x)) by (cbn [ostep]; rewrite HR; reflexivity).
  assert (S2 : ostep E obj raw xtol ftol gtol (OScg x n) w1 = Some (w2, Some (lx l))) by (cbn [ostep]; rewrite HS; reflexivity).
  assert (Hin : allowed (x :: pts) grs (OScg x n)) by (left; reflexivity).
  pose proof (step_inv E obj raw xtol ftol gtol m w pts grs ORead w1 (Some x) HI Logic.I S1) as I1. cbn [points gradients] in I1.
  pose proof (step_inv E obj raw xtol ftol gtol m w1 (x :: pts) grs (OScg x n) w2 (Some (lx l)) I1 Hin S2) as I2. cbn [points gradients] in I2.
  split; [reflexivity|]. split.
  { apply (ohist_call E obj raw xtol ftol gtol no_edit w pts grs w2 (lx l :: x :: pts) grs (OSet (cells w2 (lx l))) (set_array E raw w2 (cells w2 (lx l))) None); [|exact Logic.I|exact Logic.I|reflexivity].
    apply (ohist_call E obj raw xtol ftol gtol no_edit w pts grs w1 (x :: pts) grs (OScg x n) w2 (Some (lx l))); [|exact Hin|exact Logic.I|exact S2].
    apply (ohist_call E obj raw xtol ftol gtol no_edit w pts grs w pts grs ORead w1 (Some x)); [constructor|exact Logic.I|exact Logic.I|exact S1]. }
  pose proof I1 as (A1 & A2 & A3 & _). destruct (A3 x (or_introl eq_refl)) as [X1 X2].
  destruct (scg_leads E obj raw xtol ftol gtol _ _ _ _ _ _ (proj1 A1) X1 X2 HS) as (K & L1 & L2 & L3 & L4 & L5).
  destruct HI as (W & _). destruct (read_ok E _ _ _ W HR) as (_ & _ & _ & Ep & _ & _ & _ & c & C1 & _ & _ & _ & C5 & _).
  rewrite Ep in L4, L5. pose proof K as (K1 & K2 & K3 & K4 & K5).
  assert (KP : forall v, put E v (params w2) = put E v (params w)) by (intros v; rewrite K5, Ep; reflexivity).
  split; [|split].
  - unfold run_ok, run_of, improved. cbn [f_opt xend x_opt f0]. split; [exact L5|]. intros Hc.
    assert (Hset : forall a, a <> garr w2 -> cells (set_array E raw w2 (cells w2 (lx l))) a = cells w2 a).
    { intros a Ha. unfold set_array, set_cell. cbn. destruct (Nat.eqb_spec a (garr w2)); [contradiction | reflexivity]. }
    split; [apply Hset; exact L3|]. split; [exact L2|]. split; [exact L3|]. change (Some (lx l) <> ocopy w2).
    destruct Hc as [Hf|Hi].
    + destruct I2 as (_ & _ & _ & _ & _ & I6). apply (proj1 (I6 Hf)). left; reflexivity.
    + destruct L1 as [L1|L1].
      * exfalso. rewrite L1, (K4 x) in L5 by assumption. rewrite L4, L5 in Hi. lra.
      * rewrite K3, C1. intros Hcc. injection Hcc as Hcc. destruct (wf_copy _ _ A1 C1) as [Q _]. lia.
  - cbn [xend run_of]. change (put E (cells w2 (lx l)) (params w2) = put E (cells w2 (lx l)) (params w)). apply KP.
  - unfold run_of. cbn [f0]. exact L4.
Qed.
Lemma run_ok_hist : forall p0 m w pts grs w' pts' grs' r, reach_inv E m w pts grs -> ohistory no_edit w pts grs w' pts' grs' -> run_ok p0 w r -> run_ok p0 w' r.
Proof.
  intros p0 m w pts grs w' pts' grs' r HI H (R1 & R2). split; [exact R1|]. intros Hc. destruct (R2 Hc) as (Q1 & Q2 & Q3 & Q4).
  destruct (hist_kept m w pts grs w' pts' grs' _ HI Q2 Q3 Q4 H) as (E1 & E2 & E3 & E4). rewrite E1. auto.
Qed.
Lemma loop_ok : forall m n p0 draws w pts grs runs w' runs', reach_inv E m w pts grs -> existsb efree E = true -> (forall v, put E v (params w) = put E v p0) ->
  restart_loop E obj raw xtol ftol gtol n draws w runs = Some (w', runs') ->
  exists new pts', runs' = runs ++ new /\ length new = length draws /\ ohistory no_edit w pts grs w' pts' grs /\ Forall (run_ok p0 w') new.
Proof.
  intros m n p0 draws. induction draws as [|v draws IH]; intros w pts grs runs w' runs' HI Hfr HP H; cbn [restart_loop] in H.
  - injection H as <- <-. exists [], pts. rewrite app_nil_r. split; [reflexivity|]. split; [reflexivity|]. split; constructor.
  - destruct (optimize E obj raw xtol ftol gtol n (set_array E raw w v) runs) as [[w1 runs1]|] eqn:HO; [|discriminate].
    assert (I0 : reach_inv E m (set_array E raw w v) pts grs) by (apply (step_inv E obj raw xtol ftol gtol m w pts grs (OSet v) _ None HI Logic.I); reflexivity).
    destruct (optimize_ok m n _ pts grs runs w1 runs1 I0 Hfr HO) as (r & pts1 & -> & Hh & Hr & _ & _).
    assert (H0 : ohistory no_edit w pts grs w1 pts1 grs).
    { eapply hist_trans; [|exact Hh]. apply (ohist_call E obj raw xtol ftol gtol no_edit w pts grs w pts grs (OSet v) _ None); [constructor|exact Logic.I|exact Logic.I|reflexivity]. }
    pose proof (hist_ok E obj raw xtol ftol gtol no_edit m _ _ _ _ _ _ HI H0) as I1.
    assert (HP1 : forall u, put E u (params w1) = put E u p0) by (intros u; rewrite (hist_put no_edit m _ _ _ _ _ _ HI H0); apply HP).
    destruct (IH w1 pts1 grs (runs ++ [r]) w' runs' I1 Hfr HP1 H) as (new & pts' & -> & Hl & Hh2 & Hn).
    exists (r :: new), pts'. rewrite <- app_assoc. split; [reflexivity|]. split; [cbn; congruence|].
    split; [eapply hist_trans; eauto|]. constructor; [|exact Hn].
    apply (run_ok_hist p0 m w1 pts1 grs w' pts' grs r I1 Hh2). destruct Hr as (R1 & R2). split; [|exact R2].
    rewrite R1. unfold F. f_equal. change (put E (xend r) (put E v (params w)) = put E (xend r) p0). rewrite put_put. apply HP.
Qed.
Lemma best_ok : forall l r, In (best r l) (r :: l) /\ forall q, In q (r :: l) -> f_opt (best r l) <= f_opt q.
Proof.
  induction l as [|q l IH]; intros r; cbn [best]; [split; [left; reflexivity | intros q [<-|[]]; lra]|].
  destruct (Rlt_dec (f_opt q) (f_opt r)) as [Hlt|Hge].
  - destruct (IH q) as [H1 H2]. split; [right; exact H1|]. intros z [<-|Hz]; [|apply H2; exact Hz]. specialize (H2 q (or_introl eq_refl)). lra.
  - destruct (IH r) as [H1 H2]. split; [destruct H1; [left; assumption | right; right; assumption]|]. intros z [<-|[<-|Hz]]; [apply H2; left; reflexivity| |apply H2; right; exact Hz].
    specialize (H2 r (or_introl eq_refl)). lra.
Qed.
Lemma alloc_inv : forall m w pts grs v w' i, reach_inv E m w pts grs -> alloc w v = (w', i) -> reach_inv E m w' pts grs.
Proof.
  intros m w pts grs v w' i (B1 & B2 & B3 & B4 & B5 & B6) HA. destruct (alloc_keeps E _ _ _ _ HA) as (KA & KA2 & KA3 & KA4 & KA5 & KA6).
  pose proof KA as (K1 & K2 & K3 & K4 & K5).
  assert (Fr : ofresh w' = ofresh w) by (unfold alloc in HA; injection HA as <- <-; reflexivity).
  split; [exact (keeps_wf E _ _ B1 KA)|]. split; [congruence|]. rewrite K2, K3, Fr, KA5.
  split; [intros b Hb; destruct (B3 b Hb); split; [lia | assumption]|]. split; [intros b Hb; destruct (B4 b Hb); split; [lia | assumption]|].
  split; [exact B5|]. intros Hx. destruct (B6 Hx) as [D1 D2]. split; [exact D1|]. intros Hf c Hc. rewrite (KA6 c); [apply D2; auto|].
  destruct (wf_copy _ _ B1 Hc). lia.
Qed.
Lemma optimize_final : forall p w pts grs n runs w' runs', oreached p w pts grs -> (exists e, In e E /\ efree e = true) ->
  optimize E obj raw xtol ftol gtol n w runs = Some (w', runs') ->
  exists r pts', runs' = runs ++ [r] /\ oreached p w' pts' grs /\ objective_now obj w' = f_opt r /\ f_opt r = objective_at E obj raw w (xend r) /\
    f0 r = objective_at E obj raw w (let (w1, x) := read_array E w in cells w1 x).
Proof.
  intros p w pts grs n runs w' runs' R Hfr H. pose proof (reach_ok E obj raw xtol ftol gtol p w pts grs R) as HI.
  assert (Hfr' : existsb efree E = true) by (apply existsb_exists; exact Hfr).
  destruct (optimize_ok (length p) n w pts grs runs w' runs' HI Hfr' H) as (r & pts' & H1 & H2 & (H3 & _) & H4 & H5).
  exists r, pts'. split; [exact H1|]. split; [|rewrite !objective_at_F; split; [|split; [exact H3|exact H5]]].
  - clear - R H2. induction H2; [exact R | econstructor; eauto].
  - unfold objective_now. rewrite H4, H3. reflexivity.
Qed.
Lemma restarts_final : forall p w pts grs n draws runs w' runs', oreached p w pts grs -> (exists e, In e E /\ efree e = true) ->
  restarts E obj raw xtol ftol gtol n draws w runs = Some (w', runs') ->
  exists new, runs' = runs ++ new /\ length new = S (length draws) /\
    (forall r, In r new -> f_opt r = objective_at E obj raw w (xend r)) /\
    (some_fixed E \/ (forall r, In r new -> f_opt r < f0 r) ->
     exists r, In r new /\ (forall q, In q new -> f_opt r <= f_opt q) /\ objective_now obj w' = f_opt r).
Proof.
  intros p w pts grs n draws runs w' runs' R Hfr H. pose proof (reach_ok E obj raw xtol ftol gtol p w pts grs R) as HI.
  assert (Hfr' : existsb efree E = true) by (apply existsb_exists; exact Hfr). unfold restarts in H.
  destruct (read_array E w) as [w1 a] eqn:HR.
  assert (S1 : ostep E obj raw xtol ftol gtol ORead w = Some (w1, Some a)) by (cbn [ostep]; rewrite HR; reflexivity).
  pose proof (step_inv E obj raw xtol ftol gtol _ w pts grs ORead w1 (Some a) HI Logic.I S1) as I1. cbn [points gradients] in I1.
  pose proof (step_put _ w pts grs ORead w1 (Some a) HI Logic.I S1) as P1.
  destruct (alloc w1 (cells w1 a)) as [wa ini] eqn:HA.
  destruct (alloc_keeps E _ _ _ _ HA) as (KA & KA2 & KA3 & KA4 & KA5 & KA6).
  pose proof (alloc_inv _ _ _ _ _ _ _ I1 HA) as Ia.
  destruct (optimize E obj raw xtol ftol gtol n wa runs) as [[w2 runs1]|] eqn:HO; [|discriminate].
  destruct (optimize_ok (length p) n wa (a :: pts) grs runs w2 runs1 Ia Hfr' HO) as (r0 & pts2 & -> & Hh & Hr & _ & _).
  pose proof (hist_ok E obj raw xtol ftol gtol no_edit _ _ _ _ _ _ _ Ia Hh) as I2.
  assert (HP2 : forall v, put E v (params w2) = put E v (params w)).
  { intros v. rewrite (hist_put no_edit _ _ _ _ _ _ _ Ia Hh), KA5. apply P1. }
  destruct (restart_loop E obj raw xtol ftol gtol n draws w2 (runs ++ [r0])) as [[w3 runs2]|] eqn:HL; [|discriminate].
  destruct (loop_ok (length p) n (params w) draws w2 pts2 grs (runs ++ [r0]) w3 runs2 I2 Hfr' HP2 HL) as (new & pts3 & -> & Hl & Hh3 & Hn).
  rewrite <- app_assoc in H. cbn [app] in H. rewrite skipn_app, skipn_all, Nat.sub_diag in H. cbn [skipn app] in H. injection H as <- <-.
  assert (Hr3 : run_ok (params w) w3 r0).
  { apply (run_ok_hist _ _ _ _ _ _ _ _ r0 I2 Hh3). destruct Hr as (R1 & R2). split; [|exact R2]. rewrite R1. unfold F. rewrite KA5. f_equal. apply P1. }
  assert (Hall : forall r, In r (r0 :: new) -> run_ok (params w) w3 r) by (intros r [<-|Hr']; [exact Hr3 | rewrite Forall_forall in Hn; apply Hn; exact Hr']).
  assert (HP3 : forall v, put E v (params w3) = put E v (params w)) by (intros v; rewrite (hist_put no_edit _ _ _ _ _ _ _ I2 Hh3); apply HP2).
  exists (r0 :: new). split; [reflexivity|]. split; [cbn; congruence|].
  split; [intros r Hri; rewrite objective_at_F; apply (Hall r Hri)|].
  intros Hc. destruct (best_ok new r0) as [B1 B2]. exists (best r0 new). split; [exact B1|]. split; [exact B2|].
  destruct (Hall _ B1) as (R1 & R2). destruct R2 as (Q1 & _).
  { destruct Hc as [Hc|Hc]; [left; apply has_fixes_iff; exact Hc | right; apply Hc; exact B1]. }
  unfold objective_now. change (obj (put E (cells w3 (x_opt (best r0 new))) (params w3)) = f_opt (best r0 new)).
  rewrite Q1, HP3, R1. reflexivity.
Qed.

(** ** C98 *)
Lemma grs_fixed : forall p w pts grs a, oreached p w pts grs -> has_fixes E = true -> In a grs -> a <> garr w.
Proof.
  intros p w pts grs a R Hf. induction R as [|w pts grs c w' r R IH Hal Hs]; [intros []|].
  pose proof (reach_ok E obj raw xtol ftol gtol p w pts grs R) as (A1 & A2 & A3 & _).
  destruct c as [|u|b g|u|u|x k]; cbn [ostep allowed points gradients] in *.
  - destruct (read_array E w) as [w1 b] eqn:HR. injection Hs as <- <-. destruct (read_ok E _ _ _ A1 HR) as (_ & _ & -> & _). exact IH.
  - injection Hs as <- <-. exact IH.
  - injection Hs as <- <-. exact IH.
  - injection Hs as <- <-. exact IH.
  - destruct (grads E raw w u) as [w1 b] eqn:Hgr. injection Hs as <- <-. destruct (grads_keeps E raw _ _ _ _ (proj1 A1) Hgr) as (K & _ & _ & Kf).
    rewrite Hf in Kf. destruct K as (_ & -> & _). intros [<-|Hi]; [destruct A1; lia | apply IH; exact Hi].
  - destruct (run w x k) as [[[w1 l] stat]|] eqn:Hr; [|discriminate]. injection Hs as <- <-.
    destruct (A3 x Hal) as [X1 X2]. destruct (scg_leads E obj raw xtol ftol gtol _ _ _ _ _ _ (proj1 A1) X1 X2 Hr) as ((_ & -> & _) & _). exact IH.
Qed.
Lemma snapshot_final : forall p w pts grs a w' pts' grs', oreached p w pts grs -> some_fixed E -> In a pts \/ In a grs ->
  ohistory (not_into a) w pts grs w' pts' grs' -> cells w' a = cells w a.
Proof.
  intros p w pts grs a w' pts' grs' R Hf Ha H. apply has_fixes_iff in Hf. pose proof (reach_ok E obj raw xtol ftol gtol p w pts grs R) as HI.
  pose proof HI as (A1 & A2 & A3 & A4 & _ & A6).
  assert (Q : (a < nexta w)%nat /\ a <> garr w /\ Some a <> ocopy w).
  { destruct Ha as [Ha|Ha].
    - destruct (A3 a Ha). split; [assumption|]. split; [assumption|]. apply (proj1 (A6 Hf)); exact Ha.
    - destruct (A4 a Ha). split; [assumption|]. split; [|assumption]. apply (grs_fixed p w pts grs a R Hf Ha). }
  destruct Q as (Q1 & Q2 & Q3). apply (hist_same E obj raw xtol ftol gtol _ w pts grs w' pts' grs' a HI Q1 Q2 Q3 H).
Qed.
Lemma hist_params : forall (ok : ocall -> Prop) w pts grs w' pts' grs' m, (forall c, ok c -> reads_and_edits c) -> reach_inv E m w pts grs -> ohistory ok w pts grs w' pts' grs' -> params w' = params w.
Proof.
  intros ok w pts grs w' pts' grs' m Hok HI H. induction H as [|w1 pts1 grs1 c w2 r H IH Hal Ho Hs]; [reflexivity|].
  rewrite <- IH. pose proof (hist_ok E obj raw xtol ftol gtol ok m _ _ _ _ _ _ HI H) as (A1 & _). apply Hok in Ho. destruct c as [|u|b g|u|u|x k]; try contradiction; cbn [ostep] in Hs.
  - destruct (read_array E w1) as [w3 b] eqn:HR. injection Hs as <- _. destruct (read_ok E _ _ _ A1 HR) as (_ & _ & _ & -> & _). reflexivity.
  - injection Hs as <- _. reflexivity.
Qed.
(** What a read gives, when the optimizer copy is right if it is marked as right. *)
Lemma read_gives : forall m w pts grs w' a, reach_inv E m w pts grs -> m = length E ->
  (ofresh w = true -> forall c, ocopy w = Some c -> cells w c = untransformed E (params w)) -> read_array E w = (w', a) ->
  cells w' a = pick_free E (untransformed E (params w)) /\ params w' = params w /\ (forall c, ocopy w' = Some c -> cells w' c = untransformed E (params w')).
Proof.
  intros m w pts grs w' a HI Hm Hc HR. pose proof HI as (A1 & A2 & A3 & A4 & A5 & A6).
  destruct (read_ok E _ _ _ A1 HR) as (B1 & B2 & B3 & B4 & B5 & B6 & B7 & c & C1 & C2 & C3 & C4 & C5 & C6 & C7).
  assert (Cc : cells w' c = untransformed E (params w)).
  { destruct (ofresh w) eqn:Hf; [|auto]. specialize (A5 eq_refl). destruct (ocopy w) as [c'|] eqn:Ho; [|contradiction].
    pose proof (C3 _ eq_refl) as <-. rewrite C7 by auto. apply Hc; auto. }
  split; [|split; [exact B4|]].
  - destruct (has_fixes E) eqn:Hf.
    + destruct C5 as (_ & _ & ->). rewrite Cc. reflexivity.
    + subst a. rewrite Cc. symmetry. apply pick_all; [exact Hf|]. rewrite untransformed_length. congruence.
  - intros c' Hc'. rewrite C1 in Hc'. injection Hc' as <-. rewrite B4. exact Cc.
Qed.
Lemma last_set_final : forall p w pts grs v w2 pts2 grs2 w3 a, oreached p w pts grs -> shaped E raw p -> fits E v -> some_fixed E ->
  ohistory reads_and_edits (set_array E raw w v) pts grs w2 pts2 grs2 -> read_array E w2 = (w3, a) -> cells w3 a = v.
Proof.
  intros p w pts grs v w2 pts2 grs2 w3 a R [Hl _] Hv Hf H HR. apply has_fixes_iff in Hf. pose proof (reach_ok E obj raw xtol ftol gtol p w pts grs R) as HI.
  assert (I0 : reach_inv E (length p) (set_array E raw w v) pts grs) by (apply (step_inv E obj raw xtol ftol gtol _ w pts grs (OSet v) _ None HI Logic.I); reflexivity).
  pose proof (hist_ok E obj raw xtol ftol gtol _ _ _ _ _ _ _ _ I0 H) as I2.
  pose proof (hist_params _ _ _ _ _ _ _ _ (fun c Q => Q) I0 H) as HP.
  destruct (read_gives (length p) w2 pts2 grs2 w3 a I2 Hl) as (G1 & _ & _); [apply I2; exact Hf | exact HR|].
  rewrite G1, HP. apply (round E v (params w)); [|exact Hv]. destruct HI as (_ & A2 & _). congruence.
Qed.
Lemma last_set_reads_final : forall p w pts grs v w2 pts2 grs2 w3 a, oreached p w pts grs -> shaped E raw p -> fits E v ->
  ohistory reads (set_array E raw w v) pts grs w2 pts2 grs2 -> read_array E w2 = (w3, a) -> cells w3 a = v.
Proof.
  intros p w pts grs v w2 pts2 grs2 w3 a R [Hl _] Hv H HR. pose proof (reach_ok E obj raw xtol ftol gtol p w pts grs R) as HI.
  assert (I0 : reach_inv E (length p) (set_array E raw w v) pts grs) by (apply (step_inv E obj raw xtol ftol gtol _ w pts grs (OSet v) _ None HI Logic.I); reflexivity).
  pose proof (hist_ok E obj raw xtol ftol gtol _ _ _ _ _ _ _ _ I0 H) as I2.
  assert (Q : params w2 = params (set_array E raw w v) /\ (ofresh w2 = true -> forall c, ocopy w2 = Some c -> cells w2 c = untransformed E (params w2))).
  { clear HR I2. induction H as [|w1 pts1 grs1 c w4 r H IH Hal Ho Hs]; [split; [reflexivity | discriminate]|].
    destruct IH as [IH1 IH2]. pose proof (hist_ok E obj raw xtol ftol gtol reads _ _ _ _ _ _ _ I0 H) as I1.
    destruct c as [|u|b g|u|u|x k]; try contradiction. cbn [ostep] in Hs. destruct (read_array E w1) as [w5 b] eqn:HR. injection Hs as <- _.
    destruct (read_gives _ _ _ _ _ _ I1 Hl IH2 HR) as (_ & G2 & G3). split; [congruence|]. intros _. exact G3. }
  destruct Q as [HP HC]. destruct (read_gives (length p) w2 pts2 grs2 w3 a I2 Hl HC HR) as (G1 & _ & _).
  rewrite G1, HP. apply (round E v (params w)); [|exact Hv]. destruct HI as (_ & A2 & _). congruence.
Qed.
End L.
