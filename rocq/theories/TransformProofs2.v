(** The transformation facts in the vocabulary of TransformSpec. *)
From Coq Require Import Reals Lra Lia.
From Verif Require Import TransformModel TransformSpec TransformProofs.
Open Scope R_scope.

Lemma domains : maps_into Logexp (fun y => 0 < y) /\ maps_into Exponent (fun y => 0 < y) /\
  maps_into Square (fun y => 0 <= y) /\ maps_into NegativeLogexp (fun y => y < 0) /\
  maps_into NegativeExponent (fun y => y < 0) /\
  (forall l u, l < u -> maps_into (Logistic l u) (fun y => l < y < u)).
Proof.
  split; [exact logexp_f_pos|]. split; [exact exponent_f_pos|]. split; [exact square_f_nonneg|].
  split; [exact neglogexp_f_neg|]. split; [exact negexponent_f_neg|].
  intros l u H x. apply logistic_bounds. assumption.
Qed.

Lemma logexp_rt : finv_undoes_f Logexp logexp_range.
Proof. intros x [H|H]; [apply logexp_finv_f_mid | apply logexp_finv_f_high]; assumption. Qed.
Lemma neglogexp_rt : finv_undoes_f NegativeLogexp logexp_range.
Proof. intros x H. simpl. rewrite neglogexp_finv_f. apply logexp_rt. assumption. Qed.
Lemma logexp_rt_gap : forall t, t = Logexp \/ t = NegativeLogexp ->
  forall x, ln (exp 36 - 1) < x <= 36 ->
  exists r, t_finv t (t_f t x) = Fin r /\ 0 < r - x <= exp (- x).
Proof.
  intros t [-> | ->] x H; simpl; [|rewrite neglogexp_finv_f]; apply logexp_finv_f_gap; assumption.
Qed.
Lemma logexp_rt_low : forall t, t = Logexp \/ t = NegativeLogexp ->
  forall x, x <= - log_lim_val -> t_finv t (t_f t x) = Fin (- log_lim_val).
Proof.
  intros t [-> | ->] x H; simpl; [|rewrite neglogexp_finv_f]; apply logexp_finv_f_low; assumption.
Qed.
Lemma exponent_rt : finv_undoes_f Exponent (fun x => - 36 <= x <= 36).
Proof.
  intros x H. simpl. rewrite exponent_finv_f. rewrite Rmax_left by lra. rewrite Rmin_left by lra. reflexivity.
Qed.
Lemma square_rt : finv_undoes_f Square (fun x => 0 <= x).
Proof. intros x H. simpl. rewrite square_finv_f, Rabs_right by lra. reflexivity. Qed.
Lemma logistic_rt : forall l u, l < u -> finv_undoes_f (Logistic l u) (fun x =>
  - 300 <= x /\ tiny <= (u - l) / (1 + exp (- x)) /\ tiny <= (u - l) / (1 + exp x)).
Proof. intros l u Hlu x (H & H1 & H2). apply logistic_finv_f; assumption. Qed.
Lemma negexponent_rt_bad : exists x, - 36 <= x <= 36 /\
  t_finv NegativeExponent (t_f NegativeExponent x) <> Fin x.
Proof.
  exists 1. split; [lra|]. simpl. rewrite negexponent_finv_f by lra. intros H. injection H. lra.
Qed.

Lemma logexp_back : f_undoes_finv Logexp (fun y => ln (1 + exp (- log_lim_val)) <= y).
Proof. exact logexp_f_finv. Qed.
Lemma neglogexp_back : f_undoes_finv NegativeLogexp (fun y => y <= - ln (1 + exp (- log_lim_val))).
Proof. exact neglogexp_f_finv. Qed.
Lemma exponent_back : f_undoes_finv Exponent (fun y => exp (- 36) <= y <= exp 36).
Proof.
  intros y H. pose proof (exp_pos (- 36)). destruct (exponent_f_finv y ltac:(lra)) as (x & H1 & H2).
  exists x. split; [assumption|]. simpl. rewrite H2, Rmax_left by lra. rewrite Rmin_left; lra.
Qed.
Lemma square_back : f_undoes_finv Square (fun y => 0 <= y).
Proof. exact square_f_finv. Qed.
Lemma logistic_back : forall l u, l < u -> f_undoes_finv (Logistic l u) (fun y =>
  l + tiny <= y <= u - tiny /\ exp (- 300) * (u - y) <= y - l).
Proof. intros l u Hlu y ((H1 & H2) & H3). apply logistic_f_finv; assumption. Qed.
Lemma negexponent_back_bad : exists y, - exp 36 <= y <= - exp (- 36) /\
  exists x, t_finv NegativeExponent y = Fin x /\ t_f NegativeExponent x <> y.
Proof.
  assert (H : - exp 36 <= - 2 <= - exp (- 36)).
  { pose proof exp36_big. pose proof (exp_increasing (- 36) 0 ltac:(lra)). rewrite exp_0 in *. lra. }
  exists (- 2). split; [assumption|]. destruct (negexponent_f_finv _ H) as (x & H1 & H2).
  exists x. split; [assumption|]. simpl. rewrite H2. intros Hc.
  assert (/ -2 * (-2) = 1) by (apply Rinv_l; lra). lra.
Qed.
(** The value 0, which initialize keeps, is moved. *)
Lemma zero_moves : t_init Logexp 0 = 0 /\ t_finv Logexp 0 = NInf /\ logexp_f_ext NInf <> Fin 0 /\
  t_init Exponent 0 = 0 /\ t_finv Exponent 0 = NInf /\ exponent_f_ext NInf <> Fin 0.
Proof.
  simpl. unfold logexp_initialize, exponent_initialize. rewrite Rabs_R0.
  assert (H1 : logexp_finv 0 = NInf).
  { unfold logexp_finv, lim_val. destruct (Rlt_dec 36 0); [lra|]. unfold expm1.
    rewrite exp_0, Rminus_diag_eq by reflexivity. apply np_log_zero. }
  assert (H2 : exponent_finv 0 = NInf) by apply np_log_zero.
  assert (H3 : Fin (log1p (exp (- log_lim_val))) <> Fin 0).
  { intros H. injection H. unfold log1p. pose proof (ln1pexp_pos (- log_lim_val)). lra. }
  assert (H4 : Fin (exp (- lim_val)) <> Fin 0).
  { intros H. injection H. pose proof (exp_pos (- lim_val)). lra. }
  repeat split; assumption.
Qed.

Lemma logexp_cr : chain_rule Logexp (fun x => - log_lim_val < x <= ln (exp 36 - 1) \/ 36 < x).
Proof. intros x dL H. destruct (logexp_chain x dL H) as (d & H1 & H2). exists d. split; [exact H1|]. simpl. congruence. Qed.
Lemma neglogexp_cr : chain_rule NegativeLogexp (fun x => - log_lim_val < x <= ln (exp 36 - 1) \/ 36 < x).
Proof. intros x dL H. destruct (neglogexp_chain x dL H) as (d & H1 & H2). exists d. split; [exact H1|]. simpl. congruence. Qed.
Lemma logexp_cr_gap : forall x dL, ln (exp 36 - 1) < x < 36 ->
  exists d g, derivable_pt_lim (t_f Logexp) x d /\ t_gf Logexp (t_f Logexp x) dL = Fin g /\
    Rabs (g - dL * d) <= Rabs dL * exp (- x).
Proof.
  intros x dL H. destruct (logexp_chain_gap x dL H) as (d & H1 & H2 & H3).
  exists d, (dL * 1). split; [assumption|]. split; [simpl; congruence|].
  replace (dL * 1 - dL * d) with (dL * (1 - d)) by ring. rewrite Rabs_mult.
  apply Rmult_le_compat_l; [apply Rabs_pos|]. rewrite Rabs_right; lra.
Qed.
Lemma logexp_cr_low : forall x dL, x < - log_lim_val ->
  exists d g, derivable_pt_lim (t_f Logexp) x d /\ t_gf Logexp (t_f Logexp x) dL = Fin g /\
    Rabs (g - dL * d) <= Rabs dL * exp (- log_lim_val).
Proof.
  intros x dL H. destruct (logexp_chain_low x dL H) as (H1 & H2).
  exists 0. eexists. split; [exact H1|]. split; [reflexivity|].
  rewrite Rmult_0_r, Rminus_0_r. exact H2.
Qed.
Lemma exponent_cr : chain_rule Exponent (fun x => - 36 < x < 36).
Proof. intros x dL H. destruct (exponent_chain x dL H) as (d & H1 & H2). exists d. split; [exact H1|]. simpl. congruence. Qed.
Lemma square_cr : chain_rule Square (fun x => 0 <= x).
Proof.
  intros x dL H. exists (2 * x). split; [apply square_deriv|]. simpl. rewrite square_grad, Rabs_right by lra. reflexivity.
Qed.
Lemma logistic_cr : forall l u, l < u -> chain_rule (Logistic l u) (fun x => - 300 < x).
Proof. intros l u Hlu x dL H. destruct (logistic_chain l u Hlu x dL H) as (d & H1 & H2). exists d. split; [exact H1|]. simpl. congruence. Qed.

Lemma negexponent_cr_bad : forall x dL, - 36 < x < 36 -> dL <> 0 ->
  ~ exists d, derivable_pt_lim (t_f NegativeExponent) x d /\
      t_gf NegativeExponent (t_f NegativeExponent x) dL = Fin (dL * d).
Proof.
  intros x dL H Hd (d & H1 & H2). destruct (negexponent_wrong_sign x dL H) as (d' & H3 & H4 & H5).
  assert (d = d') by (eapply uniqueness_limite; eassumption). subst d'.
  simpl in H2. injection H2 as H2. rewrite H5 in H2. nra.
Qed.
Lemma exponent_cr_bad : forall x dL, x < - 36 \/ 36 < x -> dL <> 0 ->
  ~ exists d, derivable_pt_lim (t_f Exponent) x d /\ t_gf Exponent (t_f Exponent x) dL = Fin (dL * d).
Proof.
  intros x dL H Hd (d & H1 & H2). destruct (exponent_chain_out x dL H) as (H3 & H4).
  assert (d = 0) by (eapply uniqueness_limite; eassumption). subst d.
  simpl in H2. injection H2 as H2. exact (H4 Hd H2).
Qed.
Lemma square_cr_bad : forall x dL, x < 0 -> dL <> 0 ->
  ~ exists d, derivable_pt_lim (t_f Square) x d /\ t_gf Square (t_f Square x) dL = Fin (dL * d).
Proof.
  intros x dL H Hd (d & H1 & H2).
  assert (d = 2 * x) by (eapply uniqueness_limite; [exact H1 | apply square_deriv]). subst d.
  simpl in H2. rewrite square_grad in H2. injection H2 as H2. rewrite Rabs_left in H2 by assumption. nra.
Qed.

Lemma abs_init : forall t, t_init t = Rabs -> init_ok t (fun y => 0 <= y).
Proof.
  intros t H. unfold init_ok. rewrite H. split; [exact Rabs_pos|]. split.
  - intros y Hy. apply Rabs_right. lra.
  - intros y. apply Rabs_Rabsolu.
Qed.
Lemma neg_init : forall t, (forall y, t_init t y = - Rabs y) -> init_ok t (fun y => y <= 0).
Proof.
  intros t H. split; [|split].
  - intros y. rewrite H. pose proof (Rabs_pos y). lra.
  - intros y Hy. rewrite H. rewrite Rabs_left1 by assumption. lra.
  - intros y. rewrite !H. rewrite Rabs_Ropp, Rabs_Rabsolu. reflexivity.
Qed.
Lemma inits : init_ok Logexp (fun y => 0 <= y) /\ init_ok Exponent (fun y => 0 <= y) /\
  init_ok Square (fun y => 0 <= y) /\ init_ok NegativeLogexp (fun y => y <= 0) /\
  init_ok NegativeExponent (fun y => y <= 0) /\
  (forall l u, l < u -> init_ok (Logistic l u) (fun y => l <= y <= u)).
Proof.
  split; [apply abs_init; reflexivity|]. split; [apply abs_init; reflexivity|].
  split; [apply abs_init; reflexivity|].
  split. { apply neg_init. intros y. simpl. unfold neglogexp_initialize, logexp_initialize. rewrite Rabs_Ropp. reflexivity. }
  split; [apply neg_init; reflexivity|].
  intros l u H. split; [|split].
  - intros y. apply logistic_init_in. assumption.
  - intros y Hy. apply logistic_init_id. assumption.
  - intros y. simpl. apply logistic_init_id. apply logistic_init_in. assumption.
Qed.
Lemma init_outside : forall l u y, l < u -> y < l \/ u < y -> t_init (Logistic l u) y = (l + u) / 2.
Proof. intros l u y Hlu. apply logistic_init_mid. Qed.

Lemma logexp_j : jac_ok Logexp (fun x => - log_lim_val < x <= ln (exp 36 - 1) \/ 36 < x).
Proof.
  intros x H. destruct (logexp_jac x H) as (d & H1 & H2 & H3). exists d. split; [exact H1|].
  split; [lra|]. rewrite Rabs_right by lra. exact H3.
Qed.
Lemma exponent_j : jac_ok Exponent (fun x => - 36 < x < 36).
Proof.
  intros x H. destruct (exponent_jac x H) as (d & H1 & H2 & H3). exists d. split; [exact H1|].
  split; [lra|]. rewrite Rabs_right by lra. exact H3.
Qed.
Lemma logexp_jg : jacgrad_ok Logexp (fun y => 0 < y < 36).
Proof.
  intros y H. destruct (logexp_jac_grad y H) as (g & H1 & (e & H2 & H3) & H4).
  exists (fun z => fin (logexp_log_jacobian z)), e, g. repeat split; assumption.
Qed.
Lemma exponent_jg : jacgrad_ok Exponent (fun y => 0 < y).
Proof.
  intros y H. destruct (exponent_jac_grad y H) as (g & H1 & H2).
  exists (fun z => fin (exponent_log_jacobian z)).
  destruct (near y 0 (y + 1) ltac:(lra)) as (e & He & Hn). exists e, g.
  split; [assumption|]. split; [|split; assumption].
  intros z Hz. apply Hn in Hz. simpl. unfold exponent_log_jacobian. rewrite np_log_pos by lra. reflexivity.
Qed.
Lemma negexponent_j_bad : forall x, t_jac NegativeExponent (t_f NegativeExponent x) = NaN.
Proof. exact negexponent_jac_nan. Qed.
Lemma logexp_jg_bad : forall y, 36 < y -> ~ exists (j : R -> R) (e g : R),
    0 < e /\ (forall z, Rabs (z - y) < e -> t_jac Logexp z = Fin (j z)) /\
    derivable_pt_lim j y g /\ t_jacgrad Logexp y = Fin g.
Proof.
  intros y Hy (j & e & g & He & Hj & Hd & Hg).
  destruct (logexp_jac_grad_high y Hy) as (H1 & g' & H2 & H3).
  simpl in Hg. rewrite H2 in Hg. injection Hg as Hg. subst g'.
  assert (Hd' : derivable_pt_lim j y 0).
  { apply deriv_ext with (g := fun z => fin (logexp_log_jacobian z)); [|exact H1].
    exists e. split; [assumption|]. intros z Hz. change logexp_log_jacobian with (t_jac Logexp).
    rewrite (Hj z Hz). reflexivity. }
  assert (g = 0) by (eapply uniqueness_limite; eassumption). lra.
Qed.
Lemma default_j_bad : (exists x d, derivable_pt_lim (t_f Square) x d /\ 0 < d /\
    t_jac Square (t_f Square x) <> Fin (ln (Rabs d))) /\
  (exists x d, derivable_pt_lim (t_f NegativeLogexp) x d /\ d < 0 /\
    t_jac NegativeLogexp (t_f NegativeLogexp x) <> Fin (ln (Rabs d))) /\
  (exists x d, derivable_pt_lim (t_f (Logistic 0 1)) x d /\ 0 < d /\
    t_jac (Logistic 0 1) (t_f (Logistic 0 1) x) <> Fin (ln (Rabs d))).
Proof.
  split; [|split].
  - exists 1, (2 * 1). split; [apply square_deriv|]. split; [lra|]. simpl. unfold default_log_jacobian.
    intros H. injection H as H. rewrite Rabs_right in H by lra.
    pose proof (ln_increasing 1 (2 * 1) ltac:(lra) ltac:(lra)). rewrite ln_1 in *. lra.
  - exists 0, (- (exp 0 / (1 + exp 0))). pose proof log_lim_big.
    split; [apply derivable_pt_lim_opp; apply logexp_deriv_mid; lra|].
    rewrite exp_0. split; [lra|]. simpl. unfold default_log_jacobian. intros Hc. injection Hc as Hc.
    rewrite Rabs_Ropp, Rabs_right in Hc by lra.
    pose proof (ln_increasing (1 / (1 + 1)) 1 ltac:(lra) ltac:(lra)). rewrite ln_1 in *. lra.
  - exists 0. eexists. split; [apply logistic_deriv; lra|].
    rewrite Ropp_0, exp_0. split; [lra|]. simpl. unfold default_log_jacobian. intros Hc. injection Hc as Hc.
    rewrite Rabs_right in Hc by lra.
    pose proof (ln_increasing ((1 - 0) * (1 / ((1 + 1) * ((1 + 1) * 1)))) 1 ltac:(lra) ltac:(lra)). rewrite ln_1 in *. lra.
Qed.
