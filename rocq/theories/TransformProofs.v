(** Proofs about transformations. *)
From Coq Require Import Reals Lra Lia Psatz.
From Verif Require Import TransformModel.
Open Scope R_scope.

Lemma np_log_pos : forall r, 0 < r -> np_log r = Fin (ln r).
Proof. intros. unfold np_log. destruct (Rlt_dec 0 r); [reflexivity | lra]. Qed.
Lemma np_log_zero : np_log 0 = NInf.
Proof. unfold np_log. destruct (Rlt_dec 0 0); [lra|]. destruct (Req_EM_T 0 0); [reflexivity | lra]. Qed.
Lemma np_log_neg : forall r, r < 0 -> np_log r = NaN.
Proof.
  intros. unfold np_log. destruct (Rlt_dec 0 r); [lra|]. destruct (Req_EM_T r 0); [lra | reflexivity].
Qed.

Lemma exp_lt_pow4 : forall n, exp (INR n) <= 4 ^ n.
Proof.
  induction n; [simpl; rewrite exp_0; lra|].
  rewrite S_INR, exp_plus. simpl. pose proof exp_le_3. pose proof (exp_pos (INR n)).
  pose proof (exp_pos 1). assert (exp 1 <= 4) by lra. 
  rewrite (Rmult_comm 4). apply Rmult_le_compat; lra.
Qed.

Lemma inv_lt_1 : forall r, 1 < r -> / r < 1.
Proof.
  intros r H. apply Rmult_lt_reg_l with r; [lra|]. rewrite Rinv_r by lra. lra.
Qed.
Lemma inv_le_1 : forall r, 1 <= r -> / r <= 1.
Proof.
  intros r H. apply Rmult_le_reg_l with r; [lra|]. rewrite Rinv_r by lra. lra.
Qed.
Lemma float_max_big : exp 36 < float_max.
Proof.
  unfold float_max. pose proof (exp_lt_pow4 36) as H. replace (INR 36) with 36 in H by (simpl; lra).
  assert (H1 : 4 ^ 36 = 2 ^ 72) by (simpl; lra).
  assert (H2 : (2:R) ^ 73 <= 2 ^ 1023) by (apply Rle_pow; [lra | lia]).
  assert (H3 : 2 ^ 73 = 2 * 2 ^ 72) by (simpl; lra).
  assert (H4 : 0 < / 2 ^ 52 < 1).
  { split; [apply Rinv_0_lt_compat; apply pow_lt; lra|].
    apply inv_lt_1. apply Rlt_pow_R1; [lra | lia]. }
  assert (H5 : 0 < 2 ^ 72) by (apply pow_lt; lra).
  set (a := 2 ^ 1023) in *. set (b := / 2 ^ 52) in *. clearbody a b. nra.
Qed.
Lemma log_lim_big : 36 < log_lim_val.
Proof.
  unfold log_lim_val. rewrite <- (ln_exp 36). apply ln_increasing; [apply exp_pos | apply float_max_big].
Qed.

(** ** Logexp. *)
Lemma clip_in : forall x lo hi, lo <= x <= hi -> clip x lo hi = x.
Proof. intros. unfold clip. rewrite Rmax_left by lra. apply Rmin_left. lra. Qed.
Lemma clip_lo_eq : forall x lo hi, x <= lo -> lo <= hi -> clip x lo hi = lo.
Proof. intros. unfold clip. rewrite Rmax_right by lra. apply Rmin_left. lra. Qed.

Lemma logexp_f_high : forall x, 36 < x -> logexp_f x = x.
Proof. intros. unfold logexp_f, lim_val. destruct (Rlt_dec 36 x); [reflexivity | lra]. Qed.
Lemma logexp_f_mid : forall x, - log_lim_val <= x <= 36 -> logexp_f x = ln (1 + exp x).
Proof.
  intros. unfold logexp_f, lim_val. destruct (Rlt_dec 36 x); [lra|].
  rewrite clip_in by assumption. reflexivity.
Qed.
Lemma logexp_f_low : forall x, x <= - log_lim_val -> logexp_f x = ln (1 + exp (- log_lim_val)).
Proof.
  intros. pose proof log_lim_big. unfold logexp_f, lim_val. destruct (Rlt_dec 36 x); [lra|].
  rewrite clip_lo_eq by lra. reflexivity.
Qed.
Lemma ln1pexp_pos : forall x, 0 < ln (1 + exp x).
Proof. intros. rewrite <- ln_1. apply ln_increasing; [lra|]. pose proof (exp_pos x). lra. Qed.
Lemma ln1pexp_gt : forall x, x < ln (1 + exp x).
Proof. intros. rewrite <- (ln_exp x) at 1. apply ln_increasing; [apply exp_pos|]. lra. Qed.
Lemma exp_ln1pexp : forall x, exp (ln (1 + exp x)) = 1 + exp x.
Proof. intros. apply exp_ln. pose proof (exp_pos x). lra. Qed.
Lemma exp36_big : 2 < exp 36.
Proof. pose proof (exp_ineq1 36 ltac:(lra)). lra. Qed.

Lemma ln_le_iff : forall x y, 0 < x -> x <= y -> ln x <= ln y.
Proof. intros x y H [H1|H1]; [left; apply ln_increasing; assumption | subst; lra]. Qed.
Lemma exp_le : forall x y, x <= y -> exp x <= exp y.
Proof. intros x y [H|H]; [left; apply exp_increasing; assumption | subst; lra]. Qed.

Lemma ln1pexp_le36 : forall x, x <= ln (exp 36 - 1) <-> ln (1 + exp x) <= 36.
Proof.
  intros x. pose proof exp36_big. pose proof (exp_pos x). split; intros H1.
  - apply exp_le in H1. rewrite exp_ln in H1 by lra. rewrite <- (ln_exp 36).
    apply ln_le_iff; lra.
  - apply exp_le in H1. rewrite exp_ln in H1 by lra.
    rewrite <- (ln_exp x). apply ln_le_iff; lra.
Qed.
Lemma gap_lt36 : ln (exp 36 - 1) < 36.
Proof. pose proof exp36_big. rewrite <- (ln_exp 36) at 2. apply ln_increasing; lra. Qed.

Lemma logexp_f_pos : forall x, 0 < logexp_f x.
Proof.
  intros x. destruct (Rlt_dec 36 x); [rewrite logexp_f_high; lra|].
  destruct (Rle_dec x (- log_lim_val)).
  - rewrite logexp_f_low by assumption. apply ln1pexp_pos.
  - rewrite logexp_f_mid by lra. apply ln1pexp_pos.
Qed.

Lemma logexp_finv_low : forall y, 0 < y <= 36 -> logexp_finv y = Fin (ln (exp y - 1)).
Proof.
  intros y Hy. unfold logexp_finv, lim_val. destruct (Rlt_dec 36 y); [lra|].
  unfold expm1. apply np_log_pos. pose proof (exp_ineq1 y ltac:(lra)). lra.
Qed.
Lemma logexp_finv_high : forall y, 36 < y -> logexp_finv y = Fin y.
Proof. intros. unfold logexp_finv, lim_val. destruct (Rlt_dec 36 y); [reflexivity | lra]. Qed.

Lemma logexp_finv_f_mid : forall x, - log_lim_val <= x <= ln (exp 36 - 1) -> logexp_finv (logexp_f x) = Fin x.
Proof.
  intros x Hx. pose proof gap_lt36. rewrite logexp_f_mid by lra.
  rewrite logexp_finv_low.
  - rewrite exp_ln1pexp. replace (1 + exp x - 1) with (exp x) by ring. rewrite ln_exp. reflexivity.
  - split; [apply ln1pexp_pos | apply ln1pexp_le36; apply Hx].
Qed.
Lemma logexp_finv_f_high : forall x, 36 < x -> logexp_finv (logexp_f x) = Fin x.
Proof. intros. rewrite logexp_f_high, logexp_finv_high; auto. Qed.
Lemma logexp_finv_f_low : forall x, x <= - log_lim_val -> logexp_finv (logexp_f x) = Fin (- log_lim_val).
Proof.
  intros x Hx. pose proof log_lim_big.
  rewrite (logexp_f_low x Hx), <- (logexp_f_low (- log_lim_val)) by lra.
  apply logexp_finv_f_mid. split; [lra|]. pose proof exp36_big.
  apply Rle_trans with 0; [lra|]. rewrite <- ln_1. apply ln_le_iff; lra.
Qed.
Lemma ln_1p_le : forall t, 0 < t -> ln (1 + t) <= t.
Proof. intros t Ht. rewrite <- (ln_exp t) at 2. apply ln_le_iff; [lra|]. left. apply exp_ineq1. lra. Qed.
Lemma ln1pexp_split : forall x, ln (1 + exp x) = x + ln (1 + exp (- x)).
Proof.
  intros x. pose proof (exp_pos x). pose proof (exp_pos (- x)).
  rewrite <- (ln_exp x) at 2. rewrite <- ln_mult by lra. f_equal.
  rewrite Rmult_plus_distr_l, <- exp_plus. replace (x + - x) with 0 by ring. rewrite exp_0. ring.
Qed.
Lemma logexp_finv_f_gap : forall x, ln (exp 36 - 1) < x <= 36 ->
  exists r, logexp_finv (logexp_f x) = Fin r /\ 0 < r - x <= exp (- x).
Proof.
  intros x [H1 H2]. pose proof log_lim_big. pose proof exp36_big.
  assert (0 <= ln (exp 36 - 1)).
  { rewrite <- ln_1. apply ln_le_iff; lra. }
  rewrite logexp_f_mid by lra.
  assert (36 < ln (1 + exp x)).
  { apply Rnot_le_lt. intros Hc. apply ln1pexp_le36 in Hc. lra. }
  rewrite logexp_finv_high by assumption. eexists. split; [reflexivity|].
  rewrite ln1pexp_split. pose proof (exp_pos (- x)). pose proof (ln_1p_le (exp (- x)) ltac:(assumption)).
  pose proof (ln1pexp_pos (- x)). lra.
Qed.

Lemma logexp_f_finv : forall y, ln (1 + exp (- log_lim_val)) <= y ->
  exists x, logexp_finv y = Fin x /\ logexp_f x = y.
Proof.
  intros y Hy. pose proof (ln1pexp_pos (- log_lim_val)). pose proof log_lim_big.
  destruct (Rlt_dec 36 y).
  - exists y. split; [apply logexp_finv_high; lra | apply logexp_f_high; lra].
  - exists (ln (exp y - 1)). split; [apply logexp_finv_low; lra|].
    pose proof (exp_ineq1 y ltac:(lra)).
    rewrite logexp_f_mid.
    + rewrite exp_ln by lra. replace (1 + (exp y - 1)) with (exp y) by ring. apply ln_exp.
    + split.
      * apply exp_le in Hy. rewrite exp_ln1pexp in Hy.
        rewrite <- (ln_exp (- log_lim_val)). apply ln_le_iff; [apply exp_pos | lra].
      * rewrite <- (ln_exp 36). apply ln_le_iff; [lra|]. pose proof (exp_le y 36 ltac:(lra)). lra.
Qed.
Lemma logexp_f_finv_low : forall y, 0 < y <= ln (1 + exp (- log_lim_val)) ->
  exists x, logexp_finv y = Fin x /\ logexp_f x = ln (1 + exp (- log_lim_val)).
Proof.
  intros y Hy. pose proof log_lim_big.
  assert (Hs : ln (1 + exp (- log_lim_val)) <= 36).
  { apply ln1pexp_le36. pose proof exp36_big. apply Rle_trans with 0; [lra|]. rewrite <- ln_1. apply ln_le_iff; lra. }
  exists (ln (exp y - 1)). split; [apply logexp_finv_low; lra|].
  apply logexp_f_low. pose proof (exp_ineq1 y ltac:(lra)).
  rewrite <- (ln_exp (- log_lim_val)). apply ln_le_iff; [lra|].
  destruct Hy as [_ Hy]. apply exp_le in Hy. rewrite exp_ln1pexp in Hy. lra.
Qed.

(** ** Derivatives. *)
Lemma deriv_ext : forall (f g : R -> R) x l, (exists d, 0 < d /\ forall y, Rabs (y - x) < d -> f y = g y) ->
  derivable_pt_lim g x l -> derivable_pt_lim f x l.
Proof.
  intros f g x l (d & Hd & He) H eps Heps. destruct (H eps Heps) as [del Hdel].
  assert (Hm : 0 < Rmin del d) by (apply Rmin_pos; [apply del | assumption]).
  exists (mkposreal _ Hm). intros h Hh Hlt. simpl in Hlt.
  rewrite (He (x + h)), (He x).
  - apply Hdel; [assumption|]. eapply Rlt_le_trans; [exact Hlt | apply Rmin_l].
  - replace (x - x) with 0 by ring. rewrite Rabs_R0. assumption.
  - replace (x + h - x) with h by ring. eapply Rlt_le_trans; [exact Hlt | apply Rmin_r].
Qed.
Lemma deriv_ln1pexp : forall x, derivable_pt_lim (fun t => ln (1 + exp t)) x (exp x / (1 + exp x)).
Proof.
  intros x. pose proof (exp_pos x).
  replace (exp x / (1 + exp x)) with (/ (1 + exp x) * (0 + exp x)) by (field; lra).
  apply (derivable_pt_lim_comp (fun t => 1 + exp t) ln).
  - apply derivable_pt_lim_plus; [apply derivable_pt_lim_const | apply derivable_pt_lim_exp].
  - apply derivable_pt_lim_ln. lra.
Qed.
Lemma near : forall x a b, a < x < b -> exists d, 0 < d /\ forall y, Rabs (y - x) < d -> a < y < b.
Proof.
  intros x a b H. exists (Rmin (x - a) (b - x)). split; [apply Rmin_pos; lra|].
  intros y Hy. apply Rabs_def2 in Hy. pose proof (Rmin_l (x - a) (b - x)).
  pose proof (Rmin_r (x - a) (b - x)). lra.
Qed.
Lemma logexp_deriv_mid : forall x, - log_lim_val < x < 36 ->
  derivable_pt_lim logexp_f x (exp x / (1 + exp x)).
Proof.
  intros x Hx. apply deriv_ext with (g := fun t => ln (1 + exp t)); [|apply deriv_ln1pexp].
  destruct (near x _ _ Hx) as (d & Hd & Hn). exists d. split; [assumption|].
  intros y Hy. apply Hn in Hy. apply logexp_f_mid. lra.
Qed.
Lemma logexp_deriv_high : forall x, 36 < x -> derivable_pt_lim logexp_f x 1.
Proof.
  intros x Hx. apply deriv_ext with (g := id); [|apply derivable_pt_lim_id].
  destruct (near x 36 (x + 1) ltac:(lra)) as (d & Hd & Hn). exists d. split; [assumption|].
  intros y Hy. apply Hn in Hy. unfold id. apply logexp_f_high. lra.
Qed.
Lemma logexp_deriv_low : forall x, x < - log_lim_val -> derivable_pt_lim logexp_f x 0.
Proof.
  intros x Hx. apply deriv_ext with (g := fun _ => ln (1 + exp (- log_lim_val))).
  - destruct (near x (x - 1) (- log_lim_val) ltac:(lra)) as (d & Hd & Hn). exists d. split; [assumption|].
    intros y Hy. apply Hn in Hy. apply logexp_f_low. lra.
  - apply derivable_pt_lim_const.
Qed.
Lemma sig_alt : forall x, - expm1 (- ln (1 + exp x)) = exp x / (1 + exp x).
Proof.
  intros x. pose proof (exp_pos x). unfold expm1. rewrite exp_Ropp, exp_ln1pexp. field. lra.
Qed.
Lemma logexp_grad_mid : forall x dL, - log_lim_val <= x <= ln (exp 36 - 1) ->
  logexp_gradfactor (logexp_f x) dL = dL * (exp x / (1 + exp x)).
Proof.
  intros x dL Hx. pose proof gap_lt36. rewrite logexp_f_mid by lra. unfold logexp_gradfactor, lim_val.
  destruct (Rlt_dec 36 (ln (1 + exp x))) as [Hl|_].
  - destruct Hx as [_ Hx]. apply ln1pexp_le36 in Hx. lra.
  - rewrite sig_alt. reflexivity.
Qed.
Lemma logexp_grad_high : forall f dL, 36 < f -> logexp_gradfactor f dL = dL * 1.
Proof. intros. unfold logexp_gradfactor, lim_val. destruct (Rlt_dec 36 f); [reflexivity | lra]. Qed.

Lemma logexp_chain : forall x dL, - log_lim_val < x <= ln (exp 36 - 1) \/ 36 < x ->
  exists d, derivable_pt_lim logexp_f x d /\ logexp_gradfactor (logexp_f x) dL = dL * d.
Proof.
  intros x dL [H|H].
  - exists (exp x / (1 + exp x)). pose proof gap_lt36. split; [apply logexp_deriv_mid; lra|].
    apply logexp_grad_mid. lra.
  - exists 1. split; [apply logexp_deriv_high; assumption|].
    rewrite logexp_f_high by assumption. apply logexp_grad_high. assumption.
Qed.
Lemma sig_compl : forall x, 1 - exp x / (1 + exp x) = / (1 + exp x).
Proof. intros x. pose proof (exp_pos x). field. lra. Qed.
(** In the gap below 36 the factor is 1 instead of the derivative; the difference is below e^-x. *)
Lemma logexp_chain_gap : forall x dL, ln (exp 36 - 1) < x < 36 ->
  exists d, derivable_pt_lim logexp_f x d /\
    logexp_gradfactor (logexp_f x) dL = dL * 1 /\ 0 < 1 - d <= exp (- x).
Proof.
  intros x dL H. pose proof log_lim_big. pose proof exp36_big.
  assert (0 <= ln (exp 36 - 1)) by (rewrite <- ln_1; apply ln_le_iff; lra).
  exists (exp x / (1 + exp x)). split; [apply logexp_deriv_mid; lra|]. split.
  - apply logexp_grad_high. rewrite logexp_f_mid by lra. apply Rnot_le_lt. intros Hc.
    apply ln1pexp_le36 in Hc. lra.
  - pose proof (exp_pos x). rewrite sig_compl, exp_Ropp. split; [apply Rinv_0_lt_compat; lra|].
    apply Rinv_le_contravar; lra.
Qed.
Lemma logexp_chain_low : forall x dL, x < - log_lim_val ->
  derivable_pt_lim logexp_f x 0 /\
  Rabs (logexp_gradfactor (logexp_f x) dL) <= Rabs dL * exp (- log_lim_val).
Proof.
  intros x dL H. split; [apply logexp_deriv_low; assumption|]. pose proof log_lim_big.
  rewrite logexp_f_low by lra. rewrite <- (logexp_f_low (- log_lim_val)) by lra.
  rewrite logexp_grad_mid.
  - rewrite Rabs_mult. apply Rmult_le_compat_l; [apply Rabs_pos|].
    pose proof (exp_pos (- log_lim_val)) as Hp. rewrite Rabs_right.
    + pose proof (inv_le_1 (1 + exp (- log_lim_val)) ltac:(lra)). unfold Rdiv. nra.
    + apply Rle_ge. apply Rmult_le_pos; [lra|]. left. apply Rinv_0_lt_compat. lra.
  - split; [lra|]. pose proof exp36_big. apply Rle_trans with 0; [lra|]. rewrite <- ln_1. apply ln_le_iff; lra.
Qed.

(** ** Exponent. *)
Lemma exponent_f_in : forall x, - 36 <= x <= 36 -> exponent_f x = exp x.
Proof.
  intros x H. unfold exponent_f, lim_val. destruct (Rlt_dec x 36).
  - destruct (Rlt_dec (- (36)) x); [reflexivity|]. f_equal. lra.
  - f_equal. lra.
Qed.
Lemma exponent_f_high : forall x, 36 <= x -> exponent_f x = exp 36.
Proof. intros. unfold exponent_f, lim_val. destruct (Rlt_dec x 36); [lra | reflexivity]. Qed.
Lemma exponent_f_low : forall x, x <= - 36 -> exponent_f x = exp (- 36).
Proof.
  intros. unfold exponent_f, lim_val. destruct (Rlt_dec x 36); [|lra].
  destruct (Rlt_dec (- (36)) x); [lra|]. f_equal. 
Qed.
Lemma exponent_f_pos : forall x, 0 < exponent_f x.
Proof.
  intros. unfold exponent_f. destruct (Rlt_dec x lim_val); [destruct (Rlt_dec _ x)|]; apply exp_pos.
Qed.
Lemma exponent_finv_f : forall x, exponent_finv (exponent_f x) = Fin (Rmin (Rmax x (- 36)) 36).
Proof.
  intros x. unfold exponent_finv. rewrite np_log_pos by apply exponent_f_pos. f_equal.
  destruct (Rle_dec x (- 36)); [|destruct (Rle_dec 36 x)].
  - rewrite exponent_f_low, ln_exp by assumption. rewrite Rmax_right by lra. rewrite Rmin_left; lra.
  - rewrite exponent_f_high, ln_exp by assumption. rewrite Rmax_left by lra. rewrite Rmin_right; lra.
  - rewrite exponent_f_in, ln_exp by lra. rewrite Rmax_left by lra. rewrite Rmin_left; lra.
Qed.
Lemma exponent_f_finv : forall y, 0 < y ->
  exists x, exponent_finv y = Fin x /\ exponent_f x = Rmin (Rmax y (exp (- 36))) (exp 36).
Proof.
  intros y Hy. exists (ln y). unfold exponent_finv. rewrite np_log_pos by assumption. split; [reflexivity|].
  assert (Hm : exp (- 36) < exp 36) by (apply exp_increasing; lra).
  destruct (Rle_dec (ln y) (- 36)) as [H|H]; [|destruct (Rle_dec 36 (ln y)) as [H1|H1]].
  - rewrite exponent_f_low by assumption. apply exp_le in H. rewrite exp_ln in H by assumption.
    rewrite Rmax_right by lra. rewrite Rmin_left; lra.
  - rewrite exponent_f_high by assumption. apply exp_le in H1. rewrite exp_ln in H1 by assumption.
    rewrite Rmax_left by lra. rewrite Rmin_right; lra.
  - rewrite exponent_f_in by lra. rewrite exp_ln by assumption.
    apply Rnot_le_lt in H, H1. apply exp_increasing in H, H1. rewrite exp_ln in H, H1 by assumption.
    rewrite Rmax_left by lra. rewrite Rmin_left; lra.
Qed.
Lemma exponent_deriv_in : forall x, - 36 < x < 36 -> derivable_pt_lim exponent_f x (exp x).
Proof.
  intros x H. apply deriv_ext with (g := exp); [|apply derivable_pt_lim_exp].
  destruct (near x _ _ H) as (d & Hd & Hn). exists d. split; [assumption|].
  intros y Hy. apply Hn in Hy. apply exponent_f_in. lra.
Qed.
Lemma exponent_deriv_out : forall x, x < - 36 \/ 36 < x -> derivable_pt_lim exponent_f x 0.
Proof.
  intros x [H|H].
  - apply deriv_ext with (g := fun _ => exp (- 36)); [|apply derivable_pt_lim_const].
    destruct (near x (x - 1) (- 36) ltac:(lra)) as (d & Hd & Hn). exists d. split; [assumption|].
    intros y Hy. apply Hn in Hy. apply exponent_f_low. lra.
  - apply deriv_ext with (g := fun _ => exp 36); [|apply derivable_pt_lim_const].
    destruct (near x 36 (x + 1) ltac:(lra)) as (d & Hd & Hn). exists d. split; [assumption|].
    intros y Hy. apply Hn in Hy. apply exponent_f_high. lra.
Qed.
Lemma exponent_chain : forall x dL, - 36 < x < 36 ->
  exists d, derivable_pt_lim exponent_f x d /\ exponent_gradfactor (exponent_f x) dL = dL * d.
Proof.
  intros x dL H. exists (exp x). split; [apply exponent_deriv_in; assumption|].
  unfold exponent_gradfactor. rewrite exponent_f_in by lra. reflexivity.
Qed.
Lemma exponent_chain_out : forall x dL, x < - 36 \/ 36 < x ->
  derivable_pt_lim exponent_f x 0 /\ (dL <> 0 -> exponent_gradfactor (exponent_f x) dL <> dL * 0).
Proof.
  intros x dL H. split; [apply exponent_deriv_out; assumption|]. intros Hd.
  unfold exponent_gradfactor. pose proof (exponent_f_pos x). intros Hc. rewrite Rmult_0_r in Hc.
  apply Rmult_integral in Hc. lra.
Qed.

(** ** NegativeLogexp. *)
Lemma neglogexp_f_neg : forall x, neglogexp_f x < 0.
Proof. intros. unfold neglogexp_f. pose proof (logexp_f_pos x). lra. Qed.
Lemma neglogexp_finv_f : forall x, neglogexp_finv (neglogexp_f x) = logexp_finv (logexp_f x).
Proof. intros. unfold neglogexp_finv, neglogexp_f. rewrite Ropp_involutive. reflexivity. Qed.
Lemma neglogexp_f_finv : forall y, y <= - ln (1 + exp (- log_lim_val)) ->
  exists x, neglogexp_finv y = Fin x /\ neglogexp_f x = y.
Proof.
  intros y Hy. destruct (logexp_f_finv (- y) ltac:(lra)) as (x & H1 & H2). exists x. split; [exact H1|].
  unfold neglogexp_f. lra.
Qed.
Lemma neglogexp_chain : forall x dL, - log_lim_val < x <= ln (exp 36 - 1) \/ 36 < x ->
  exists d, derivable_pt_lim neglogexp_f x d /\ neglogexp_gradfactor (neglogexp_f x) dL = dL * d.
Proof.
  intros x dL H. destruct (logexp_chain x (- dL) H) as (d & H1 & H2). exists (- d). split.
  - apply derivable_pt_lim_opp. exact H1.
  - unfold neglogexp_gradfactor, neglogexp_f. rewrite Ropp_involutive, H2. ring.
Qed.

(** ** NegativeExponent. *)
Lemma negexponent_f_neg : forall x, negexponent_f x < 0.
Proof. intros. unfold negexponent_f. pose proof (exponent_f_pos x). lra. Qed.
Lemma negexponent_finv_f : forall x, - 36 <= x <= 36 -> negexponent_finv (negexponent_f x) = Fin (- x).
Proof.
  intros x H. unfold negexponent_finv, negexponent_f. rewrite Ropp_involutive, exponent_finv_f.
  rewrite Rmax_left by lra. rewrite Rmin_left by lra. reflexivity.
Qed.
Lemma negexponent_f_finv : forall y, - exp 36 <= y <= - exp (- 36) ->
  exists x, negexponent_finv y = Fin x /\ negexponent_f x = / y.
Proof.
  intros y Hy. pose proof (exp_pos (- 36)). exists (- ln (- y)). split.
  - unfold negexponent_finv, exponent_finv. rewrite np_log_pos by lra. reflexivity.
  - unfold negexponent_f. rewrite exponent_f_in.
    + rewrite exp_Ropp, exp_ln by lra. field. lra.
    + split.
      * cut (ln (- y) <= 36); [lra|]. rewrite <- (ln_exp 36). apply ln_le_iff; lra.
      * cut (- 36 <= ln (- y)); [lra|]. rewrite <- (ln_exp (- 36)). apply ln_le_iff; lra.
Qed.
Lemma negexponent_wrong_sign : forall x dL, - 36 < x < 36 ->
  exists d, derivable_pt_lim negexponent_f x d /\ d < 0 /\
    negexponent_gradfactor (negexponent_f x) dL = - (dL * d).
Proof.
  intros x dL H. exists (- exp x). pose proof (exp_pos x). split.
  - apply derivable_pt_lim_opp. apply exponent_deriv_in. assumption.
  - split; [lra|]. unfold negexponent_gradfactor, exponent_gradfactor, negexponent_f.
    rewrite exponent_f_in by lra. ring.
Qed.

(** ** Square. *)
Lemma np_sqrt_nonneg : forall r, 0 <= r -> np_sqrt r = Fin (sqrt r).
Proof. intros. unfold np_sqrt. destruct (Rle_dec 0 r); [reflexivity | lra]. Qed.
Lemma square_f_nonneg : forall x, 0 <= square_f x.
Proof. intros. unfold square_f. nra. Qed.
Lemma square_finv_f : forall x, square_finv (square_f x) = Fin (Rabs x).
Proof.
  intros. unfold square_finv. rewrite np_sqrt_nonneg by apply square_f_nonneg. f_equal.
  unfold square_f. rewrite <- sqrt_Rsqr_abs. f_equal. unfold Rsqr. ring.
Qed.
Lemma square_f_finv : forall y, 0 <= y -> exists x, square_finv y = Fin x /\ square_f x = y.
Proof.
  intros y Hy. exists (sqrt y). unfold square_finv. rewrite np_sqrt_nonneg by assumption.
  split; [reflexivity|]. unfold square_f. apply pow2_sqrt. assumption.
Qed.
Lemma square_deriv : forall x, derivable_pt_lim square_f x (2 * x).
Proof.
  intros x. replace (2 * x) with (INR 2 * x ^ pred 2) by (simpl; ring). apply derivable_pt_lim_pow.
Qed.
Lemma square_grad : forall x dL, square_gradfactor (square_f x) dL = Fin (dL * (2 * Rabs x)).
Proof.
  intros. unfold square_gradfactor. fold (square_finv (square_f x)). rewrite square_finv_f. simpl. f_equal. ring.
Qed.

(** ** Logistic. *)
Section Logistic.
Variables l u : R.
Hypothesis Hlu : l < u.
Lemma sg_bounds : forall x, 0 < / (1 + exp x) < 1.
Proof.
  intros x. pose proof (exp_pos x). split; [apply Rinv_0_lt_compat; lra|].
  apply inv_lt_1. lra.
Qed.
Lemma logistic_f_in : forall x, - 300 <= x -> logistic_f l u x = l + (u - l) / (1 + exp (- x)).
Proof. intros. unfold logistic_f. destruct (Rlt_dec x (- 300)); [lra | reflexivity]. Qed.
Lemma logistic_f_low : forall x, x <= - 300 -> logistic_f l u x = l + (u - l) / (1 + exp 300).
Proof.
  intros. unfold logistic_f. destruct (Rlt_dec x (- 300)).
  - replace (- -300) with 300 by lra. reflexivity.
  - replace (- x) with 300 by lra. reflexivity.
Qed.
Lemma logistic_bounds : forall x, l < logistic_f l u x < u.
Proof.
  intros x. destruct (Rle_dec x (- 300)).
  - rewrite logistic_f_low by assumption. pose proof (sg_bounds 300). unfold Rdiv. nra.
  - rewrite logistic_f_in by lra. pose proof (sg_bounds (- x)). unfold Rdiv. nra.
Qed.
Lemma logistic_compl : forall x, - 300 <= x -> u - logistic_f l u x = (u - l) / (1 + exp x).
Proof.
  intros x H. rewrite logistic_f_in by assumption. pose proof (exp_pos x).
  rewrite exp_Ropp. field. split; lra.
Qed.
Lemma logistic_finv_in : forall f, tiny <= f - l -> tiny <= u - f ->
  logistic_finv l u f = Fin (ln ((f - l) / (u - f))).
Proof.
  intros f H1 H2. unfold logistic_finv, clip_lo. rewrite !Rmax_left by assumption.
  assert (0 < tiny) by (unfold tiny; apply Rinv_0_lt_compat; apply pow_lt; lra).
  apply np_log_pos. apply Rmult_lt_0_compat; [lra | apply Rinv_0_lt_compat; lra].
Qed.
Lemma logistic_finv_f : forall x, - 300 <= x ->
  tiny <= (u - l) / (1 + exp (- x)) -> tiny <= (u - l) / (1 + exp x) ->
  logistic_finv l u (logistic_f l u x) = Fin x.
Proof.
  intros x H H1 H2. rewrite logistic_finv_in.
  - f_equal. rewrite logistic_compl by assumption. rewrite logistic_f_in by assumption.
    pose proof (exp_pos x). rewrite exp_Ropp.
    replace ((l + (u - l) / (1 + / exp x) - l) / ((u - l) / (1 + exp x))) with (exp x).
    + apply ln_exp.
    + field. repeat split; lra.
  - rewrite logistic_f_in by assumption. lra.
  - rewrite logistic_compl by assumption. assumption.
Qed.
Lemma logistic_f_finv : forall y, l + tiny <= y -> y <= u - tiny ->
  exp (- 300) * (u - y) <= y - l ->
  exists x, logistic_finv l u y = Fin x /\ logistic_f l u x = y.
Proof.
  intros y H1 H2 H3. assert (Ht : 0 < tiny) by (unfold tiny; apply Rinv_0_lt_compat; apply pow_lt; lra).
  exists (ln ((y - l) / (u - y))). split; [apply logistic_finv_in; lra|].
  assert (Hp : 0 < (y - l) / (u - y)).
  { apply Rmult_lt_0_compat; [lra | apply Rinv_0_lt_compat; lra]. }
  rewrite logistic_f_in.
  - rewrite exp_Ropp, exp_ln by assumption. field. repeat split; lra.
  - rewrite <- (ln_exp (- 300)). apply ln_le_iff; [apply exp_pos|].
    apply Rmult_le_reg_r with (u - y); [lra|]. unfold Rdiv. rewrite Rmult_assoc, Rinv_l by lra. lra.
Qed.
Lemma logistic_deriv : forall x, - 300 < x ->
  derivable_pt_lim (logistic_f l u) x ((u - l) * (exp (- x) / (1 + exp (- x)) ^ 2)).
Proof.
  intros x H. apply deriv_ext with (g := fun t => l + (u - l) * / (1 + exp (- t))).
  - destruct (near x (- 300) (x + 1) ltac:(lra)) as (d & Hd & Hn). exists d. split; [assumption|].
    intros y Hy. apply Hn in Hy. apply logistic_f_in. lra.
  - pose proof (exp_pos (- x)).
    replace ((u - l) * (exp (- x) / (1 + exp (- x)) ^ 2))
      with (0 + (u - l) * (- (0 + exp (- x) * - (1)) / Rsqr (1 + exp (- x)))) by (unfold Rsqr; field; lra).
    apply derivable_pt_lim_plus; [apply derivable_pt_lim_const|].
    apply derivable_pt_lim_scal.
    assert (Hin : derivable_pt_lim (fun t => 1 + exp (- t)) x (0 + exp (- x) * - (1))).
    { apply derivable_pt_lim_plus; [apply derivable_pt_lim_const|].
      apply (derivable_pt_lim_comp (fun t => - t) exp).
      - apply derivable_pt_lim_opp. apply derivable_pt_lim_id.
      - apply derivable_pt_lim_exp. }
    pose proof (derivable_pt_lim_div (fct_cte 1) (fun t => 1 + exp (- t)) x 0 _ (derivable_pt_lim_const 1 x) Hin ltac:(lra)) as Hd.
    unfold fct_cte in Hd. 
    replace (- (0 + exp (- x) * - (1)) / Rsqr (1 + exp (- x)))
      with ((0 * (1 + exp (- x)) - (0 + exp (- x) * - (1)) * 1) / Rsqr (1 + exp (- x))) by (unfold Rsqr; field; lra).
    apply deriv_ext with (g := div_fct (fun _ => 1) (fun t => 1 + exp (- t))); [|exact Hd].
    exists 1. split; [lra|]. intros y _. unfold div_fct. field. pose proof (exp_pos (- y)). lra.
Qed.
Lemma logistic_chain : forall x dL, - 300 < x ->
  exists d, derivable_pt_lim (logistic_f l u) x d /\ logistic_gradfactor l u (logistic_f l u x) dL = dL * d.
Proof.
  intros x dL H. eexists. split; [apply logistic_deriv; assumption|].
  unfold logistic_gradfactor. f_equal. rewrite logistic_compl by lra. rewrite logistic_f_in by lra.
  pose proof (exp_pos x). rewrite exp_Ropp. field. repeat split; lra.
Qed.
Lemma logistic_init_in : forall y, l <= logistic_initialize l u y <= u.
Proof.
  intros y. unfold logistic_initialize. pose proof (logistic_bounds 0).
  destruct (Rlt_dec y l); [lra|]. destruct (Rlt_dec u y); lra.
Qed.
Lemma logistic_init_id : forall y, l <= y <= u -> logistic_initialize l u y = y.
Proof.
  intros y H. unfold logistic_initialize. destruct (Rlt_dec y l); [lra|]. destruct (Rlt_dec u y); [lra | reflexivity].
Qed.
Lemma logistic_init_mid : forall y, y < l \/ u < y -> logistic_initialize l u y = (l + u) / 2.
Proof.
  intros y H. assert (Hm : logistic_f l u 0 = (l + u) / 2).
  { rewrite logistic_f_in by lra. rewrite Ropp_0, exp_0. field. }
  unfold logistic_initialize. destruct (Rlt_dec y l); [assumption|]. destruct (Rlt_dec u y); [assumption | lra].
Qed.
End Logistic.

(** ** log_jacobian. *)
Lemma logexp_jac : forall x, - log_lim_val < x <= ln (exp 36 - 1) \/ 36 < x ->
  exists d, derivable_pt_lim logexp_f x d /\ 0 < d /\ logexp_log_jacobian (logexp_f x) = Fin (ln d).
Proof.
  intros x [H|H].
  - pose proof gap_lt36. pose proof (exp_pos x).
    exists (exp x / (1 + exp x)). split; [apply logexp_deriv_mid; lra|].
    assert (0 < exp x / (1 + exp x)) by (apply Rmult_lt_0_compat; [lra | apply Rinv_0_lt_compat; lra]).
    split; [assumption|]. rewrite logexp_f_mid by lra. unfold logexp_log_jacobian, lim_val.
    destruct (Rlt_dec 36 (ln (1 + exp x))) as [Hl|_].
    + destruct H as [_ H]. apply ln1pexp_le36 in H. lra.
    + unfold expm1. rewrite exp_ln1pexp. replace (1 + exp x - 1) with (exp x) by ring.
      rewrite np_log_pos by lra. simpl. f_equal. unfold Rdiv. rewrite ln_mult by (try apply Rinv_0_lt_compat; lra).
      rewrite ln_Rinv by lra. ring.
  - exists 1. split; [apply logexp_deriv_high; assumption|]. split; [lra|].
    rewrite logexp_f_high by assumption. unfold logexp_log_jacobian, lim_val.
    destruct (Rlt_dec 36 x); [|lra]. simpl. f_equal. rewrite ln_1. ring.
Qed.
Definition fin (e : ext) : R := match e with Fin r => r | _ => 0 end.
Lemma logexp_jac_grad : forall y, 0 < y < 36 ->
  exists g, logexp_log_jacobian_grad y = Fin g /\
    (exists d, 0 < d /\ forall z, Rabs (z - y) < d -> logexp_log_jacobian z = Fin (fin (logexp_log_jacobian z))) /\
    derivable_pt_lim (fun z => fin (logexp_log_jacobian z)) y g.
Proof.
  intros y Hy. pose proof (exp_ineq1 y ltac:(lra)) as He.
  exists (1 / expm1 y). split.
  { unfold logexp_log_jacobian_grad, np_div, expm1. destruct (Req_EM_T (exp y - 1) 0); [lra | reflexivity]. }
  destruct (near y _ _ Hy) as (d & Hd & Hn).
  assert (Hz : forall z, 0 < z < 36 -> logexp_log_jacobian z = Fin (ln (exp z - 1) - z)).
  { intros z Hz. unfold logexp_log_jacobian, lim_val. destruct (Rlt_dec 36 z); [lra|].
    unfold expm1. pose proof (exp_ineq1 z ltac:(lra)). rewrite np_log_pos by lra. reflexivity. }
  split.
  { exists d. split; [assumption|]. intros z Hzd. rewrite Hz by (apply Hn; assumption). reflexivity. }
  apply deriv_ext with (g := fun z => ln (exp z - 1) - z).
  - exists d. split; [assumption|]. intros z Hzd. rewrite Hz by (apply Hn; assumption). reflexivity.
  - replace (1 / expm1 y) with (/ (exp y - 1) * (exp y - 0) - 1) by (unfold expm1; field; lra).
    apply derivable_pt_lim_minus; [|apply derivable_pt_lim_id].
    apply (derivable_pt_lim_comp (fun z => exp z - 1) ln).
    + apply derivable_pt_lim_minus; [apply derivable_pt_lim_exp | apply derivable_pt_lim_const].
    + apply derivable_pt_lim_ln. lra.
Qed.
Lemma logexp_jac_grad_high : forall y, 36 < y ->
  derivable_pt_lim (fun z => fin (logexp_log_jacobian z)) y 0 /\
  exists g, logexp_log_jacobian_grad y = Fin g /\ 0 < g <= / (exp 36 - 1).
Proof.
  intros y Hy. pose proof exp36_big. pose proof (exp_increasing 36 y Hy). split.
  - apply deriv_ext with (g := fun _ => 0); [|apply derivable_pt_lim_const].
    destruct (near y 36 (y + 1) ltac:(lra)) as (d & Hd & Hn). exists d. split; [assumption|].
    intros z Hz. apply Hn in Hz. unfold logexp_log_jacobian, lim_val.
    destruct (Rlt_dec 36 z); [simpl; ring | lra].
  - exists (1 / expm1 y). unfold logexp_log_jacobian_grad, np_div, expm1.
    destruct (Req_EM_T (exp y - 1) 0); [lra|]. split; [reflexivity|]. unfold Rdiv. rewrite Rmult_1_l.
    split; [apply Rinv_0_lt_compat; lra | apply Rinv_le_contravar; lra].
Qed.
Lemma exponent_jac : forall x, - 36 < x < 36 ->
  exists d, derivable_pt_lim exponent_f x d /\ 0 < d /\ exponent_log_jacobian (exponent_f x) = Fin (ln d).
Proof.
  intros x H. exists (exp x). split; [apply exponent_deriv_in; assumption|]. split; [apply exp_pos|].
  unfold exponent_log_jacobian. rewrite exponent_f_in by lra. apply np_log_pos. apply exp_pos.
Qed.
Lemma exponent_jac_grad : forall y, 0 < y ->
  exists g, exponent_log_jacobian_grad y = Fin g /\
    derivable_pt_lim (fun z => fin (exponent_log_jacobian z)) y g.
Proof.
  intros y Hy. exists (1 / y). split.
  - unfold exponent_log_jacobian_grad, np_div. destruct (Req_EM_T y 0); [lra | reflexivity].
  - apply deriv_ext with (g := ln).
    + destruct (near y 0 (y + 1) ltac:(lra)) as (d & Hd & Hn). exists d. split; [assumption|].
      intros z Hz. apply Hn in Hz. unfold exponent_log_jacobian. rewrite np_log_pos by lra. reflexivity.
    + replace (1 / y) with (/ y) by (field; lra). apply derivable_pt_lim_ln. assumption.
Qed.
Lemma negexponent_jac_nan : forall x, negexponent_log_jacobian (negexponent_f x) = NaN.
Proof. intros. apply np_log_neg. apply negexponent_f_neg. Qed.
