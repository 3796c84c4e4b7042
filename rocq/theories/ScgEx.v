(** Runs of SCG on small problems, for the examples and refutations in ScgProps.v. *)
From Coq Require Import List Reals Lra Lia Arith Sorting.Sorted.
From Verif Require Import ScgModel ScgSpec ScgProofs.
Import ListNotations.
Open Scope R_scope.

(** ** A parabola *)
Definition pf (v : vec) : R := match v with [a] => a * a / 2 | _ => 0 end.
Definition pg (v : vec) : vec := v.
Lemma pg_dim : grad_dim pg.
Proof. intro v. reflexivity. Qed.
Lemma pg_nonzero : nonzero (pg [1]).
Proof. exists 1. split; [left; reflexivity | lra]. Qed.

Ltac dec := match goal with
  | |- context [Rle_dec ?a ?b] => destruct (Rle_dec a b); [try (exfalso; lra) | try (exfalso; lra)]
  | |- context [Rlt_dec ?a ?b] => destruct (Rlt_dec a b); [try (exfalso; lra) | try (exfalso; lra)]
  end.

Lemma p_directional : forall r, r = start pf pg [1] -> directional pg r =
  Some (mkS [1] (1/2) [1] [1] [-1] true 0 1 (-1) 1 1 [1/2] 3 [CallG [1 + sigma0 * -1]; CallG [1]; CallF [1]] []).
Proof.
  intros r ->. unfold directional, start, pg. cbn [success d gradnew x pf fold gradold nsuccess beta flog fevals calls steps].
  pose proof sigma0_pos.
  assert (E : vneg [1] = [-1]) by (simpl; f_equal; lra). rewrite E.
  assert (E1 : dot [-1] [1] = -1) by (simpl; lra). rewrite E1.
  destruct (Rle_dec 0 (-1)); [lra|].
  assert (E2 : dot [-1] [-1] = 1) by (simpl; lra). rewrite E2, sqrt_1, rdiv_ok by lra.
  replace (sigma0 / 1) with sigma0 by lra. rewrite rdiv_ok by lra.
  f_equal. replace (1 * 1 / 2) with (1 / 2) by lra. f_equal. simpl. field. lra.
Qed.
Lemma p_run : forall m, exists s, SCG pf pg (/ 10 ^ 6) (/ 10 ^ 6) (/ 10 ^ 5) [1] 1 m = Some (s, MaxIter) /\
  x s = [1/2] /\ flog s = [1/2; 1/8] /\ fevals s = 5%nat /\ (exists i, steps s = [i]).
Proof.
  intros m. unfold SCG, loop, body. rewrite (p_directional _ eq_refl).
  unfold curvature; cbn [theta beta kappa mu x d fold flog success nsuccess gradnew gradold fevals calls steps].
  destruct (Rle_dec (1 + 1 * 1) 0); [lra|]. rewrite rdiv_ok by lra.
  assert (E1 : - -1 / (1 + 1 * 1) = 1/2) by lra. rewrite E1.
  rewrite rdiv_ok by lra.
  assert (E2 : vadd [1] (vscale (1/2) [-1]) = [1/2]) by (simpl; f_equal; lra). rewrite E2.
  assert (E3 : pf [1/2] = 1/8) by (simpl; lra). rewrite E3.
  assert (E4 : 2 * (1/8 - 1/2) / (1/2 * -1) = 3/2) by lra. rewrite E4.
  destruct (Rle_dec 0 (3/2)); [|lra].
  assert (P6 : / 10 ^ 6 < 1/4) by lra. assert (P5 : / 10 ^ 5 < 1/8) by lra.
  assert (E5 : Rabs (1/8 - 1/2) = 3/8).
  { rewrite Rabs_left by lra. lra. }
  rewrite E5. destruct (Rlt_dec (3/8) (/ 10 ^ 6)); [lra|].
  assert (E6 : maxabs (vscale (1/2) [-1]) = 1/2).
  { simpl. rewrite Rabs_left by lra. rewrite Rmax_left; lra. }
  rewrite E6. destruct (Rlt_dec (1/2) (/ 10 ^ 6)); [lra|].
  assert (E7 : dot (pg [1/2]) (pg [1/2]) = 1/4) by (simpl; lra). rewrite E7.
  destruct (Rle_dec (1/4) (/ 10 ^ 5)); [lra|]. simpl.
  eexists. split; [reflexivity|]. simpl. repeat split; try lra. eexists. reflexivity.
Qed.

(** ** A concave quadratic in two variables: f(a,b) = a - K a^2 / 2 *)
Definition K : R := 10 ^ 16.
Definition qf (v : vec) : R := match v with [a; b] => a - K * (a * a) / 2 | _ => 0 end.
Definition qg (v : vec) : vec := match v with [a; b] => [1 - K * a; 0] | _ => v end.
Lemma qg_dim : grad_dim qg.
Proof. intros [|a [|b [|c v]]]; reflexivity. Qed.
Lemma qg_nonzero : nonzero (qg [0; 0]).
Proof. exists 1. split; [left; simpl; lra | lra]. Qed.
Lemma qg_gradient : forall a b, derivable_pt_lim (fun t => qf [t; b]) a (nth 0 (qg [a; b]) 0) /\
  derivable_pt_lim (fun t => qf [a; t]) b (nth 1 (qg [a; b]) 0).
Proof.
  intros a b. split; simpl.
  - replace (1 - K * a) with (1 - ((0 * (a * a) + K * (1 * a + a * 1)) * / 2 + K * (a * a) * 0)) by field.
    apply (derivable_pt_lim_minus id (fun t => K * (t * t) * / 2)); [apply derivable_pt_lim_id|].
    apply (derivable_pt_lim_mult (fun t => K * (t * t)) (fun _ => / 2)); [|apply derivable_pt_lim_const].
    apply (derivable_pt_lim_mult (fun _ => K) (fun t => t * t)); [apply derivable_pt_lim_const|].
    apply (derivable_pt_lim_mult id id); apply derivable_pt_lim_id.
  - apply derivable_pt_lim_const.
Qed.
Lemma q_directional : forall r, r = start qf qg [0; 0] -> exists l lg, directional qg r =
  Some (mkS [0; 0] 0 [1; 0] [1; 0] [-1; 0] true 0 1 (-1) 1 (- K) lg 3 l []).
Proof.
  intros r ->. unfold directional, start. cbn [success d gradnew x qg fold qf gradold nsuccess beta flog fevals calls steps].
  pose proof sigma0_pos.
  assert (E0 : [1 - K * 0; 0] = [1; 0]) by (repeat f_equal; lra). rewrite E0.
  assert (E : vneg [1; 0] = [-1; 0]) by (simpl; repeat f_equal; lra). rewrite E.
  assert (E1 : dot [-1; 0] [1; 0] = -1) by (simpl; lra). rewrite E1.
  destruct (Rle_dec 0 (-1)); [lra|].
  assert (E2 : dot [-1; 0] [-1; 0] = 1) by (simpl; lra). rewrite E2, sqrt_1, rdiv_ok by lra.
  replace (sigma0 / 1) with sigma0 by lra. rewrite rdiv_ok by lra.
  eexists _, _. f_equal. f_equal; try (simpl; lra). simpl. field. lra.
Qed.
Lemma q_run : forall m, exists s i, SCG qf qg (/ 10 ^ 6) (/ 10 ^ 6) (/ 10 ^ 5) [0; 0] 1 m = Some (s, MaxIter) /\
  steps s = [i] /\ betamax < i_beta i.
Proof.
  intros m. unfold SCG, loop, body. destruct (q_directional _ eq_refl) as (l & lg & ->).
  unfold curvature; cbn [theta beta kappa mu x d fold flog success nsuccess gradnew gradold fevals calls steps].
  assert (HK : 10 < K) by (unfold K; lra). assert (HK2 : betamax < (1 + K) / 4) by (unfold K, betamax; lra).
  destruct (Rle_dec (- K + 1 * 1) 0); [|lra]. rewrite !rdiv_ok by lra.
  assert (E1 : - -1 / (1 * 1) = 1) by lra. rewrite E1.
  assert (E2 : vadd [0; 0] (vscale 1 [-1; 0]) = [-1; 0]) by (simpl; repeat f_equal; lra). rewrite E2.
  assert (E3 : qf [-1; 0] = - (1 + K / 2)) by (simpl; lra). rewrite E3.
  assert (E4 : 2 * (- (1 + K / 2) - 0) / (1 * -1) = 2 + K) by lra. rewrite E4.
  destruct (Rle_dec 0 (2 + K)); [|lra].
  assert (P6 : / 10 ^ 6 < 1/4) by lra. assert (P5 : / 10 ^ 5 < 1/8) by lra.
  assert (E5 : Rabs (- (1 + K / 2) - 0) = 1 + K / 2) by (rewrite Rabs_left by lra; lra).
  rewrite E5. destruct (Rlt_dec (1 + K / 2) (/ 10 ^ 6)); [lra|].
  assert (E6 : 1 <= maxabs (vscale 1 [-1; 0])).
  { simpl. eapply Rle_trans; [|apply Rmax_l]. rewrite Rabs_left by lra. lra. }
  destruct (Rlt_dec (maxabs (vscale 1 [-1; 0])) (/ 10 ^ 6)); [lra|].
  assert (E7 : dot (qg [-1; 0]) (qg [-1; 0]) = (1 + K) * (1 + K)) by (simpl; lra). rewrite E7.
  destruct (Rle_dec ((1 + K) * (1 + K)) (/ 10 ^ 5)); [nra|].
  cbn [length Nat.eqb].
  eexists _, _. split; [reflexivity|]. cbn [steps]. split; [reflexivity|]. cbn [i_beta].
  unfold adjust. destruct (Rlt_dec (2 + K) (1/4)); [lra|]. destruct (Rlt_dec (3/4) (2 + K)); [|lra].
  eapply Rlt_le_trans; [|apply Rmax_l]. lra.
Qed.

Lemma scale_bound_bad : exists f gradf x0 n r i,
  grad_dim gradf /\ nonzero (gradf x0) /\
  (forall a b, derivable_pt_lim (fun t => f [t; b]) a (nth 0 (gradf [a; b]) 0) /\
               derivable_pt_lim (fun t => f [a; t]) b (nth 1 (gradf [a; b]) 0)) /\
  SCG f gradf (/ 10 ^ 6) (/ 10 ^ 6) (/ 10 ^ 5) x0 n n = Some r /\ In i (steps (fst r)) /\ betamax < i_beta i.
Proof.
  destruct (q_run 1) as (s & i & H1 & H2 & H3). exists qf, qg, [0; 0], 1%nat, (s, MaxIter), i.
  split; [exact qg_dim|]. split; [exact qg_nonzero|]. split; [exact qg_gradient|].
  split; [exact H1|]. simpl. rewrite H2. split; [left; reflexivity | exact H3].
Qed.

Lemma evaluation_limit_bad : exists f gradf x0 n m r,
  grad_dim gradf /\ nonzero (gradf x0) /\
  SCG f gradf (/ 10 ^ 6) (/ 10 ^ 6) (/ 10 ^ 5) x0 n m = Some r /\ m = 2%nat /\ r_evals r = 5%nat.
Proof.
  destruct (p_run 2) as (s & H & _ & _ & H2 & _). exists pf, pg, [1], 1%nat, 2%nat, (s, MaxIter).
  split; [exact pg_dim|]. split; [exact pg_nonzero|]. auto.
Qed.
