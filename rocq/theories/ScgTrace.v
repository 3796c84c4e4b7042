(** Proofs that the iterations of SCG follow the method (C126). *)
From Coq Require Import List Reals Lra Lia Arith.
From Verif Require Import ScgModel ScgSpec ScgProofs.
Import ListNotations.
Open Scope R_scope.

Lemma rdiv_some : forall a b c, rdiv a b = Some c -> c = a / b.
Proof. intros a b c. unfold rdiv. destruct (Req_EM_T b 0); congruence. Qed.
Lemma adjust_rescaled : forall D b, rescaled D b (adjust D b).
Proof.
  intros D b. unfold adjust, rescaled, betamax, betamin. destruct (Rlt_dec D (1/4)); destruct (Rlt_dec (3/4) D); repeat split; intros; try lra; auto.
  f_equal. lra.
Qed.
Section T.
Variable f : vec -> R.
Variable gradf : vec -> vec.
Variables xtol ftol gtol : R.
Hypothesis Hdim : grad_dim gradf.
Variable x0 : vec.
Notation inv := (inv f gradf xtol ftol gtol x0).
Notation inv2 := (inv2 f gradf xtol ftol gtol x0).
Definition tr (s : st) : Prop :=
  follows f gradf x0 (steps s) (mkP (x s) (d s) (beta s) (nsuccess s)) /\ (success s = false -> theta s = quotient gradf (x s) (d s)).
Definition ended (l : list stepinfo) : Prop :=
  exists i r p b, l = i :: r /\ follows f gradf x0 r p /\ taken gradf p i b /\ accepted f i /\ i_beta i = b.

Lemma directional_tr : forall s s', inv s -> tr s -> directional gradf s = Some s' ->
  inv2 s' /\ steps s' = steps s /\ x s' = x s /\ beta s' = beta s /\ nsuccess s' = nsuccess s /\
  (dot (d s) (gradf (x s)) < 0 -> d s' = d s) /\ (0 <= dot (d s) (gradf (x s)) -> d s' = vneg (gradf (x s))) /\
  theta s' = quotient gradf (x s) (d s') /\ follows f gradf x0 (steps s) (mkP (x s) (d s) (beta s) (nsuccess s)).
Proof.
  intros s s' I [F T] E. destruct (directional_inv f gradf xtol ftol gtol Hdim x0 s I) as (s2 & E2 & I2 & Hst).
  rewrite E in E2. injection E2 as <-. split; auto. split; auto.
  destruct I as (_ & _ & _ & _ & A2 & _ & _ & _ & _ & _ & _ & A9). unfold directional in E. destruct (success s) eqn:Hs.
  - destruct (rdiv sigma0 _) as [sg|] eqn:R1; [|discriminate]. destruct (rdiv (dot _ _) sg) as [t|] eqn:R2; [|discriminate].
    injection E as <-. cbn [x beta nsuccess d theta steps]. rewrite A2 in *.
    apply rdiv_some in R1, R2. split; auto. split; auto. split; auto.
    split; [intros H; destruct (Rle_dec 0 _); lra || auto|]. split; [intros H; destruct (Rle_dec 0 _); lra || auto|].
    split; auto. rewrite R2. unfold quotient. rewrite R1. reflexivity.
  - injection E as <-. destruct (A9 eq_refl) as (B1 & B2 & _). rewrite A2 in B1. repeat split; auto. intros H. lra.
Qed.
Lemma body_tr : forall s, inv s -> tr s ->
  match body f gradf xtol ftol gtol s with
  | Some (inl s') => tr s'
  | Some (inr (s', _)) => ended (steps s')
  | None => True
  end.
Proof.
  intros s0 Hi Ht. unfold body. destruct (directional gradf s0) as [s|] eqn:E; auto.
  destruct (directional_tr s0 s Hi Ht E) as (I2 & Hst & Hx & Hb & Hn & D1 & D2 & Th & F).
  destruct I2 as (_ & _ & _ & A1 & A2 & A3 & A4 & A5 & A6 & A7 & A8 & B1 & B2 & B3).
  pose proof betamin_pos as Hbm.
  assert (Hk : 0 < kappa s) by (rewrite B3; apply dot_pos_neg with (gradnew s); lra).
  destruct (curvature_ok s Hk ltac:(lra)) as (delta & b & C & Hdelta & _). rewrite C.
  rewrite rdiv_ok by lra.
  assert (Ha : 0 < - mu s / delta) by (apply Rmult_lt_0_compat; [lra | apply Rinv_0_lt_compat; assumption]).
  set (alpha := - mu s / delta) in *.
  assert (Ham : alpha * mu s < 0) by nra.
  rewrite rdiv_ok by lra.
  assert (Tk : forall b', taken gradf (mkP (x s0) (d s0) (beta s0) (nsuccess s0)) (mkI (x s) (d s) (mu s) delta alpha b') b).
  { intros b'. unfold taken. cbn [i_x i_d i_delta p_x p_d p_scale]. split; auto. split; auto. split; auto.
    rewrite Hx, <- Th, <- B3, <- Hb. unfold curvature in C. destruct (Rle_dec (theta s + beta s * kappa s) 0) as [H|H].
    - destruct (rdiv (theta s) (kappa s)) as [q|] eqn:Q; [|discriminate]. apply rdiv_some in Q. injection C as <- <-. subst q. split; intros; auto; lra.
    - injection C as <- <-. split; intros; auto; lra. }
  set (xnew := vadd (x s) (vscale alpha (d s))) in *.
  set (Delta := 2 * (f xnew - fold s) / (alpha * mu s)) in *.
  assert (Ra : forall b', ratio f (mkI (x s) (d s) (mu s) delta alpha b') = Delta).
  { intros b'. unfold ratio, proposal. cbn [i_x i_d i_alpha i_mu]. fold xnew. rewrite <- A1. reflexivity. }
  assert (Hxl : length xnew = length (x s)) by (apply vadd_length; rewrite vscale_length; auto).
  rewrite <- Hst in F.
  destruct (Rle_dec 0 Delta) as [HD|HD].
  - assert (Hf : f xnew <= fold s).
    { unfold Delta, Rdiv in HD. assert (/ (alpha * mu s) < 0) by (apply Rinv_lt_0_compat; assumption). nra. }
    assert (Ac : forall b', accepted f (mkI (x s) (d s) (mu s) delta alpha b')).
    { intros b'. unfold accepted, proposal. cbn [i_x i_d i_alpha]. fold xnew. lra. }
    assert (En : ended (mkI (x s) (d s) (mu s) delta alpha b :: steps s)) by (exists (mkI (x s) (d s) (mu s) delta alpha b), (steps s), (mkP (x s0) (d s0) (beta s0) (nsuccess s0)), b; auto).
    destruct (Rlt_dec (Rabs (f xnew - fold s)) ftol); [exact En|].
    destruct (Rlt_dec (maxabs (vscale alpha (d s))) xtol); [exact En|].
    destruct (Rle_dec (dot (gradf xnew) (gradf xnew)) gtol); [exact En|].
    destruct (Nat.eqb_spec (S (nsuccess s)) (length xnew)) as [Hq|Hq].
    + split; [|discriminate]. cbn [steps x d beta nsuccess].
      apply (follows_restart f gradf x0 (steps s) (mkP (x s0) (d s0) (beta s0) (nsuccess s0)) (mkI (x s) (d s) (mu s) delta alpha 1) b); auto.
      cbn [p_count]. rewrite <- Hn. congruence.
    + rewrite rdiv_ok by lra. split; [|discriminate]. cbn [steps x d beta nsuccess]. rewrite A2, Hn.
      apply (follows_yes f gradf x0 (steps s) (mkP (x s0) (d s0) (beta s0) (nsuccess s0)) (mkI (x s) (d s) (mu s) delta alpha (adjust Delta b)) b); auto.
      * cbn [p_count]. rewrite <- Hn. congruence.
      * rewrite Ra. apply adjust_rescaled.
  - assert (Hf : fold s < f xnew).
    { apply Rnot_le_lt. intros H. apply HD. unfold Delta, Rdiv.
      assert (/ (alpha * mu s) < 0) by (apply Rinv_lt_0_compat; assumption). nra. }
    destruct (Nat.eqb_spec (nsuccess s) (length (x s))) as [Hq|Hq]; [lia|].
    split; cbn [steps x d beta nsuccess theta]; [|intros _; rewrite Hx; exact Th]. rewrite Hn.
    apply (follows_no f gradf x0 (steps s) (mkP (x s0) (d s0) (beta s0) (nsuccess s0)) (mkI (x s) (d s) (mu s) delta alpha (adjust Delta b)) b); auto.
    + unfold accepted, proposal. cbn [i_x i_d i_alpha]. fold xnew. lra.
    + rewrite Ra. apply adjust_rescaled.
Qed.
Hypothesis Hg : 0 <= gtol.
Hypothesis Hx0 : nonzero (gradf x0).
Lemma loop_tr : forall n s s' stat, inv s -> tr s -> loop f gradf xtol ftol gtol n s = Some (s', stat) ->
  (stat = MaxIter -> tr s') /\ (stat <> MaxIter -> ended (steps s')).
Proof.
  induction n as [|n IH]; cbn [loop]; intros s s' stat I T E.
  - injection E as <- <-. split; intros; auto; congruence.
  - pose proof (body_inv f gradf xtol ftol gtol Hdim Hg x0 s I) as H1. pose proof (body_tr s I T) as H2.
    destruct (body f gradf xtol ftol gtol s) as [[s2|[s2 st2]]|]; [| |discriminate].
    + apply (IH s2); auto. apply H1.
    + injection E as <- <-. split; intros; auto. destruct H1 as [H1 _]. congruence.
Qed.
End T.
Lemma scg_method : forall f gradf xtol ftol gtol x0 n m, grad_dim gradf -> 0 <= gtol -> nonzero (gradf x0) ->
  exists r, SCG f gradf xtol ftol gtol x0 n m = Some r /\
    (r_status r = MaxIter -> exists p, follows f gradf x0 (steps (fst r)) p /\ r_x r = p_x p) /\
    (r_status r <> MaxIter -> exists i l p b, steps (fst r) = i :: l /\ follows f gradf x0 l p /\ taken gradf p i b /\ accepted f i /\ r_x r = proposal i).
Proof.
  intros f gradf xtol ftol gtol x0 n m Hd Hg Hx.
  destruct (run_final f gradf xtol ftol gtol Hd Hg x0 Hx n m) as (s & stat & H1 & (H2 & _) & _).
  exists (s, stat). split; [assumption|]. unfold r_status, r_x; cbn [fst snd].
  destruct (loop_tr f gradf xtol ftol gtol Hd x0 Hg n _ s stat (start_inv f gradf xtol ftol gtol Hd x0 Hx) ltac:(split; [constructor | discriminate]) H1) as [K1 K2].
  split.
  - intros E. destruct (K1 E) as [F _]. eexists. split; [exact F|]. reflexivity.
  - intros E. destruct (K2 E) as (i & l & p & b & El & F & T & A & _). exists i, l, p, b. repeat (split; auto).
    destruct H2 as (_ & _ & _ & _ & _ & P & _). rewrite El in P. inversion P; subst; auto. contradiction.
Qed.
(** The vectors. *)
Lemma vectors_ok : forall a b k, length a = length b ->
  (forall j, (j < length a)%nat -> nth j (vadd a b) 0 = nth j a 0 + nth j b 0 /\ nth j (vsub a b) 0 = nth j a 0 - nth j b 0 /\
    nth j (vscale k a) 0 = k * nth j a 0 /\ nth j (vneg a) 0 = - nth j a 0 /\ Rabs (nth j a 0) <= maxabs a) /\
  (a <> [] -> exists j, (j < length a)%nat /\ maxabs a = Rabs (nth j a 0)) /\
  dot a b = fold_right Rplus 0 (map (fun j => nth j a 0 * nth j b 0) (seq 0 (length a))).
Proof.
  intros a b k L. split; [|split].
  - assert (Ha : forall a b, length a = length b -> forall j, (j < length a)%nat -> nth j (vadd a b) 0 = nth j a 0 + nth j b 0).
    { clear. induction a as [|v a IH]; intros [|w b] L j Hj; cbn in *; try lia. destruct j; auto. apply IH; lia. }
    assert (Hn : forall c j, nth j (vneg c) 0 = - nth j c 0).
    { intros c j. rewrite <- Ropp_0 at 1. apply map_nth. }
    intros j Hj. split; [apply Ha; auto|]. split; [unfold vsub; rewrite Ha, Hn by (rewrite ?vneg_length; auto); lra|].
    split; [rewrite <- (Rmult_0_r k) at 1; apply map_nth|]. split; auto.
    clear L. revert j Hj. induction a as [|v a IH]; intros j Hj; cbn in *; [lia|]. destruct j; [apply Rmax_l|].
    eapply Rle_trans; [apply IH; lia | apply Rmax_r].
  - clear L. induction a as [|v a IH]; intros H; [congruence|]. cbn [maxabs fold_right]. fold (maxabs a).
    destruct (Rle_lt_dec (maxabs a) (Rabs v)) as [H1|H1].
    + exists 0%nat. split; [cbn; lia|]. rewrite Rmax_left; auto.
    + destruct a as [|w a]; [cbn in H1; pose proof (Rabs_pos v); lra|]. destruct IH as (j & Hj & E); [discriminate|].
      exists (S j). split; [cbn in *; lia|]. rewrite Rmax_right by lra. exact E.
  - revert b L. induction a as [|v a IH]; intros [|w b] L; cbn in *; try discriminate; auto. f_equal. rewrite <- seq_shift, map_map. apply IH. congruence.
Qed.
