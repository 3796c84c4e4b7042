From Coq Require Import List Reals Lra Lia Arith Sorting.Sorted.
From Verif Require Import ScgModel ScgSpec.
Import ListNotations.
Open Scope R_scope.

(** ** Vectors *)
Lemma dot_nonneg : forall a, 0 <= dot a a.
Proof. induction a; simpl; [lra|]. nra. Qed.
Lemma dot_zero : forall a, dot a a = 0 -> forall b, dot a b = 0.
Proof.
  induction a as [|y a IH]; simpl; intros H b; [reflexivity|]. destruct b as [|z b]; [reflexivity|].
  pose proof (dot_nonneg a). assert (y = 0) by nra. assert (dot a a = 0) by nra.
  rewrite (IH H2). subst. ring.
Qed.
Lemma dot_neg_l : forall a b, dot (vneg a) b = - dot a b.
Proof.
  induction a as [|y a IH]; simpl; intros b; [ring|]. destruct b; [ring|]. rewrite IH. ring.
Qed.
Lemma dot_nonzero : forall v, nonzero v -> 0 < dot v v.
Proof.
  intros v (a & Ha & Hn). induction v as [|y v IH]; [destruct Ha|]. simpl.
  pose proof (dot_nonneg v). destruct Ha as [->|Ha].
  - assert (0 < a * a) by (destruct (Rtotal_order a 0) as [?|[?|?]]; [nra|lra|nra]). lra.
  - specialize (IH Ha). nra.
Qed.
Lemma dot_pos_neg : forall a b, dot a b < 0 -> 0 < dot a a.
Proof.
  intros a b H. destruct (Rtotal_order (dot a a) 0) as [H1|[H1|H1]]; [|rewrite (dot_zero _ H1) in H; lra|exact H1].
  pose proof (dot_nonneg a). lra.
Qed.
Lemma vneg_length : forall a, length (vneg a) = length a.
Proof. intros. apply map_length. Qed.
Lemma vscale_length : forall s a, length (vscale s a) = length a.
Proof. intros. apply map_length. Qed.
Lemma vadd_length : forall a b, length a = length b -> length (vadd a b) = length a.
Proof. induction a; simpl; intros [|z b] H; try discriminate; simpl; auto. Qed.
Lemma vsub_length : forall a b, length a = length b -> length (vsub a b) = length a.
Proof. intros. apply vadd_length. rewrite vneg_length. assumption. Qed.
Lemma rdiv_ok : forall a b, b <> 0 -> rdiv a b = Some (a / b).
Proof. intros. unfold rdiv. destruct (Req_EM_T b 0); [contradiction | reflexivity]. Qed.

Lemma sigma0_pos : 0 < sigma0.
Proof. unfold sigma0. apply Rinv_0_lt_compat, pow_lt. lra. Qed.
Lemma betamin_pos : 0 < betamin.
Proof. unfold betamin. apply Rinv_0_lt_compat, pow_lt. lra. Qed.
Lemma betamin_le : betamin <= 1 /\ betamin <= betamax.
Proof.
  assert (H : 1 <= 10 ^ 15) by (apply pow_R1_Rle; lra). unfold betamin, betamax.
  assert (/ 10 ^ 15 <= 1).
  { pose proof (Rinv_le_contravar 1 (10 ^ 15) Rlt_0_1 H) as K. rewrite Rinv_1 in K. exact K. }
  lra.
Qed.

Section P.
Variable f : vec -> R.
Variable gradf : vec -> vec.
Variables xtol ftol gtol : R.
Hypothesis Hdim : grad_dim gradf.
Hypothesis Hg : 0 <= gtol.
Variable x0 : vec.
Hypothesis Hx0 : nonzero (gradf x0).

Definition good_step (i : stepinfo) : Prop :=
  length (i_x i) = length (i_d i) /\ dot (i_d i) (gradf (i_x i)) = i_mu i /\ i_mu i < 0 /\ 0 < i_delta i /\
  i_alpha i = - i_mu i / i_delta i /\ 0 < i_alpha i /\ betamin <= i_beta i.

(** Facts about the log and the ghosts. [v] is the value the log ends with. *)
Definition log_ok (s : st) (v : R) : Prop :=
  non_increasing (flog s) /\ Forall (fun a => v <= a) (flog s) /\
  (exists l, flog s = l ++ [v]) /\ hd_error (flog s) = Some (f x0) /\
  length (flog s) = S (length (steps s)) /\ path f x0 (steps s) (x s) /\ values f x0 (steps s) (flog s).
Definition quiet (i : stepinfo) : Prop := ~ fired f gradf xtol ftol gtol i.
Definition evals_ok (s : st) : Prop := fevals s = length (calls s) /\
  (fevals s <= 2 + 3 * length (steps s))%nat.
Definition inv (s : st) : Prop :=
  log_ok s (fold s) /\ evals_ok s /\ (Forall good_step (steps s) /\ Forall quiet (steps s)) /\
  fold s = f (x s) /\ gradnew s = gradf (x s) /\ length (d s) = length (x s) /\
  length (gradold s) = length (x s) /\ length (x s) = length x0 /\
  0 < dot (gradnew s) (gradnew s) /\ (nsuccess s < length (x s))%nat /\ betamin <= beta s /\
  (success s = false -> mu s = dot (d s) (gradnew s) /\ mu s < 0 /\ kappa s = dot (d s) (d s)).

Definition final (n : nat) (s : st) (stat : status) : Prop :=
  log_ok s (f (x s)) /\ evals_ok s /\ Forall good_step (steps s) /\
  match stat with
  | ConvObjective => exists l a, flog s = l ++ [a; f (x s)] /\ Rabs (f (x s) - a) < ftol
  | ConvStep => exists i r, steps s = i :: r /\ x s = vadd (i_x i) (vscale (i_alpha i) (i_d i)) /\
                            maxabs (vscale (i_alpha i) (i_d i)) < xtol
  | ConvGradient => dot (gradf (x s)) (gradf (x s)) <= gtol
  | MaxIter => length (steps s) = n
  end /\
  match stat with
  | MaxIter => Forall quiet (steps s)
  | _ => exists i r, steps s = i :: r /\ fired f gradf xtol ftol gtol i /\ Forall quiet r
  end.

Lemma x0_len : (0 < length x0)%nat.
Proof.
  destruct Hx0 as (a & Ha & _). rewrite <- (Hdim x0). destruct (gradf x0); [destruct Ha | simpl; lia].
Qed.
Lemma start_inv : inv (start f gradf x0).
Proof.
  unfold inv, start, log_ok, evals_ok, non_increasing; simpl. pose proof x0_len. pose proof betamin_le.
  repeat split; auto; try lra; try lia; try discriminate.
  - repeat constructor.
  - constructor; [lra | constructor].
  - exists []. reflexivity.
  - constructor.
  - constructor.
  - rewrite vneg_length. apply Hdim.
  - apply dot_nonzero. assumption.
Qed.

(** After lines 91-101. *)
Definition inv2 (s : st) : Prop :=
  log_ok s (fold s) /\ (fevals s = length (calls s) /\ (fevals s <= 3 + 3 * length (steps s))%nat) /\
  (Forall good_step (steps s) /\ Forall quiet (steps s)) /\
  fold s = f (x s) /\ gradnew s = gradf (x s) /\ length (d s) = length (x s) /\
  length (gradold s) = length (x s) /\ length (x s) = length x0 /\
  0 < dot (gradnew s) (gradnew s) /\ (nsuccess s < length (x s))%nat /\ betamin <= beta s /\
  mu s = dot (d s) (gradnew s) /\ mu s < 0 /\ kappa s = dot (d s) (d s).

Lemma directional_inv : forall s, inv s -> exists s', directional gradf s = Some s' /\ inv2 s' /\ steps s' = steps s.
Proof.
  intros s (L & (E1 & E2) & G & A1 & A2 & A3 & A4 & A5 & A6 & A7 & A8 & A9). unfold directional.
  destruct (success s) eqn:Hs.
  - set (m0 := dot (d s) (gradnew s)). set (d' := if Rle_dec 0 m0 then vneg (gradnew s) else d s).
    assert (Hd : dot d' (gradnew s) = (if Rle_dec 0 m0 then dot d' (gradnew s) else m0) /\
                 dot d' (gradnew s) < 0 /\ length d' = length (x s)).
    { unfold d'. destruct (Rle_dec 0 m0).
      - rewrite dot_neg_l, vneg_length, A2. split; [reflexivity|]. split; [rewrite <- A2; lra | apply Hdim].
      - split; [reflexivity|]. split; [unfold m0 in n; lra | assumption]. }
    destruct Hd as (Hd1 & Hd2 & Hd3).
    assert (Hk : 0 < dot d' d') by (eapply dot_pos_neg; eassumption).
    assert (Hsq : 0 < sqrt (dot d' d')) by (apply sqrt_lt_R0; assumption).
    rewrite rdiv_ok by lra.
    assert (Hsig : 0 < sigma0 / sqrt (dot d' d')).
    { apply Rmult_lt_0_compat; [apply sigma0_pos | apply Rinv_0_lt_compat; assumption]. }
    rewrite rdiv_ok by lra. eexists. split; [reflexivity|]. split; [|reflexivity].
    split; [exact L|]. simpl. rewrite <- Hd1. repeat split; auto; try lia; apply G.
  - exists s. split; [reflexivity|]. split; [|reflexivity]. destruct (A9 eq_refl) as (B1 & B2 & B3).
    split; [exact L|]. repeat split; auto; try lia; apply G.
Qed.

Lemma log_app : forall l v w, non_increasing l -> Forall (fun a => v <= a) l -> w <= v ->
  non_increasing (l ++ [w]) /\ Forall (fun a => w <= a) (l ++ [w]).
Proof.
  intros l v w S F H. split.
  - unfold non_increasing in *. induction S as [|a l S IH Fa]; simpl; [repeat constructor|].
    apply Forall_cons_iff in F. destruct F as [F1 F2]. constructor; [auto|].
    apply Forall_app. split; [assumption|]. constructor; [lra | constructor].
  - apply Forall_app. split; [|constructor; [lra | constructor]].
    eapply Forall_impl; [|exact F]. simpl. intros; lra.
Qed.
Lemma hd_app : forall (l : list R) w a, hd_error l = Some a -> hd_error (l ++ [w]) = Some a.
Proof. destruct l; simpl; intros; [discriminate | assumption]. Qed.

Lemma curvature_ok : forall s, 0 < kappa s -> 0 < beta s ->
  exists delta b, curvature s = Some (delta, b) /\ 0 < delta /\ beta s <= b.
Proof.
  intros s Hk Hb. unfold curvature. destruct (Rle_dec _ 0) as [H|H].
  - rewrite rdiv_ok by lra. eexists _, _. split; [reflexivity|]. split; [nra|].
    assert (theta s / kappa s <= 0); [|lra]. unfold Rdiv.
    assert (0 < / kappa s) by (apply Rinv_0_lt_compat; assumption).
    assert (theta s <= 0) by nra. nra.
  - eexists _, _. split; [reflexivity|]. lra.
Qed.
Lemma adjust_ok : forall D b, betamin <= b -> betamin <= adjust D b.
Proof.
  intros D b H. unfold adjust. pose proof betamin_le. pose proof betamin_pos.
  destruct (Rlt_dec D (1/4)); destruct (Rlt_dec (3/4) D); try apply Rmax_r; try assumption.
  apply Rmin_glb; lra.
Qed.

Lemma body_inv : forall s, inv s ->
  match body f gradf xtol ftol gtol s with
  | None => False
  | Some (inl s') => inv s' /\ length (steps s') = S (length (steps s))
  | Some (inr (s', stat)) => stat <> MaxIter /\ forall n, final n s' stat /\
      length (steps s') = S (length (steps s))
  end.
Proof.
  intros s0 Hi. unfold body. destruct (directional_inv _ Hi) as (s & -> & I2 & Hst).
  destruct I2 as ((L1 & L2 & (l0 & L3) & L4 & L5 & L6 & L7) & (E1 & E2) & (G & Q) & A1 & A2 & A3 & A4 & A5 & A6 & A7 & A8 & B1 & B2 & B3).
  pose proof betamin_pos as Hbm. pose proof betamin_le as Hbl.
  assert (Hk : 0 < kappa s) by (rewrite B3; apply dot_pos_neg with (gradnew s); lra).
  destruct (curvature_ok s Hk ltac:(lra)) as (delta & b & -> & Hdelta & Hb).
  rewrite rdiv_ok by lra.
  assert (Ha : 0 < - mu s / delta) by (apply Rmult_lt_0_compat; [lra | apply Rinv_0_lt_compat; assumption]).
  set (alpha := - mu s / delta) in *.
  assert (Ham : alpha * mu s < 0) by nra.
  rewrite rdiv_ok by lra.
  set (xnew := vadd (x s) (vscale alpha (d s))).
  assert (Hxl : length xnew = length (x s)) by (apply vadd_length; rewrite vscale_length; auto).
  set (Delta := 2 * (f xnew - fold s) / (alpha * mu s)).
  assert (Gs : forall b', betamin <= b' -> good_step (mkI (x s) (d s) (mu s) delta alpha b')).
  { intros b' Hb'. unfold good_step; simpl. rewrite <- A2. repeat split; auto; lra. }
  destruct (Rle_dec 0 Delta) as [HD|HD].
  - (* success *)
    assert (Hf : f xnew <= fold s).
    { unfold Delta, Rdiv in HD. assert (/ (alpha * mu s) < 0) by (apply Rinv_lt_0_compat; assumption). nra. }
    destruct (log_app _ _ _ L1 L2 Hf) as [N1 N2].
    assert (LO : forall fo gn go d' ok ns b' b2 m k t ev cl r, steps s = r ->
       log_ok (mkS xnew fo gn go d' ok ns b' m k t (flog s ++ [f xnew]) ev cl
                   (mkI (x s) (d s) (mu s) delta alpha b2 :: r)) (f xnew)).
    { intros. subst r. unfold log_ok; simpl.
      assert (P : path f x0 (mkI (x s) (d s) (mu s) delta alpha b2 :: steps s) xnew).
      { change xnew with (proposal (mkI (x s) (d s) (mu s) delta alpha b2)). apply path_yes; [assumption|].
        unfold accepted, proposal; simpl. fold xnew. lra. }
      repeat split; auto; [eexists; reflexivity | apply hd_app; assumption | | ].
      - rewrite app_length. simpl. lia.
      - apply values_cons; assumption. }
    assert (FI : forall b', (Rabs (f xnew - ScgModel.fold s) < ftol \/ maxabs (vscale alpha (d s)) < xtol \/
        dot (gradf xnew) (gradf xnew) <= gtol) -> fired f gradf xtol ftol gtol (mkI (x s) (d s) (mu s) delta alpha b')).
    { intros b' H. unfold fired, accepted, proposal; simpl. fold xnew. rewrite <- A1. split; [assumption | exact H]. }
    assert (FQ : forall b', ~ (Rabs (f xnew - ScgModel.fold s) < ftol \/ maxabs (vscale alpha (d s)) < xtol \/
        dot (gradf xnew) (gradf xnew) <= gtol) -> quiet (mkI (x s) (d s) (mu s) delta alpha b')).
    { intros b' H. unfold quiet, fired, accepted, proposal; simpl. fold xnew. rewrite <- A1. tauto. }
    destruct (Rlt_dec (Rabs (f xnew - fold s)) ftol) as [Hft|Hft].
    { split; [discriminate|]. intros n. split; [|simpl; rewrite Hst; reflexivity].
      unfold final; simpl. split; [apply LO; reflexivity|]. split; [unfold evals_ok; simpl; lia|].
      split; [constructor; [apply Gs; lra | assumption]|].
      split; [exists l0, (fold s); rewrite L3, <- app_assoc; split; [reflexivity | assumption]|].
      eexists _, _. split; [reflexivity|]. split; [apply FI; tauto | assumption]. }
    destruct (Rlt_dec (maxabs (vscale alpha (d s))) xtol) as [Hxt|Hxt].
    { split; [discriminate|]. intros n. split; [|simpl; rewrite Hst; reflexivity].
      unfold final; simpl. split; [apply LO; reflexivity|]. split; [unfold evals_ok; simpl; lia|].
      split; [constructor; [apply Gs; lra | assumption]|].
      split; [eexists _, _; split; [reflexivity|]; simpl; split; [reflexivity | assumption]|].
      eexists _, _. split; [reflexivity|]. split; [apply FI; tauto | assumption]. }
    destruct (Rle_dec (dot (gradf xnew) (gradf xnew)) gtol) as [Hgt|Hgt].
    { split; [discriminate|]. intros n. split; [|simpl; rewrite Hst; reflexivity].
      unfold final; simpl. split; [apply LO; reflexivity|]. split; [unfold evals_ok; simpl; lia|].
      split; [constructor; [apply Gs; lra | assumption]|]. split; [assumption|].
      eexists _, _. split; [reflexivity|]. split; [apply FI; tauto | assumption]. }
    assert (Hgl : length (gradf xnew) = length xnew) by apply Hdim.
    assert (Hgn : length (gradnew s) = length xnew) by (rewrite A2, Hxl; apply Hdim).
    pose proof (adjust_ok Delta b ltac:(lra)) as Hadj.
    destruct (Nat.eqb_spec (S (nsuccess s)) (length xnew)) as [Hn|Hn].
    + split; [|simpl; rewrite Hst; reflexivity].
      unfold inv; simpl. split; [apply LO; reflexivity|]. split; [unfold evals_ok; simpl; lia|].
      split; [split; constructor; [apply Gs; lra | assumption | apply FQ; tauto | assumption]|]. rewrite vneg_length.
      repeat split; auto; try lia; try lra; try discriminate; try (intros; discriminate).
    + rewrite rdiv_ok by lra. split; [|simpl; rewrite Hst; reflexivity].
      unfold inv; simpl. split; [apply LO; reflexivity|]. split; [unfold evals_ok; simpl; lia|].
      split; [split; constructor; [apply Gs; lra | assumption | apply FQ; tauto | assumption]|].
      assert (length (vsub (vscale (dot (vsub (gradnew s) (gradf xnew)) (gradf xnew) / mu s) (d s)) (gradf xnew)) = length xnew).
      { rewrite vsub_length; rewrite vscale_length; [|rewrite Hgl]; congruence. }
      repeat split; auto; try lia; try lra; try (intros; discriminate).
  - (* failure *)
    assert (Hf : fold s < f xnew).
    { apply Rnot_le_lt. intros H. apply HD. unfold Delta, Rdiv.
      assert (/ (alpha * mu s) < 0) by (apply Rinv_lt_0_compat; assumption). nra. }
    destruct (log_app _ _ _ L1 L2 (Rle_refl (fold s))) as [N1 N2].
    pose proof (adjust_ok Delta b ltac:(lra)) as Hadj.
    destruct (Nat.eqb_spec (nsuccess s) (length (x s))) as [Hn|Hn]; [lia|].
    split; [|simpl; rewrite Hst; reflexivity].
    unfold inv; simpl. split.
    { assert (P : path f x0 (mkI (x s) (d s) (mu s) delta alpha (adjust Delta b) :: steps s) (x s)).
      { apply (path_no f x0 (mkI (x s) (d s) (mu s) delta alpha (adjust Delta b))); [assumption|].
        unfold accepted, proposal; simpl. fold xnew. lra. }
      unfold log_ok; simpl. repeat split; auto; [eexists; reflexivity | apply hd_app; assumption | | ].
      - rewrite app_length. simpl. lia.
      - rewrite A1. apply values_cons; assumption. }
    split; [unfold evals_ok; simpl; lia|].
    split.
    { split; constructor; [apply Gs; lra | assumption | | assumption].
      unfold quiet, fired, accepted, proposal; simpl. fold xnew. lra. }
    repeat split; auto; try lia; try lra.
Qed.

Lemma loop_inv : forall n s, inv s -> exists s' stat,
  loop f gradf xtol ftol gtol n s = Some (s', stat) /\ final (length (steps s) + n) s' stat /\
  (length (steps s') <= length (steps s) + n)%nat.
Proof.
  induction n as [|n IH]; simpl; intros s Hs.
  - exists s, MaxIter. split; [reflexivity|]. split; [|lia].
    destruct Hs as (L & E & (G & Q) & A1 & _). unfold final. rewrite <- A1. repeat split; try apply L; try apply E; auto.
  - pose proof (body_inv s Hs) as H. destruct (body f gradf xtol ftol gtol s) as [[s'|[s' stat]]|]; [| |destruct H].
    + destruct H as [H1 H2]. destruct (IH s' H1) as (s2 & st2 & H3 & H4 & H5).
      exists s2, st2. split; [assumption|]. rewrite H2 in H4, H5.
      replace (length (steps s) + S n)%nat with (S (length (steps s)) + n)%nat by lia. split; assumption.
    + destruct H as [_ H]. exists s', stat. split; [reflexivity|]. split; [apply H|].
      destruct (H 0%nat) as [_ ->]. lia.
Qed.

Lemma run_final : forall n m, exists s' stat,
  SCG f gradf xtol ftol gtol x0 n m = Some (s', stat) /\ final n s' stat /\ (length (steps s') <= n)%nat.
Proof.
  intros n m. destruct (loop_inv n _ start_inv) as (s' & stat & H1 & H2 & H3).
  exists s', stat. split; [exact H1|]. split; assumption.
Qed.
End P.

(** ** The statements *)
Lemma scg_monotone : forall f gradf xtol ftol gtol x0 n m, grad_dim gradf -> 0 <= gtol -> nonzero (gradf x0) ->
  exists r, SCG f gradf xtol ftol gtol x0 n m = Some r /\
    non_increasing (r_flog r) /\ hd_error (r_flog r) = Some (f x0) /\
    (exists l, r_flog r = l ++ [f (r_x r)]) /\ f (r_x r) <= f x0.
Proof.
  intros f gradf xtol ftol gtol x0 n m Hd Hg Hx.
  destruct (run_final f gradf xtol ftol gtol Hd Hg x0 Hx n m) as (s & stat & H1 & (H2 & _) & _).
  exists (s, stat). split; [assumption|]. destruct H2 as (L1 & L2 & L3 & L4 & _).
  unfold r_flog, r_x; simpl. repeat split; auto. destruct (flog s) as [|a l]; [discriminate|].
  simpl in L4. injection L4 as ->. apply Forall_cons_iff in L2. apply L2.
Qed.

Lemma scg_budget : forall f gradf xtol ftol gtol x0 n m, grad_dim gradf -> 0 <= gtol -> nonzero (gradf x0) ->
  exists r, SCG f gradf xtol ftol gtol x0 n m = Some r /\
    length (r_flog r) = S (length (steps (fst r))) /\ (length (steps (fst r)) <= n)%nat /\
    r_evals r = length (calls (fst r)) /\ (r_evals r <= 2 + 3 * n)%nat.
Proof.
  intros f gradf xtol ftol gtol x0 n m Hd Hg Hx.
  destruct (run_final f gradf xtol ftol gtol Hd Hg x0 Hx n m) as (s & stat & H1 & (H2 & (E1 & E2) & _ & H3) & H4).
  exists (s, stat). split; [assumption|]. destruct H2 as (L1 & L2 & L3 & L4 & L5 & _).
  unfold r_flog, r_evals; simpl. rewrite L5. repeat split; auto; lia.
Qed.
Lemma scg_status : forall f gradf xtol ftol gtol x0 n m, grad_dim gradf -> 0 <= gtol -> nonzero (gradf x0) ->
  exists r, SCG f gradf xtol ftol gtol x0 n m = Some r /\
    (r_status r = MaxIter <-> Forall (fun i => ~ fired f gradf xtol ftol gtol i) (steps (fst r))) /\
    Forall (fun i => ~ fired f gradf xtol ftol gtol i) (tl (steps (fst r))) /\
    match r_status r with
    | ConvObjective => exists l a, r_flog r = l ++ [a; f (r_x r)] /\ Rabs (f (r_x r) - a) < ftol
    | ConvStep => exists i l, steps (fst r) = i :: l /\ r_x r = proposal i /\
                              maxabs (vscale (i_alpha i) (i_d i)) < xtol
    | ConvGradient => dot (gradf (r_x r)) (gradf (r_x r)) <= gtol
    | MaxIter => length (steps (fst r)) = n
    end.
Proof.
  intros f gradf xtol ftol gtol x0 n m Hd Hg Hx.
  destruct (run_final f gradf xtol ftol gtol Hd Hg x0 Hx n m) as (s & stat & H1 & (H2 & _ & _ & H3 & H5) & _).
  exists (s, stat). split; [assumption|]. unfold r_flog, r_x, r_status, quiet in *; simpl.
  assert (K : forall i r, steps s = i :: r -> fired f gradf xtol ftol gtol i ->
     ~ Forall (fun i => ~ fired f gradf xtol ftol gtol i) (steps s)).
  { intros i r E F H. rewrite E in H. apply Forall_cons_iff in H. tauto. }
  destruct stat.
  1, 2, 3 : destruct H5 as (i & r & E & F & Q); split; [split; [discriminate | intros H; destruct (K _ _ E F H)]|];
    rewrite E at 1; split; assumption.
  split; [split; auto|]. split; [|assumption]. destruct (steps s); [constructor|].
  apply Forall_cons_iff in H5. apply H5.
Qed.

Lemma scg_steps : forall f gradf xtol ftol gtol x0 n m, grad_dim gradf -> 0 <= gtol -> nonzero (gradf x0) ->
  exists r, SCG f gradf xtol ftol gtol x0 n m = Some r /\
    Forall (fun i => dot (i_d i) (gradf (i_x i)) = i_mu i /\ i_mu i < 0 /\ 0 < i_delta i /\
                     i_alpha i = - i_mu i / i_delta i /\ 0 < i_alpha i /\ betamin <= i_beta i)
           (steps (fst r)) /\
    path f x0 (steps (fst r)) (r_x r) /\ values f x0 (steps (fst r)) (r_flog r).
Proof.
  intros f gradf xtol ftol gtol x0 n m Hd Hg Hx.
  destruct (run_final f gradf xtol ftol gtol Hd Hg x0 Hx n m) as (s & stat & H1 & (H2 & _ & G & _) & _).
  exists (s, stat). split; [assumption|]. split.
  - eapply Forall_impl; [|exact G]. intros i (_ & H). exact H.
  - destruct H2 as (_ & _ & _ & _ & _ & P & V). split; assumption.
Qed.

Lemma dot_zero_vec : forall v, ~ nonzero v -> dot v v = 0.
Proof.
  induction v as [|y v IH]; simpl; intros H; [reflexivity|].
  assert (y = 0). { destruct (Req_dec y 0); [assumption|]. exfalso. apply H. exists y. split; [left; reflexivity | assumption]. }
  rewrite IH; [subst; ring|]. intros (a & Ha & Hn). apply H. exists a. split; [right; assumption | assumption].
Qed.
Lemma scg_zero_gradient : forall f gradf xtol ftol gtol x0 n m, ~ nonzero (gradf x0) ->
  SCG f gradf xtol ftol gtol x0 (S n) m = None.
Proof.
  intros f gradf xtol ftol gtol x0 n m H. unfold SCG. simpl. unfold body, directional; simpl.
  rewrite dot_neg_l. apply dot_zero_vec in H. rewrite H, Ropp_0.
  destruct (Rle_dec 0 0); [|lra].
  assert (Hz : dot (vneg (gradf x0)) (vneg (gradf x0)) = 0).
  { rewrite dot_neg_l. assert (E : dot (gradf x0) (vneg (gradf x0)) = 0) by (apply dot_zero; assumption). lra. }
  rewrite Hz, sqrt_0. unfold rdiv. destruct (Req_EM_T 0 0); [reflexivity | lra].
Qed.
