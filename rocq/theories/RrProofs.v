(** Proofs about the regression example. *)
From Coq Require Import List Arith Reals Lia Lra Psatz.
From Verif Require Import RrModel RrSpec.
Import ListNotations.
Open Scope R_scope.

Lemma sum_S : forall n f, sum (S n) f = sum n f + f n.
Proof.
  intros n f. unfold sum. rewrite seq_S, map_app, fold_right_app. cbn [map fold_right plus]. rewrite Rplus_0_r.
  generalize (f n). intros v. induction (seq 0 n) as [|a l IH]; cbn [map fold_right]; [lra|]. rewrite IH. lra.
Qed.
Lemma sum_0 : forall f, sum 0 f = 0.
Proof. reflexivity. Qed.
Lemma total_sum : forall n f, total n f = sum n f.
Proof. intros n f. induction n as [|n IH]; [reflexivity|]. rewrite sum_S. cbn [total]. rewrite IH. auto. Qed.
Lemma sum_ext : forall n f g, (forall k, (k < n)%nat -> f k = g k) -> sum n f = sum n g.
Proof. intros n f g. induction n as [|n IH]; intros H; [reflexivity|]. rewrite !sum_S, IH, H; auto. Qed.
Lemma sum_plus : forall n f g, sum n (fun k => f k + g k) = sum n f + sum n g.
Proof. intros n f g. induction n as [|n IH]; [rewrite !sum_0; lra|]. rewrite !sum_S, IH. lra. Qed.
Lemma sum_scal : forall n a f, sum n (fun k => a * f k) = a * sum n f.
Proof. intros n a f. induction n as [|n IH]; [rewrite !sum_0; lra|]. rewrite !sum_S, IH. lra. Qed.
Lemma sum_minus : forall n f g, sum n (fun k => f k - g k) = sum n f - sum n g.
Proof. intros n f g. induction n as [|n IH]; [rewrite !sum_0; lra|]. rewrite !sum_S, IH. lra. Qed.
Lemma sum_zero : forall n, sum n (fun _ => 0) = 0.
Proof. intros n. induction n as [|n IH]; [reflexivity|]. rewrite sum_S, IH. lra. Qed.
Lemma sum_le : forall n f g, (forall k, (k < n)%nat -> f k <= g k) -> sum n f <= sum n g.
Proof. intros n f g. induction n as [|n IH]; intros H; [rewrite !sum_0; lra|]. rewrite !sum_S. assert (f n <= g n) by (apply H; lia). assert (sum n f <= sum n g) by (apply IH; auto). lra. Qed.
Lemma sum_lt : forall n f g a, (a < n)%nat -> (forall k, (k < n)%nat -> f k <= g k) -> f a < g a -> sum n f < sum n g.
Proof.
  intros n f g a. induction n as [|n IH]; intros Ha H L; [lia|]. rewrite !sum_S. destruct (Nat.eq_dec a n) as [->|Ne].
  - assert (sum n f <= sum n g) by (apply sum_le; auto). lra.
  - assert (sum n f < sum n g) by (apply IH; auto; lia). assert (f n <= g n) by (apply H; lia). lra.
Qed.
Lemma sum_swap : forall n m f, sum n (fun a => sum m (fun b => f a b)) = sum m (fun b => sum n (fun a => f a b)).
Proof.
  intros n m f. induction n as [|n IH].
  - rewrite sum_0. rewrite (sum_ext m (fun b => sum 0 (fun a => f a b)) (fun _ => 0)); [rewrite sum_zero; auto | intros; apply sum_0].
  - rewrite sum_S, IH, <- sum_plus. apply sum_ext. intros. rewrite sum_S. auto.
Qed.
Lemma sum_at : forall n f a, (a < n)%nat -> (forall k, (k < n)%nat -> k <> a -> f k = 0) -> sum n f = f a.
Proof.
  intros n f a. induction n as [|n IH]; intros Ha H; [lia|]. rewrite sum_S. destruct (Nat.eq_dec a n) as [->|Ne].
  - rewrite (sum_ext n f (fun _ => 0)), sum_zero; [lra|]. intros k Hk. apply H; lia.
  - rewrite IH, (H n); [lra | lia | lia | lia |]. intros k Hk Hn. apply H; lia.
Qed.

Section Example.
Variable c : setup.

Lemma fitted_fit : forall x w r, fitted c x w r = fit c x w r.
Proof. intros. unfold fitted, fit. rewrite total_sum. apply sum_ext. intros. apply total_sum. Qed.
Lemma fit_plus : forall x w w' r, fit c x w' r = fit c x w r + fit c x (fun i j => w' i j - w i j) r.
Proof.
  intros x w w' r. unfold fit. rewrite <- sum_plus. apply sum_ext. intros i _. rewrite <- sum_plus. apply sum_ext. intros j _. ring.
Qed.
Definition slope (x y w : matrix) (i j : nat) : R := - 2 * sum (rows c) (fun r => (y r 0%nat - fit c x w r) * basis c x i r j).
Definition pen (w : matrix) : R := sum (S (degree c)) (fun i => sum (dims c) (fun j => weight_of (reg c) (w i j))).
(** The loss of other weights, for one output column. *)
Lemma loss_expand : forall x y w w', cols c = 1%nat ->
  loss c x y w' = loss c x y w + sum (S (degree c)) (fun i => sum (dims c) (fun j => slope x y w i j * (w' i j - w i j))) +
    sum (rows c) (fun r => fit c x (fun i j => w' i j - w i j) r * fit c x (fun i j => w' i j - w i j) r) + lambda c * (pen w' - pen w).
Proof.
  intros x y w w' C. unfold loss. rewrite C. fold (pen w) (pen w'). set (d := fun i j => w' i j - w i j).
  assert (E : sum (S (degree c)) (fun i => sum (dims c) (fun j => slope x y w i j * (w' i j - w i j))) =
    sum (rows c) (fun r => - 2 * ((y r 0%nat - fit c x w r) * fit c x d r))).
  { rewrite (sum_ext (rows c) _ (fun r => sum (S (degree c)) (fun i => sum (dims c) (fun j => - 2 * ((y r 0%nat - fit c x w r) * (basis c x i r j * d i j)))))).
    - rewrite (sum_swap (rows c) (S (degree c))). apply sum_ext. intros i _. rewrite (sum_swap (rows c) (dims c)). apply sum_ext. intros j _. unfold slope. fold (d i j).
      rewrite Rmult_assoc, (Rmult_comm (sum _ _)), <- sum_scal, <- sum_scal. apply sum_ext. intros. ring.
    - intros r _. unfold fit at 2. rewrite <- sum_scal, <- sum_scal. apply sum_ext. intros i _. rewrite <- sum_scal, <- sum_scal. apply sum_ext. intros; ring. }
  rewrite E. clear E.
  rewrite (sum_ext (rows c) (fun r => sum 1 (fun k => (y r k - fit c x w' r) * (y r k - fit c x w' r)))
    (fun r => (sum 1 (fun k => (y r k - fit c x w r) * (y r k - fit c x w r)) + (- 2 * ((y r 0%nat - fit c x w r) * fit c x d r))) + fit c x d r * fit c x d r)).
  - rewrite !sum_plus. ring.
  - intros r _. rewrite !sum_S, !sum_0. rewrite (fit_plus x w w' r). fold d. ring.
Qed.

(** ** What an update leaves behind *)
Definition computed (s : st) : Prop :=
  obj s = loss c (X s) (Y s) (W s) /\
  (cols c = 1%nat -> forall i j, grad s i j = slope (X s) (Y s) (W s) i j + lambda c * match reg c with Ridge => 2 * W s i j | Lasso => sign (W s i j) end).
Lemma update_computed : forall s s', parameters_changed c (update_error c s) = Some s' ->
  computed s' /\ X s' = X s /\ Y s' = Y s /\ W s' = W s /\ fixed s' = fixed s /\ on s' = on s.
Proof.
  intros s s' E. unfold parameters_changed in E. destruct (shapes_fit c); [|discriminate]. injection E as <-. cbn [X Y W fixed on].
  assert (F : X (update_error c s) = X s /\ Y (update_error c s) = Y s /\ W (update_error c s) = W s /\ fixed (update_error c s) = fixed s /\ on (update_error c s) = on s)
    by (unfold update_error; destruct (reg c); cbn; auto).
  destruct F as (F1 & F2 & F3 & F4 & F5). split; [|auto]. split; cbn [obj grad X Y W].
  - unfold loss. rewrite F1, F2, F3. f_equal.
    + rewrite total_sum. apply sum_ext. intros r _. rewrite total_sum. apply sum_ext. intros k _. unfold outer. rewrite F1, F2, F3, fitted_fit. ring.
    + rewrite total_sum, <- (sum_S (degree c) (err (update_error c s))). unfold update_error. destruct (reg c); cbn [err]; rewrite <- sum_scal; apply sum_ext; intros i _; rewrite total_sum; f_equal;
        apply sum_ext; intros; cbn [weight_of]; ring.
  - intros C i j. rewrite F1, F2, F3. unfold slope. rewrite C. cbn [Nat.eqb]. rewrite total_sum.
    rewrite (sum_ext (rows c) _ (fun r => (Y s r 0%nat - fit c (X s) (W s) r) * basis c (X s) i r j)).
    + unfold update_error. destruct (reg c); cbn [grad]; ring.
    + intros r _. unfold outer. rewrite F1, F2, F3, fitted_fit. auto.
Qed.

(** ** Derivatives *)
Lemma lim_local : forall f x g q d, 0 < d -> (forall h, Rabs h < d -> f (x + h) = f x + g * h + q * (h * h)) -> derivable_pt_lim f x g.
Proof.
  intros f x g q d Hd E eps He. assert (Hq : 0 < Rabs q + 1) by (pose proof (Rabs_pos q); lra).
  assert (Hm : 0 < Rmin d (eps / (Rabs q + 1))) by (apply Rmin_pos; auto; apply Rdiv_lt_0_compat; auto).
  exists (mkposreal _ Hm). intros h Hh Hl. cbn in Hl. rewrite E; [|apply (Rlt_le_trans _ _ _ Hl), Rmin_l].
  replace ((f x + g * h + q * (h * h) - f x) / h - g) with (q * h) by (field; auto). rewrite Rabs_mult.
  assert (L : Rabs h < eps / (Rabs q + 1)) by (apply (Rlt_le_trans _ _ _ Hl), Rmin_r).
  apply Rle_lt_trans with ((Rabs q + 1) * Rabs h); [apply Rmult_le_compat_r; [apply Rabs_pos | lra]|].
  apply Rmult_lt_compat_l with (r := Rabs q + 1) in L; auto. replace ((Rabs q + 1) * (eps / (Rabs q + 1))) with eps in L by (field; lra). auto.
Qed.
Lemma put_at : forall w i j t, put w i j t i j = t.
Proof. intros. unfold put. rewrite !Nat.eqb_refl. auto. Qed.
Lemma put_other : forall w i j t a b, (a <> i \/ b <> j) -> put w i j t a b = w a b.
Proof.
  intros w i j t a b H. unfold put. destruct (Nat.eqb_spec a i) as [->|]; auto. destruct (Nat.eqb_spec b j) as [->|]; auto. destruct H; congruence.
Qed.
Lemma sum2_at : forall f i j, inside c i j -> (forall a b, (a <> i \/ b <> j) -> f a b = 0) -> sum (S (degree c)) (fun a => sum (dims c) (fun b => f a b)) = f i j.
Proof.
  intros f i j [Hi Hj] Z. rewrite (sum_at _ _ i); [|lia|].
  - rewrite (sum_at _ _ j); auto.
  - intros a Ha Na. rewrite (sum_ext _ _ (fun _ => 0)); [apply sum_zero|]. intros. apply Z. auto.
Qed.
Lemma loss_put : forall x y w i j h, cols c = 1%nat -> inside c i j ->
  loss c x y (put w i j (w i j + h)) = loss c x y w + slope x y w i j * h + sum (rows c) (fun r => basis c x i r j * basis c x i r j) * (h * h) +
    lambda c * (weight_of (reg c) (w i j + h) - weight_of (reg c) (w i j)).
Proof.
  intros x y w i j h C Ins. rewrite (loss_expand x y w _ C). f_equal; [f_equal; [f_equal|]|].
  - rewrite (sum2_at (fun a b => slope x y w a b * (put w i j (w i j + h) a b - w a b)) i j Ins); [rewrite put_at; ring|].
    intros a b Q. rewrite put_other; auto. ring.
  - rewrite (sum_ext _ _ (fun r => (h * h) * (basis c x i r j * basis c x i r j))); [rewrite sum_scal; ring|]. intros r _.
    assert (F : fit c x (fun a b => put w i j (w i j + h) a b - w a b) r = basis c x i r j * h).
    { unfold fit. rewrite (sum2_at (fun a b => basis c x a r b * (put w i j (w i j + h) a b - w a b)) i j Ins); [rewrite put_at; ring|].
      intros a b Q. rewrite put_other; auto. ring. }
    rewrite F. ring.
  - f_equal. unfold pen.
    assert (F : sum (S (degree c)) (fun a => sum (dims c) (fun b => weight_of (reg c) (put w i j (w i j + h) a b))) -
      sum (S (degree c)) (fun a => sum (dims c) (fun b => weight_of (reg c) (w a b))) =
      sum (S (degree c)) (fun a => sum (dims c) (fun b => weight_of (reg c) (put w i j (w i j + h) a b) - weight_of (reg c) (w a b)))).
    { rewrite <- sum_minus. apply sum_ext. intros. rewrite <- sum_minus. auto. }
    rewrite F. rewrite (sum2_at (fun a b => weight_of (reg c) (put w i j (w i j + h) a b) - weight_of (reg c) (w a b)) i j Ins); [rewrite put_at; auto|].
    intros a b Q. rewrite put_other; auto. ring.
Qed.
End Example.
