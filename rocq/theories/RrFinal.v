(** Proofs about the regression example, part 2: the theorems and concrete cases. *)
From Coq Require Import List Arith Reals Lia Lra Psatz.
From Verif Require Import RrModel RrSpec RrProofs.
Import ListNotations.
Open Scope R_scope.

Section Final.
Variable c : setup.

Lemma sign_le : forall a b, Rabs a + sign a * (b - a) <= Rabs b.
Proof.
  intros a b. unfold sign. destruct (Rlt_dec 0 a); [rewrite (Rabs_right a) by lra; pose proof (Rle_abs b); lra|].
  destruct (Rlt_dec a 0).
  - rewrite (Rabs_left a) by lra. pose proof (Rle_abs (- b)). rewrite Rabs_Ropp in *. lra.
  - assert (a = 0) as -> by lra. rewrite Rabs_R0. pose proof (Rabs_pos b). lra.
Qed.
Lemma sign_near : forall a h, a <> 0 -> Rabs h < Rabs a -> Rabs (a + h) - Rabs a = sign a * h.
Proof.
  intros a h Ha L. unfold sign. destruct (Rlt_dec 0 a).
  - rewrite (Rabs_right a) in * by lra. apply Rabs_def2 in L. rewrite Rabs_right by lra. lra.
  - destruct (Rlt_dec a 0); [|lra]. rewrite (Rabs_left a) in * by lra. apply Rabs_def2 in L. rewrite Rabs_left by lra. lra.
Qed.
Lemma computed_grad : forall s, cols c = 1%nat -> computed c s -> right_grad c s.
Proof.
  intros s C [_ G] i j Ins Sm. rewrite (G C i j). unfold smooth in Sm.
  assert (B : forall h, loss c (X s) (Y s) (put (W s) i j (W s i j + h)) = _) by (intros h; apply (loss_put c (X s) (Y s) (W s) i j h C Ins)).
  assert (B0 : loss c (X s) (Y s) (put (W s) i j (W s i j)) = loss c (X s) (Y s) (W s)).
  { specialize (B 0). rewrite Rplus_0_r in B. rewrite B. ring. }
  destruct (reg c) eqn:Er; cbn [weight_of] in B.
  - apply (lim_local _ _ _ (sum (rows c) (fun r => basis c (X s) i r j * basis c (X s) i r j) + lambda c) 1); [lra|]. intros h _. rewrite B, B0. ring.
  - apply (lim_local _ _ _ (sum (rows c) (fun r => basis c (X s) i r j * basis c (X s) i r j)) (Rabs (W s i j))); [apply Rabs_pos_lt; auto|].
    intros h Hh. rewrite B, B0, (sign_near (W s i j) h Sm Hh). ring.
Qed.
Lemma fit_sq : forall x d, 0 <= sum (rows c) (fun r => fit c x d r * fit c x d r).
Proof. intros x d. rewrite <- (sum_zero (rows c)). apply sum_le. intros. nra. Qed.
(** The reported gradient against the loss everywhere. *)
Lemma grad_split : forall s w, cols c = 1%nat -> computed c s ->
  loss c (X s) (Y s) (W s) + sum (S (degree c)) (fun i => sum (dims c) (fun j => grad s i j * (w i j - W s i j))) +
    lambda c * sum (S (degree c)) (fun i => sum (dims c) (fun j => weight_of (reg c) (w i j) - weight_of (reg c) (W s i j) -
      match reg c with Ridge => 2 * W s i j | Lasso => sign (W s i j) end * (w i j - W s i j))) <= loss c (X s) (Y s) w.
Proof.
  intros s w C [_ G]. rewrite (loss_expand c (X s) (Y s) (W s) w C). pose proof (fit_sq (X s) (fun i j => w i j - W s i j)) as Q.
  enough (sum (S (degree c)) (fun i => sum (dims c) (fun j => grad s i j * (w i j - W s i j))) +
    lambda c * sum (S (degree c)) (fun i => sum (dims c) (fun j => weight_of (reg c) (w i j) - weight_of (reg c) (W s i j) -
      match reg c with Ridge => 2 * W s i j | Lasso => sign (W s i j) end * (w i j - W s i j))) =
    sum (S (degree c)) (fun i => sum (dims c) (fun j => slope c (X s) (Y s) (W s) i j * (w i j - W s i j))) + lambda c * (pen c w - pen c (W s))) by lra.
  clear Q. unfold pen. rewrite <- sum_minus, <- !sum_scal, <- !sum_plus. apply sum_ext. intros i _.
  rewrite <- sum_minus, <- !sum_scal, <- !sum_plus. apply sum_ext. intros j _. rewrite (G C i j). destruct (reg c); ring.
Qed.
Lemma square_above : forall a b, b * b - a * a - 2 * a * (b - a) = Rsqr (b - a).
Proof. intros. unfold Rsqr. ring. Qed.
Lemma weight_above : forall a b, 0 <= weight_of (reg c) b - weight_of (reg c) a - match reg c with Ridge => 2 * a | Lasso => sign a end * (b - a).
Proof. intros a b. destruct (reg c); cbn [weight_of]; [unfold Rminus; match goal with |- 0 <= ?e => replace e with ((b - a) * (b - a)) by ring end; apply Rle_0_sqr | pose proof (sign_le a b); lra]. Qed.
Lemma computed_supports : forall s, cols c = 1%nat -> 0 <= lambda c -> computed c s -> supports c s.
Proof.
  intros s C L Hc w. pose proof (grad_split s w C Hc) as Q. match type of Q with _ + lambda c * ?e <= _ => assert (0 <= e) end.
  { rewrite <- (sum_zero (S (degree c))). apply sum_le. intros i _. rewrite <- (sum_zero (dims c)). apply sum_le. intros j _. apply weight_above. }
  nra.
Qed.
Lemma flat_zero : forall s w, (forall i j, inside c i j -> grad s i j = 0) ->
  sum (S (degree c)) (fun i => sum (dims c) (fun j => grad s i j * (w i j - W s i j))) = 0.
Proof.
  intros s w Z. rewrite (sum_ext _ _ (fun _ => 0)); [apply sum_zero|]. intros i Hi. rewrite (sum_ext _ _ (fun _ => 0)); [apply sum_zero|]. intros j Hj.
  rewrite Z; [ring | split; lia].
Qed.
Lemma step_computed : forall s a s', computes s a -> step c s a = Some s' -> computed c s' /\ on s' = true.
Proof.
  assert (U : forall s s', parameters_changed c (update_error c s) = Some s' -> on s = true -> computed c s' /\ on s' = true).
  { intros s s' E O. apply update_computed in E as (A & _ & _ & _ & _ & B). rewrite B. auto. }
  intros s a s' Co E. destruct a; cbn [computes step] in *; try contradiction.
  - unfold upwards in E. cbn [with_W on] in E. rewrite Co in E. apply U in E; auto.
  - destruct Co as [Co F]. unfold trigger in E. rewrite F in E. cbn [with_W on fixed] in E. rewrite Co, F in E. apply U in E; auto.
  - unfold upwards in E. cbn [with_fixed on] in E. rewrite Co in E. apply U in E; auto.
  - destruct Co as [Co F]. unfold trigger in E. rewrite Co, F in E. apply U in E; auto.
  - destruct Co as [-> F]. unfold trigger in E. cbn [with_on on fixed] in E. rewrite F in E. apply U in E; auto.
Qed.
Lemma harmless_computed : forall s a s', harmless a -> computed c s -> step c s a = Some s' -> computed c s'.
Proof. intros s a s' [-> | ->] Hc E; cbn in E; injection E as <-; exact Hc. Qed.
Lemma create_computed : forall x y s, create c x y = Some s -> computed c s /\ on s = true /\ fixed s = false /\ X s = x /\ Y s = y /\ W s = first_weights c.
Proof.
  intros x y s E. unfold create, upwards in E. cbn [on] in E. apply update_computed in E as (A & B1 & B2 & B3 & B4 & B5). split; [exact A|]. rewrite B1, B2, B3, B4, B5. auto 10.
Qed.

(** ** The theorems *)
Lemma step_final : forall s a s', cols c = 1%nat -> computes s a -> step c s a = Some s' -> right_obj c s' /\ right_grad c s'.
Proof. intros s a s' C Co E. apply step_computed in E as [Hc _]; auto. split; [apply Hc | apply computed_grad; auto]. Qed.
Lemma always_final : forall x y s0 s, cols c = 1%nat -> create c x y = Some s0 -> runs c (fun s a => computes s a \/ harmless a) s0 s -> right_obj c s /\ right_grad c s.
Proof.
  intros x y s0 s C E R. assert (Hc : computed c s).
  { induction R as [|s1 a s2 R IH Ok St]; [apply (create_computed x y s0 E)|]. destruct Ok as [Ok|Ok]; [apply (step_computed s1 a s2 Ok St) | apply (harmless_computed s1 a s2 Ok IH St)]. }
  split; [apply Hc | apply computed_grad; auto].
Qed.
Lemma predict_final : forall s, right_obj c s -> obj s = sum (rows c) (fun r => sum (cols c) (fun k => (Y s r k - predict c s (X s) r) ^ 2)) +
  lambda c * sum (S (degree c)) (fun i => sum (dims c) (fun j => weight_of (reg c) (W s i j))).
Proof.
  intros s R. rewrite R. unfold loss. f_equal. apply sum_ext. intros r _. apply sum_ext. intros k _. unfold predict. rewrite fitted_fit. ring.
Qed.
Lemma predicts_final : forall s, (forall x r, predict c s x r = fit c x (W s) r) /\ (right_obj c s -> obj s = sum (rows c) (fun r => sum (cols c) (fun k => (Y s r k - predict c s (X s) r) ^ 2)) +
  lambda c * sum (S (degree c)) (fun i => sum (dims c) (fun j => weight_of (reg c) (W s i j)))).
Proof. intros s. split; [intros x r; apply fitted_fit|apply predict_final]. Qed.
Lemma raises_final : forall x y, (create c x y = None <-> cols c <> 1%nat /\ cols c <> dims c).
Proof.
  intros x y. unfold create, upwards. cbn [on]. unfold parameters_changed, shapes_fit. destruct (Nat.eqb_spec (cols c) 1), (Nat.eqb_spec (cols c) (dims c)); cbn; split; intros Q; try discriminate; tauto.
Qed.
Lemma supports_final : forall s a s', cols c = 1%nat -> 0 <= lambda c -> computes s a -> step c s a = Some s' -> supports c s'.
Proof. intros s a s' C L Co E. apply step_computed in E as [Hc _]; auto. apply computed_supports; auto. Qed.
Lemma minimum_final : forall s a s', cols c = 1%nat -> 0 <= lambda c -> computes s a -> step c s a = Some s' -> (forall i j, inside c i j -> grad s' i j = 0) ->
  forall w, loss c (X s') (Y s') (W s') <= loss c (X s') (Y s') w.
Proof. intros s a s' C L Co E Z w. pose proof (supports_final s a s' C L Co E w) as Q. rewrite flat_zero in Q; auto. lra. Qed.
Lemma unique_final : forall s a s', cols c = 1%nat -> reg c = Ridge -> 0 < lambda c -> computes s a -> step c s a = Some s' -> (forall i j, inside c i j -> grad s' i j = 0) ->
  forall w i j, inside c i j -> w i j <> W s' i j -> loss c (X s') (Y s') (W s') < loss c (X s') (Y s') w.
Proof.
  intros s a s' C Rg L Co E Z w i j [Hi Hj] Ne. apply step_computed in E as [Hc _]; auto. pose proof (grad_split s' w C Hc) as Q. rewrite flat_zero in Q; auto.
  match type of Q with _ + lambda c * ?e <= _ => assert (0 < e) end; [|nra].
  rewrite Rg. cbn [weight_of]. rewrite <- (sum_zero (S (degree c))). apply (sum_lt _ _ _ i); [lia| |].
  - intros k _. rewrite <- (sum_zero (dims c)). apply sum_le. intros b _. rewrite square_above. apply Rle_0_sqr.
  - rewrite <- (sum_zero (dims c)). apply (sum_lt _ _ _ j); [lia| intros b _; rewrite square_above; apply Rle_0_sqr|]. rewrite square_above. apply Rsqr_pos_lt. lra.
Qed.
Lemma stationary_final : forall s a s', cols c = 1%nat -> reg c = Ridge -> 0 <= lambda c -> computes s a -> step c s a = Some s' ->
  (forall w, loss c (X s') (Y s') (W s') <= loss c (X s') (Y s') w) -> forall i j, inside c i j -> grad s' i j = 0.
Proof.
  intros s a s' C Rg L Co E M i j Ins. apply step_computed in E as [[_ G] _]; auto. specialize (G C i j). rewrite Rg in G.
  set (q := sum (rows c) (fun r => basis c (X s') i r j * basis c (X s') i r j) + lambda c).
  assert (Hq : 0 <= q). { unfold q. assert (0 <= sum (rows c) (fun r => basis c (X s') i r j * basis c (X s') i r j)); [|lra]. rewrite <- (sum_zero (rows c)). apply sum_le. intros. nra. }
  assert (F : forall h, 0 <= grad s' i j * h + q * (h * h)).
  { intros h. pose proof (M (put (W s') i j (W s' i j + h))) as Q. rewrite (loss_put c (X s') (Y s') (W s') i j h C Ins), Rg in Q. cbn [weight_of] in Q. rewrite G. unfold q. nra. }
  set (g := grad s' i j) in *. clearbody g q. destruct (Req_dec g 0) as [|Ne]; auto. exfalso.
  set (k := / (2 * (q + 1))). assert (Hk : 0 < k) by (apply Rinv_0_lt_compat; lra). assert (Ek : 2 * (q + 1) * k = 1) by (unfold k; field; lra).
  specialize (F (- g * k)). assert (Eq : g * (- g * k) + q * (- g * k * (- g * k)) = g * g * k * (q * k - 1)) by ring. rewrite Eq in F. clear Eq.
  assert (q * k <= 1 / 2) by nra. assert (0 < g * g) by nra. assert (0 < g * g * k) by (apply Rmult_lt_0_compat; auto). nra.
Qed.
End Final.

(** ** Concrete cases *)
(** Two samples with inputs 1, 2 and targets 3, 3; degree 1. *)
Definition line (p : penalty) : setup := mkSetup 2 1 1 1 polynomial p 1.
Definition inputs : matrix := fun r _ => INR (S r).
Definition targets : matrix := fun _ _ => 3.
Definition get (o : option st) : st := match o with Some s => s | None => mkSt inputs targets inputs inputs (fun _ => 0) 0 false false end.
Definition start : st := get (create (line Ridge) inputs targets).
Lemma start_is : create (line Ridge) inputs targets = Some start.
Proof. reflexivity. Qed.
Ltac num := unfold start, create, upwards, parameters_changed, update_error, outer, fitted, first_weights, get, inputs, targets, line, polynomial;
  cbn -[Rplus Rmult Rminus Rdiv Rinv INR pow Ropp]; cbn [INR pow]; try lra; try field.
Lemma start_values : obj start = 6 /\ grad start 1%nat 0%nat = -6 /\ W start 1%nat 0%nat = 1 /\ W start 0%nat 0%nat = 0.
Proof. repeat split; num. Qed.
Lemma start_right : right_grad (line Ridge) start.
Proof. apply computed_grad; [reflexivity|]. apply (create_computed _ _ _ _ start_is). Qed.
Lemma not_right : forall c s0 s i j, right_grad c s0 -> X s = X s0 -> Y s = Y s0 -> W s = W s0 -> inside c i j -> smooth c (W s0 i j) -> grad s i j <> grad s0 i j -> ~ right_grad c s.
Proof.
  intros c s0 s i j R E1 E2 E3 Ins Sm Ne Q. apply Ne. specialize (R i j Ins Sm). unfold right_grad in Q. rewrite E1, E2, E3 in Q. specialize (Q i j Ins Sm).
  eapply uniqueness_limite; eauto.
Qed.
(** The weights 0 and 3 leave no error in the targets; then 1/2, then everything anew. *)
Definition work : list call := [SetWeights (fun _ i _ => if Nat.eqb i 0 then 3 else 0); Updates false; Updates true; FixAll; UnfixAll; SetOptimizer (fun w i j => w i j / 2)].
Definition worked : st := get (steps (line Ridge) start work).
Lemma step_keeps : forall c s a, shapes_fit c = true -> exists s', step c s a = Some s' /\
  W s' = match a with SetWeights f => f (W s) | SetOptimizer f => if fixed s then W s else f (W s) | _ => W s end /\
  fixed s' = match a with FixAll => true | UnfixAll => false | _ => fixed s end /\ on s' = match a with Updates b => b | _ => on s end /\
  X s' = match a with SetData f => f (X s) | _ => X s end /\ Y s' = match a with SetTarget f => f (Y s) | _ => Y s end.
Proof.
  intros c s a F. assert (P : forall s, exists s', parameters_changed c s = Some s' /\ W s' = W s /\ fixed s' = fixed s /\ on s' = on s /\ X s' = X s /\ Y s' = Y s).
  { intros s1. unfold parameters_changed. rewrite F. eexists. split; [reflexivity|]. cbn [W fixed on X Y]. auto. }
  assert (U : forall s, W (update_error c s) = W s /\ fixed (update_error c s) = fixed s /\ on (update_error c s) = on s /\ X (update_error c s) = X s /\ Y (update_error c s) = Y s)
    by (intros s1; unfold update_error; destruct (reg c); cbn; auto).
  assert (Q : forall s (b : bool), exists s', (if on s then parameters_changed c (if b then s else update_error c s) else Some s) = Some s' /\ W s' = W s /\ fixed s' = fixed s /\ on s' = on s /\ X s' = X s /\ Y s' = Y s).
  { intros s1 b. destruct (on s1) eqn:Eo; [|exists s1; auto 10]. destruct (P (if b then s1 else update_error c s1)) as (s' & E & E1 & E2 & E3 & E4 & E5). exists s'. split; auto.
    rewrite E1, E2, E3, E4, E5. destruct b; [auto 10|]. destruct (U s1) as (-> & -> & -> & -> & ->). auto 10. }
  destruct a; cbn [step].
  - destruct (Q (with_W s (f (W s))) false) as (s' & E & R). exists s'. auto.
  - unfold trigger. destruct (fixed s) eqn:Ef; [destruct (Q s true) as (s' & E & R) | destruct (Q (with_W s (f (W s))) false) as (s' & E & R)]; exists s'; cbn [with_W fixed] in *; rewrite ?Ef in *; auto.
  - destruct (Q (with_fixed s true) false) as (s' & E & R). exists s'. auto.
  - eexists. split; [reflexivity|]. auto.
  - destruct (Q s (fixed s)) as (s' & E & R). exists s'. auto.
  - destruct (Q (with_on s b) (fixed s)) as (s' & E & R). exists s'. auto.
  - eexists. split; [reflexivity|]. auto.
  - eexists. split; [reflexivity|]. auto.
  - destruct (P s) as (s' & E & R). exists s'. auto.
Qed.
Lemma steps_is : forall c l s, shapes_fit c = true -> steps c s l = Some (get (steps c s l)).
Proof.
  intros c l. induction l as [|a l IH]; intros s F; [reflexivity|]. cbn [steps]. destruct (step_keeps c s a F) as (s' & E & _). rewrite E. auto.
Qed.
Lemma work_is : steps (line Ridge) start work = Some worked.
Proof. apply steps_is. reflexivity. Qed.
Lemma work_runs : runs (line Ridge) (fun s a => computes s a \/ harmless a) start worked /\
  W worked 0%nat 0%nat = 3 / 2 /\ W worked 1%nat 0%nat = 0 /\ X worked = inputs /\ Y worked = targets.
Proof.
  pose proof work_is as E. unfold work in E. set (w := worked) in *. clearbody w.
  assert (I0 : on start = true /\ fixed start = false /\ X start = inputs /\ Y start = targets) by (repeat split). destruct I0 as (O0 & F0 & X0 & Y0).
  set (s0 := start) in *. clearbody s0.
  assert (Go : forall s a l, steps (line Ridge) s (a :: l) = Some w -> exists s', steps (line Ridge) s' l = Some w /\ step (line Ridge) s a = Some s' /\
    W s' = match a with SetWeights f => f (W s) | SetOptimizer f => if fixed s then W s else f (W s) | _ => W s end /\
    fixed s' = match a with FixAll => true | UnfixAll => false | _ => fixed s end /\ on s' = match a with Updates b => b | _ => on s end /\
    X s' = match a with SetData f => f (X s) | _ => X s end /\ Y s' = match a with SetTarget f => f (Y s) | _ => Y s end).
  { intros s a l Q. destruct (step_keeps (line Ridge) s a eq_refl) as (s' & Es & R). exists s'. cbn [steps] in Q. rewrite Es in Q. auto. }
  apply Go in E as (s1 & E & S1 & W1 & F1 & O1 & X1 & Y1). apply Go in E as (s2 & E & S2 & W2 & F2 & O2 & X2 & Y2). apply Go in E as (s3 & E & S3 & W3 & F3 & O3 & X3 & Y3).
  apply Go in E as (s4 & E & S4 & W4 & F4 & O4 & X4 & Y4). apply Go in E as (s5 & E & S5 & W5 & F5 & O5 & X5 & Y5). apply Go in E as (s6 & E & S6 & W6 & F6 & O6 & X6 & Y6).
  cbn [steps] in E. injection E as <-. clear Go.
  split.
  { refine (runs_step _ _ _ s5 _ _ _ _ S6); [|left; cbn; split; congruence]. refine (runs_step _ _ _ s4 _ _ _ _ S5); [|right; left; reflexivity].
    refine (runs_step _ _ _ s3 _ _ _ _ S4); [|left; cbn; congruence]. refine (runs_step _ _ _ s2 _ _ _ _ S3); [|left; cbn; split; congruence].
    refine (runs_step _ _ _ s1 _ _ _ _ S2); [|right; right; reflexivity]. refine (runs_step _ _ _ s0 _ _ _ _ S1); [constructor | left; cbn; congruence]. }
  rewrite W6, F5, W5, W4, W3, W2, W1. cbn [Nat.eqb]. split; [lra|]. split; [lra|]. split; congruence.
Qed.
Definition bad (l : list call) : Prop := exists s, steps (line Ridge) start l = Some s /\ on s = true /\ fixed s = false /\ ~ right_grad (line Ridge) s.
Lemma again_grad : forall c s s' i j, cols c = 1%nat -> parameters_changed c s = Some s' ->
  grad s' i j = grad s i j + slope c (X s) (Y s) (W s) i j /\ X s' = X s /\ Y s' = Y s /\ W s' = W s /\ on s' = on s /\ fixed s' = fixed s.
Proof.
  intros c s s' i j C E. unfold parameters_changed in E. destruct (shapes_fit c); [|discriminate]. injection E as <-. cbn [grad X Y W on fixed]. split; [|auto 10].
  rewrite C. cbn [Nat.eqb]. unfold slope. rewrite total_sum. rewrite (sum_ext _ (fun r => outer c s r 0 * _) (fun r => (Y s r 0%nat - fit c (X s) (W s) r) * basis c (X s) i r j)); [ring|].
  intros r _. unfold outer. rewrite fitted_fit. auto.
Qed.
Lemma start_slope : slope (line Ridge) inputs targets (first_weights (line Ridge)) 1 0 = -8.
Proof.
  unfold slope, fit, sum, line, polynomial, first_weights, inputs, targets. cbn [rows cols dims degree basis reg lambda seq map fold_right pow INR]. field.
Qed.
Lemma fit_line : shapes_fit (line Ridge) = true.
Proof. reflexivity. Qed.
Lemma start_state : X start = inputs /\ Y start = targets /\ W start = first_weights (line Ridge) /\ on start = true /\ fixed start = false /\ computed (line Ridge) start.
Proof. destruct (create_computed (line Ridge) inputs targets start start_is) as (A & B & C & D & E & F). auto 10. Qed.
Lemma again_bad : bad [Again].
Proof.
  destruct start_state as (Ex & Ey & Ew & Eo & Ef & _). unfold bad. cbn [steps step].
  destruct (step_keeps (line Ridge) start Again fit_line) as (s1 & E1 & _). cbn [step] in E1. rewrite E1. exists s1.
  destruct (again_grad (line Ridge) start s1 1 0 eq_refl E1) as (G & F1 & F2 & F3 & F4 & F5). rewrite Ex, Ey, Ew, start_slope in G.
  split; auto. split; [congruence|]. split; [congruence|]. apply (not_right (line Ridge) start s1 1 0 start_right); auto; [split; cbn; lia | exact Logic.I | lra].
Qed.
Lemma fixed_bad : bad [FixAll; Trigger; UnfixAll].
Proof.
  destruct start_state as (Ex & Ey & Ew & Eo & Ef & [_ Hg]). unfold bad. cbn [steps].
  destruct (step_keeps (line Ridge) start FixAll fit_line) as (s1 & E1 & A1 & A2 & A3 & A4 & A5). rewrite E1.
  destruct (step_computed (line Ridge) start FixAll s1 Eo E1) as [Hc _].
  destruct (step_keeps (line Ridge) s1 Trigger fit_line) as (s2 & E2 & B1 & B2 & B3 & B4 & B5). rewrite E2.
  assert (E2' : parameters_changed (line Ridge) s1 = Some s2). { cbn [step] in E2. unfold trigger in E2. rewrite A2, A3, Eo in E2. exact E2. }
  destruct (again_grad (line Ridge) s1 s2 1 0 eq_refl E2') as (G & _). rewrite A4, A5, A1, Ex, Ey, Ew, start_slope in G.
  cbn [step]. exists (with_fixed s2 false). split; auto. split; [cbn; congruence|]. split; auto.
  assert (G1 : grad s1 1%nat 0%nat = grad start 1%nat 0%nat).
  { destruct Hc as [_ Hc]. rewrite (Hc eq_refl), (Hg eq_refl), A1, A4, A5. auto. }
  apply (not_right (line Ridge) start (with_fixed s2 false) 1 0 start_right); [cbn; congruence | cbn; congruence | cbn; congruence | split; cbn; lia | exact Logic.I |]. cbn [with_fixed grad]. lra.
Qed.
Lemma data_bad : exists s, step (line Ridge) start (SetData (fun x r k => x r k + 1)) = Some s /\ on s = true /\ ~ right_obj (line Ridge) s.
Proof.
  eexists. split; [reflexivity|]. split; [reflexivity|]. unfold right_obj. cbn [X Y W obj]. destruct start_values as (-> & _ & W1 & W0).
  unfold loss, fit, sum, line, polynomial. cbn [rows cols dims degree basis reg lambda seq map fold_right weight_of]. rewrite W1, W0.
  unfold start, create, get, inputs, targets, upwards, parameters_changed. cbn -[Rplus Rmult Rminus Rdiv Rinv INR pow Ropp]. cbn [INR pow]. lra.
Qed.
(** One sample, input 1, target 1/4, no slope; Lasso. *)
Definition dot : setup := mkSetup 1 1 1 0 polynomial Lasso 1.
Definition quarter : matrix := fun _ _ => 1 / 4.
Definition dotted : st := get (create dot inputs quarter).
Lemma dot_loss : forall w, loss dot inputs quarter w = (1 / 4 - w 0%nat 0%nat) * (1 / 4 - w 0%nat 0%nat) + Rabs (w 0%nat 0%nat).
Proof.
  intros w. unfold loss, fit, sum, dot, quarter, polynomial. cbn [rows cols dims degree basis reg lambda seq map fold_right weight_of pow]. ring.
Qed.
Lemma dotted_is : create dot inputs quarter = Some dotted /\ X dotted = inputs /\ Y dotted = quarter /\ W dotted 0%nat 0%nat = 0 /\ grad dotted 0%nat 0%nat = - (1 / 2).
Proof.
  split; [reflexivity|]. split; [reflexivity|]. split; [reflexivity|].
  split; unfold dotted, create, upwards, parameters_changed, update_error, outer, fitted, first_weights, get, inputs, quarter, dot, polynomial, sign;
    cbn -[Rplus Rmult Rminus Rdiv Rinv INR pow Ropp]; cbn [INR pow]; [lra|].
  destruct (Rlt_dec 0 (0 / 1)); [exfalso; lra|]. destruct (Rlt_dec (0 / 1) 0); [exfalso; lra|]. lra.
Qed.
Lemma lasso_bad : exists c x y s, cols c = 1%nat /\ create c x y = Some s /\ (forall w, loss c (X s) (Y s) (W s) <= loss c (X s) (Y s) w) /\ inside c 0 0 /\ grad s 0%nat 0%nat <> 0 /\
  forall g, ~ derivable_pt_lim (fun t => loss c (X s) (Y s) (put (W s) 0 0 t)) (W s 0%nat 0%nat) g.
Proof.
  destruct dotted_is as (E & Ex & Ey & Ew & Eg). exists dot, inputs, quarter, dotted. rewrite Ex, Ey, Eg. split; [reflexivity|]. split; auto. split.
  { intros w. rewrite !dot_loss, Ew, Rabs_R0. pose proof (Rle_abs (w 0%nat 0%nat)). pose proof (Rabs_pos (w 0%nat 0%nat)). nra. }
  split; [split; cbn; lia|]. split; [lra|]. intros g D. rewrite Ew in D. destruct (D (1 / 2)) as [d Hd]; [lra|]. destruct d as [d Pd]. cbn in Hd.
  assert (Pos : d / 2 <> 0) by lra. assert (Lt : Rabs (d / 2) < d) by (rewrite Rabs_right; lra). assert (Lt' : Rabs (- (d / 2)) < d) by (rewrite Rabs_Ropp; auto).
  pose proof (Hd (d / 2) Pos Lt) as A. assert (Pos' : - (d / 2) <> 0) by lra. pose proof (Hd (- (d / 2)) Pos' Lt') as B.
  rewrite !dot_loss, !put_at, Rabs_R0, Rplus_0_l in A, B. rewrite Rabs_Ropp in B. rewrite (Rabs_right (d / 2)) in A, B by lra.
  replace (((1 / 4 - d / 2) * (1 / 4 - d / 2) + d / 2 - ((1 / 4 - 0) * (1 / 4 - 0) + 0)) / (d / 2) - g) with (1 / 2 + d / 2 - g) in A by (field; lra).
  replace (((1 / 4 - - (d / 2)) * (1 / 4 - - (d / 2)) + d / 2 - ((1 / 4 - 0) * (1 / 4 - 0) + 0)) / - (d / 2) - g) with (- (3 / 2) - d / 2 - g) in B by (field; lra).
  apply Rabs_def2 in A. apply Rabs_def2 in B. lra.
Qed.
(** One sample with two inputs and two targets 1, 0, no slopes. *)
Definition wide : setup := mkSetup 1 2 2 0 polynomial Ridge 1.
Definition pair_ : matrix := fun _ k => match k with O => 1 | _ => 0 end.
Definition widened : st := get (create wide inputs pair_).
Lemma wide_bad : exists c x y s, reg c = Ridge /\ create c x y = Some s /\ right_obj c s /\ ~ right_grad c s.
Proof.
  exists wide, inputs, pair_, widened. split; [reflexivity|]. split; [reflexivity|]. split; [apply (create_computed wide inputs pair_ widened); reflexivity|].
  intros R. specialize (R 0%nat 1%nat (conj (le_n 0) (le_n 2)) Logic.I).
  assert (E : forall t, loss wide (X widened) (Y widened) (put (W widened) 0 1 t) = (1 - t) * (1 - t) + t * t + t * t).
  { intros t. change (X widened) with inputs. change (Y widened) with pair_. change (W widened) with (first_weights wide).
    unfold loss, fit, sum, wide, polynomial, pair_. cbn [rows cols dims degree basis reg lambda seq map fold_right weight_of pow]. rewrite put_at, put_other by auto.
    unfold first_weights. cbn. field. }
  assert (Z : W widened 0%nat 1%nat = 0) by (unfold widened, create, get, upwards, parameters_changed, first_weights; cbn; field).
  assert (G : grad widened 0%nat 1%nat = 0).
  { unfold widened, create, upwards, parameters_changed, update_error, outer, fitted, first_weights, get, inputs, pair_, wide, polynomial;
    cbn -[Rplus Rmult Rminus Rdiv Rinv INR pow Ropp]; cbn [INR pow]; lra. }
  rewrite Z, G in R. assert (D : derivable_pt_lim (fun t => loss wide (X widened) (Y widened) (put (W widened) 0 1 t)) 0 (-2)).
  { apply (lim_local _ _ _ 3 1); [lra|]. intros h _. rewrite !E. ring. }
  pose proof (uniqueness_limite _ _ _ _ R D). lra.
Qed.
(** Both weights 1 are the best ones of the line. *)
Definition ones : matrix := fun _ _ => 1.
Lemma best_case : exists s', computes start (SetWeights (fun _ => ones)) /\ step (line Ridge) start (SetWeights (fun _ => ones)) = Some s' /\ W s' = ones /\
  (forall i j, inside (line Ridge) i j -> grad s' i j = 0) /\ loss (line Ridge) (X s') (Y s') (W s') = 3 /\ loss (line Ridge) (X s') (Y s') (first_weights (line Ridge)) = 6.
Proof.
  destruct start_state as (Ex & Ey & Ew & Eo & Ef & _). destruct (step_keeps (line Ridge) start (SetWeights (fun _ => ones)) fit_line) as (s' & E & A1 & A2 & A3 & A4 & A5).
  exists s'. split; [exact Eo|]. split; auto. split; auto. destruct (step_computed (line Ridge) start (SetWeights (fun _ => ones)) s' Eo E) as [[_ G] _].
  rewrite A4, A5, Ex, Ey, A1. split; [|split].
  - intros i j [Hi Hj]. rewrite (G eq_refl), A1, A4, A5, Ex, Ey. cbn in Hi, Hj. assert (j = 0%nat) as -> by lia.
    destruct i as [|[|i]]; [| |lia]; unfold slope, fit, sum, line, polynomial, inputs, targets, ones; cbn [rows cols dims degree basis reg lambda seq map fold_right pow INR]; lra.
  - unfold loss, fit, sum, line, polynomial, inputs, targets, ones. cbn [rows cols dims degree basis reg lambda seq map fold_right pow INR weight_of]. lra.
  - unfold loss, fit, sum, line, polynomial, inputs, targets, first_weights. cbn [rows cols dims degree basis reg lambda seq map fold_right pow INR weight_of]. lra.
Qed.
Lemma line_case : cols (line Ridge) = 1%nat /\ create (line Ridge) inputs targets = Some start /\ obj start = 6 /\ grad start 1%nat 0%nat = -6 /\
  computes start (SetWeights (fun _ => ones)) /\ runs (line Ridge) (fun s a => computes s a \/ harmless a) start worked /\ W worked 0%nat 0%nat = 3 / 2 /\
  cols dot = 1%nat /\ create dot inputs quarter = Some dotted.
Proof.
  destruct start_values as (A & B & _). destruct start_state as (_ & _ & _ & Eo & _). destruct work_runs as (R & Ww & _).
  split; [reflexivity|]. split; [exact start_is|]. split; [exact A|]. split; [exact B|]. split; [exact Eo|]. split; [exact R|]. split; [exact Ww|]. split; [reflexivity | apply dotted_is].
Qed.
