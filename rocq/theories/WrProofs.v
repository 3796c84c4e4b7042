(** Proofs about the optimizer classes. *)
From Coq Require Import List ZArith Bool String Lia.
From Verif Require Import RunModel WrModel WrSpec.
Import ListNotations.
Open Scope Z_scope.

Section P.
Context {A X : Type}.

Lemma recorded_final : forall (c : optimizer) (obj : X -> A) (r : answer A X),
  let f := fst (record c obj r) in
  x_opt f = Some (r_x r) /\
  (c = OptTnc \/ c = OptLbfgsb \/ c = OptBfgs -> f_opt f = Some (obj (r_x r))) /\
  (c = OptSimplex -> f_opt f = Some (r_f r)) /\
  (c = OptScg -> forall l v, r_log r = l ++ [v] -> f_opt f = Some v) /\
  (~ of_climin c -> funct_eval f = Some (r_count r) /\ printable f = true).
Proof.
  intros c obj r. unfold of_climin.
  assert (H : forall x (v : A) n texts code, x_opt (fst (by_code (X:=X) x v n texts code)) = Some x /\ f_opt (fst (by_code x v n texts code)) = Some v /\ funct_eval (fst (by_code x v n texts code)) = Some n)
    by (intros x v n texts code; unfold by_code; destruct (pyindex texts code); cbn; auto).
  destruct c; cbn [record].
  - destruct (H (r_x r) (obj (r_x r)) (r_count r) tnc_texts (r_code r)) as [H1 [H2 H3]]. unfold printable. rewrite H1, H2, H3. repeat split; auto; discriminate.
  - destruct (H (r_x r) (r_f r) (r_count r) simplex_texts (r_code r)) as [H1 [H2 H3]]. unfold printable. rewrite H1, H2, H3. repeat split; auto; try discriminate.
    intros [D|[D|D]]; discriminate.
  - destruct (H (r_x r) (obj (r_x r)) (r_count r) lbfgsb_texts (r_code r)) as [H1 [H2 H3]]. destruct (by_code _ _ _ lbfgsb_texts _) as [f e]. cbn [fst] in *.
    destruct (negb e && (r_code r =? 2)); cbn [fst x_opt f_opt funct_eval]; unfold printable; cbn [fst x_opt f_opt funct_eval]; rewrite H1, H2, H3; repeat split; auto; discriminate.
  - destruct (H (r_x r) (obj (r_x r)) (r_count r) bfgs_texts (r_code r)) as [H1 [H2 H3]]. unfold printable. rewrite H1, H2, H3. repeat split; auto; discriminate.
  - cbn. repeat split; auto; try discriminate. intros [D|[D|D]]; discriminate.
    intros _ l v E. rewrite E. rewrite List.last_last. reflexivity.
  - cbn. repeat split; auto; try discriminate; try (intros [D|[D|D]]; discriminate); exfalso; auto.
  - cbn. repeat split; auto; try discriminate; try (intros [D|[D|D]]; discriminate); exfalso; auto.
  - cbn. repeat split; auto; try discriminate; try (intros [D|[D|D]]; discriminate); exfalso; auto.
Qed.

Lemma climin_fields_final : forall c (obj : X -> A) (r : answer A X), of_climin c ->
  let f := fst (record c obj r) in x_opt f = Some (r_x r) /\ f_opt f = None /\ funct_eval f = None /\ printable f = false.
Proof. intros c obj r [E|[E|E]]; subst c; cbn; auto. Qed.
Lemma quiet_final : forall c (obj : X -> A) (r : answer A X), ~ of_scipy c -> snd (record c obj r) = false.
Proof. intros c obj r H. destruct c; auto; destruct H; unfold of_scipy; tauto. Qed.

Lemma status_final : forall c (obj : X -> A) (r : answer A X) k, documented c (r_code r) k -> reportable c (r_code r) ->
  exists t, record c obj r = (fst (record c obj r), false) /\ status (fst (record c obj r)) = Some t /\ reads t = Some k.
Proof.
  intros c obj r k D H. destruct r as [x v n code log txt]. cbn [r_code] in *.
  destruct D; cbn in H; try lia; cbn; eexists; repeat split; try reflexivity.
  destruct txt; reflexivity.
Qed.

Lemma status_raises_final : forall c (obj : X -> A) (r : answer A X), of_scipy c ->
  (snd (record c obj r) = true <-> ~ (match c with OptTnc => -6 <= r_code r <= 5 | _ => -3 <= r_code r <= 2 end)).
Proof.
  intros c obj r Hc.
  assert (H : forall x (v : A) n texts code, snd (by_code (X:=X) x v n texts code) = true <-> ~ (- Z.of_nat (List.length texts) <= code < Z.of_nat (List.length texts))).
  { intros x v n texts code. unfold by_code, pyindex. set (m := Z.of_nat (List.length texts)).
    destruct (Z.ltb_spec code 0) as [L|L].
    - destruct (Z.leb_spec (- m) code) as [K|K]; [|cbn; split; [lia|reflexivity]].
      destruct (nth_error texts (Z.to_nat (m + code))) eqn:E; cbn; [split; [discriminate|lia]|]. apply nth_error_None in E. lia.
    - destruct (nth_error texts (Z.to_nat code)) eqn:E; cbn.
      + assert (Z.to_nat code < List.length texts)%nat by (apply nth_error_Some; congruence). split; [discriminate|lia].
      + apply nth_error_None in E. split; [lia|reflexivity]. }
  destruct Hc as [E|[E|[E|E]]]; subst c; cbn [record].
  - rewrite H. cbn [List.length tnc_texts]. lia.
  - specialize (H (r_x r) (obj (r_x r)) (r_count r) lbfgsb_texts (r_code r)). destruct (by_code _ _ _ lbfgsb_texts _) as [f e]. cbn [snd] in H.
    destruct (negb e && (r_code r =? 2)); cbn [snd]; rewrite H; cbn [List.length lbfgsb_texts]; lia.
  - rewrite H. cbn [List.length bfgs_texts]. lia.
  - rewrite H. cbn [List.length simplex_texts]. lia.
Qed.

Lemma limit_final : forall c (g : given A), limits (call_of c g) <> [] /\ forall n, In n (limits (call_of c g)) -> n = g_max_iters g.
Proof. intros c g. destruct c; cbn; split; try discriminate; intros n; intuition. Qed.

Lemma limit_eval_final : forall c m m' n (a b d e : option A), call_of c (mkG m n a b d e) = call_of c (mkG m' n a b d e).
Proof. intros c. destruct c; reflexivity. Qed.

Lemma tolerance_final : forall c (g : given A) t v, ~ of_climin c -> gave g t = Some v ->
  (gets (call_of c g) t = Some v /\ ~ In (tol_name t) (announced c g)) \/ (gets (call_of c g) t = None /\ In (tol_name t) (announced c g)).
Proof.
  intros c [me mi f gt xt b] t v Hc E. unfold of_climin in Hc. unfold announced.
  destruct c; try (exfalso; tauto); destruct t; cbn in *; subst;
    repeat match goal with o : option _ |- _ => destruct o end; cbn; intuition discriminate.
Qed.
Lemma default_final : forall c (g : given A), (forall t, gave g t = None -> gets (call_of c g) t = None) /\ (g_bfgs g = None -> p_factr (call_of c g) = None).
Proof. intros c g. split; [intros t E; destruct c, t; cbn in *; auto | intros E; destruct c; cbn in *; auto]. Qed.
Lemma factor_final : forall (g : given A), p_factr (call_of OptLbfgsb g) = g_bfgs g.
Proof. reflexivity. Qed.
Lemma silent_final : forall c (g : given A) t, of_climin c -> gets (call_of c g) t = None /\ announced c g = [] .
Proof. intros c g t [E|[E|E]]; subst c; destruct t; cbn; auto. Qed.

Lemma climin_steps : forall fuel n0 limit k, (Z.to_nat (limit - n0) < fuel)%nat -> k = S (Z.to_nat (limit - n0)) -> climin fuel n0 limit = Some k.
Proof.
  induction fuel as [|f IH]; intros n0 limit k Hf ->; [lia|]. cbn [climin].
  destruct (Z.leb_spec limit n0) as [L|L]; [do 2 f_equal; lia|].
  rewrite (IH (n0 + 1) limit (Z.to_nat (limit - n0))) by lia. reflexivity.
Qed.
Lemma climin_final : forall n0 limit, exists k, (forall fuel, (k <= fuel)%nat -> climin fuel n0 limit = Some k) /\ Z.of_nat k = Z.max 1 (limit - n0 + 1).
Proof.
  intros n0 limit. exists (S (Z.to_nat (limit - n0))). split; [|lia].
  intros fuel H. apply climin_steps; [lia | reflexivity].
Qed.
Lemma climin_unique : forall fuel n0 limit k, climin fuel n0 limit = Some k -> Z.of_nat k = Z.max 1 (limit - n0 + 1).
Proof.
  induction fuel as [|f IH]; intros n0 limit k E; [discriminate|]. cbn [climin] in E.
  destruct (Z.leb_spec limit n0) as [L|L]; [injection E as <-; lia|].
  destruct (climin f (n0 + 1) limit) as [j|] eqn:Ej; [|discriminate]. injection E as <-. apply IH in Ej. lia.
Qed.
End P.

(** ** Witnesses *)
Definition ans (code : Z) : answer Z Z := mkAns 3 9 4 code [16; 10; 9] "ABNORMAL".
Lemma status_wrong : exists c r k t, documented c (r_code r) k /\ snd (record c (fun x : Z => x * x) r) = false /\ status (fst (record c (fun x => x * x) r)) = Some t /\ reads t <> Some k /\ reads t <> None.
Proof. exists OptTnc, (ans (-1)), KInfeasible, "Function is constant"%string. repeat split; try constructor; discriminate. Qed.
Lemma status_silent : exists c r k t, documented c (r_code r) k /\ snd (record c (fun x : Z => x * x) r) = false /\ status (fst (record c (fun x => x * x) r)) = Some t /\ reads t = None.
Proof. exists OptBfgs, (ans 0), KConverged, ""%string. repeat split; constructor. Qed.
Lemma status_crash : (exists r, documented OptTnc (r_code r) KStuck /\ snd (record OptTnc (fun x : Z => x * x) r) = true) /\
  (exists r, documented OptTnc (r_code r) KAborted /\ snd (record OptTnc (fun x : Z => x * x) r) = true) /\
  exists r, documented OptBfgs (r_code r) KNaN /\ snd (record OptBfgs (fun x : Z => x * x) r) = true.
Proof. repeat split; [exists (ans 6) | exists (ans 7) | exists (ans 3)]; split; try constructor; reflexivity. Qed.
Lemma dropped_refuted : (exists c (g g' : given Z), ~ of_climin c /\ g_max_f_eval g <> g_max_f_eval g' /\ call_of c g = call_of c g' /\ announced c g = [] /\ announced c g' = []) /\
  (exists c (g : given Z) v, ~ of_climin c /\ g_bfgs g = Some v /\ p_factr (call_of c g) = None /\ announced c g = []) /\
  exists c (g : given Z) t v, gave g t = Some v /\ gets (call_of c g) t = None /\ announced c g = [].
Proof.
  unfold of_climin. repeat split.
  - exists OptTnc, (mkG (Some 5) 7 None None None None), (mkG None 7 None None None None). repeat split; try discriminate. intros [D|[D|D]]; discriminate.
  - exists OptBfgs, (mkG None 7 None None None (Some 2)), 2. repeat split. intros [D|[D|D]]; discriminate.
  - exists OptAdam, (mkG None 7 (Some 2) None None None), Ftol, 2. repeat split.
Qed.
Lemma ex_recorded : let r := record OptLbfgsb (fun x : Z => x * x) (ans 2) in r = (mkF (Some 3) (Some 9) (Some 4) (Some "ErrorABNORMAL"%string), false) /\
  fst (record OptScg (fun x : Z => x * x) (ans 0)) = mkF (Some 3) (Some 9) (Some 4) (Some "ABNORMAL"%string) /\ ~ of_climin OptScg /\ r_log (ans 0) = [16; 10] ++ [9].
Proof. repeat split. intros [D|[D|D]]; discriminate. Qed.
Lemma ex_status : documented OptTnc (r_code (ans 3)) KLimit /\ reportable OptTnc (r_code (ans 3)) /\ documented OptLbfgsb (r_code (ans 2)) KOther /\ reportable OptLbfgsb (r_code (ans 2)).
Proof. cbn. repeat split; try constructor; try lia. Qed.
Lemma ex_options : let g := mkG (Some 5) 7 (Some 1) (Some 2) (Some 3) (Some 4) in ~ of_climin OptLbfgsb /\ gave g Gtol = Some 2 /\ gets (call_of OptLbfgsb g) Gtol = Some 2 /\
  gave g Ftol = Some 1 /\ gets (call_of OptLbfgsb g) Ftol = None /\ announced OptLbfgsb g = [NXtol; NFtol] /\ limits (call_of OptLbfgsb g) = [7; 7].
Proof. repeat split. intros [D|[D|D]]; discriminate. Qed.
Lemma ex_climin : climin 9 1 3 = Some 3%nat /\ climin 9 1 0 = Some 1%nat.
Proof. split; reflexivity. Qed.
