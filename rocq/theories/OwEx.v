(** Concrete models and runs, as examples beside the properties and as witnesses. *)
From Coq Require Import List Reals Bool Arith Lia Lra.
From Verif Require Import ScgModel ScgSpec ScgProofs OwModel OwSpec OwProofs OwRun OwFinal OwLast.
Import ListNotations.
Open Scope R_scope.

(** A free element without constraint and a fixed one; models with the first, and with both. *)
Definition free_el : elem := mkEl true (fun a => a) (fun a => a) (fun _ g => g).
Definition fixed_el : elem := mkEl false (fun a => a) (fun a => a) (fun _ g => g).
Notation E1 := [free_el].
Notation E2 := [free_el; fixed_el].
(** A steep parabola in the first element, with its gradient. *)
Definition steep (p : vec) : R := match p with a :: _ => 50 * (a * a) | [] => 0 end.
Definition steep_grad (p : vec) : vec := match p with a :: r => 100 * a :: map (fun _ => 0) r | [] => [] end.
Notation tol6 := (/ 10 ^ 6).
Notation tol5 := (/ 10 ^ 5).

Lemma steep_derivative : forall a, derivable_pt_lim (fun t => steep [t]) a (100 * a).
Proof.
  intros a. unfold steep. replace (100 * a) with (0 * (a * a) + 50 * (1 * a + a * 1)) by ring.
  apply (derivable_pt_lim_mult (fun _ => 50) (fun t => t * t)); [apply derivable_pt_lim_const|].
  apply (derivable_pt_lim_mult (fun t => t) (fun t => t)); apply derivable_pt_lim_id.
Qed.
Lemma steep_shaped1 : shaped E1 steep_grad [1].
Proof. split; [reflexivity|]. intros [|a r]; [reflexivity|]. simpl. rewrite map_length. reflexivity. Qed.
Lemma steep_shaped2 : shaped E2 steep_grad [1; 7].
Proof. split; [reflexivity|]. intros [|a r]; [reflexivity|]. simpl. rewrite map_length. reflexivity. Qed.
Lemma E2_fixed : some_fixed E2.
Proof. exists fixed_el. split; [right; left; reflexivity | reflexivity]. Qed.
Lemma E1_fixed : ~ some_fixed E1.
Proof. intros (e & [<-|[]] & H). discriminate. Qed.

(** One iteration on the function and gradient themselves. *)
Lemma steep_run : forall f g a m, 1 <= a -> (forall v, f v = 50 * (hd 0 v * hd 0 v)) -> (forall v, g v = [100 * hd 0 v]) ->
  exists s, SCG f g tol6 tol6 tol5 [a] 1 m = Some (s, MaxIter) /\ x s = [a / 101] /\ flog s = [50 * (a * a); 50 * (a * a) / 10201] /\ fevals s = 5%nat.
Proof.
  intros f g a m Ha Hf Hg. pose proof sigma0_pos as Hs. assert (Haa : 1 <= a * a) by nra.
  unfold SCG, loop, body, directional, start. rewrite !Hg, !Hf. cbn [success d gradnew x fold gradold nsuccess beta flog fevals calls steps hd].
  assert (D1 : vneg [100 * a] = [-100 * a]) by (simpl; f_equal; lra). rewrite D1.
  assert (D2 : dot [-100 * a] [100 * a] = -10000 * (a * a)) by (simpl; lra). rewrite D2.
  destruct (Rle_dec 0 (-10000 * (a * a))) as [Hc|_]; [lra|].
  assert (D3 : dot [-100 * a] [-100 * a] = 10000 * (a * a)) by (simpl; lra). rewrite D3.
  assert (D4 : sqrt (10000 * (a * a)) = 100 * a) by (replace (10000 * (a * a)) with ((100 * a) * (100 * a)) by ring; apply sqrt_square; lra). rewrite D4.
  rewrite rdiv_ok by lra. assert (Hsg : 0 < sigma0 / (100 * a)) by (apply Rdiv_lt_0_compat; lra). rewrite rdiv_ok by lra. rewrite Hg.
  assert (D5 : dot [-100 * a] (vsub [100 * hd 0 (vadd [a] (vscale (sigma0 / (100 * a)) [-100 * a]))] [100 * a]) / (sigma0 / (100 * a)) = 1000000 * (a * a)).
  { simpl. field. split; lra. }
  rewrite D5. unfold curvature. cbn [success d gradnew x fold gradold nsuccess beta flog fevals calls steps theta kappa mu hd].
  destruct (Rle_dec (1000000 * (a * a) + 1 * (10000 * (a * a))) 0) as [Hc|_]; [lra|]. rewrite rdiv_ok by lra.
  assert (D6 : - (-10000 * (a * a)) / (1000000 * (a * a) + 1 * (10000 * (a * a))) = / 101) by (field; lra). rewrite D6.
  assert (D7 : vadd [a] (vscale (/ 101) [-100 * a]) = [a / 101]) by (simpl; f_equal; field). rewrite D7, !Hf. cbn [hd].
  rewrite rdiv_ok by lra.
  assert (D8 : 2 * (50 * (a / 101 * (a / 101)) - 50 * (a * a)) / (/ 101 * (-10000 * (a * a))) = 102 / 101) by (field; lra). rewrite D8.
  destruct (Rle_dec 0 (102 / 101)) as [_|Hc]; [|lra].
  assert (D9 : 50 * (a / 101 * (a / 101)) = 50 * (a * a) / 10201) by field. rewrite D9.
  assert (Hab : 1 <= Rabs (50 * (a * a) / 10201 - 50 * (a * a))) by (rewrite Rabs_left by lra; lra).
  destruct (Rlt_dec (Rabs (50 * (a * a) / 10201 - 50 * (a * a))) tol6) as [Hc|_]; [lra|].
  assert (Hst : 1 / 2 <= maxabs (vscale (/ 101) [-100 * a])) by (simpl; eapply Rle_trans; [|apply Rmax_l]; rewrite Rabs_left by lra; lra).
  destruct (Rlt_dec (maxabs (vscale (/ 101) [-100 * a])) tol6) as [Hc|_]; [lra|].
  rewrite !Hg. cbn [hd].
  assert (D10 : dot [100 * (a / 101)] [100 * (a / 101)] = 10000 * (a * a) / 10201) by (simpl; field). rewrite D10.
  destruct (Rle_dec (10000 * (a * a) / 10201) tol5) as [Hc|_]; [lra|].
  cbn [length Nat.eqb]. eexists. split; [reflexivity|]. cbn [x flog fevals app]. auto.
Qed.

(** The objective and the gradient that the optimizer sees. *)
Lemma objective1 : forall w q v, params w = [q] -> objective_at E1 steep steep_grad w v = 50 * (hd 0 v * hd 0 v).
Proof. intros w q v H. rewrite objective_at_F. unfold F. rewrite H. reflexivity. Qed.
Lemma gradient1 : forall w q v, params w = [q] -> gradient_at E1 steep_grad w v = [100 * hd 0 v].
Proof. intros w q v H. rewrite gradient_at_G. unfold G. rewrite H. reflexivity. Qed.
Lemma objective2 : forall w q r v, params w = [q; r] -> objective_at E2 steep steep_grad w v = 50 * (hd 0 v * hd 0 v).
Proof. intros w q r v H. rewrite objective_at_F. unfold F. rewrite H. reflexivity. Qed.
Lemma gradient2 : forall w q r v, params w = [q; r] -> gradient_at E2 steep_grad w v = [100 * hd 0 v].
Proof. intros w q r v H. rewrite gradient_at_G. unfold G. rewrite H. reflexivity. Qed.
Lemma list1 : forall v : vec, length v = 1%nat -> exists q, v = [q].
Proof. intros [|q [|r v]] H; try discriminate. exists q. reflexivity. Qed.
Lemma list2 : forall v : vec, length v = 2%nat -> exists q r, v = [q; r].
Proof. intros [|q [|r [|t v]]] H; try discriminate. exists q, r. reflexivity. Qed.

(** Without a fixed element one iteration of SCG on the model tries [x - gradient] and stays where it was. *)
Lemma shared_run : forall w ix a, wf w -> length (params w) = 1%nat -> (ix < nexta w)%nat -> ix <> garr w -> cells w ix = [a] -> 1 <= a ->
  exists w' l, scg E1 steep steep_grad tol6 tol6 tol5 w ix 1 = Some (w', l, MaxIter) /\ lx l = ix /\ cells w' ix = [a] /\ llog l = [50 * (a * a); 50 * (a * a)].
Proof.
  intros w ix a [W1 _] Hp Hx Hn Hc Ha. pose proof sigma0_pos as Hs. assert (Haa : 1 <= a * a) by nra.
  destruct (list1 _ Hp) as [q Hq]. unfold scg.
  destruct (start_places E1 steep steep_grad w ix W1 Hx Hn) as (w1 & l1 & H1 & Hpl & El & Ex & Ef & Eg & Ego & Eq). rewrite H1.
  destruct l1 as [a1 fo gn go dd okk ns be mu0 ka th lo ev stp]. cbn [lx lgn lgo lfold ld] in *.
  destruct Hpl as (K & P2 & P3 & P4 & P5 & P6). cbn [lx lgn lgo has_fixes existsb free_el efree negb orb] in *. injection Eq as -> -> -> -> -> -> -> -> -> ->.
  assert (Fv : forall v, F E1 steep (params w) v = 50 * (hd 0 v * hd 0 v)) by (intros v; rewrite <- (objective_at_F E1 steep steep_grad); apply (objective1 w q v Hq)).
  assert (Gv : forall v, G E1 steep_grad (params w) v = [100 * hd 0 v]) by (intros v; rewrite <- gradient_at_G; apply (gradient1 w q v Hq)).
  rewrite Hc in *. rewrite Fv in Ef. rewrite Gv in Eg, Ego. cbn [hd] in *. subst fo. subst gn. clear El Ego.
  assert (D1 : vneg (cells w1 (garr w1)) = [-100 * a]) by (rewrite Eg; simpl; f_equal; lra). rewrite D1.
  cbn [scg_loop]. unfold scg_body, scg_directional. cbn [lok ld lgn lx lfold lgo lns lbeta lmu lkappa ltheta llog lev lsteps].
  rewrite Eg, Ex.
  assert (D2 : dot [-100 * a] [100 * a] = -10000 * (a * a)) by (simpl; lra). rewrite D2.
  destruct (Rle_dec 0 (-10000 * (a * a))) as [Hcc|_]; [lra|].
  assert (D3 : dot [-100 * a] [-100 * a] = 10000 * (a * a)) by (simpl; lra). rewrite D3.
  assert (D4 : sqrt (10000 * (a * a)) = 100 * a) by (replace (10000 * (a * a)) with ((100 * a) * (100 * a)) by ring; apply sqrt_square; lra). rewrite D4.
  rewrite rdiv_ok by lra. assert (Hsg : 0 < sigma0 / (100 * a)) by (apply Rdiv_lt_0_compat; lra).
  destruct (grads E1 steep_grad w1 _) as [w2 gp] eqn:Hgr. destruct (grads_keeps E1 steep_grad _ _ _ _ P2 Hgr) as (K2 & _ & _ & Kg).
  cbn [has_fixes existsb free_el efree negb orb] in Kg. subst gp. rewrite dot_self_r, rdiv_ok by lra.
  unfold scg_curvature. cbn [lok ld lgn lx lfold lgo lns lbeta lmu lkappa ltheta llog lev lsteps].
  replace (0 / (sigma0 / (100 * a)) + 1 * (10000 * (a * a))) with (10000 * (a * a)) by (field; lra).
  destruct (Rle_dec (10000 * (a * a)) 0) as [Hcc|_]; [lra|]. rewrite rdiv_ok by lra.
  assert (D6 : - (-10000 * (a * a)) / (10000 * (a * a)) = 1) by (field; lra). rewrite D6.
  assert (Cx2 : cells w2 ix = [a]) by (rewrite (proj1 (proj2 (proj2 (proj2 K2))) ix P3 P4); exact Ex). rewrite Cx2.
  assert (D7 : vadd [a] (vscale 1 [-100 * a]) = [-99 * a]) by (simpl; f_equal; lra). rewrite D7.
  destruct (alloc w2 [-99 * a]) as [w3 xn] eqn:Hal. destruct (alloc_keeps E1 _ _ _ _ Hal) as (C1 & C2 & C3 & C4 & C5 & C6). rewrite C4.
  destruct (objective E1 steep steep_grad w3 [-99 * a]) as [w4 fn] eqn:Hob. destruct (objective_keeps E1 steep steep_grad _ _ _ _ Hob) as (O1 & O2 & O3).
  pose proof (keeps_trans _ _ _ _ K (keeps_trans _ _ _ _ K2 C1)) as K3.
  rewrite (F_keeps E1 steep w w3 _ K3), Fv in O2. cbn [hd] in O2. subst fn. rewrite rdiv_ok by lra.
  assert (D8 : 2 * (50 * (-99 * a * (-99 * a)) - 50 * (a * a)) / (1 * (-10000 * (a * a))) = -98) by (field; lra). rewrite D8.
  destruct (Rle_dec 0 (-98)) as [Hcc|_]; [lra|].
  pose proof (keeps_trans _ _ _ _ C1 O1) as K24. pose proof (keeps_trans _ _ _ _ K2 K24) as K14.
  assert (Cx4 : cells w4 ix = [a]) by (rewrite (proj1 (proj2 (proj2 (proj2 K14))) ix P3 P4); exact Ex). rewrite Cx4. cbn [length Nat.eqb].
  eexists _, _. split; [reflexivity|]. cbn [lx llog app]. auto.
Qed.

(** ** States *)
Notation reach1 := (oreach E1 steep steep_grad tol6 tol6 tol5).
Notation reach2 := (oreach E2 steep steep_grad tol6 tol6 tol5).
Definition w1_read : world := fst (read_array E1 (world_init [1])).
Definition w2_read : world := fst (read_array E2 (world_init [1; 7])).
Lemma read1 : reach1 [1] w1_read [1%nat] [].
Proof. apply (oreach_call E1 steep steep_grad tol6 tol6 tol5 [1] (world_init [1]) [] [] ORead w1_read (Some 1%nat)); [constructor | exact Logic.I | reflexivity]. Qed.
Lemma read2 : reach2 [1; 7] w2_read [2%nat] [].
Proof. apply (oreach_call E2 steep steep_grad tol6 tol6 tol5 [1; 7] (world_init [1; 7]) [] [] ORead w2_read (Some 2%nat)); [constructor | exact Logic.I | reflexivity]. Qed.

(** C95 *)
Lemma ex_refines : reach2 [1; 7] w2_read [2%nat] [] /\ some_fixed E2 /\ cells w2_read 2 = [1] /\
  exists l n stat, returned (scg E2 steep steep_grad tol6 tol6 tol5 w2_read 2 1) = Some ([1 / 101], l, n, stat).
Proof.
  split; [exact read2|]. split; [exact E2_fixed|]. split; [reflexivity|].
  rewrite (refines_final E2 steep steep_grad tol6 tol6 tol5 [1; 7] w2_read [2%nat] [] 2 1 1 read2 E2_fixed (or_introl eq_refl)).
  destruct (steep_run (objective_at E2 steep steep_grad w2_read) (gradient_at E2 steep_grad w2_read) 1 1) as (s & Hs & Hx & Hl & He); [lra | intros v; apply (objective2 _ 1 7); reflexivity | intros v; apply (gradient2 _ 1 7); reflexivity|].
  change (cells w2_read 2) with [1]. rewrite Hs. unfold returned_by, r_x, r_flog, r_evals, r_status. cbn [option_map fst snd]. rewrite Hx. eauto.
Qed.
Lemma refines_refuted : exists E obj raw p w pts grs ix n l1 n1 s1 l2 n2 s2, oreach E obj raw tol6 tol6 tol5 p w pts grs /\ shaped E raw p /\ In ix pts /\
  (forall a, derivable_pt_lim (fun t => obj [t]) a (hd 0 (raw [a]))) /\
  returned (scg E obj raw tol6 tol6 tol5 w ix n) = Some ([1], l1, n1, s1) /\
  returned_by (SCG (objective_at E obj raw w) (gradient_at E raw w) tol6 tol6 tol5 (cells w ix) n n) = Some ([1 / 101], l2, n2, s2).
Proof.
  destruct (shared_run w1_read 1 1) as (w' & l & Hr & Hlx & Hc & Hl); [split; [repeat constructor | split; [repeat constructor | discriminate]] | reflexivity | repeat constructor | discriminate | reflexivity | lra|].
  destruct (steep_run (objective_at E1 steep steep_grad w1_read) (gradient_at E1 steep_grad w1_read) 1 1) as (s & Hs & Hx & Hl2 & He); [lra | intros v; apply (objective1 _ 1); reflexivity | intros v; apply (gradient1 _ 1); reflexivity|].
  exists E1, steep, steep_grad, [1], w1_read, [1%nat], [], 1%nat, 1%nat, (llog l), (lev l), MaxIter, (flog s), (fevals s), MaxIter.
  split; [exact read1|]. split; [exact steep_shaped1|]. split; [left; reflexivity|]. split; [exact steep_derivative|]. split.
  - rewrite Hr. unfold returned. cbn [option_map]. rewrite Hlx, Hc. reflexivity.
  - change (cells w1_read 1) with [1]. rewrite Hs. unfold returned_by, r_x, r_flog, r_evals, r_status. cbn [option_map fst snd]. rewrite Hx. reflexivity.
Qed.

(** C96 *)
Lemma ex_run : reach1 [1] w1_read [1%nat] [] /\ shaped E1 steep_grad [1] /\ length (cells w1_read 1) = nfree E1 /\ nonzero (gradient_at E1 steep_grad w1_read (cells w1_read 1)) /\
  reach2 [1; 7] w2_read [2%nat] [] /\ shaped E2 steep_grad [1; 7] /\ length (cells w2_read 2) = nfree E2 /\ nonzero (gradient_at E2 steep_grad w2_read (cells w2_read 2)).
Proof.
  split; [exact read1|]. split; [exact steep_shaped1|]. split; [reflexivity|]. split; [rewrite (gradient1 _ 1) by reflexivity; exists (100 * 1); split; [left; reflexivity | lra]|].
  split; [exact read2|]. split; [exact steep_shaped2|]. split; [reflexivity|]. rewrite (gradient2 _ 1 7) by reflexivity; exists (100 * 1); split; [left; reflexivity | lra].
Qed.

(** C97 *)
Definition right_copy (E : list elem) (w : world) : Prop := ofresh w = true -> forall c, ocopy w = Some c -> cells w c = untransformed E (params w).
Lemma opt_shared : forall w pts grs runs a, reach_inv E1 1 w pts grs -> right_copy E1 w -> params w = [a] -> 1 <= a ->
  exists w' r c pts', optimize E1 steep steep_grad tol6 tol6 tol5 1 w runs = Some (w', runs ++ [r]) /\ f_opt r = 50 * (a * a) /\ x_opt r = c /\ ocopy w' = Some c /\
    cells w' c = [a] /\ reach_inv E1 1 w' pts' grs /\ right_copy E1 w' /\ params w' = [a] /\ forall c', ocopy w = Some c' -> c' = c.
Proof.
  intros w pts grs runs a HI HC Hp Ha. unfold optimize. cbn [existsb free_el efree orb].
  destruct (read_array E1 w) as [w1 c] eqn:HR. pose proof HI as (A1 & A2 & A3 & A4 & A5 & A6).
  destruct (read_gives E1 1 w pts grs w1 c HI eq_refl HC HR) as (G1 & G2 & G3). rewrite Hp in G1. change (pick_free E1 (untransformed E1 [a])) with [a] in G1.
  destruct (read_ok E1 _ _ _ A1 HR) as (B1 & B2 & B3 & B4 & B5 & B6 & B7 & c' & C1 & C2 & C3 & C4 & C5 & C6 & C7). change (has_fixes E1) with false in C5. cbv iota in C5. subst c'.
  assert (I1 : reach_inv E1 1 w1 (c :: pts) grs).
  { apply (step_inv E1 steep steep_grad tol6 tol6 tol5 1 w pts grs ORead w1 (Some c) HI Logic.I). cbn [ostep]. rewrite HR. reflexivity. }
  destruct (shared_run w1 c a B1) as (w' & l & Hr & Hlx & Hc & Hl); auto; [rewrite B4, Hp; reflexivity|].
  assert (S2 : ostep E1 steep steep_grad tol6 tol6 tol5 (OScg c 1) w1 = Some (w', Some (lx l))) by (cbn [ostep]; rewrite Hr; reflexivity).
  pose proof (step_inv E1 steep steep_grad tol6 tol6 tol5 1 w1 (c :: pts) grs (OScg c 1) w' (Some (lx l)) I1 (or_introl eq_refl) S2) as I2.
  assert (I3 : reach_inv E1 1 (set_array E1 steep_grad w' (cells w' (lx l))) (lx l :: c :: pts) grs).
  { apply (step_inv E1 steep steep_grad tol6 tol6 tol5 1 w' (lx l :: c :: pts) grs (OSet (cells w' (lx l))) _ None I2 Logic.I). reflexivity. }
  destruct (scg_leads E1 steep steep_grad tol6 tol6 tol5 _ _ _ _ _ _ (proj1 B1) B5 B6 Hr) as (K & _). pose proof K as (K1 & K2 & K3 & K4 & K5).
  rewrite Hr. eexists _, (run_of w' l), c, _. split; [reflexivity|]. unfold run_of. cbn [f_opt x_opt]. rewrite Hl. split; [reflexivity|]. split; [exact Hlx|].
  split; [change (ocopy w' = Some c); congruence|]. split.
  { unfold set_array, set_cell. cbn [cells]. destruct (Nat.eqb_spec c (garr w')) as [Hcg|_]; [congruence|]. exact Hc. }
  split; [exact I3|]. split; [intros Hf; discriminate|]. split.
  - rewrite Hlx, Hc. change (put E1 [a] (params w') = [a]). rewrite K5, B4, Hp. reflexivity.
  - intros c' Hc'. symmetry. apply C3. exact Hc'.
Qed.
Lemma restarts_refuted : exists E obj raw p w pts grs n draws w' runs r, oreach E obj raw tol6 tol6 tol5 p w pts grs /\ shaped E raw p /\ (exists e, In e E /\ efree e = true) /\
  restarts E obj raw tol6 tol6 tol5 n draws w [] = Some (w', runs) /\ In r runs /\ f_opt r = 50 /\ objective_now obj w' = 200.
Proof.
  assert (HI : reach_inv E1 1 w1_read [1%nat] []) by (apply (reach_ok E1 steep steep_grad tol6 tol6 tol5 [1] w1_read [1%nat] [] read1)).
  set (w1 := fst (read_array E1 w1_read)). assert (HR : read_array E1 w1_read = (w1, 1%nat)) by reflexivity.
  assert (I1 : reach_inv E1 1 w1 [1%nat; 1%nat] []) by (apply (step_inv E1 steep steep_grad tol6 tol6 tol5 1 w1_read [1%nat] [] ORead w1 (Some 1%nat) HI Logic.I); reflexivity).
  destruct (alloc w1 (cells w1 1%nat)) as [wa ini] eqn:HA. pose proof (alloc_inv E1 1 w1 _ _ _ _ _ I1 HA) as Ia.
  assert (Ca : right_copy E1 wa) by (unfold alloc in HA; injection HA as <- _; intros _ c Hc; injection Hc as <-; reflexivity).
  assert (Pa : params wa = [1]) by (unfold alloc in HA; injection HA as <- _; reflexivity).
  destruct (opt_shared wa _ _ [] 1 Ia Ca Pa) as (w2 & r1 & c & pts2 & O1 & F1 & X1 & Oc & _ & I2 & C2 & P2 & _); [lra|].
  set (w2s := set_array E1 steep_grad w2 [2]).
  assert (I2s : reach_inv E1 1 w2s pts2 []) by (apply (step_inv E1 steep steep_grad tol6 tol6 tol5 1 w2 pts2 [] (OSet [2]) w2s None I2 Logic.I); reflexivity).
  assert (P2s : params w2s = [2]) by (unfold w2s; change (put E1 [2] (params w2) = [2]); rewrite P2; reflexivity).
  assert (C2s : right_copy E1 w2s) by (intros Hf; discriminate).
  assert (Oc2 : ocopy w2s = Some c) by exact Oc.
  destruct (opt_shared w2s _ _ [r1] 2 I2s C2s P2s) as (w3 & r2 & c2 & pts3 & O2 & F2 & X2 & Oc3 & Cc & I3 & C3 & P3 & Hcc); [lra|].
  pose proof (Hcc _ Oc2) as <-.
  exists E1, steep, steep_grad, [1], w1_read, [1%nat], [], 1%nat, [[2]], (set_array E1 steep_grad w3 [2]), [r1; r2], r1.
  split; [exact read1|]. split; [exact steep_shaped1|]. split; [exists free_el; split; [left; reflexivity | reflexivity]|]. split; [|split; [left; reflexivity|]].
  - unfold restarts. rewrite HR, HA. cbn [app] in O1. rewrite O1. cbn [restart_loop]. fold w2s. rewrite O2. cbn [app length skipn best].
    rewrite F1, F2. destruct (Rlt_dec (50 * (2 * 2)) (50 * (1 * 1))) as [Hlt|_]; [lra|]. rewrite X1, Cc. reflexivity.
  - split; [lra|]. unfold objective_now. change (steep (put E1 [2] (params w3)) = 200). rewrite P3. simpl. lra.
Qed.

Lemma opt_fixed : forall w pts grs runs a, reach_inv E2 2 w pts grs -> params w = [a; 7] -> 1 <= a ->
  exists w' r pts', optimize E2 steep steep_grad tol6 tol6 tol5 1 w runs = Some (w', runs ++ [r]) /\ f_opt r = 50 * (a * a) / 10201 /\ f0 r = 50 * (a * a) /\ xend r = [a / 101] /\
    reach_inv E2 2 w' pts' grs /\ params w' = [a / 101; 7].
Proof.
  intros w pts grs runs a HI Hp Ha.
  destruct (read_array E2 w) as [w1 c] eqn:HR. pose proof HI as (A1 & A2 & A3 & A4 & A5 & A6).
  destruct (read_gives E2 2 w pts grs w1 c HI eq_refl (proj2 (A6 eq_refl)) HR) as (G1 & G2 & G3). rewrite Hp in G1. change (pick_free E2 (untransformed E2 [a; 7])) with [a] in G1.
  destruct (read_ok E2 _ _ _ A1 HR) as (B1 & B2 & B3 & B4 & B5 & B6 & _).
  assert (Rf : returned (scg E2 steep steep_grad tol6 tol6 tol5 w1 c 1) = returned_by (SCG (F E2 steep (params w1)) (G E2 steep_grad (params w1)) tol6 tol6 tol5 (cells w1 c) 1 1)).
  { apply refines; auto. apply B1. }
  destruct (steep_run (F E2 steep (params w1)) (G E2 steep_grad (params w1)) a 1 Ha) as (s & Hs & Hx & Hl & _).
  { intros v. rewrite <- (objective_at_F E2 steep steep_grad). apply (objective2 _ a 7). congruence. }
  { intros v. rewrite <- gradient_at_G. apply (gradient2 _ a 7). congruence. }
  rewrite G1, Hs in Rf. destruct (scg E2 steep steep_grad tol6 tol6 tol5 w1 c 1) as [[[w' l] stat]|] eqn:Hr; [|discriminate].
  unfold returned, returned_by, r_x, r_flog in Rf. cbn [option_map fst snd] in Rf. rewrite Hx, Hl in Rf. injection Rf as Rx Rl _ _.
  assert (HO : optimize E2 steep steep_grad tol6 tol6 tol5 1 w runs = Some (set_array E2 steep_grad w' (cells w' (lx l)), runs ++ [run_of w' l])).
  { unfold optimize. change (existsb efree E2) with true. cbv iota. rewrite HR, Hr. reflexivity. }
  destruct (optimize_ok E2 steep steep_grad tol6 tol6 tol5 2 1 w pts grs runs _ _ HI eq_refl HO) as (r & pts' & Er & Hh & _ & HP & _).
  apply app_inj_tail in Er as [_ <-]. unfold run_of in HP. cbn [xend] in HP. rewrite Rx, Hp in HP.
  exists (set_array E2 steep_grad w' (cells w' (lx l))), (run_of w' l), pts'. split; [exact HO|]. unfold run_of. cbn [f_opt f0 xend]. rewrite Rl, Rx.
  split; [reflexivity|]. split; [reflexivity|]. split; [reflexivity|]. split; [rewrite <- Rx; exact (hist_ok E2 steep steep_grad tol6 tol6 tol5 _ 2 w pts grs _ _ _ HI Hh)|].
  exact HP.
Qed.
Lemma ex_optimize : reach2 [1; 7] w2_read [2%nat] [] /\ (exists e, In e E2 /\ efree e = true) /\
  exists w' r, optimize E2 steep steep_grad tol6 tol6 tol5 1 w2_read [] = Some (w', [r]) /\ f_opt r = 50 / 10201 /\ params w' = [1 / 101; 7].
Proof.
  split; [exact read2|]. split; [exists free_el; split; [left; reflexivity | reflexivity]|].
  destruct (opt_fixed w2_read [2%nat] [] [] 1) as (w' & r & pts' & H1 & H2 & _ & _ & _ & H3); [apply (reach_ok E2 steep steep_grad tol6 tol6 tol5 [1; 7] w2_read [2%nat] [] read2) | reflexivity | lra|].
  exists w', r. split; [exact H1|]. split; [rewrite H2; lra | exact H3].
Qed.
Lemma ex_restarts : reach2 [1; 7] w2_read [2%nat] [] /\ (exists e, In e E2 /\ efree e = true) /\ some_fixed E2 /\
  exists w' r1 r2, restarts E2 steep steep_grad tol6 tol6 tol5 1 [[2]] w2_read [] = Some (w', [r1; r2]) /\ f_opt r1 = 50 / 10201 /\ f_opt r2 = 200 / 10201.
Proof.
  split; [exact read2|]. split; [exists free_el; split; [left; reflexivity | reflexivity]|]. split; [exact E2_fixed|].
  assert (HI : reach_inv E2 2 w2_read [2%nat] []) by (apply (reach_ok E2 steep steep_grad tol6 tol6 tol5 [1; 7] w2_read [2%nat] [] read2)).
  destruct (read_array E2 w2_read) as [w1 a] eqn:HR.
  assert (I1 : reach_inv E2 2 w1 [a; 2%nat] []) by (apply (step_inv E2 steep steep_grad tol6 tol6 tol5 2 w2_read [2%nat] [] ORead w1 (Some a) HI Logic.I); cbn [ostep]; rewrite HR; reflexivity).
  assert (P1 : params w1 = [1; 7]) by (destruct (read_ok E2 _ _ _ (proj1 HI) HR) as (_ & _ & _ & -> & _); reflexivity).
  destruct (alloc w1 (cells w1 a)) as [wa ini] eqn:HA. pose proof (alloc_inv E2 2 w1 _ _ _ _ _ I1 HA) as Ia.
  assert (Pa : params wa = [1; 7]) by (unfold alloc in HA; injection HA as <- _; exact P1).
  destruct (opt_fixed wa _ _ [] 1 Ia Pa) as (w2 & r1 & pts2 & O1 & F1 & _ & _ & I2 & P2); [lra|].
  set (w2s := set_array E2 steep_grad w2 [2]).
  assert (I2s : reach_inv E2 2 w2s pts2 []) by (apply (step_inv E2 steep steep_grad tol6 tol6 tol5 2 w2 pts2 [] (OSet [2]) w2s None I2 Logic.I); reflexivity).
  assert (P2s : params w2s = [2; 7]) by (unfold w2s; change (put E2 [2] (params w2) = [2; 7]); rewrite P2; reflexivity).
  destruct (opt_fixed w2s _ _ [r1] 2 I2s P2s) as (w3 & r2 & pts3 & O2 & F2 & _ & _ & I3 & P3); [lra|].
  eexists _, r1, r2. split; [|split; [rewrite F1; lra | rewrite F2; lra]].
  unfold restarts. rewrite HR, HA. cbn [app] in O1. rewrite O1. cbn [restart_loop]. fold w2s. rewrite O2. cbn [app length skipn best]. reflexivity.
Qed.

(** C98 *)
Lemma hist_read : forall E obj raw xtol ftol gtol (ok : ocall -> Prop) w pts grs w1 pts1 grs1, ohist E obj raw xtol ftol gtol ok w pts grs w1 pts1 grs1 -> ok ORead ->
  ohist E obj raw xtol ftol gtol ok w pts grs (fst (read_array E w1)) (snd (read_array E w1) :: pts1) grs1.
Proof.
  intros E obj raw xtol ftol gtol ok w pts grs w1 pts1 grs1 H K.
  apply (ohist_call E obj raw xtol ftol gtol ok w pts grs w1 pts1 grs1 ORead _ (Some (snd (read_array E w1))) H Logic.I K).
  cbn [ostep]. destruct (read_array E w1); reflexivity.
Qed.
Lemma hist_set : forall E obj raw xtol ftol gtol (ok : ocall -> Prop) w pts grs w1 pts1 grs1 v, ohist E obj raw xtol ftol gtol ok w pts grs w1 pts1 grs1 -> ok (OSet v) ->
  ohist E obj raw xtol ftol gtol ok w pts grs (set_array E raw w1 v) pts1 grs1.
Proof.
  intros E obj raw xtol ftol gtol ok w pts grs w1 pts1 grs1 v H K.
  apply (ohist_call E obj raw xtol ftol gtol ok w pts grs w1 pts1 grs1 (OSet v) _ None H Logic.I K). reflexivity.
Qed.
Lemma hist_edit : forall E obj raw xtol ftol gtol (ok : ocall -> Prop) w pts grs w1 pts1 grs1 a f, ohist E obj raw xtol ftol gtol ok w pts grs w1 pts1 grs1 -> ok (OEdit a f) -> In a pts1 ->
  ohist E obj raw xtol ftol gtol ok w pts grs (set_cell w1 a (f (cells w1 a))) pts1 grs1.
Proof.
  intros E obj raw xtol ftol gtol ok w pts grs w1 pts1 grs1 a f H K L.
  apply (ohist_call E obj raw xtol ftol gtol ok w pts grs w1 pts1 grs1 (OEdit a f) _ None H (or_introl L) K). reflexivity.
Qed.
Lemma ex_snapshot : reach2 [1; 7] w2_read [2%nat] [] /\ some_fixed E2 /\ cells w2_read 2 = [1] /\
  exists w' pts' grs', ohist E2 steep steep_grad tol6 tol6 tol5 (not_into 2) w2_read [2%nat] [] w' pts' grs' /\ params w' = [5; 7].
Proof.
  split; [exact read2|]. split; [exact E2_fixed|]. split; [reflexivity|].
  eexists _, _, _. split.
  - eapply hist_read; [|exact Logic.I]. eapply hist_set with (v := [5]); [|exact Logic.I]. apply ohist_refl.
  - reflexivity.
Qed.
Lemma snapshot_refuted : exists E obj raw p w pts grs a w' pts' grs', oreach E obj raw tol6 tol6 tol5 p w pts grs /\ shaped E raw p /\ In a pts /\
  ohist E obj raw tol6 tol6 tol5 (not_into a) w pts grs w' pts' grs' /\ cells w a = [1] /\ cells w' a = [2].
Proof.
  exists E1, steep, steep_grad, [1], w1_read, [1%nat], [], 1%nat. eexists _, _, _.
  split; [exact read1|]. split; [exact steep_shaped1|]. split; [left; reflexivity|]. split; [|split].
  - eapply hist_read; [|exact Logic.I]. eapply hist_set with (v := [2]); [|exact Logic.I]. apply ohist_refl.
  - reflexivity.
  - reflexivity.
Qed.
Lemma ex_last_set : reach2 [1; 7] w2_read [2%nat] [] /\ shaped E2 steep_grad [1; 7] /\ fits E2 [5] /\ some_fixed E2 /\
  exists w' pts' grs', ohist E2 steep steep_grad tol6 tol6 tol5 reads_and_edits (set_array E2 steep_grad w2_read [5]) [2%nat] [] w' pts' grs' /\ cells w' 3 = [9].
Proof.
  split; [exact read2|]. split; [exact steep_shaped2|]. split; [repeat constructor|]. split; [exact E2_fixed|].
  eexists _, _, _. split.
  - eapply hist_edit with (a := 3%nat) (f := fun _ => [9]); [|exact Logic.I|].
    + eapply hist_read; [|exact Logic.I]. apply ohist_refl.
    + left. reflexivity.
  - reflexivity.
Qed.
Lemma ex_last_set_reads : reach1 [1] w1_read [1%nat] [] /\ shaped E1 steep_grad [1] /\ fits E1 [5] /\
  exists w' pts' grs', ohist E1 steep steep_grad tol6 tol6 tol5 reads (set_array E1 steep_grad w1_read [5]) [1%nat] [] w' pts' grs' /\ cells w' 1 = [5].
Proof.
  split; [exact read1|]. split; [exact steep_shaped1|]. split; [repeat constructor|].
  eexists _, _, _. split.
  - eapply hist_read; [|exact Logic.I]. apply ohist_refl.
  - reflexivity.
Qed.
Lemma last_set_refuted : exists E obj raw p w pts grs v w2 pts2 grs2 w3 a, oreach E obj raw tol6 tol6 tol5 p w pts grs /\ shaped E raw p /\ fits E v /\
  ohist E obj raw tol6 tol6 tol5 reads_and_edits (set_array E raw w v) pts grs w2 pts2 grs2 /\ read_array E w2 = (w3, a) /\ v = [5] /\ params w3 = [5] /\ cells w3 a = [9].
Proof.
  exists E1, steep, steep_grad, [1], w1_read, [1%nat], [], [5]. eexists _, _, _, _, 1%nat.
  split; [exact read1|]. split; [exact steep_shaped1|]. split; [repeat constructor|]. split; [|split; [|split; [|split]]].
  - eapply hist_edit with (a := 1%nat) (f := fun _ => [9]); [|exact Logic.I|].
    + eapply hist_read; [|exact Logic.I]. apply ohist_refl.
    + left. reflexivity.
  - reflexivity.
  - reflexivity.
  - reflexivity.
  - reflexivity.
Qed.
