From Coq Require Import List Reals Bool Arith Lia Lra FunctionalExtensionality.
From Verif Require Import ScgModel ScgSpec ScgProofs OwModel OwSpec OwProofs OwRun.
Import ListNotations.
Open Scope R_scope.

Lemma has_fixes_iff : forall E, has_fixes E = true <-> some_fixed E.
Proof.
  intros E. unfold has_fixes, some_fixed. rewrite existsb_exists. split; intros (e & H1 & H2); exists e.
  - split; [assumption|]. destruct (efree e); [discriminate | reflexivity].
  - rewrite H2. auto.
Qed.
Lemma no_fixes : forall E, ~ some_fixed E -> has_fixes E = false.
Proof. intros E H. destruct (has_fixes E) eqn:Hf; [|reflexivity]. destruct H. apply has_fixes_iff. exact Hf. Qed.
Lemma put_length : forall E v p, length (put E v p) = length p.
Proof.
  induction E as [|e E IH]; intros v [|q p]; try reflexivity. simpl. destruct (efree e); simpl; rewrite IH; reflexivity.
Qed.
Lemma chained_length : forall E p g, length (chained E p g) = length g.
Proof.
  induction E as [|e E IH]; intros [|q p] [|h g]; try reflexivity. simpl. rewrite IH. reflexivity.
Qed.
Lemma pick_length : forall E a, length a = length E -> length (pick_free E a) = nfree E.
Proof.
  unfold nfree. induction E as [|e E IH]; intros [|q a] H; try discriminate; [reflexivity|]. simpl in *.
  destruct (efree e); simpl; rewrite IH; lia.
Qed.
Lemma all_free : forall E, has_fixes E = false -> nfree E = length E.
Proof.
  unfold nfree, has_fixes. induction E as [|e E IH]; intros H; [reflexivity|]. simpl in *. apply orb_false_iff in H. destruct H as [H1 H2].
  destruct (efree e); [simpl; rewrite IH; auto | discriminate].
Qed.
Lemma G_length : forall E raw p v, length p = length E -> (forall q, length (raw q) = length q) -> length (G E raw p v) = nfree E.
Proof.
  intros E raw p v Hp Hr. unfold G. destruct (has_fixes E) eqn:Hf.
  - apply pick_length. rewrite chained_length, Hr, put_length. exact Hp.
  - rewrite chained_length, Hr, put_length, (all_free _ Hf). exact Hp.
Qed.
(** Setting and reading back. *)
Lemma round : forall E v p, length p = length E -> fits E v -> pick_free E (untransformed E (put E v p)) = v.
Proof.
  unfold fits. induction E as [|e E IH]; intros v [|q p] Hl Hf; try discriminate.
  - inversion Hf. reflexivity.
  - simpl in *. destruct (efree e) eqn:He; simpl.
    + rewrite ?He. inversion Hf as [|? a ? v' H1 H2]; subst. simpl. rewrite H1. f_equal. apply IH; [lia | exact H2].
    + rewrite ?He. apply IH; [lia | exact Hf].
Qed.
Lemma pick_all : forall E a, has_fixes E = false -> length a = length E -> pick_free E a = a.
Proof.
  unfold has_fixes. induction E as [|e E IH]; intros [|q a] H Hl; try discriminate; [reflexivity|]. simpl in *.
  apply orb_false_iff in H. destruct H as [H1 H2]. destruct (efree e); [|discriminate]. rewrite IH; auto.
Qed.
Lemma untransformed_length : forall E p, length (untransformed E p) = length p.
Proof. induction E as [|e E IH]; intros [|q p]; try reflexivity. simpl. rewrite IH. reflexivity. Qed.

Section M.
Variable E : list elem.
Variable obj : vec -> R.
Variable raw : vec -> vec.
Variables xtol ftol gtol : R.

(** ** Any run: which arrays it may have changed, and what it returns *)
Section Run.
Variable p0 : vec.
Notation FF := (F E obj p0).
Definition sits (w : world) (l : loc) : Prop :=
  (garr w < nexta w)%nat /\ (lx l < nexta w)%nat /\ lx l <> garr w /\ (lgn l < nexta w)%nat /\ (forall v, put E v (params w) = put E v p0) /\
  lfold l = FF (cells w (lx l)) /\ last (llog l) 0 = lfold l /\ llog l <> [].
(** What a pass through the loop leads to. *)
Definition leads (w : world) (l : loc) (w' : world) (l' : loc) : Prop :=
  keeps E w w' /\ (lx l' = lx l \/ (nexta w <= lx l')%nat) /\ (lx l' < nexta w')%nat /\ lx l' <> garr w' /\
  hd 0 (llog l') = hd 0 (llog l) /\ last (llog l') 0 = FF (cells w' (lx l')).
Lemma F_same : forall w v, (forall v, put E v (params w) = put E v p0) -> F E obj (params w) v = FF v.
Proof. intros w v H. unfold F. rewrite H. reflexivity. Qed.
Lemma last_snoc : forall (l : list R) a, last (l ++ [a]) 0 = a.
Proof. intros l a. apply last_last. Qed.
Lemma hd_snoc : forall (l : list R) a, l <> [] -> hd 0 (l ++ [a]) = hd 0 l.
Proof. intros [|b l] a H; [contradiction | reflexivity]. Qed.
Lemma snoc_nil : forall (l : list R) a, l ++ [a] <> [].
Proof. intros [|b l] a; discriminate. Qed.

Lemma dir_leads : forall w l w' l', sits w l -> scg_directional E raw w l = Some (w', l') ->
  keeps E w w' /\ sits w' l' /\ lx l' = lx l /\ llog l' = llog l /\ lfold l' = lfold l.
Proof.
  intros w l w' l' HS H. pose proof HS as (S1 & S2 & S3 & S4 & S5 & S6 & S7 & S8). unfold scg_directional in H.
  destruct (lok l). 2:{ injection H as <- <-. split; [apply keeps_refl|]. auto. }
  destruct (rdiv sigma0 _) as [sigma|]; [|discriminate].
  destruct (grads E raw w _) as [w1 gplus] eqn:Hg. destruct (grads_keeps E raw _ _ _ _ S1 Hg) as (K & _ & _ & _).
  destruct (rdiv _ sigma) as [t|]; [|discriminate]. injection H as <- <-. cbn [lx llog lfold].
  pose proof K as (K1 & K2 & K3 & K4 & K5). split; [exact K|]. split; [|auto].
  unfold sits; cbn [lx lgn lfold llog]. rewrite K2, (K4 (lx l)) by assumption. repeat split; auto; try lia.
  intros v. rewrite K5. apply S5.
Qed.
Lemma body_leads : forall w l r, sits w l -> scg_body E obj raw xtol ftol gtol w l = Some r ->
  match r with
  | inl (w', l') => sits w' l' /\ leads w l w' l'
  | inr (w', l', _) => leads w l w' l'
  end.
Proof.
  intros w0 l0 r HS H. unfold scg_body in H.
  destruct (scg_directional E raw w0 l0) as [[w l]|] eqn:HD; [|discriminate].
  destruct (dir_leads _ _ _ _ HS HD) as (K0 & HS1 & Ex & El & Ef). pose proof HS1 as (S1 & S2 & S3 & S4 & S5 & S6 & S7 & S8).
  destruct (scg_curvature l) as [[delta b]|]; [|discriminate]. destruct (rdiv (- lmu l) delta) as [alpha|]; [|discriminate].
  set (xv := vadd (cells w (lx l)) (vscale alpha (ld l))) in *.
  destruct (alloc w xv) as [w2 xnew] eqn:Hal. destruct (alloc_keeps E _ _ _ _ Hal) as (C1 & C2 & C3 & C4 & C5 & C6). rewrite C4 in H.
  destruct (objective E obj raw w2 xv) as [w3 fnew] eqn:Hob. destruct (objective_keeps E obj raw _ _ _ _ Hob) as (D1 & D2 & D3).
  pose proof (keeps_trans _ _ _ _ C1 D1) as K3. pose proof (keeps_trans _ _ _ _ K0 K3) as K03.
  pose proof K3 as (M1 & M2 & M3 & M4 & M5). pose proof D1 as (N1 & N2 & N3 & N4 & N5). pose proof C1 as (O1 & O2 & O3 & _ & _).
  pose proof K0 as (Q1 & Q2 & _).
  assert (Hf : fnew = FF xv) by (rewrite D2, C5; apply F_same; exact S5).
  assert (Cx : cells w3 xnew = xv) by (rewrite N4; [exact C4 | lia | rewrite O2; lia]).
  assert (Cx0 : cells w3 (lx l) = cells w (lx l)) by (apply M4; assumption).
  assert (P3 : forall v, put E v (params w3) = put E v p0) by (intros v; rewrite M5; apply S5).
  destruct (rdiv (2 * _) _) as [Delta|]; [|discriminate].
  destruct (Rle_dec 0 Delta).
  - assert (LE : forall l', lx l' = xnew -> llog l' = llog l ++ [fnew] -> leads w0 l0 w3 l').
    { intros l' E1 E2. unfold leads. rewrite E1, E2, Cx, last_snoc, hd_snoc, El, M2 by assumption.
      split; [exact K03|]. split; [right; lia|]. split; [lia|]. split; [lia|]. auto. }
    destruct (Rlt_dec _ ftol); [injection H as <-; apply LE; reflexivity|].
    destruct (Rlt_dec _ xtol); [injection H as <-; apply LE; reflexivity|].
    rewrite Cx in H. destruct (grads E raw w3 xv) as [w4 gn] eqn:Hgr.
    assert (Hg3 : (garr w3 < nexta w3)%nat) by (rewrite M2; lia).
    destruct (grads_keeps E raw _ _ _ _ Hg3 Hgr) as (U1 & Uc & Un & _). pose proof U1 as (R1 & R2 & R3 & R4 & R5).
    assert (Cx4 : cells w4 xnew = xv) by (rewrite R4; [exact Cx | lia | rewrite M2; lia]).
    assert (LE4 : forall l', lx l' = xnew -> llog l' = llog l ++ [fnew] -> leads w0 l0 w4 l').
    { intros l' E1 E2. unfold leads. rewrite E1, E2, Cx4, last_snoc, hd_snoc, El, R2, M2 by assumption.
      split; [exact (keeps_trans _ _ _ _ K03 U1)|]. split; [right; lia|]. split; [lia|]. split; [lia|]. auto. }
    assert (SE4 : forall l', lx l' = xnew -> llog l' = llog l ++ [fnew] -> lgn l' = gn -> lfold l' = fnew -> sits w4 l').
    { intros l' E1 E2 E3 E4. unfold sits. rewrite E1, E2, E3, E4, Cx4, last_snoc, R2, M2.
      split; [lia|]. split; [lia|]. split; [lia|]. split; [exact Un|]. split; [intros v; rewrite R5; apply P3|].
      split; [exact Hf|]. split; [reflexivity | apply snoc_nil]. }
    destruct (Rle_dec _ gtol); [injection H as <-; apply LE4; reflexivity|].
    destruct (Nat.eqb _ _); [injection H as <-; split; [apply SE4 | apply LE4]; reflexivity|].
    destruct (rdiv (dot _ _) (lmu l)) as [Gam|]; [|discriminate].
    injection H as <-; split; [apply SE4 | apply LE4]; reflexivity.
  - assert (LE : forall l', lx l' = lx l -> llog l' = llog l ++ [lfold l] -> leads w0 l0 w3 l').
    { intros l' E1 E2. unfold leads. rewrite E1, E2, Cx0, last_snoc, hd_snoc, El, M2 by assumption.
      split; [exact K03|]. split; [left; exact Ex|]. split; [lia|]. split; [assumption|]. auto. }
    assert (SE : forall l', lx l' = lx l -> llog l' = llog l ++ [lfold l] -> lgn l' = lgn l -> lfold l' = lfold l -> sits w3 l').
    { intros l' E1 E2 E3 E4. unfold sits. rewrite E1, E2, E3, E4, Cx0, last_snoc, M2.
      split; [lia|]. split; [lia|]. split; [assumption|]. split; [lia|]. split; [exact P3|].
      split; [exact S6|]. split; [reflexivity | apply snoc_nil]. }
    destruct (Nat.eqb _ _); injection H as <-; (split; [apply SE | apply LE]; reflexivity).
Qed.
Lemma loop_leads : forall n w l w' l' stat, sits w l -> scg_loop E obj raw xtol ftol gtol n w l = Some (w', l', stat) -> leads w l w' l'.
Proof.
  induction n as [|n IH]; intros w l w' l' stat HS H; cbn [scg_loop] in H.
  - injection H as <- <- <-. destruct HS as (S1 & S2 & S3 & S4 & S5 & S6 & S7 & S8). unfold leads.
    split; [apply keeps_refl|]. rewrite S7. auto.
  - destruct (scg_body E obj raw xtol ftol gtol w l) as [r|] eqn:HB; [|discriminate]. pose proof (body_leads w l r HS HB) as HL.
    destruct r as [[w1 l1]|[[w1 l1] st1]].
    + destruct HL as [HS1 (A1 & A2 & A3 & A4 & A5 & A6)]. destruct (IH _ _ _ _ _ HS1 H) as (B1 & B2 & B3 & B4 & B5 & B6).
      unfold leads. split; [exact (keeps_trans _ _ _ _ A1 B1)|]. pose proof A1 as (N1 & _).
      split; [destruct B2 as [B2|B2]; [rewrite B2; exact A2 | right; lia]|]. rewrite B5. auto.
    + injection H as <- <- _. exact HL.
Qed.
End Run.

Lemma scg_leads : forall w x n w' l stat, (garr w < nexta w)%nat -> (x < nexta w)%nat -> x <> garr w ->
  scg E obj raw xtol ftol gtol w x n = Some (w', l, stat) ->
  keeps E w w' /\ (lx l = x \/ (nexta w <= lx l)%nat) /\ (lx l < nexta w')%nat /\ lx l <> garr w' /\
  hd 0 (llog l) = F E obj (params w) (cells w x) /\ last (llog l) 0 = F E obj (params w) (cells w' (lx l)).
Proof.
  intros w x n w' l stat Hg Hx Hn H. unfold scg in H.
  destruct (start_places E obj raw w x Hg Hx Hn) as (w1 & l1 & H1 & Hp & El & Ex & Ef & Eg & Ego & Eq). rewrite H1 in H.
  assert (HS : sits (params w) w1 l1).
  { destruct Hp as ((K1 & K2 & K3 & K4 & K5) & P2 & P3 & P4 & P5 & _). unfold sits. repeat split; auto.
    - rewrite El, Ex. exact Ef.
    - rewrite Eq. reflexivity.
    - rewrite Eq. discriminate. }
  destruct (loop_leads (params w) n w1 l1 w' l stat HS H) as (A1 & A2 & A3 & A4 & A5 & A6).
  destruct Hp as (K & _). pose proof K as (K1 & _). split; [exact (keeps_trans _ _ _ _ K A1)|].
  split; [destruct A2 as [A2|A2]; [left; congruence | right; lia]|]. split; [exact A3|]. split; [exact A4|].
  split; [|exact A6]. rewrite A5, Eq. cbn. exact Ef.
Qed.

(** ** Reading the optimizer array *)
Lemma read_ok : forall w w' a, wf w -> read_array E w = (w', a) ->
  wf w' /\ (nexta w <= nexta w')%nat /\ garr w' = garr w /\ params w' = params w /\ (a < nexta w')%nat /\ a <> garr w' /\ ofresh w' = true /\
  (exists c, ocopy w' = Some c /\ (ocopy w = None -> (nexta w <= c)%nat) /\ (forall c', ocopy w = Some c' -> c = c') /\
     (forall b, (b < nexta w)%nat -> b <> c -> cells w' b = cells w b) /\
     (if has_fixes E then (nexta w <= a)%nat /\ a <> c /\ cells w' a = pick_free E (cells w' c) else a = c) /\
     (ofresh w = false -> cells w' c = untransformed E (params w)) /\ (ofresh w = true -> ocopy w = Some c -> cells w' c = cells w c)).
Proof.
  intros w w' a (W1 & W2) H. unfold read_array in H.
  set (wc := match ocopy w with
             | Some c => (w, c)
             | None => let (w1, c) := alloc w [] in (mkW (cells w1) (nexta w1) (params w1) (Some c) (ofresh w1) (garr w1) (made w1), c)
             end) in *.
  assert (HC : exists w1 c, wc = (w1, c) /\ (nexta w <= nexta w1)%nat /\ garr w1 = garr w /\ params w1 = params w /\ ocopy w1 = Some c /\ ofresh w1 = ofresh w /\
     (c < nexta w1)%nat /\ c <> garr w /\ (ocopy w = None -> (nexta w <= c)%nat) /\ (forall c', ocopy w = Some c' -> c = c' /\ w1 = w) /\
     (forall b, (b < nexta w)%nat -> cells w1 b = cells w b)).
  { unfold wc. destruct (ocopy w) as [c|] eqn:Hc.
    - exists w, c. destruct W2. repeat split; auto; try discriminate; congruence.
    - unfold alloc. eexists _, _. split; [reflexivity|]. cbn. repeat split; auto; try lia; try discriminate.
      intros b Hb. destruct (Nat.eqb_spec b (nexta w)); [lia | reflexivity]. }
  destruct HC as (w1 & c & EC & C1 & C2 & C3 & C4 & C5 & C6 & C7 & C8 & C9 & C10). rewrite EC in H. clearbody wc.
  set (w2 := if ofresh w1 then w1 else _) in *.
  assert (H2 : nexta w2 = nexta w1 /\ garr w2 = garr w /\ params w2 = params w /\ ocopy w2 = Some c /\ ofresh w2 = true /\
     (forall b, b <> c -> cells w2 b = cells w1 b) /\ (ofresh w = false -> cells w2 c = untransformed E (params w)) /\ (ofresh w = true -> cells w2 c = cells w1 c)).
  { unfold w2. rewrite C5. destruct (ofresh w) eqn:Hfr.
    - repeat split; auto; try discriminate.
    - unfold set_cell. cbn. rewrite C3, Nat.eqb_refl. repeat split; auto; try discriminate.
      intros b Hb. destruct (Nat.eqb_spec b c); [contradiction | reflexivity]. }
  clearbody w2. destruct H2 as (D1 & D2 & D3 & D4 & D5 & D6 & D7 & D8).
  destruct (has_fixes E) eqn:Hf.
  - destruct (alloc_keeps E _ _ _ _ H) as (A1 & A2 & A3 & A4 & A5 & A6). pose proof A1 as (B1 & B2 & B3 & B4 & B5).
    assert (F1 : ofresh w' = ofresh w2) by (unfold alloc in H; injection H as <- <-; reflexivity).
    split; [unfold wf; rewrite B2, B3, D2, D4; split; [lia|]; split; [lia | exact C7]|].
    split; [lia|]. split; [congruence|]. split; [congruence|]. split; [lia|]. split; [rewrite B2, D2; lia|]. split; [congruence|].
    exists c. split; [congruence|]. split; [exact C8|]. split; [intros c' Hc'; apply C9; exact Hc'|].
    split; [intros b Hb Hn; rewrite A6 by lia; rewrite D6 by assumption; apply C10; exact Hb|].
    split; [|split].
    + split; [lia|]. split; [lia|]. rewrite A4. rewrite (A6 c) by lia. reflexivity.
    + intros Hfr. rewrite (A6 c) by lia. auto.
    + intros Hfr Hc. rewrite (A6 c) by lia. rewrite D8 by assumption. destruct (C9 _ Hc) as [_ ->]. reflexivity.
  - injection H as <- <-.
    split; [unfold wf; rewrite D2, D4; split; [lia|]; split; [lia | exact C7]|].
    split; [lia|]. split; [congruence|]. split; [congruence|]. split; [lia|]. split; [congruence|]. split; [assumption|].
    exists c. split; [congruence|]. split; [exact C8|]. split; [intros c' Hc'; apply C9; exact Hc'|].
    split; [intros b Hb Hn; rewrite D6 by assumption; apply C10; exact Hb|].
    split; [reflexivity|]. split; [auto|]. intros Hfr Hc. rewrite D8 by assumption. destruct (C9 _ Hc) as [_ ->]. reflexivity.
Qed.

(** ** A run leaves the optimizer copy out of date *)
Definition k2 (w w' : world) : Prop := (ofresh w = false -> ofresh w' = false) /\ length (params w') = length (params w).
Lemma k2_trans : forall a b c, k2 a b -> k2 b c -> k2 a c.
Proof. intros a b c (H1 & H2) (H3 & H4). split; [auto | congruence]. Qed.
Lemma k2_alloc : forall w v w' a, alloc w v = (w', a) -> k2 w w'.
Proof. intros w v w' a H. unfold alloc in H. injection H as <- <-. split; auto. Qed.
Lemma k2_objective : forall w v w' r, objective E obj raw w v = (w', r) -> k2 w w' /\ ofresh w' = false.
Proof. intros w v w' r H. unfold objective in H. injection H as <- <-. split; [split; [reflexivity | apply put_length] | reflexivity]. Qed.
Lemma k2_grads : forall w v w' a, grads E raw w v = (w', a) -> k2 w w' /\ ofresh w' = false.
Proof.
  intros w v w' a H. unfold grads in H. destruct (has_fixes E).
  - unfold alloc in H. injection H as <- <-. split; [split; [reflexivity | apply put_length] | reflexivity].
  - injection H as <- <-. split; [split; [reflexivity | apply put_length] | reflexivity].
Qed.
Lemma k2_dir : forall w l w' l', scg_directional E raw w l = Some (w', l') -> k2 w w'.
Proof.
  intros w l w' l' H. unfold scg_directional in H. destruct (lok l); [|injection H as <- <-; split; auto].
  destruct (rdiv sigma0 _); [|discriminate]. destruct (grads E raw w _) as [w1 g] eqn:Hg. destruct (rdiv _ r); [|discriminate].
  injection H as <- _. exact (proj1 (k2_grads _ _ _ _ Hg)).
Qed.
Lemma k2_body : forall w l r, scg_body E obj raw xtol ftol gtol w l = Some r ->
  match r with inl (w', _) => k2 w w' | inr (w', _, _) => k2 w w' end.
Proof.
  intros w l r H. unfold scg_body in H. destruct (scg_directional E raw w l) as [[w1 l1]|] eqn:HD; [|discriminate].
  apply k2_dir in HD. destruct (scg_curvature l1) as [[delta b]|]; [|discriminate]. destruct (rdiv (- lmu l1) delta) as [alpha|]; [|discriminate].
  destruct (alloc w1 _) as [w2 xnew] eqn:Hal. apply k2_alloc in Hal.
  destruct (objective E obj raw w2 _) as [w3 fnew] eqn:Hob. apply k2_objective in Hob. destruct Hob as [Hob _].
  pose proof (k2_trans _ _ _ HD (k2_trans _ _ _ Hal Hob)) as K3.
  destruct (rdiv (2 * _) _) as [Delta|]; [|discriminate]. destruct (Rle_dec 0 Delta).
  - destruct (Rlt_dec _ ftol); [injection H as <-; exact K3|]. destruct (Rlt_dec _ xtol); [injection H as <-; exact K3|].
    destruct (grads E raw w3 _) as [w4 gn] eqn:Hgr. apply k2_grads in Hgr. destruct Hgr as [Hgr _].
    pose proof (k2_trans _ _ _ K3 Hgr) as K4. destruct (Rle_dec _ gtol); [injection H as <-; exact K4|].
    destruct (Nat.eqb _ _); [injection H as <-; exact K4|]. destruct (rdiv _ (lmu l1)); [|discriminate]. injection H as <-. exact K4.
  - destruct (Nat.eqb _ _); injection H as <-; exact K3.
Qed.
Lemma k2_loop : forall n w l w' l' stat, scg_loop E obj raw xtol ftol gtol n w l = Some (w', l', stat) -> k2 w w'.
Proof.
  induction n as [|n IH]; intros w l w' l' stat H; cbn [scg_loop] in H; [injection H as <- _ _; split; auto|].
  destruct (scg_body E obj raw xtol ftol gtol w l) as [r|] eqn:HB; [|discriminate]. apply k2_body in HB.
  destruct r as [[w1 l1]|[[w1 l1] st1]]; [exact (k2_trans _ _ _ HB (IH _ _ _ _ _ H))|]. injection H as <- _ _. exact HB.
Qed.
Lemma k2_scg : forall w x n w' l stat, scg E obj raw xtol ftol gtol w x n = Some (w', l, stat) -> ofresh w' = false /\ length (params w') = length (params w).
Proof.
  intros w x n w' l stat H. unfold scg, scg_start in H. destruct (objective E obj raw w _) as [w1 f] eqn:H1. destruct (grads E raw w1 _) as [w2 g] eqn:H2.
  destruct (alloc w2 _) as [w3 go] eqn:H3. apply k2_loop in H. apply k2_objective in H1. apply k2_grads in H2. apply k2_alloc in H3.
  destruct H1 as [K1 O1]. destruct H2 as [K2 O2]. pose proof (k2_trans _ _ _ (k2_trans _ _ _ K1 K2) (k2_trans _ _ _ H3 H)) as [_ KL].
  split; [|exact KL]. apply (k2_trans _ _ _ H3 H). exact O2.
Qed.

(** ** States of a model *)
Definition reach_inv (n : nat) (w : world) (pts grs : list nat) : Prop :=
  wf w /\ length (params w) = n /\ (forall a, In a pts -> (a < nexta w)%nat /\ a <> garr w) /\ (forall a, In a grs -> (a < nexta w)%nat /\ Some a <> ocopy w) /\
  (ofresh w = true -> ocopy w <> None) /\
  (has_fixes E = true -> (forall a, In a pts -> Some a <> ocopy w) /\
     (ofresh w = true -> forall c, ocopy w = Some c -> cells w c = untransformed E (params w))).
Lemma init_inv : forall p, reach_inv (length p) (world_init p) [] [].
Proof.
  intros p. unfold reach_inv, world_init, wf. cbn. split; [split; [lia | exact Logic.I]|]. split; [reflexivity|].
  split; [intros a []|]. split; [intros a []|]. split; [discriminate|]. intros _. split; [intros a [] | discriminate].
Qed.
Lemma wf_copy : forall w c, wf w -> ocopy w = Some c -> (c < nexta w)%nat /\ c <> garr w.
Proof. intros w c (H1 & H2) Hc. rewrite Hc in H2. exact H2. Qed.
(** A world that [keeps] and whose copy is out of date. *)
Lemma keeps_inv : forall n w w' pts grs, reach_inv n w pts grs -> keeps E w w' -> ofresh w' = false -> length (params w') = length (params w) ->
  reach_inv n w' pts grs.
Proof.
  intros n w w' pts grs (A1 & A2 & A3 & A4 & A5 & A6) K Hf Hl. pose proof K as (K1 & K2 & K3 & K4 & K5).
  unfold reach_inv. split; [exact (keeps_wf E _ _ A1 K)|]. split; [congruence|]. rewrite K2, K3.
  split; [intros a Ha; destruct (A3 a Ha); split; [lia | assumption]|]. split; [intros a Ha; destruct (A4 a Ha); split; [lia | assumption]|].
  split; [congruence|]. intros Hx. destruct (A6 Hx) as [B1 B2]. split; [exact B1 | congruence].
Qed.
Lemma step_inv : forall n w pts grs c w' r, reach_inv n w pts grs -> allowed pts grs c -> ostep E obj raw xtol ftol gtol c w = Some (w', r) ->
  reach_inv n w' (points c r pts) (gradients c r grs).
Proof.
  intros n w pts grs c w' r HI Ha H. pose proof HI as (A1 & A2 & A3 & A4 & A5 & A6). destruct c as [|v|a g|v|v|x k]; cbn [ostep points gradients allowed] in *.
  - destruct (read_array E w) as [w1 a] eqn:HR. injection H as <- <-.
    destruct (read_ok _ _ _ A1 HR) as (B1 & B2 & B3 & B4 & B5 & B6 & B7 & c & C1 & C2 & C3 & C4 & C5 & C6 & C7).
    assert (NC : forall b, (b < nexta w)%nat -> Some b <> ocopy w -> Some b <> ocopy w1).
    { intros b Hb Hn. rewrite C1. intros [= ->]. destruct (ocopy w) as [c'|] eqn:Hc; [rewrite (C3 _ eq_refl) in Hn; congruence|].
      specialize (C2 eq_refl). lia. }
    unfold reach_inv. split; [exact B1|]. split; [congruence|]. split; [|split; [|split]].
    + intros b [<-|Hb]; [auto|]. destruct (A3 b Hb). rewrite B3. split; [lia | assumption].
    + intros b Hb. destruct (A4 b Hb). split; [lia | apply NC; assumption].
    + rewrite C1. discriminate.
    + intros Hx. destruct (A6 Hx) as [D1 D2]. rewrite Hx in C5. destruct C5 as (F1 & F2 & F3). split.
      * intros b [<-|Hb]; [rewrite C1; congruence|]. apply NC; [apply A3; exact Hb | apply D1; exact Hb].
      * intros _ c' Hc'. rewrite C1 in Hc'. injection Hc' as <-. rewrite B4. destruct (ofresh w) eqn:Hfr; [|auto].
        specialize (A5 eq_refl). destruct (ocopy w) as [c'|] eqn:Hc; [|contradiction]. pose proof (C3 _ eq_refl) as <-. rewrite C7 by auto. auto.
  - injection H as <- <-. apply (keeps_inv n w); [exact HI | apply set_keeps | reflexivity | apply put_length].
  - injection H as <- <-. unfold reach_inv, wf, set_cell. cbn. split; [exact A1|]. split; [exact A2|]. split; [exact A3|]. split; [exact A4|]. split; [exact A5|].
    intros Hx. destruct (A6 Hx) as [D1 D2]. split; [exact D1|]. intros Hfr c Hc. destruct (Nat.eqb_spec c a) as [->|]; [|apply D2; assumption].
    destruct Ha as [Ha|Ha]; [destruct (D1 a Ha); congruence|]. destruct (A4 a Ha). congruence.
  - destruct (objective E obj raw w v) as [w1 f] eqn:Ho. injection H as <- <-. cbn [fst].
    destruct (objective_keeps E obj raw _ _ _ _ Ho) as (K & _ & _). destruct (k2_objective _ _ _ _ Ho) as [[_ KL] KO]. exact (keeps_inv n w w1 pts grs HI K KO KL).
  - destruct (grads E raw w v) as [w1 a] eqn:Hg. injection H as <- <-.
    destruct (grads_keeps E raw _ _ _ _ (proj1 A1) Hg) as (K & _ & Kn & Kf). destruct (k2_grads _ _ _ _ Hg) as [[_ KL] KO].
    pose proof (keeps_inv n w w1 pts grs HI K KO KL) as (I1 & I2 & I3 & I4 & I5 & I6).
    unfold reach_inv. split; [exact I1|]. split; [exact I2|]. split; [exact I3|]. split; [|split; [exact I5 | exact I6]].
    intros b [<-|Hb]; [|apply I4; exact Hb]. split; [exact Kn|]. intros Hc. symmetry in Hc. destruct (wf_copy _ _ I1 Hc) as [Hc1 Hc2].
    destruct K as (_ & K2 & K3 & _). rewrite K3 in Hc. destruct (wf_copy _ _ A1 Hc) as [Hc3 Hc4]. destruct (has_fixes E); [lia|]. congruence.
  - destruct (scg E obj raw xtol ftol gtol w x k) as [[[w1 l] stat]|] eqn:Hs; [|discriminate]. injection H as <- <-.
    destruct (A3 x Ha) as [X1 X2]. destruct (scg_leads _ _ _ _ _ _ (proj1 A1) X1 X2 Hs) as (K & L1 & L2 & L3 & _).
    destruct (k2_scg _ _ _ _ _ _ Hs) as [KO KL]. pose proof (keeps_inv n w w1 pts grs HI K KO KL) as (I1 & I2 & I3 & I4 & I5 & I6).
    unfold reach_inv. split; [exact I1|]. split; [exact I2|]. split; [intros b [<-|Hb]; [auto | apply I3; exact Hb]|]. split; [exact I4|]. split; [exact I5|].
    intros Hx. destruct (I6 Hx) as [D1 D2]. split; [|exact D2]. intros b [<-|Hb]; [|apply D1; exact Hb].
    destruct L1 as [->|L1]; [apply D1; exact Ha|]. intros Hc. symmetry in Hc. destruct K as (_ & _ & K3 & _). rewrite K3 in Hc.
    destruct (wf_copy _ _ A1 Hc). lia.
Qed.
Lemma reach_ok : forall p w pts grs, oreach E obj raw xtol ftol gtol p w pts grs -> reach_inv (length p) w pts grs.
Proof. intros p w pts grs H. induction H; [apply init_inv | eapply step_inv; eassumption]. Qed.
Lemma hist_ok : forall ok n w pts grs w' pts' grs', reach_inv n w pts grs -> ohist E obj raw xtol ftol gtol ok w pts grs w' pts' grs' -> reach_inv n w' pts' grs'.
Proof. intros ok n w pts grs w' pts' grs' HI H. induction H; [exact HI | eapply step_inv; eassumption]. Qed.

(** ** C98 *)
(** An array that is neither the gradient array nor the optimizer copy is changed by writing into it only. *)
Lemma step_same : forall n w pts grs c w' r a, reach_inv n w pts grs -> allowed pts grs c -> ostep E obj raw xtol ftol gtol c w = Some (w', r) ->
  (a < nexta w)%nat -> a <> garr w -> Some a <> ocopy w -> not_into a c ->
  cells w' a = cells w a /\ (a < nexta w')%nat /\ a <> garr w' /\ Some a <> ocopy w'.
Proof.
  intros n w pts grs c w' r a HI Hal H Ha Hg Hc Hi. pose proof HI as (A1 & A2 & A3 & A4 & A5 & A6).
  assert (KK : forall w1, keeps E w w1 -> cells w1 a = cells w a /\ (a < nexta w1)%nat /\ a <> garr w1 /\ Some a <> ocopy w1).
  { intros w1 (K1 & K2 & K3 & K4 & K5). rewrite K2, K3. split; [apply K4; assumption|]. split; [lia|]. auto. }
  destruct c as [|v|b g|v|v|x k]; cbn [ostep not_into allowed] in *.
  - destruct (read_array E w) as [w1 b] eqn:HR. injection H as <- _.
    destruct (read_ok _ _ _ A1 HR) as (B1 & B2 & B3 & B4 & B5 & B6 & B7 & c & C1 & C2 & C3 & C4 & C5 & C6 & C7).
    assert (Hac : a <> c). { intros ->. destruct (ocopy w) as [c'|] eqn:Hw; [rewrite (C3 _ eq_refl) in Hc; congruence|]. specialize (C2 eq_refl). lia. }
    split; [apply C4; assumption|]. split; [lia|]. split; [congruence|]. rewrite C1. congruence.
  - injection H as <- _. apply KK. apply set_keeps.
  - injection H as <- _. unfold set_cell. cbn. destruct (Nat.eqb_spec a b); [congruence|]. auto.
  - destruct (objective E obj raw w v) as [w1 f] eqn:Ho. injection H as <- _. apply KK. apply (objective_keeps E obj raw _ _ _ _ Ho).
  - destruct (grads E raw w v) as [w1 b] eqn:Hgr. injection H as <- _. apply KK. apply (grads_keeps E raw _ _ _ _ (proj1 A1) Hgr).
  - destruct (scg E obj raw xtol ftol gtol w x k) as [[[w1 l] stat]|] eqn:Hs; [|discriminate]. injection H as <- _.
    destruct (A3 x Hal) as [X1 X2]. apply KK. apply (scg_leads _ _ _ _ _ _ (proj1 A1) X1 X2 Hs).
Qed.
Lemma hist_same : forall n w pts grs w' pts' grs' a, reach_inv n w pts grs -> (a < nexta w)%nat -> a <> garr w -> Some a <> ocopy w ->
  ohist E obj raw xtol ftol gtol (not_into a) w pts grs w' pts' grs' -> cells w' a = cells w a /\ (a < nexta w')%nat /\ a <> garr w' /\ Some a <> ocopy w'.
Proof.
  intros n w pts grs w' pts' grs' a HI Ha Hg Hc H. induction H as [|w1 pts1 grs1 c w2 r H IH Hal Hok Hs]; [auto|].
  destruct IH as (I1 & I2 & I3 & I4). pose proof (hist_ok _ _ _ _ _ _ _ _ HI H) as HI1.
  destruct (step_same n w1 pts1 grs1 c w2 r a HI1 Hal Hs I2 I3 I4 Hok) as (J1 & J2 & J3 & J4). rewrite J1. auto.
Qed.
End M.
