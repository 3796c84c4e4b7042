(** Copies and views of observable arrays. *)
From Coq Require Import List Arith Bool Lia.
From Verif Require Import ArrModel ArrSpec ArrProofs ArrProofs2.
Import ListNotations.

Section P.
Context {V : Type}.
Implicit Types s : @state V.

(** ** Copies *)
(** Everything that existed in [s0] is as it was; what was made since lives in memory of its own and
    ([st]) has observers of its own. *)
Definition apart (st : bool) s0 s : Prop :=
  next s0 <= next s /\ nbuf s0 <= nbuf s /\
  (forall y, y < next s0 -> arrs s y = arrs s0 y) /\
  (forall b q, b < nbuf s0 -> mem s b q = mem s0 b q) /\
  (forall y, next s0 <= y < next s -> nbuf s0 <= buf (arrs s y)) /\
  (exists new, log s = log s0 ++ new /\ Forall (fun n => next s0 <= from n) new) /\
  (st = true -> nlist s0 <= nlist s /\ (forall l, l < nlist s0 -> lists s l = lists s0 l) /\
     (forall y, next s0 <= y < next s -> obs (arrs s y) = true -> nlist s0 <= olist (arrs s y))).

Section Apart.
Variables (st : bool) (s0 : @state V).
Lemma ap_write : forall s b ps vs, apart st s0 s -> nbuf s0 <= b -> apart st s0 (with_mem s (write (mem s) b ps vs)).
Proof.
  intros s b ps vs (H1 & H2 & H3 & H4 & H5 & H6 & H7) Hb. split; [exact H1|]. split; [exact H2|]. split; [exact H3|]. split; [|auto].
  intros b' q Hlt. cbn. rewrite write_other by lia. apply H4. exact Hlt.
Qed.
Lemma ap_notify : forall s x, apart st s0 s -> next s0 <= x -> apart st s0 (notify s x).
Proof.
  intros s x (H1 & H2 & H3 & H4 & H5 & [new [H6 H6']] & H7) Hx. destruct (notify_keeps s x) as (K1 & K2 & K3 & K4 & K5 & K6).
  unfold apart. rewrite K1, K2, K3, K4, K5, K6.
  split; [exact H1|]. split; [exact H2|]. split; [exact H3|]. split; [exact H4|]. split; [exact H5|]. split; [|exact H7].
  exists (new ++ skipn (length (log s)) (log (notify s x))). split.
  - rewrite (notify_log s x) at 1. rewrite H6 at 1. rewrite <- app_assoc. reflexivity.
  - apply Forall_app. split; [exact H6'|].
    destruct (notify_tells s s x (mem s) ltac:(auto)) as [_ F]. eapply Forall_impl; [|exact F]. cbn. intros n [-> _]. exact Hx.
Qed.
Lemma ap_new : forall s a, apart st s0 s -> nbuf s0 <= buf a -> (st = true -> obs a = true -> nlist s0 <= olist a) -> apart st s0 (new_arr s a).
Proof.
  intros s a (H1 & H2 & H3 & H4 & H5 & H6 & H7) Hb Ho. split; [cbn; lia|]. split; [exact H2|]. split; [|split; [exact H4|split]].
  - intros y Hy. cbn. rewrite upd_other by lia. auto.
  - intros y Hy. cbn in *. unfold upd. destruct (Nat.eqb_spec y (next s)); [exact Hb|]. apply H5. lia.
  - split; [exact H6|]. intros E. destruct (H7 E) as [A [B C]]. split; [exact A|]. split; [exact B|].
    intros y Hy. cbn in *. unfold upd. destruct (Nat.eqb_spec y (next s)); [apply Ho; exact E|]. apply C. lia.
Qed.
Lemma ap_copy : forall s o l u vs, apart st s0 s -> (st = true -> o = true -> nlist s0 <= l) -> apart st s0 (new_copy s o l u vs).
Proof.
  intros s o l u vs H Ho. pose proof H as (H1 & H2 & _).
  pose proof (ap_new s (mkA o (nbuf s) (seq 0 (length vs)) l u) H H2 Ho) as (A1 & A2 & A3 & A4 & A5 & A6 & A7).
  unfold new_copy. split; [exact A1|]. split; [cbn; lia|]. split; [exact A3|]. split; [|split; [exact A5|split; [exact A6|exact A7]]].
  intros b q Hlt. cbn [mem]. rewrite write_other by lia. apply A4. exact Hlt.
Qed.
Lemma ap_list : forall s, apart st s0 s -> apart st s0 (new_list s).
Proof.
  intros s (H1 & H2 & H3 & H4 & H5 & H6 & H7). split; [exact H1|]. split; [exact H2|]. split; [exact H3|]. split; [exact H4|]. split; [exact H5|].
  split; [exact H6|]. intros E. destruct (H7 E) as [A [B C]]. cbn. split; [lia|]. split; [|exact C].
  intros l Hl. rewrite upd_other by lia. auto.
Qed.
Lemma ap_set : forall s x a, apart st s0 s -> next s0 <= x -> nbuf s0 <= buf a -> (st = true -> obs a = true -> nlist s0 <= olist a) -> apart st s0 (set_arr s x a).
Proof.
  intros s x a (H1 & H2 & H3 & H4 & H5 & H6 & H7) Hx Hb Ho. split; [exact H1|]. split; [exact H2|]. split; [|split; [exact H4|split]].
  - intros y Hy. cbn. rewrite upd_other by lia. auto.
  - intros y Hy. cbn in *. unfold upd. destruct (Nat.eqb_spec y x); [exact Hb|]. apply H5. lia.
  - split; [exact H6|]. intros E. destruct (H7 E) as [A [B C]]. split; [exact A|]. split; [exact B|].
    intros y Hy. cbn in *. unfold upd. destruct (Nat.eqb_spec y x); [apply Ho; exact E|]. apply C. lia.
Qed.
Lemma ap_lists : forall s x cs, apart st s0 s -> next s0 <= x < next s -> obs (arrs s x) = true -> apart st s0 (set_list s (olist (arrs s x)) cs).
Proof.
  intros s x cs (H1 & H2 & H3 & H4 & H5 & H6 & H7) Hx Ho. split; [exact H1|]. split; [exact H2|]. split; [exact H3|]. split; [exact H4|]. split; [exact H5|].
  split; [exact H6|]. intros E. destruct (H7 E) as [A [B C]]. cbn. split; [lia|]. split; [|exact C].
  intros l Hl. rewrite upd_other; [auto|]. specialize (C x Hx Ho). lia.
Qed.
Lemma ap_own : forall s x, apart st s0 s -> next s0 <= x < next s ->
  nbuf s0 <= buf (arrs s x) /\ (st = true -> obs (arrs s x) = true -> nlist s0 <= olist (arrs s x)).
Proof. intros s x (H1 & H2 & H3 & H4 & H5 & H6 & H7) Hx. split; [auto|]. intros E. apply H7; auto. Qed.
Lemma ap_slice : forall s x sel, apart st s0 s -> next s0 <= x < next s -> apart st s0 (fst (getslice s x sel)).
Proof.
  intros s x sel H Hx. destruct (ap_own s x H Hx) as [B O]. unfold getslice. destruct (in_bounds _ _ _); [|exact H]. apply ap_new; auto.
Qed.
Lemma ap_pick : forall s x sel, apart st s0 s -> next s0 <= x < next s -> apart st s0 (fst (getpick s x sel)).
Proof.
  intros s x sel H Hx. destruct (ap_own s x H Hx) as [B O]. unfold getpick. destruct (in_bounds _ _ _); [|exact H]. apply ap_copy; auto.
Qed.
Lemma ap_setitem : forall s x sel vs, apart st s0 s -> next s0 <= x < next s -> apart st s0 (fst (setitem s x sel vs)).
Proof.
  intros s x sel vs H Hx. destruct (ap_own s x H Hx) as [B O]. unfold setitem. destruct (in_bounds _ _ _); [|exact H].
  destruct (Nat.eqb _ _); [|exact H]. cbn [negb fst]. destruct (obs _); [apply ap_notify; [|lia]|]; apply ap_write; auto.
Qed.
Lemma ap_iop : forall s x g, apart st s0 s -> next s0 <= x < next s -> apart st s0 (iop s x g).
Proof.
  intros s x g H Hx. destruct (ap_own s x H Hx) as [B O]. unfold iop. destruct (obs _); [|apply ap_write; auto].
  apply ap_new; [apply ap_notify; [|lia]; apply ap_write; auto | exact B | discriminate].
Qed.
Lemma ap_augment : forall s1 e x sel g t, apart st s0 s1 -> (e = None -> next s0 <= t < next s1) -> next s0 <= x < next s1 ->
  apart st s0 (fst (augment (s1, e) x sel g t)).
Proof.
  intros s1 [e|] x sel g t H Ht Hx; [exact H|]. cbn [augment]. apply ap_setitem; [apply ap_iop; auto|].
  destruct (iop_arrs s1 t g x ltac:(lia)) as [_ E]. lia.
Qed.
Lemma ap_exec : forall s k, apart st s0 s -> legal s k -> on_new (next s0) s k -> apart st s0 (fst (exec k s)).
Proof.
  intros s k H [Hl Hd] Hn. pose proof H as (H1 & H2 & _).
  destruct k as [vs|x|x sel|x sel|x|x sel vs|x g|x sel g|x sel g|x vs|x|x b|x d|x d]; unfold on_new in Hn; cbn [target] in Hl, Hn; cbn [exec];
    try (destruct (ap_own s x H (conj Hn Hl)) as [B O]).
  - apply ap_copy; [exact H | discriminate].
  - destruct (obs (arrs s x)) eqn:E; cbn [fst].
    + apply ap_set; [apply ap_list; exact H | exact Hn | exact B|]. intros E1 _. apply H; exact E1.
    + destruct (contiguous _); cbn [fst].
      * apply ap_new; [apply ap_list; exact H | exact B|]. intros E1 _. apply H; exact E1.
      * apply ap_copy; [apply ap_list; exact H|]. intros E1 _. apply H; exact E1.
  - apply ap_slice; auto.
  - apply ap_pick; auto.
  - destruct (obs (arrs s x)); [|exact H]. apply ap_new; [exact H | exact B | discriminate].
  - apply ap_setitem; auto.
  - apply ap_iop; auto.
  - pose proof (ap_slice s x sel H (conj Hn Hl)) as G. destruct (getslice s x sel) as [s1 e] eqn:Eg. destruct e as [e|]; [exact G|].
    apply next_slice in Eg. apply ap_augment; [exact G | lia | lia].
  - pose proof (ap_pick s x sel H (conj Hn Hl)) as G. destruct (getpick s x sel) as [s1 e] eqn:Eg. destruct e as [e|]; [exact G|].
    apply next_pick in Eg. apply ap_augment; [exact G | lia | lia].
  - destruct (Nat.eqb _ _); [|exact H]. apply ap_write; auto.
  - destruct (obs (arrs s x)); [|apply ap_copy; [exact H | discriminate]].
    apply ap_copy; [apply ap_list; exact H|]. intros E1 _. apply H; exact E1.
  - destruct (obs (arrs s x)) eqn:E; [|exact H]. apply ap_set; auto.
  - destruct (obs (arrs s x)) eqn:E; [|exact H]. apply ap_lists; auto.
  - destruct (obs (arrs s x)) eqn:E; [|exact H]. apply ap_lists; auto.
Qed.
End Apart.
Lemma ap_refl : forall st s, apart st s s.
Proof.
  intros st s. split; [lia|]. split; [lia|]. split; [auto|]. split; [auto|]. split; [intros; lia|].
  split; [exists []; split; [rewrite app_nil_r; reflexivity | constructor]|]. intros _. split; [lia|]. split; [auto|]. intros; lia.
Qed.
Lemma ap_hist : forall st s0 s s2, apart st s0 s -> hist (on_new (next s0)) s s2 -> apart st s0 s2.
Proof. intros st s0 s s2 H Hh. induction Hh; [exact H|]. apply ap_exec; auto. Qed.

(** A new array with memory of its own reads what was put there. *)
Lemma read_copy : forall s o l u vs, read (new_copy s o l u vs) (next s) = vs.
Proof.
  intros s o l u vs. unfold read. cbn [new_copy new_arr arrs mem]. rewrite upd_same. cbn [buf pos].
  destruct vs as [|v0 vs0]; [reflexivity|]. set (vs := v0 :: vs0).
  apply (nth_ext _ _ v0 v0); [rewrite map_length, seq_length; auto|].
  intros k Hk. rewrite map_length, seq_length in Hk.
  rewrite (nth_indep _ _ (write (mem s) (nbuf s) (seq 0 (length vs)) vs (nbuf s) 0)) by (rewrite map_length, seq_length; exact Hk).
  rewrite map_nth. apply write_at with (k := k); [apply seq_NoDup | |].
  - rewrite (nth_error_nth' _ 0) by (rewrite seq_length; exact Hk). reflexivity.
  - apply nth_error_nth'. exact Hk.
Qed.
Lemma old_reads : forall st junk s s2, reach junk s -> apart st s s2 -> forall y, y < next s -> read s2 y = read s y.
Proof.
  intros st junk s s2 Hr (H1 & H2 & H3 & H4 & _) y Hy. unfold read. rewrite H3 by exact Hy. apply map_ext. intros q.
  apply H4. apply (wf_reach _ _ Hr y Hy).
Qed.

Lemma copy_apart : forall junk s x s2, reach junk s -> x < next s -> hist (on_new (next s)) (fst (exec (Copy x) s)) s2 ->
  read (fst (exec (Copy x) s)) (next s) = read s x /\
  (obs (arrs s x) = true -> lists (fst (exec (Copy x) s)) (olist (arrs (fst (exec (Copy x) s)) (next s))) = []) /\
  (forall y, y < next s -> read s2 y = read s y /\ arrs s2 y = arrs s y /\
     (obs (arrs s y) = true -> lists s2 (olist (arrs s y)) = lists s (olist (arrs s y)))) /\
  exists new, told s s2 new /\ Forall (fun n => next s <= from n) new.
Proof.
  intros junk s x s2 Hr Hx Hh. assert (W := wf_reach _ _ Hr).
  assert (A1 : apart true s (fst (exec (Copy x) s))).
  { cbn [exec]. destruct (obs (arrs s x)); cbn [fst]; apply ap_copy; [apply ap_list, ap_refl | cbn; lia | apply ap_refl | discriminate]. }
  pose proof (ap_hist _ _ _ _ A1 Hh) as A2.
  split; [|split; [|split]].
  - cbn [exec]. destruct (obs (arrs s x)); cbn [fst]; [apply (read_copy (new_list s)) | apply read_copy].
  - intros Ho. cbn [exec]. rewrite Ho. cbn [fst new_copy new_arr new_list arrs lists next]. rewrite upd_same. cbn [olist].
    rewrite upd_same. reflexivity.
  - intros y Hy. split; [eapply old_reads; eauto|]. destruct A2 as (_ & _ & E & _ & _ & _ & L). split; [auto|].
    intros Ho. destruct (L eq_refl) as [_ [L2 _]]. apply L2. apply W; auto.
  - destruct A2 as (_ & _ & _ & _ & _ & N & _). exact N.
Qed.
Lemma pick_apart : forall junk s x sel s2, reach junk s -> x < next s -> (forall k, In k sel -> k < length (read s x)) ->
  hist (on_new (next s)) (fst (exec (Pick x sel) s)) s2 ->
  read (fst (exec (Pick x sel) s)) (next s) = map (fun k => nth k (read s x) (mem s 0 0)) sel /\
  (forall y, y < next s -> read s2 y = read s y).
Proof.
  intros junk s x sel s2 Hr Hx Hb Hh.
  assert (A1 : apart false s (fst (exec (Pick x sel) s))).
  { cbn [exec]. unfold getpick. destruct (in_bounds s x sel); cbn [fst]; [|apply ap_refl]. apply ap_copy; [apply ap_refl | discriminate]. }
  pose proof (ap_hist _ _ _ _ A1 Hh) as A2. split; [|intros y Hy; eapply old_reads; eauto].
  assert (B : in_bounds s x sel = true) by (apply bounds_ok; intros k Hk; specialize (Hb k Hk); unfold read in Hb; rewrite map_length in Hb; exact Hb).
  cbn [exec]. unfold getpick. rewrite B. cbn [fst]. rewrite read_copy. unfold chosen. rewrite map_map. apply map_ext_in.
  intros k Hk. unfold read. rewrite (nth_indep _ _ (mem s (buf (arrs s x)) 0)) by (apply Hb; exact Hk). rewrite map_nth. reflexivity.
Qed.

(** ** Views *)
Lemma same_place : forall s k y, y < next s -> legal s k -> y < next (fst (exec k s)) /\
  buf (arrs (fst (exec k s)) y) = buf (arrs s y) /\ pos (arrs (fst (exec k s)) y) = pos (arrs s y).
Proof.
  assert (N : forall s a y, y < next s -> y < next (new_arr s a) /\ arrs (new_arr s a) y = arrs s y).
  { intros s a y Hy. cbn. split; [lia | apply upd_other; lia]. }
  assert (NC : forall s o l u vs y, y < next s -> y < next (new_copy s o l u vs) /\ arrs (new_copy s o l u vs) y = arrs s y).
  { intros s o l u vs y Hy. cbn. split; [lia | apply upd_other; lia]. }
  assert (SI : forall s x sel vs y, y < next s -> y < next (fst (setitem s x sel vs)) /\ arrs (fst (setitem s x sel vs)) y = arrs s y).
  { intros s x sel vs y Hy. unfold setitem. destruct (in_bounds _ _ _); [|auto]. destruct (Nat.eqb _ _); [|auto]. cbn [negb fst].
    destruct (obs _); [|auto]. destruct (notify_keeps (with_mem s (write (mem s) (buf (arrs s x)) (chosen (arrs s x) sel) vs)) x) as (_ & K2 & K3 & _).
    rewrite K2, K3. auto. }
  assert (AU : forall s1 e x sel g t y, y < next s1 -> y < next (fst (augment (s1, e) x sel g t)) /\ arrs (fst (augment (s1, e) x sel g t)) y = arrs s1 y).
  { intros s1 [e|] x sel g t y Hy; [auto|]. cbn [augment]. destruct (iop_arrs s1 t g y Hy) as [E1 E2].
    destruct (SI (iop s1 t g) x sel (read (iop s1 t g) (iop_result s1 t)) y E2) as [E3 E4]. rewrite E4. auto. }
  assert (Q : forall s s' y, y < next s' /\ arrs s' y = arrs s y -> y < next s' /\ buf (arrs s' y) = buf (arrs s y) /\ pos (arrs s' y) = pos (arrs s y)).
  { intros s s' y [E1 E2]. rewrite E2. auto. }
  intros s k y Hy [Hl _]. destruct k as [vs|x|x sel|x sel|x|x sel vs|x g|x sel g|x sel g|x vs|x|x b|x d|x d]; cbn [target] in Hl; cbn [exec].
  - apply Q, NC; exact Hy.
  - destruct (obs (arrs s x)).
    + cbn. split; [exact Hy|]. unfold upd. destruct (Nat.eqb_spec y x) as [->|]; auto.
    + destruct (contiguous _); apply Q; [apply (N (new_list s)) | apply (NC (new_list s))]; exact Hy.
  - unfold getslice. destruct (in_bounds _ _ _); [apply Q, N; exact Hy | auto].
  - unfold getpick. destruct (in_bounds _ _ _); [apply Q, NC; exact Hy | auto].
  - destruct (obs _); [apply Q, N; exact Hy | auto].
  - apply Q, SI; exact Hy.
  - destruct (iop_arrs s x g y Hy) as [E1 E2]. apply Q. auto.
  - destruct (getslice s x sel) as [s1 e] eqn:G. apply Q.
    assert (E : y < next s1 /\ arrs s1 y = arrs s y).
    { unfold getslice in G. destruct (in_bounds _ _ _); injection G as <- <-; [apply N; exact Hy | auto]. }
    destruct E as [E1 E2]. destruct (AU s1 e x sel g (next s) y E1) as [E3 E4]. rewrite E4. auto.
  - destruct (getpick s x sel) as [s1 e] eqn:G. apply Q.
    assert (E : y < next s1 /\ arrs s1 y = arrs s y).
    { unfold getpick in G. destruct (in_bounds _ _ _); injection G as <- <-; [apply NC; exact Hy | auto]. }
    destruct E as [E1 E2]. destruct (AU s1 e x sel g (next s) y E1) as [E3 E4]. rewrite E4. auto.
  - destruct (Nat.eqb _ _); auto.
  - destruct (obs _); apply Q; [apply (NC (new_list s)) | apply NC]; exact Hy.
  - destruct (obs (arrs s x)); [|auto]. cbn. split; [exact Hy|]. unfold upd. destruct (Nat.eqb_spec y x) as [->|]; auto.
  - destruct (obs _); auto.
  - destruct (obs _); auto.
Qed.
Lemma same_place_hist : forall ok s s2 y, hist ok s s2 -> y < next s ->
  y < next s2 /\ buf (arrs s2 y) = buf (arrs s y) /\ pos (arrs s2 y) = pos (arrs s y).
Proof.
  intros ok s s2 y Hh Hy. induction Hh as [|s1 c Hh IH Hl Hok]; [auto|]. destruct IH as [E1 [E2 E3]].
  destruct (same_place s1 c y E1 Hl) as [F1 [F2 F3]]. rewrite F2, F3. auto.
Qed.
Lemma slice_view : forall junk s x sel s2 d, reach junk s -> x < next s -> NoDup sel -> (forall k, In k sel -> k < length (read s x)) ->
  hist (fun _ _ => True) (fst (exec (Slice x sel) s)) s2 -> read s2 (next s) = map (fun k => nth k (read s2 x) d) sel.
Proof.
  intros junk s x sel s2 d Hr Hx Hd Hb Hh. unfold read in Hb. rewrite map_length in Hb. pose proof (bounds_ok s x sel Hb) as B.
  cbn [exec] in Hh. unfold getslice in Hh. rewrite B in Hh. cbn [fst] in Hh.
  destruct (same_place_hist _ _ _ (next s) Hh ltac:(cbn; lia)) as [_ [E2 E3]].
  destruct (same_place_hist _ _ _ x Hh ltac:(cbn; lia)) as [_ [F2 F3]].
  cbn [new_arr arrs] in *. rewrite upd_same in E2, E3. rewrite upd_other in F2, F3 by lia. cbn [buf pos] in *.
  unfold read. rewrite E2, E3, F2, F3. unfold chosen. rewrite map_map. apply map_ext_in. intros k Hk.
  rewrite (nth_indep _ _ (mem s2 (buf (arrs s x)) 0)) by (rewrite map_length; auto). rewrite map_nth. reflexivity.
Qed.
Lemma same_memory : forall junk s x k s2, reach junk s -> x < next s ->
  (k = Values x /\ obs (arrs s x) = true) \/ (exists g, k = Iop x g /\ obs (arrs s x) = true) \/
    (k = Wrap x /\ obs (arrs s x) = false /\ contiguous (pos (arrs s x)) = true) ->
  hist (fun _ _ => True) (fst (exec k s)) s2 -> read s2 (next s) = read s2 x.
Proof.
  intros junk s x k s2 Hr Hx Hk Hh.
  assert (E : exists s1 a, fst (exec k s) = new_arr s1 a /\ next s1 = next s /\ arrs s1 x = arrs s x /\ buf a = buf (arrs s x) /\ pos a = pos (arrs s x)).
  { destruct Hk as [[-> Ho]|[[g [-> Ho]]|[-> [Ho Hc]]]]; cbn [exec].
    - rewrite Ho. eexists. eexists. split; [reflexivity|]. auto.
    - unfold iop. rewrite Ho. set (s1 := with_mem _ _). destruct (notify_keeps s1 x) as (_ & K2 & K3 & _).
      eexists. eexists. split; [reflexivity|]. rewrite K2, K3. auto.
    - rewrite Ho, Hc. eexists. eexists. split; [reflexivity|]. auto. }
  destruct E as (s1 & a & E & En & Ex & Eb & Ep). rewrite E in Hh.
  destruct (same_place_hist _ _ _ (next s) Hh ltac:(cbn; lia)) as [_ [E2 E3]].
  destruct (same_place_hist _ _ _ x Hh ltac:(cbn; lia)) as [_ [F2 F3]].
  cbn [new_arr arrs] in *. rewrite En in *. rewrite upd_same in E2, E3. rewrite upd_other in F2, F3 by lia.
  unfold read. rewrite E2, E3, F2, F3, Ex, Eb, Ep. reflexivity.
Qed.
End P.
