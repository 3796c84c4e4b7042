(** Effects of changes, copies and views of observable arrays. *)
From Coq Require Import List Arith Bool Lia.
From Verif Require Import ArrModel ArrSpec ArrProofs.
Import ListNotations.

Section P.
Context {V : Type}.
Implicit Types s : @state V.

Lemma overlap_wrap : forall junk s x c, reach junk s -> x < next s -> obs (arrs s x) = false -> contiguous (pos (arrs s x)) = true ->
  (forall y, y < next s -> obs (arrs s y) = true -> ~ overlap s y x) ->
  let s1 := fst (exec (Observe (next s) c) (fst (exec (Wrap x) s))) in
  watches s1 c (next s) /\ read s1 (next s) = read s x.
Proof.
  intros junk s x c Hr Hx Ho Hc Hn. pose proof (wf_reach _ _ Hr) as W. cbn [exec]. rewrite Ho, Hc. cbn [fst].
  cbn [exec new_arr new_list arrs next]. rewrite upd_same. cbn [obs olist fst].
  split; [|unfold read; cbn; rewrite upd_same; reflexivity].
  unfold watches, overlap. cbn [set_list new_arr new_list arrs next lists nlist]. rewrite upd_same. cbn [obs olist on buf pos].
  split; [reflexivity|]. split; [reflexivity|]. split; [rewrite upd_same; apply in_or_app; right; left; reflexivity|].
  intros y Hy Hob Hov. unfold upd in *. destruct (Nat.eqb_spec y (next s)) as [->|Hne]; [split; reflexivity|].
  exfalso. apply (Hn y ltac:(lia) Hob). exact Hov.
Qed.

(** ** Effects *)
Lemma nth_vals : forall (g : nat -> V -> V) l i k, nth_error (map (fun e => g (fst e) (snd e)) (combine (seq i (length l)) l)) k =
  option_map (g (i + k)) (nth_error l k).
Proof.
  induction l as [|v l IH]; intros i k; [destruct k; reflexivity|]. destruct k as [|k]; cbn; [rewrite Nat.add_0_r; reflexivity|].
  rewrite IH. rewrite Nat.add_succ_comm. reflexivity.
Qed.
Lemma write_same : forall ps vs (m0 m : nat -> nat -> V) b, (forall b' q, m b' q = m0 b' q) -> vs = map (m0 b) ps ->
  forall b' q, write m b ps vs b' q = m0 b' q.
Proof.
  induction ps as [|p ps IH]; intros vs m0 m b Hm -> b' q; [apply Hm|].
  change (write (upd m b (upd (m b) p (m0 b p))) b ps (map (m0 b) ps) b' q = m0 b' q). apply IH; [|reflexivity].
  intros b2 q2. unfold upd. destruct (Nat.eqb_spec b2 b) as [->|]; [|apply Hm].
  destruct (Nat.eqb_spec q2 p) as [->|]; [reflexivity | apply Hm].
Qed.
Lemma chosen_nth : forall s x sel k p q, nth_error sel k = Some p -> nth_error (pos (arrs s x)) p = Some q ->
  nth_error (chosen (arrs s x) sel) k = Some q.
Proof.
  intros s x sel k p q Hk Hq. unfold chosen. erewrite map_nth_error by exact Hk. f_equal. apply nth_error_nth. exact Hq.
Qed.
Lemma bounds_ok : forall s x sel, (forall k, In k sel -> k < length (pos (arrs s x))) -> in_bounds s x sel = true.
Proof. intros s x sel H. apply forallb_forall. intros k Hk. apply Nat.ltb_lt. auto. Qed.

(** Memory after writing the values [vs] to a selection. *)
Lemma changed_write : forall s m x sel vs (f : nat -> V -> V), in_bounds s x sel = true -> NoDup sel -> NoDup (pos (arrs s x)) ->
  (forall b q, b < nbuf s -> m b q = mem s b q) -> buf (arrs s x) < nbuf s ->
  (forall k p q, nth_error sel k = Some p -> nth_error (pos (arrs s x)) p = Some q ->
     nth_error vs k = Some (f k (mem s (buf (arrs s x)) q))) ->
  forall s', (forall b q, b < nbuf s -> mem s' b q = write m (buf (arrs s x)) (chosen (arrs s x) sel) vs b q) ->
  changed s s' x sel f.
Proof.
  intros s m x sel vs f B Hd Hp Hm Hb Hv s' Hs'. split.
  - intros k p Hk q Hq. rewrite Hs' by exact Hb. eapply write_at; [eapply chosen_nodup; eauto | eapply chosen_nth; eauto | eauto].
  - intros b q Hlt Hn. rewrite Hs' by exact Hlt. rewrite write_other; [apply Hm; exact Hlt|].
    intros E Hi. unfold chosen in Hi. apply in_map_iff in Hi as [p [Hpq Hpi]].
    apply (Hn E p Hpi). rewrite <- Hpq. apply nth_error_nth'. eapply bounds_in; eauto.
Qed.
Lemma notes_who : forall cs x (m : nat -> nat -> V), map who (map (fun c => mkNote c x m) cs) = cs.
Proof. intros. rewrite map_map. cbn. apply map_id. Qed.
Lemma notify_tells : forall s s0 x m, (forall b q, b < nbuf s0 -> mem s b q = m b q) ->
  tells s0 (callers s x) x m (skipn (length (log s)) (log (notify s x))).
Proof.
  intros s s0 x m Hm. unfold notify, callers. destruct (on _).
  - cbn [log]. rewrite skipn_app, skipn_all, Nat.sub_diag. cbn [app skipn]. split; [apply notes_who|].
    apply Forall_forall. intros n Hn. apply in_map_iff in Hn as [c [<- _]]. cbn. auto.
  - rewrite skipn_all. split; [reflexivity | constructor].
Qed.
Lemma notify_log : forall s x, told s (notify s x) (skipn (length (log s)) (log (notify s x))).
Proof.
  intros s x. unfold told, notify. destruct (on _); cbn [log].
  - rewrite skipn_app, skipn_all, Nat.sub_diag. reflexivity.
  - rewrite skipn_all, app_nil_r. reflexivity.
Qed.
Lemma notify_keeps : forall s x, mem (notify s x) = mem s /\ arrs (notify s x) = arrs s /\ next (notify s x) = next s /\
  nbuf (notify s x) = nbuf s /\ lists (notify s x) = lists s /\ nlist (notify s x) = nlist s.
Proof. intros s x. unfold notify. destruct (on _); repeat split. Qed.

Lemma put_effect : forall junk s x sel vs, reach junk s -> x < next s -> obs (arrs s x) = true -> NoDup sel ->
  (forall k, In k sel -> k < length (read s x)) -> length sel = length vs ->
  let s' := fst (exec (Put x sel vs) s) in
  snd (exec (Put x sel vs) s) = None /\ changed s s' x sel (fun k v => nth k vs v) /\
  exists new, told s s' new /\ tells s (callers s x) x (mem s') new.
Proof.
  intros junk s x sel vs Hr Hx Ho Hd Hb Hl. destruct (wf_reach _ _ Hr x Hx) as [W1 [W2 W3]].
  unfold read in Hb. rewrite map_length in Hb. pose proof (bounds_ok s x sel Hb) as B.
  cbn [exec]. unfold setitem. rewrite B, Hl, Nat.eqb_refl, Ho. cbn [negb fst snd].
  set (s1 := with_mem s _). destruct (notify_keeps s1 x) as (K1 & _).
  split; [reflexivity|]. split.
  - eapply (changed_write s (mem s)); eauto.
    + intros k p q Hk Hq. apply nth_error_nth'. rewrite <- Hl. apply nth_error_Some. congruence.
    + intros b q _. rewrite K1. reflexivity.
  - exists (skipn (length (log s1)) (log (notify s1 x))). split; [exact (notify_log s1 x)|].
    apply (notify_tells s1 s x). intros b q _. rewrite K1. reflexivity.
Qed.
Lemma iop_effect : forall junk s x g, reach junk s -> x < next s -> obs (arrs s x) = true ->
  let s' := fst (exec (Iop x g) s) in
  changed s s' x (seq 0 (length (read s x))) g /\ read s' (next s) = read s' x /\ obs (arrs s' (next s)) = false /\
  exists new, told s s' new /\ tells s (callers s x) x (mem s') new.
Proof.
  intros junk s x g Hr Hx Ho. destruct (wf_reach _ _ Hr x Hx) as [W1 [W2 W3]].
  cbn [exec fst]. unfold iop. rewrite Ho. set (vs := map _ (combine _ _)). set (s1 := with_mem s _).
  destruct (notify_keeps s1 x) as (K1 & K2 & K3 & _).
  assert (El : length (read s x) = length (pos (arrs s x))) by apply map_length.
  split; [|split; [|split]].
  - assert (B : in_bounds s x (seq 0 (length (read s x))) = true).
    { apply bounds_ok. intros k Hk. apply in_seq in Hk. lia. }
    assert (Ec : chosen (arrs s x) (seq 0 (length (read s x))) = pos (arrs s x)).
    { unfold chosen. rewrite El. clear. induction (pos (arrs s x)) as [|p l IH]; [reflexivity|]. cbn. f_equal.
      rewrite <- seq_shift, map_map. exact IH. }
    eapply (changed_write s (mem s) x _ vs); eauto.
    + apply seq_NoDup.
    + intros k p q Hk Hq. assert (p = k).
      { assert (Hk' : k < length (read s x)) by (rewrite <- (seq_length (length (read s x)) 0); apply nth_error_Some; congruence).
        rewrite (nth_error_nth' _ 0) in Hk by (rewrite seq_length; exact Hk'). rewrite seq_nth in Hk by exact Hk'. injection Hk. auto. }
      subst p. unfold vs. rewrite <- El. rewrite nth_vals. cbn. unfold read. rewrite nth_error_map, Hq. reflexivity.
    + intros b q _. cbn [new_arr mem]. rewrite K1. rewrite Ec. reflexivity.
  - unfold read. cbn [new_arr arrs mem]. rewrite K1, K3. cbn [s1 with_mem next]. rewrite upd_same, upd_other by lia. cbn [buf pos]. rewrite K2. reflexivity.
  - cbn [new_arr arrs]. rewrite K3. change (next s1) with (next s). rewrite upd_same. reflexivity.
  - exists (skipn (length (log s1)) (log (notify s1 x))). split; [exact (notify_log s1 x)|].
    apply (notify_tells s1 s x). intros b q _. cbn [new_arr mem]. rewrite K1. reflexivity.
Qed.

Lemma aug_effect : forall junk s x sel g, reach junk s -> x < next s -> obs (arrs s x) = true -> NoDup sel ->
  (forall k, In k sel -> k < length (read s x)) ->
  let s' := fst (exec (Aug x sel g) s) in
  snd (exec (Aug x sel g) s) = None /\ changed s s' x sel g /\
  exists new1 new2, told s s' (new1 ++ new2) /\ tells s (callers s x) (next s) (mem s') new1 /\ tells s (callers s x) x (mem s') new2.
Proof.
  intros junk s x sel g Hr Hx Ho Hd Hb. destruct (wf_reach _ _ Hr x Hx) as [W1 [W2 W3]].
  unfold read in Hb. rewrite map_length in Hb. pose proof (bounds_ok s x sel Hb) as B.
  cbn [exec]. unfold getslice. rewrite B. set (t := mkA _ _ _ _ _). set (s1 := new_arr s t). cbn [augment].
  assert (At : arrs s1 (next s) = t) by apply upd_same.
  assert (Ax : arrs s1 x = arrs s x) by (apply upd_other; lia).
  unfold iop, iop_result. rewrite At. cbn [t obs buf pos olist on]. rewrite Ho.
  set (vs := map (fun e => g (fst e) (snd e)) _). set (s2 := with_mem s1 _).
  destruct (notify_keeps s2 (next s)) as (K1 & K2 & K3 & K4 & K5 & _).
  set (s3 := new_arr (notify s2 (next s)) _).
  assert (N3 : next s1 = S (next s)) by reflexivity.
  assert (A3 : arrs s3 x = arrs s x).
  { unfold s3. cbn [new_arr arrs]. rewrite K3, upd_other by (change (next s2) with (S (next s)); lia). rewrite K2. exact Ax. }
  assert (R3 : read s3 (next s1) = map (mem s2 (buf (arrs s x))) (chosen (arrs s x) sel)).
  { unfold read, s3. cbn [new_arr arrs mem]. rewrite K3. change (next s2) with (next s1). rewrite upd_same. cbn [buf pos]. rewrite K1. reflexivity. }
  rewrite R3. unfold setitem. assert (B3 : in_bounds s3 x sel = true) by (unfold in_bounds; rewrite A3; exact B).
  assert (Lc : length (chosen (arrs s x) sel) = length sel) by apply map_length.
  rewrite B3, A3, Ho. rewrite map_length, Lc, Nat.eqb_refl. cbn [negb fst snd].
  set (s4 := with_mem s3 _).
  destruct (notify_keeps s4 x) as (L1 & L2 & L3 & L4 & L5 & _).
  assert (M4 : forall b q, mem s4 b q = mem s2 b q).
  { intros b q. unfold s4. cbn [with_mem mem]. apply write_same; [|reflexivity]. intros b' q'. unfold s3. cbn [new_arr mem]. rewrite K1. reflexivity. }
  split; [reflexivity|]. split.
  - eapply (changed_write s (mem s) x sel vs); eauto.
    + intros k p q Hk Hq. unfold vs.
      assert (El : length (chosen (arrs s x) sel) = length (read s1 (next s))) by (unfold read; rewrite At, map_length; reflexivity).
      rewrite El, nth_vals. cbn. unfold read. rewrite At. cbn [t buf pos]. rewrite nth_error_map, (chosen_nth _ _ _ _ _ _ Hk Hq). reflexivity.
    + intros b q _. rewrite L1. apply M4.
  - exists (skipn (length (log s2)) (log (notify s2 (next s)))), (skipn (length (log s4)) (log (notify s4 x))).
    assert (T1 := notify_log s2 (next s)). assert (T2 := notify_log s4 x). unfold told in *.
    split; [|split].
    + rewrite app_assoc. etransitivity; [exact T2|]. f_equal. exact T1.
    + assert (Ec : callers s2 (next s) = callers s x).
      { unfold callers. change (arrs s2) with (arrs s1). rewrite At. reflexivity. }
      rewrite <- Ec. apply notify_tells. intros b q _. rewrite L1. symmetry. apply M4.
    + assert (Ec : callers s4 x = callers s x).
      { unfold callers. change (arrs s4) with (arrs s3). rewrite A3. change (lists s4) with (lists (notify s2 (next s))).
        rewrite K5. reflexivity. }
      rewrite <- Ec. apply notify_tells. intros b q _. rewrite L1. reflexivity.
Qed.

Lemma augpick_effect : forall junk s x sel g, reach junk s -> x < next s -> obs (arrs s x) = true -> NoDup sel ->
  (forall k, In k sel -> k < length (read s x)) ->
  let s' := fst (exec (AugPick x sel g) s) in
  snd (exec (AugPick x sel g) s) = None /\ changed s s' x sel g /\
  exists new1 new2, told s s' (new1 ++ new2) /\ tells s (callers s x) (next s) (mem s) new1 /\ tells s (callers s x) x (mem s') new2.
Proof.
  intros junk s x sel g Hr Hx Ho Hd Hb. destruct (wf_reach _ _ Hr x Hx) as [W1 [W2 W3]].
  unfold read in Hb. rewrite map_length in Hb. pose proof (bounds_ok s x sel Hb) as B.
  cbn [exec]. unfold getpick. rewrite B. set (s1 := new_copy s _ _ _ _). cbn [augment].
  set (n := length sel).
  set (t := mkA true (nbuf s) (seq 0 n) (olist (arrs s x)) (on (arrs s x))).
  assert (At : arrs s1 (next s) = t).
  { unfold s1, new_copy. cbn [new_arr arrs]. rewrite upd_same. rewrite Ho, map_length. unfold chosen. rewrite map_length. reflexivity. }
  assert (Ax : arrs s1 x = arrs s x) by (apply upd_other; lia).
  unfold iop, iop_result. rewrite At. cbn [t obs buf pos olist on].
  set (vs := map (fun e => g (fst e) (snd e)) _). set (s2 := with_mem s1 _).
  destruct (notify_keeps s2 (next s)) as (K1 & K2 & K3 & K4 & K5 & _).
  set (s3 := new_arr (notify s2 (next s)) _).
  assert (N3 : next s1 = S (next s)) by reflexivity.
  assert (A3 : arrs s3 x = arrs s x).
  { unfold s3. cbn [new_arr arrs]. rewrite K3, upd_other by (change (next s2) with (S (next s)); lia). rewrite K2. exact Ax. }
  assert (Rt : read s1 (next s) = map (mem s (buf (arrs s x))) (chosen (arrs s x) sel)).
  { unfold read. rewrite At. cbn [t buf pos]. unfold s1, new_copy. cbn [mem new_arr].
    set (l := map (mem s (buf (arrs s x))) (chosen (arrs s x) sel)).
    assert (Hn : length l = n) by (unfold l, chosen; rewrite !map_length; reflexivity). rewrite Hn.
    apply (nth_ext _ _ (mem s 0 0) (mem s 0 0)); [rewrite map_length, seq_length; auto|].
    intros k Hk. rewrite map_length, seq_length in Hk. rewrite (nth_indep _ _ (write (mem s) (nbuf s) (seq 0 n) l (nbuf s) 0)) by (rewrite map_length, seq_length; exact Hk).
    rewrite map_nth. apply write_at with (k := k); [apply seq_NoDup | |].
    - rewrite (nth_error_nth' _ 0) by (rewrite seq_length; exact Hk). reflexivity.
    - apply nth_error_nth'. lia. }
  assert (Lv : length vs = n).
  { unfold vs. rewrite map_length, combine_length, !seq_length, Rt, map_length. unfold chosen. rewrite map_length. unfold n. lia. }
  assert (R3 : read s3 (next s1) = vs).
  { unfold read, s3. cbn [new_arr arrs mem]. rewrite K3. change (next s2) with (next s1). rewrite upd_same. cbn [buf pos]. rewrite K1.
    unfold s2. cbn [with_mem mem].
    apply (nth_ext _ _ (mem s 0 0) (mem s 0 0)); [rewrite map_length, seq_length; auto|].
    intros k Hk. rewrite map_length, seq_length in Hk. rewrite (nth_indep _ _ (write (mem s1) (nbuf s) (seq 0 n) vs (nbuf s) 0)) by (rewrite map_length, seq_length; exact Hk).
    rewrite map_nth. apply write_at with (k := k); [apply seq_NoDup | |].
    - rewrite (nth_error_nth' _ 0) by (rewrite seq_length; exact Hk). reflexivity.
    - apply nth_error_nth'. lia. }
  rewrite R3. unfold setitem. assert (B3 : in_bounds s3 x sel = true) by (unfold in_bounds; rewrite A3; exact B).
  assert (En : Nat.eqb (length sel) n = true) by apply Nat.eqb_refl.
  rewrite B3, A3, Ho, Lv, En. cbn [negb fst snd].
  set (s4 := with_mem s3 _).
  destruct (notify_keeps s4 x) as (L1 & L2 & L3 & L4 & L5 & _).
  assert (M2 : forall b q, b < nbuf s -> mem s2 b q = mem s b q).
  { intros b q Hlt. unfold s2. cbn [with_mem mem]. rewrite write_other by lia. unfold s1, new_copy. cbn [mem new_arr].
    rewrite write_other by lia. reflexivity. }
  split; [reflexivity|]. split.
  - eapply (changed_write s (mem s3) x sel vs); eauto.
    + intros b q Hlt. unfold s3. cbn [new_arr mem]. rewrite K1. apply M2. exact Hlt.
    + intros k p q Hk Hq. unfold vs.
      assert (El : n = length (read s1 (next s))) by (rewrite Rt, map_length; unfold chosen; rewrite map_length; reflexivity).
      rewrite seq_length, El, nth_vals. cbn. rewrite Rt, nth_error_map, (chosen_nth _ _ _ _ _ _ Hk Hq). reflexivity.
    + intros b q _. rewrite L1. reflexivity.
  - exists (skipn (length (log s2)) (log (notify s2 (next s)))), (skipn (length (log s4)) (log (notify s4 x))).
    assert (T1 := notify_log s2 (next s)). assert (T2 := notify_log s4 x). unfold told in *.
    split; [|split].
    + rewrite app_assoc. etransitivity; [exact T2|]. f_equal. exact T1.
    + assert (Ec : callers s2 (next s) = callers s x).
      { unfold callers. change (arrs s2) with (arrs s1). rewrite At. reflexivity. }
      rewrite <- Ec. apply notify_tells. exact M2.
    + assert (Ec : callers s4 x = callers s x).
      { unfold callers. change (arrs s4) with (arrs s3). rewrite A3. change (lists s4) with (lists (notify s2 (next s))).
        rewrite K5. reflexivity. }
      rewrite <- Ec. apply notify_tells. intros b q _. rewrite L1. reflexivity.
Qed.
End P.
