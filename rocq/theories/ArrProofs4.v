(** Statements that are refused; ObsArs of plain arrays. *)
From Coq Require Import List Arith Bool Lia.
From Verif Require Import ArrModel ArrSpec ArrProofs ArrProofs2 ArrProofs3.
Import ListNotations.

Section P.
Context {V : Type}.
Implicit Types s : @state V.

Lemma read_length : forall s x, length (read s x) = length (pos (arrs s x)).
Proof. intros. apply map_length. Qed.
Lemma bounds_false : forall s x sel, in_bounds s x sel = false <-> exists k, In k sel /\ length (read s x) <= k.
Proof.
  intros s x sel. rewrite read_length. unfold in_bounds. split.
  - intros H. induction sel as [|k sel IH]; [discriminate|]. cbn [forallb] in H.
    destruct (Nat.ltb_spec k (length (pos (arrs s x)))) as [L|L].
    + destruct (IH H) as [j [J1 J2]]. exists j. split; [right; exact J1 | exact J2].
    + exists k. split; [left; reflexivity | exact L].
  - intros [k [H1 H2]]. apply Bool.not_true_iff_false. intros F. rewrite forallb_forall in F. specialize (F k H1).
    apply Nat.ltb_lt in F. lia.
Qed.
Lemma bounds_true : forall s x sel, in_bounds s x sel = true -> forall k, In k sel -> k < length (read s x).
Proof. intros s x sel H k Hk. rewrite read_length. eapply bounds_in; eauto. Qed.

Lemma setitem_none : forall s x sel vs, in_bounds s x sel = true -> length sel = length vs -> snd (setitem s x sel vs) = None.
Proof. intros s x sel vs H E. unfold setitem. rewrite H, E, Nat.eqb_refl. reflexivity. Qed.
Lemma iop_read : forall s t g, t < next s -> length (read (iop s t g) (iop_result s t)) = length (pos (arrs s t)).
Proof.
  intros s t g Ht. unfold iop, iop_result. destruct (obs (arrs s t)); rewrite read_length; [|reflexivity].
  set (s1 := with_mem _ _). destruct (notify_keeps s1 t) as (_ & K2 & K3 & _). cbn [new_arr arrs].
  rewrite K3. change (next s1) with (next s). rewrite upd_same. reflexivity.
Qed.
Lemma augment_none : forall s s1 x sel g, x < next s -> next s1 = S (next s) -> (forall y, y < next s -> arrs s1 y = arrs s y) ->
  in_bounds s x sel = true -> length (pos (arrs s1 (next s))) = length sel ->
  snd (augment (s1, None) x sel g (next s)) = None.
Proof.
  intros s s1 x sel g Hx Hn Ha Hb Hl. cbn [augment]. apply setitem_none.
  - destruct (iop_arrs s1 (next s) g x ltac:(lia)) as [E _]. unfold in_bounds in *. rewrite E, Ha by exact Hx. exact Hb.
  - rewrite iop_read by lia. congruence.
Qed.

Lemma legal_lt : forall s c x, legal s c -> target c = Some x -> x < next s.
Proof. intros s c x [H _] E. rewrite E in H. exact H. Qed.

Lemma refused_iff : forall s c e, legal s c -> snd (exec c s) = Some e <-> refused s c e.
Proof.
  intros s c e Hl. split.
  - intros H. destruct c; cbn [exec] in H; try discriminate H.
    + destruct (obs (arrs s x)); [discriminate|]. destruct (contiguous _); discriminate.
    + unfold getslice in H. destruct (in_bounds s x sel) eqn:B; [discriminate|]. injection H as <-.
      apply bounds_false in B. destruct B as [k [B1 B2]]. econstructor; eauto.
    + unfold getpick in H. destruct (in_bounds s x sel) eqn:B; [discriminate|]. injection H as <-.
      apply bounds_false in B. destruct B as [k [B1 B2]]. econstructor; eauto.
    + destruct (obs (arrs s x)) eqn:O; [discriminate|]. injection H as <-. eapply refuse_attribute; eauto.
    + unfold setitem in H. destruct (in_bounds s x sel) eqn:B; cbn [negb] in H.
      * destruct (Nat.eqb_spec (length sel) (length vs)) as [E|E]; cbn [negb] in H; [discriminate|]. injection H as <-.
        apply refuse_values; [apply bounds_true; exact B | congruence].
      * injection H as <-. apply bounds_false in B. destruct B as [k [B1 B2]]. eapply refuse_index; eauto.
    + destruct (getslice s x sel) as [s1 o] eqn:E. pose proof E as E0. unfold getslice in E. pose proof (legal_lt _ _ _ Hl eq_refl) as Hx.
      destruct (in_bounds s x sel) eqn:B.
      * injection E as E1 E2. subst o. rewrite (augment_none s) in H; [discriminate | exact Hx | eapply next_slice; eauto | eapply slice_arrs; eauto | exact B |].
        rewrite <- E1. cbn [new_arr arrs]. rewrite upd_same. apply map_length.
      * injection E as E1 E2. subst s1 o. injection H as <-. apply bounds_false in B. destruct B as [k [B1 B2]]. econstructor; eauto.
    + destruct (getpick s x sel) as [s1 o] eqn:E. pose proof E as E0. unfold getpick in E. pose proof (legal_lt _ _ _ Hl eq_refl) as Hx.
      destruct (in_bounds s x sel) eqn:B.
      * injection E as E1 E2. subst o. rewrite (augment_none s) in H; [discriminate | exact Hx | eapply next_pick; eauto | eapply pick_arrs; eauto | exact B |].
        rewrite <- E1. cbn [new_copy new_arr arrs]. rewrite upd_same. cbn [pos]. rewrite seq_length, map_length. apply map_length.
      * injection E as E1 E2. subst s1 o. injection H as <-. apply bounds_false in B. destruct B as [k [B1 B2]]. econstructor; eauto.
    + destruct (Nat.eqb_spec (length vs) (length (pos (arrs s x)))) as [E|E]; [discriminate|]. injection H as <-.
      apply refuse_raw. rewrite read_length. exact E.
    + destruct (obs (arrs s x)); discriminate.
    + destruct (obs (arrs s x)) eqn:O; [discriminate|]. injection H as <-. eapply refuse_attribute; eauto.
    + destruct (obs (arrs s x)) eqn:O; [discriminate|]. injection H as <-. eapply refuse_attribute; eauto.
    + destruct (obs (arrs s x)) eqn:O; [discriminate|]. injection H as <-. eapply refuse_attribute; eauto 6.
  - intros H. destruct H as [x sel k Hk Hb|x sel k Hk Hb|x sel vs k Hk Hb|x sel g k Hk Hb|x sel g k Hk Hb|x sel vs Hb Hv|x vs Hv|x c Ho Hc].
    1-5: assert (B : in_bounds s x sel = false) by (apply bounds_false; eauto).
    + cbn [exec]. unfold getslice. rewrite B. reflexivity.
    + cbn [exec]. unfold getpick. rewrite B. reflexivity.
    + cbn [exec]. unfold setitem. rewrite B. reflexivity.
    + cbn [exec]. unfold getslice. rewrite B. reflexivity.
    + cbn [exec]. unfold getpick. rewrite B. reflexivity.
    + cbn [exec]. unfold setitem. rewrite (bounds_ok s x sel) by (intros k Hk; specialize (Hb k Hk); rewrite read_length in Hb; exact Hb).
      cbn [negb]. rewrite (proj2 (Nat.eqb_neq _ _)) by congruence. reflexivity.
    + cbn [exec]. rewrite read_length in Hv. rewrite (proj2 (Nat.eqb_neq _ _)) by exact Hv. reflexivity.
    + destruct Hc as [-> | [[b ->] | [[d ->] | [d ->]]]]; cbn [exec]; rewrite Ho; reflexivity.
Qed.
Lemma refused_same : forall s c e, refused s c e -> fst (exec c s) = s.
Proof.
  intros s c e H. destruct H as [x sel k Hk Hb|x sel k Hk Hb|x sel vs k Hk Hb|x sel g k Hk Hb|x sel g k Hk Hb|x sel vs Hb Hv|x vs Hv|x c Ho Hc].
  1-5: assert (B : in_bounds s x sel = false) by (apply bounds_false; eauto).
  - cbn [exec]. unfold getslice. rewrite B. reflexivity.
  - cbn [exec]. unfold getpick. rewrite B. reflexivity.
  - cbn [exec]. unfold setitem. rewrite B. reflexivity.
  - cbn [exec]. unfold getslice. rewrite B. reflexivity.
  - cbn [exec]. unfold getpick. rewrite B. reflexivity.
  - cbn [exec]. unfold setitem. rewrite (bounds_ok s x sel) by (intros k Hk; specialize (Hb k Hk); rewrite read_length in Hb; exact Hb).
    cbn [negb]. rewrite (proj2 (Nat.eqb_neq _ _)) by congruence. reflexivity.
  - cbn [exec]. rewrite read_length in Hv. rewrite (proj2 (Nat.eqb_neq _ _)) by exact Hv. reflexivity.
  - destruct Hc as [-> | [[b ->] | [[d ->] | [d ->]]]]; cbn [exec]; rewrite Ho; reflexivity.
Qed.
Lemma refused_all : forall s c e, legal s c -> (snd (exec c s) = Some e <-> refused s c e) /\ (refused s c e -> fst (exec c s) = s).
Proof. intros s c e H. split; [apply refused_iff; exact H | apply refused_same]. Qed.

(** ** ObsArs of plain arrays *)
Lemma contiguous_seq : forall ps, contiguous ps = true <-> exists p, ps = seq p (length ps).
Proof.
  induction ps as [|p ps IH]; [split; [exists 0; reflexivity | reflexivity]|]. destruct ps as [|q r].
  - split; [exists p; reflexivity | reflexivity].
  - change (contiguous (p :: q :: r)) with (Nat.eqb q (S p) && contiguous (q :: r)). rewrite andb_true_iff, IH, Nat.eqb_eq. split.
    + intros [-> [p' E]]. exists p. cbn [length seq] in *. injection E as E1 E2. subst p'. congruence.
    + intros [p' E]. cbn [length seq] in E. injection E as E1 E2 E3. subst p'. split; [exact E2|].
      exists q. cbn [length seq]. subst q. congruence.
Qed.
Lemma block_iff : forall s x, contiguous (pos (arrs s x)) = true <-> block s x.
Proof. intros. unfold block. rewrite read_length. apply contiguous_seq. Qed.

Lemma start_any : forall junk s x c, reach junk s -> x < next s -> obs (arrs s x) = false ->
  (block s x -> forall y, y < next s -> obs (arrs s y) = true -> ~ overlap s y x) ->
  let s1 := fst (exec (Observe (next s) c) (fst (exec (Wrap x) s))) in
  watches s1 c (next s) /\ read s1 (next s) = read s x /\ log s1 = log s.
Proof.
  intros junk s x c Hr Hx Ho Hn. destruct (contiguous (pos (arrs s x))) eqn:C.
  - pose proof (overlap_wrap junk s x c Hr Hx Ho C (Hn (proj1 (block_iff s x) C))) as [H1 H2]. split; [exact H1|]. split; [exact H2|].
    cbn [exec]. rewrite Ho, C. cbn [fst new_arr new_list arrs next]. rewrite upd_same. reflexivity.
  - pose proof (wf_reach _ _ Hr) as W. cbn [exec]. rewrite Ho, C. cbn [fst].
    set (s1 := new_copy (new_list s) true (nlist s) true (read s x)).
    assert (A : arrs s1 (next s) = mkA true (nbuf s) (seq 0 (length (read s x))) (nlist s) true) by (unfold s1; cbn; apply upd_same).
    rewrite A. cbn [obs olist fst]. split; [|split].
    + unfold watches, overlap. cbn [set_list arrs next lists]. rewrite A. cbn [obs on olist buf pos].
      split; [reflexivity|]. split; [reflexivity|]. split; [rewrite upd_same; apply in_or_app; right; left; reflexivity|].
      intros y Hy Hob [Hov _]. destruct (Nat.eq_dec y (next s)) as [->|Hne]; [rewrite A; split; reflexivity|].
      exfalso. unfold s1 in Hy, Hov. cbn in Hy, Hov. rewrite upd_other in Hov by exact Hne. pose proof (W y ltac:(lia)) as [B _]. lia.
    + exact (read_copy (new_list s) true (nlist s) true (read s x)).
    + reflexivity.
Qed.

Lemma same_memory_block : forall junk s x k s2, reach junk s -> x < next s ->
  (k = Values x /\ obs (arrs s x) = true) \/ (exists g, k = Iop x g /\ obs (arrs s x) = true) \/
    (k = Wrap x /\ obs (arrs s x) = false /\ block s x) ->
  hist (fun _ _ => True) (fst (exec k s)) s2 -> read s2 (next s) = read s2 x.
Proof.
  intros junk s x k s2 Hr Hx Hk. apply (same_memory junk); [exact Hr | exact Hx |].
  destruct Hk as [H|[H|[H1 [H2 H3]]]]; [left; exact H | right; left; exact H | right; right].
  split; [exact H1|]. split; [exact H2|]. apply block_iff. exact H3.
Qed.
Lemma wrap_apart : forall junk s x s2, reach junk s -> x < next s -> obs (arrs s x) = false -> ~ block s x ->
  hist (on_new (next s)) (fst (exec (Wrap x) s)) s2 ->
  read (fst (exec (Wrap x) s)) (next s) = read s x /\ forall y, y < next s -> read s2 y = read s y.
Proof.
  intros junk s x s2 Hr Hx Ho Hb Hh.
  assert (C : contiguous (pos (arrs s x)) = false) by (apply Bool.not_true_iff_false; intros E; apply Hb, block_iff, E).
  assert (E : fst (exec (Wrap x) s) = new_copy (new_list s) true (nlist s) true (read s x)) by (cbn [exec]; rewrite Ho, C; reflexivity).
  rewrite E in *. split; [apply (read_copy (new_list s))|]. intros y Hy.
  eapply (old_reads true); [exact Hr | | exact Hy]. eapply ap_hist; [|exact Hh]. apply ap_copy; [apply ap_list, ap_refl | cbn; lia].
Qed.
End P.
