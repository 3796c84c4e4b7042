(** Cache identifiers determine the argument objects: proofs about [hex] and [prepare_cache_id]. *)
From Coq Require Import List ZArith NArith Bool Ascii Lia.
From Verif Require Import CachingModel.
Import ListNotations.

Lemma key_eqb_eq : forall a b, key_eqb a b = true <-> a = b.
Proof. intros. unfold key_eqb. destruct (key_dec a b); split; congruence. Qed.
Lemma key_eqb_refl : forall a, key_eqb a a = true.
Proof. intros. apply key_eqb_eq. reflexivity. Qed.
Lemma key_eqb_neq : forall a b, a <> b -> key_eqb a b = false.
Proof. intros. unfold key_eqb. destruct (key_dec a b); congruence. Qed.

Definition hexval (a : ascii) : N :=
  let n := N_of_ascii a in if N.ltb n 58 then n - 48 else n - 87.
Definition isx (a : ascii) : bool := if ascii_dec a "x"%char then true else false.

Lemma small16 : forall d, (d < 16)%N ->
  d = 0%N \/ d = 1%N \/ d = 2%N \/ d = 3%N \/ d = 4%N \/ d = 5%N \/ d = 6%N \/ d = 7%N \/
  d = 8%N \/ d = 9%N \/ d = 10%N \/ d = 11%N \/ d = 12%N \/ d = 13%N \/ d = 14%N \/ d = 15%N.
Proof. intros. lia. Qed.

Lemma hexval_digit : forall d, (d < 16)%N -> hexval (hexdigit d) = d.
Proof.
  intros d Hd. apply small16 in Hd.
  repeat (destruct Hd as [-> | Hd]; [reflexivity |]). subst; reflexivity.
Qed.
Lemma isx_digit : forall d, (d < 16)%N -> isx (hexdigit d) = false.
Proof.
  intros d Hd. apply small16 in Hd.
  repeat (destruct Hd as [-> | Hd]; [reflexivity |]). subst; reflexivity.
Qed.

Definition valof (l : list ascii) : N := fold_left (fun a c => (16 * a + hexval c)%N) l 0%N.
Lemma valof_snoc : forall l c, valof (l ++ [c]) = (16 * valof l + hexval c)%N.
Proof. intros. unfold valof. rewrite fold_left_app. reflexivity. Qed.

Lemma size_div16 : forall n, (16 <= n)%N -> (N.size_nat (n / 16) < N.size_nat n)%nat.
Proof.
  intros n Hn.
  assert (H2 : forall m, (2 <= m)%N -> (N.size_nat (m / 2) < N.size_nat m)%nat).
  { intros m Hm. rewrite <- N.div2_div. destruct m as [|p]; [lia|].
    destruct p; simpl; lia. }
  assert (H2' : forall m, (N.size_nat (m / 2) <= N.size_nat m)%nat).
  { intros m. rewrite <- N.div2_div. destruct m as [|p]; [simpl; lia|].
    destruct p; simpl; lia. }
  replace (n / 16)%N with (n / 2 / 2 / 2 / 2)%N by (rewrite !N.div_div by lia; reflexivity).
  pose proof (H2 n ltac:(lia)). pose proof (H2' (n/2)%N). pose proof (H2' (n/2/2)%N).
  pose proof (H2' (n/2/2/2)%N). lia.
Qed.

Lemma digits_val : forall f n, (N.size_nat n <= f)%nat -> valof (hexdigits f n) = n.
Proof.
  induction f; intros n Hn; simpl.
  - destruct n; simpl in Hn; [reflexivity | destruct p; simpl in Hn; lia].
  - destruct (N.ltb_spec n 16).
    + unfold valof; simpl. rewrite hexval_digit by assumption. lia.
    + rewrite valof_snoc, hexval_digit by (apply N.mod_lt; lia).
      rewrite IHf by (pose proof (size_div16 n ltac:(lia)); lia).
      pose proof (N.div_mod n 16 ltac:(lia)). lia.
Qed.

Lemma digits_nox : forall f n, (N.size_nat n <= f)%nat ->
  forall a, In a (hexdigits f n) -> isx a = false.
Proof.
  induction f; intros n Hn a; simpl.
  - destruct n; simpl in Hn; [| destruct p; simpl in Hn; lia].
    intros [<- | []]. reflexivity.
  - destruct (N.ltb_spec n 16).
    + intros [<- | []]. apply isx_digit; assumption.
    + intros Hin. apply in_app_or in Hin. destruct Hin as [Hin | [<- | []]].
      * eapply IHf; [| eassumption]. pose proof (size_div16 n ltac:(lia)); lia.
      * apply isx_digit. apply N.mod_lt; lia.
Qed.

Definition dg (n : N) : list ascii := hexdigits (N.size_nat n) n.
Lemma dg_inj : forall n m, dg n = dg m -> n = m.
Proof.
  intros n m H. rewrite <- (digits_val (N.size_nat n) n), <- (digits_val (N.size_nat m) m) by lia.
  unfold dg in H. rewrite H. reflexivity.
Qed.

(** No x before; then either nothing or "0x...". *)
Definition starts0x (r : list ascii) : Prop := r = [] \/ exists t, r = "0"%char :: "x"%char :: t.

Lemma split_unique : forall d1 d2 r1 r2,
  (forall a, In a d1 -> isx a = false) -> (forall a, In a d2 -> isx a = false) ->
  starts0x r1 -> starts0x r2 -> d1 ++ r1 = d2 ++ r2 -> d1 = d2 /\ r1 = r2.
Proof.
  induction d1 as [|a d1 IH]; intros d2 r1 r2 H1 H2 S1 S2 He; destruct d2 as [|b d2]; simpl in *.
  - auto.
  - exfalso. destruct S1 as [-> | [t ->]]; [discriminate|].
    injection He as Hb He. destruct d2 as [|b' d2]; simpl in He.
    + destruct S2 as [-> | [t2 ->]]; [discriminate|]. injection He as He. discriminate.
    + injection He as <- He. specialize (H2 "x"%char). simpl in H2.
      assert (isx "x" = false) by tauto. discriminate.
  - exfalso. destruct S2 as [-> | [t ->]]; [discriminate|].
    injection He as Hb He. destruct d1 as [|b' d1]; simpl in He.
    + destruct S1 as [-> | [t2 ->]]; [discriminate|]. injection He as He. discriminate.
    + injection He as -> He. specialize (H1 "x"%char). simpl in H1.
      assert (isx "x" = false) by tauto. discriminate.
  - injection He as <- He. destruct (IH d2 r1 r2) as [-> ->]; auto.
Qed.

Lemma prep_starts : forall l, starts0x (prepare_cache_id l).
Proof.
  destruct l; [left; reflexivity|]. right. unfold prepare_cache_id; simpl. unfold hex.
  simpl. eexists. reflexivity.
Qed.

Lemma prepare_inj : forall l1 l2, prepare_cache_id l1 = prepare_cache_id l2 -> l1 = l2.
Proof.
  induction l1 as [|a l1 IH]; intros l2 H; destruct l2 as [|b l2].
  - reflexivity.
  - discriminate.
  - discriminate.
  - unfold prepare_cache_id in H. simpl in H. injection H as H.
    change (dg a ++ prepare_cache_id l1 = dg b ++ prepare_cache_id l2) in H.
    apply split_unique in H.
    + destruct H as [H1 H2]. apply dg_inj in H1. apply IH in H2. congruence.
    + apply digits_nox. lia.
    + apply digits_nox. lia.
    + apply prep_starts.
    + apply prep_starts.
Qed.

Lemma hex_inj : forall n m, hex n = hex m -> n = m.
Proof. intros n m H. unfold hex in H. injection H as H. apply dg_inj. exact H. Qed.
