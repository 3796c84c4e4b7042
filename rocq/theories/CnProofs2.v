(** Making Params from arrays: the effects. *)
From Coq Require Import List Bool Arith Lia.
From Verif Require Import CnModel CnSpec CnProofs.
Import ListNotations.

Section Proofs.
Context {V : Type}.
Notation state := (state V).
Notation exec := (exec V).
Notation at_ := (at_ V).
Notation node := (node V).
Implicit Types s : state.

Lemma reach_I : forall s, reach from_plain s -> I s.
Proof. intros s H. induction H; [apply I_start | apply I_step; assumption]. Qed.

Lemma tidy_effect : forall s m x, reach from_plain s -> linked s m x ->
  (forall k v, called V (exec (Put V x k v) s) = [m]) /\
  (forall i, seen s x i = effective s m x i) /\
  (forall c, let o := exec (Constrain V x c) s in exn V o = None /\ called V o = [m; m] /\
     (forall i, i < length (pos (at_ s x)) -> effective (st V o) m x i = Some c) /\
     (forall n y i, linked s n y -> y <> x -> i < length (pos (at_ s y)) -> effective (st V o) n y i = effective s n y i)).
Proof.
  intros s m x HR HL. pose proof (reach_I s HR) as HI. destruct (i_ch s HI m x HL) as (Ex & C & P). pose proof (i_par s HI x Ex C) as Q. rewrite P in Q.
  destruct Q as (_ & T & Vw). split; [|split].
  - intros k v. cbn [CnModel.exec called]. rewrite C, T. reflexivity.
  - intros i. unfold seen. rewrite P, Vw. reflexivity.
  - intros c. cbn zeta. cbn [CnModel.exec]. rewrite C, P, Vw. destruct (node s m) as [ch cs] eqn:En. cbn [exn called st]. rewrite T.
    split; [reflexivity|]. split; [reflexivity|]. set (s' := mkS V (arrs V s) _ _ _).
    assert (Nd : forall y, node s' y = if Nat.eqb y m then (ch, fun i => if (offset V s ch x <=? i) && (i <? offset V s ch x + length (pos (at_ s x))) then Some c else cs i) else node s y).
    { intros y. apply node_set. apply HL. }
    assert (Ef : forall y i, effective s' m y i = (if (offset V s ch x <=? before s ch y + i) && (before s ch y + i <? offset V s ch x + length (pos (at_ s x))) then Some c else cs (before s ch y + i))).
    { intros y i. unfold effective. rewrite Nd, Nat.eqb_refl. cbn [fst snd]. rewrite (before_same s s' _ _ (fun _ _ => eq_refl)). reflexivity. }
    split.
    + intros i Hi. pose proof (before_offset s ch x) as BO. rewrite Ef. assert (E1 : (offset V s ch x <=? before s ch x + i) = true) by (apply Nat.leb_le; lia).
      assert (E2 : (before s ch x + i <? offset V s ch x + length (pos (at_ s x))) = true) by (apply Nat.ltb_lt; lia). rewrite E1, E2. reflexivity.
    + intros n y i Hy N Hi. destruct (Nat.eq_dec n m) as [->|Nm].
      * rewrite Ef. unfold effective. rewrite En. cbn [fst snd]. destruct HL as [_ HL]. destruct Hy as [_ Hy]. rewrite En in HL, Hy. cbn in HL, Hy.
        pose proof (i_nd s HI m) as Nod. rewrite En in Nod. cbn in Nod. pose proof (before_offset s ch x) as BO.
        assert (E : (offset V s ch x <=? before s ch y + i) && (before s ch y + i <? offset V s ch x + length (pos (at_ s x))) = false).
        { apply andb_false_iff. rewrite Nat.leb_gt, Nat.ltb_ge. destruct (before_apart s ch x y Nod HL Hy (not_eq_sym N)) as [A|A]; lia. }
        rewrite E. reflexivity.
      * unfold effective. rewrite Nd. apply Nat.eqb_neq in Nm. rewrite Nm. rewrite (before_same s s' _ _ (fun _ _ => eq_refl)). reflexivity.
Qed.

(** Buffers in use have been handed out. *)
Definition B (s : state) : Prop := forall x, exists_arr s x -> buf (at_ s x) < nbuf V s.
Lemma B_add : forall s a m nb, B s -> nbuf V s <= nb -> buf a < nb -> B (mkS V (arrs V s ++ [a]) m nb (nodes V s)).
Proof.
  intros s a m nb H L La x Hx. unfold CnModel.at_. cbn [arrs nbuf]. rewrite nth_new. destruct (Nat.eqb_spec x (length (arrs V s))) as [E|E]; [exact La|].
  assert (Q : exists_arr s x) by (unfold exists_arr in *; cbn in Hx; rewrite app_length in Hx; cbn in Hx; lia). specialize (H x Q). unfold CnModel.at_ in H. lia.
Qed.
Lemma B_set : forall s x a, B s -> exists_arr s x -> buf a < nbuf V s -> B (set_arr V s x a).
Proof.
  intros s x a H Ex La y Hy. rewrite at_set by exact Ex. change (nbuf V (set_arr V s x a)) with (nbuf V s). destruct (Nat.eqb_spec y x); [exact La|]. apply H.
  unfold exists_arr in *. unfold set_arr in Hy. cbn [arrs] in Hy. rewrite length_set in Hy; assumption.
Qed.
Lemma required_ok : forall s x m nb b ps, B s -> exists_arr s x -> required V s x = (m, nb, b, ps) ->
  nbuf V s <= nb /\ b < nb /\ length ps = length (pos (at_ s x)) /\
  (forall c k, c < nbuf V s -> m c k = mem V s c k) /\ (forall i, i < length ps -> m b (nth i ps 0) = value s x i) /\
  (contiguous (pos (at_ s x)) = true -> b = buf (at_ s x) /\ ps = pos (at_ s x)) /\
  (contiguous (pos (at_ s x)) = false -> b = nbuf V s).
Proof.
  intros s x m nb b ps HB Ex E. unfold required in E. specialize (HB x Ex). destruct (contiguous (pos (at_ s x))) eqn:Cg; injection E as <- <- <- <-.
  - repeat split; auto. discriminate.
  - split; [lia|]. split; [lia|]. split; [apply seq_length|]. split; [intros c k L; destruct (Nat.eqb_spec c (nbuf V s)); [lia | reflexivity]|].
    split; [|split; [discriminate | reflexivity]]. intros i Hi. rewrite seq_length in Hi. rewrite Nat.eqb_refl, seq_nth by exact Hi. reflexivity.
Qed.
Lemma B_step : forall s k, B s -> legal s k -> B (st V (exec k s)).
Proof.
  intros s k HB Hl. destruct k; cbn [CnModel.exec].
  - apply B_add; cbn; auto; lia.
  - apply B_add; cbn; auto. apply HB. apply Hl.
  - assert (Fr : forall c n, B (st V (fresh V s x c n))).
    { intros c n. unfold fresh. destruct (required V s x) as [[[m nb] b] ps] eqn:E. destruct (required_ok s x m nb b ps HB Hl E) as (A1 & A2 & _). apply B_add; auto. }
    destruct (cls (at_ s x)); [apply Fr | |]; (apply B_set; [exact HB | exact Hl | apply HB; exact Hl]).
  - assert (Fr : forall c n, B (st V (fresh V s x c n))).
    { intros c n'. unfold fresh. destruct (required V s x) as [[[m nb] b] ps] eqn:E. destruct (required_ok s x m nb b ps HB Hl E) as (A1 & A2 & _). apply B_add; auto. }
    destruct (cls (at_ s x)); [apply Fr | |]; (apply B_set; [exact HB | exact Hl | apply HB; exact Hl]).
  - exact HB.
  - destruct Hl as (Hm & Hx & _). destruct (cls (at_ s x)); try exact HB. destruct (parent (at_ s x)); [exact HB|]. destruct (node s m) as [ch cs]. cbn [quiet st].
    apply B_set; [|exact Hx | cbn; lia]. intros y Hy. specialize (HB y Hy). cbn [nbuf]. change (buf (at_ s y) < S (nbuf V s)). lia.
  - destruct (cls (at_ s x)); try exact HB. destruct (parent (at_ s x)) as [m|]; [destruct (view (at_ s x))|].
    + destruct (node s m) as [ch cs]. exact HB.
    + apply B_set; [exact HB | exact Hl | apply HB; exact Hl].
    + apply B_set; [exact HB | exact Hl | apply HB; exact Hl].
  - exact HB.
Qed.
Lemma reach_B : forall ok s, reach ok s -> B s.
Proof. intros ok s H. induction H; [intros x Hx; unfold exists_arr in Hx; cbn in Hx; lia | apply B_step; assumption]. Qed.

Lemma contiguous_block : forall ps, contiguous ps = true <-> block ps.
Proof.
  induction ps as [|p [|q r] IH].
  - split; [intros _ i H; cbn in H; lia | reflexivity].
  - split; [intros _ i H; cbn in H; lia | reflexivity].
  - change (contiguous (p :: q :: r)) with (Nat.eqb q (S p) && contiguous (q :: r)). rewrite andb_true_iff, Nat.eqb_eq, IH. split.
    + intros [-> H] [|i] Hi; [reflexivity|]. apply (H i). cbn in Hi |- *. lia.
    + intros H. split; [apply (H 0); cbn; lia|]. intros i Hi. apply (H (S i)). cbn in Hi |- *. lia.
Qed.

Lemma put_value : forall s y k v x i, value (st V (exec (Put V y k v) s)) x i =
  if Nat.eqb (buf (at_ s x)) (buf (at_ s y)) && Nat.eqb (nth i (pos (at_ s x)) 0) (nth k (pos (at_ s y)) 0) then v else value s x i.
Proof. reflexivity. Qed.
Lemma make_plain : forall s n x, cls (at_ s x) = Plain -> exec (MakeParam V n x) s = fresh V s x Par n.
Proof. intros s n x C. cbn [CnModel.exec]. rewrite C. reflexivity. Qed.
(** Making a Param from a plain array. *)
Lemma plain_effect : forall s n x, reach any s -> exists_arr s x -> cls (at_ s x) = Plain ->
  let o := exec (MakeParam V n x) s in let s' := st V o in
  exists y, ret V o = Some y /\ exn V o = None /\ called V o = [] /\ ~ exists_arr s y /\ exists_arr s' y /\
    cls (at_ s' y) = Par /\ nm (at_ s' y) = n /\ parent (at_ s' y) = None /\ (forall i, seen s' y i = None) /\
    length (pos (at_ s' y)) = length (pos (at_ s x)) /\
    (forall i, i < length (pos (at_ s x)) -> value s' y i = value s x i) /\
    (forall z, exists_arr s z -> at_ s' z = at_ s z /\ forall i, value s' z i = value s z i) /\
    nodes V s' = nodes V s /\
    (block (pos (at_ s x)) -> forall k v, k < length (pos (at_ s x)) -> value (st V (exec (Put V y k v) s')) x k = v) /\
    (~ block (pos (at_ s x)) -> forall k v z i, exists_arr s z -> value (st V (exec (Put V y k v) s')) z i = value s z i).
Proof.
  intros s n x HR Ex C o s'. pose proof (reach_B _ s HR) as HB. subst o s'. rewrite (make_plain s n x C). unfold fresh.
  destruct (required V s x) as [[[m nb] b] ps] eqn:E. destruct (required_ok s x m nb b ps HB Ex E) as (A1 & A2 & A3 & A4 & A5 & A6 & A7). cbn [quiet st ret exn called].
  set (s' := mkS V (arrs V s ++ _) m nb (nodes V s)). exists (length (arrs V s)).
  assert (At : forall y, at_ s' y = if Nat.eqb y (length (arrs V s)) then mkA Par b ps n None [] false no_cons else at_ s y) by (intros y; apply nth_new).
  assert (Ay : at_ s' (length (arrs V s)) = mkA Par b ps n None [] false no_cons) by (rewrite At, Nat.eqb_refl; reflexivity).
  assert (Az : forall z, exists_arr s z -> at_ s' z = at_ s z).
  { intros z Hz. rewrite At. unfold exists_arr in Hz. destruct (Nat.eqb_spec z (length (arrs V s))); [lia | reflexivity]. }
  split; [reflexivity|]. split; [reflexivity|]. split; [reflexivity|]. split; [unfold exists_arr; lia|].
  split; [unfold exists_arr, s'; cbn; rewrite app_length; cbn; lia|]. split; [rewrite Ay; reflexivity|]. split; [rewrite Ay; reflexivity|]. split; [rewrite Ay; reflexivity|].
  split; [intros i; unfold seen; rewrite Ay; reflexivity|]. split; [rewrite Ay; exact A3|].
  split; [intros i Hi; unfold value at 1; rewrite Ay; cbn [buf pos]; apply A5; lia|].
  split.
  { intros z Hz. split; [apply Az; exact Hz|]. intros i. unfold value. rewrite Az by exact Hz. apply A4. apply HB. exact Hz. }
  split; [reflexivity|]. split.
  - intros Bl k v Hk. apply contiguous_block in Bl. destruct (A6 Bl) as [Eb Ep]. etransitivity; [exact (put_value s' (length (arrs V s)) k v x k)|]. rewrite Ay, (Az x Ex). cbn [buf pos]. rewrite Eb, Ep, !Nat.eqb_refl. reflexivity.
  - intros Bl k v z i Hz. assert (Cg : contiguous (pos (at_ s x)) = false) by (destruct (contiguous (pos (at_ s x))) eqn:Q; [exfalso; apply Bl; apply contiguous_block; exact Q | reflexivity]).
    pose proof (A7 Cg) as Eb. etransitivity; [exact (put_value s' (length (arrs V s)) k v z i)|]. rewrite Ay, (Az z Hz). cbn [buf pos].
    specialize (HB z Hz). destruct (Nat.eqb_spec (buf (at_ s z)) b); [lia|]. cbn [andb]. unfold value. rewrite (Az z Hz). apply A4. exact HB.
Qed.
(** From an observable array. *)
Lemma obs_effect : forall s n x, exists_arr s x -> cls (at_ s x) = Obs ->
  let o := exec (MakeParam V n x) s in let s' := st V o in
  ret V o = Some x /\ exn V o = None /\ cls (at_ s' x) = Obs /\
  (forall m, exn V (exec (Link V m x) s') = Some AttributeError) /\
  (forall k v, called V (exec (Put V x k v) s') = []).
Proof.
  intros s n x Ex C o s'. subst o s'. cbn [CnModel.exec]. rewrite C. cbn [quiet st ret exn called]. rewrite at_set by exact Ex. rewrite Nat.eqb_refl. cbn [cls told].
  repeat split.
Qed.
(** From a Param. *)
Lemma again_effect : forall s n x, exists_arr s x -> cls (at_ s x) = Par ->
  let o := exec (MakeParam V n x) s in let s' := st V o in
  ret V o = Some x /\ exn V o = None /\ nm (at_ s' x) = n /\
  (forall k v, called V (exec (Put V x k v) s') = []) /\
  (forall i, seen s' x i = None) /\
  (forall m y, linked s' m y <-> linked s m y) /\
  (forall m y i, effective s' m y i = effective s m y i) /\
  (forall y i, value s' y i = value s y i) /\
  (forall c, called V (exec (Constrain V x c) s') = [] /\ forall m y i, effective (st V (exec (Constrain V x c) s')) m y i = effective s m y i).
Proof.
  intros s n x Ex C o s'. subst o s'. cbn [CnModel.exec]. rewrite C. cbn [quiet st ret exn called].
  set (a := mkA Par _ _ n _ [] false no_cons). set (s' := set_arr V s x a).
  assert (At : forall y, at_ s' y = if Nat.eqb y x then a else at_ s y) by (intros y; apply at_set; exact Ex).
  assert (Ax : at_ s' x = a) by (rewrite At, Nat.eqb_refl; reflexivity).
  assert (Po : forall y, pos (at_ s' y) = pos (at_ s y) /\ buf (at_ s' y) = buf (at_ s y)).
  { intros y. rewrite At. destruct (Nat.eqb_spec y x) as [->|N]; split; reflexivity. }
  assert (Ef : forall m y i, effective s' m y i = effective s m y i).
  { intros m y i. unfold effective. change (node s' m) with (node s m). rewrite (before_same s s'); [reflexivity|]. intros z _. rewrite (proj1 (Po z)). reflexivity. }
  split; [reflexivity|]. split; [reflexivity|]. rewrite Ax. split; [reflexivity|]. split; [intros; reflexivity|].
  split; [intros i; unfold seen; rewrite Ax; unfold a; cbn [parent view own]; destruct (parent (at_ s x)); reflexivity|].
  split; [intros; reflexivity|]. split; [exact Ef|]. split; [intros y i; unfold value; rewrite (proj1 (Po y)), (proj2 (Po y)); reflexivity|].
  intros c. unfold a. cbn [cls parent view]. 
  assert (Goal1 : forall b, pos b = pos (at_ s x) -> forall m y i, effective (set_arr V s' x b) m y i = effective s m y i).
  { intros b Pb m y i. rewrite <- Ef. unfold effective. change (node (set_arr V s' x b) m) with (node s' m). rewrite (before_same s' (set_arr V s' x b)); [reflexivity|].
    intros z _. rewrite at_set by (unfold exists_arr, s', set_arr; cbn [arrs]; rewrite length_set; exact Ex). destruct (Nat.eqb_spec z x) as [->|N]; [rewrite Pb, (proj1 (Po x)); reflexivity | reflexivity]. }
  destruct (parent (at_ s x)); (split; [reflexivity | apply Goal1; reflexivity]).
Qed.
End Proofs.
