(** Making Params from arrays: proofs. *)
From Coq Require Import List Bool Arith Lia.
From Verif Require Import CnModel CnSpec.
Import ListNotations.

Section Proofs.
Context {V : Type}.
Notation state := (state V).
Notation exec := (exec V).
Notation at_ := (at_ V).
Notation node := (node V).
Implicit Types s : state.

Lemma nth_set {A} : forall (l : list A) x a d y, x < length l -> nth y (firstn x l ++ a :: skipn (S x) l) d = if Nat.eqb y x then a else nth y l d.
Proof.
  induction l as [|b l IH]; intros x a d y H; cbn in H; [lia|]. destruct x as [|x]; cbn [firstn skipn app].
  - destruct y; reflexivity.
  - destruct y as [|y]; [reflexivity|]. cbn [nth Nat.eqb]. apply IH. lia.
Qed.
Lemma length_set {A} : forall (l : list A) x a, x < length l -> length (firstn x l ++ a :: skipn (S x) l) = length l.
Proof. intros l x a H. rewrite app_length. cbn [length]. rewrite firstn_length, skipn_length. lia. Qed.
Lemma nth_new {A} : forall (l : list A) a d y, nth y (l ++ [a]) d = if Nat.eqb y (length l) then a else nth y l d.
Proof.
  intros l a d y. destruct (Nat.eqb_spec y (length l)) as [->|N]; [apply nth_middle|].
  destruct (Nat.lt_ge_cases y (length l)) as [L|L]; [apply app_nth1; exact L|]. rewrite !nth_overflow; auto. rewrite app_length. cbn. lia.
Qed.
Lemma at_set : forall s x a y, exists_arr s x -> at_ (set_arr V s x a) y = if Nat.eqb y x then a else at_ s y.
Proof. intros s x a y H. apply nth_set. exact H. Qed.

Lemma before_offset : forall s l x, before s l x = offset V s l x.
Proof. induction l as [|y l IH]; intros x; cbn; [reflexivity|]. rewrite IH. reflexivity. Qed.
Lemma before_same : forall s s' l x, (forall y, In y l -> length (pos (at_ s' y)) = length (pos (at_ s y))) -> before s' l x = before s l x.
Proof.
  induction l as [|y l IH]; intros x H; cbn; [reflexivity|]. rewrite H by (cbn; auto). rewrite IH by (intros; apply H; cbn; auto). reflexivity.
Qed.
Lemma before_app : forall s l k x, In x l -> before s (l ++ k) x = before s l x.
Proof.
  induction l as [|y l IH]; intros k x H; [destruct H|]. cbn. destruct (Nat.eqb_spec y x); [reflexivity|]. destruct H; [congruence|]. rewrite IH; auto.
Qed.
Lemma before_last : forall s l x, ~ In x l -> before s (l ++ [x]) x = total V s l.
Proof.
  induction l as [|y l IH]; intros x H; cbn.
  - rewrite Nat.eqb_refl. reflexivity.
  - destruct (Nat.eqb_spec y x) as [E|E]; [exfalso; apply H; cbn; auto|]. rewrite IH by (intro; apply H; cbn; auto). reflexivity.
Qed.
Lemma before_total : forall s l x, In x l -> before s l x + length (pos (at_ s x)) <= total V s l.
Proof.
  induction l as [|y l IH]; intros x H; [destruct H|]. change (total V s (y :: l)) with (size_of V s y + total V s l). cbn [before]. destruct (Nat.eqb_spec y x) as [->|N].
  - unfold size_of. lia.
  - destruct H as [H|H]; [congruence|]. specialize (IH x H). unfold size_of. lia.
Qed.
Lemma before_apart : forall s l x y, NoDup l -> In x l -> In y l -> x <> y ->
  before s l x + length (pos (at_ s x)) <= before s l y \/ before s l y + length (pos (at_ s y)) <= before s l x.
Proof.
  induction l as [|z l IH]; intros x y Nd Hx Hy N; [destruct Hx|]. inversion Nd as [|? ? Nz Nd']; subst. cbn.
  destruct (Nat.eqb_spec z x) as [Ex|Zx]; destruct (Nat.eqb_spec z y) as [Ey|Zy]; try congruence; subst.
  - left. lia.
  - right. lia.
  - destruct Hx as [Hx|Hx]; [congruence|]. destruct Hy as [Hy|Hy]; [congruence|]. destruct (IH x y Nd' Hx Hy N); [left | right]; lia.
Qed.

Lemma NoDup_app_one {A} : forall (l : list A) x, NoDup l -> ~ In x l -> NoDup (l ++ [x]).
Proof. intros l x Nd Hn. apply NoDup_Add with (a := x) (l := l); [|auto]. rewrite <- (app_nil_r l) at 1. apply Add_app. Qed.

(** ** What holds as long as Params are made from plain arrays *)
Record I (s : state) : Prop := mkI {
  i_par : forall x, exists_arr s x -> cls (at_ s x) = Par ->
    match parent (at_ s x) with
    | Some m => linked s m x /\ told (at_ s x) = [m] /\ view (at_ s x) = true
    | None => told (at_ s x) = [] /\ view (at_ s x) = false
    end;
  i_oth : forall x, exists_arr s x -> cls (at_ s x) <> Par -> told (at_ s x) = [] /\ parent (at_ s x) = None;
  i_ch : forall m x, linked s m x -> exists_arr s x /\ cls (at_ s x) = Par /\ parent (at_ s x) = Some m;
  i_nd : forall m, NoDup (fst (node s m)) }.

Lemma I_start : forall m0, I (start V m0).
Proof.
  intros m0. constructor.
  - intros x H. unfold exists_arr in H. cbn in H. lia.
  - intros x H. unfold exists_arr in H. cbn in H. lia.
  - intros m x [H _]. cbn in H. lia.
  - intros m. destruct m; constructor.
Qed.
(** Adding an array without a parent and observers. *)
Lemma I_add : forall s a m nb, I s -> told a = [] -> parent a = None -> view a = false -> I (mkS V (arrs V s ++ [a]) m nb (nodes V s)).
Proof.
  intros s a m nb [H1 H2 H3 H4] Ta Pa Va. set (s' := mkS V (arrs V s ++ [a]) m nb (nodes V s)).
  assert (At : forall y, at_ s' y = if Nat.eqb y (length (arrs V s)) then a else at_ s y) by (intros y; apply nth_new).
  assert (Ex : forall y, exists_arr s' y -> y = length (arrs V s) \/ exists_arr s y) by (unfold exists_arr, s'; cbn; intros y; rewrite app_length; cbn; lia).
  assert (Ex2 : forall y, exists_arr s y -> exists_arr s' y /\ Nat.eqb y (length (arrs V s)) = false).
  { unfold exists_arr, s'; cbn; intros y L; rewrite app_length; cbn. split; [lia | apply Nat.eqb_neq; lia]. }
  constructor.
  - intros x Hx. rewrite At. destruct (Nat.eqb_spec x (length (arrs V s))) as [E|E].
    + intros _. rewrite Pa. auto.
    + destruct (Ex x Hx) as [Q|Q]; [congruence|]. apply (H1 x Q).
  - intros x Hx. rewrite At. destruct (Nat.eqb_spec x (length (arrs V s))) as [E|E]; [auto|]. destruct (Ex x Hx) as [Q|Q]; [congruence|]. apply (H2 x Q).
  - intros n x Hl. destruct (H3 n x Hl) as (A & B & C). destruct (Ex2 x A) as [D E]. rewrite At, E. auto.
  - exact H4.
Qed.
Lemma I_mem : forall s m nb, I s -> I (mkS V (arrs V s) m nb (nodes V s)).
Proof. intros s m nb [H1 H2 H3 H4]. constructor; [exact H1 | exact H2 | exact H3 | exact H4]. Qed.
(** Replacing an array by one that is connected in the same way. *)
Lemma I_set : forall s x a, I s -> exists_arr s x -> cls a = cls (at_ s x) -> told a = told (at_ s x) -> parent a = parent (at_ s x) -> view a = view (at_ s x) -> I (set_arr V s x a).
Proof.
  intros s x a [H1 H2 H3 H4] Ex Ca Ta Pa Va. assert (Len : length (arrs V (set_arr V s x a)) = length (arrs V s)) by (apply length_set; exact Ex).
  constructor.
  - intros y Hy. unfold exists_arr in Hy. rewrite Len in Hy. rewrite at_set by exact Ex. destruct (Nat.eqb_spec y x) as [->|N]; [rewrite Ca, Ta, Pa, Va; apply (H1 x Ex) | apply (H1 y Hy)].
  - intros y Hy. unfold exists_arr in Hy. rewrite Len in Hy. rewrite at_set by exact Ex. destruct (Nat.eqb_spec y x) as [->|N]; [rewrite Ca, Ta, Pa; apply (H2 x Ex) | apply (H2 y Hy)].
  - intros m y Hl. destruct (H3 m y Hl) as (A & B & C). unfold exists_arr. rewrite Len, at_set by exact Ex. split; [exact A|].
    destruct (Nat.eqb_spec y x) as [->|N]; [rewrite Ca, Pa; auto | auto].
  - exact H4.
Qed.
Lemma node_set : forall s m e ar mm nb y, m < length (nodes V s) -> node (mkS V ar mm nb (firstn m (nodes V s) ++ e :: skipn (S m) (nodes V s))) y = if Nat.eqb y m then e else node s y.
Proof. intros. apply nth_set. assumption. Qed.
Lemma node_new : forall s y ar mm nb, node (mkS V ar mm nb (nodes V s ++ [([], no_cons)])) y = node s y.
Proof.
  intros. unfold CnModel.node. cbn [nodes]. rewrite nth_new. destruct (Nat.eqb_spec y (length (nodes V s))) as [->|N]; [|reflexivity]. rewrite nth_overflow; [reflexivity | lia].
Qed.

Lemma I_step : forall s k, I s -> legal s k -> from_plain s k -> I (st V (exec k s)).
Proof.
  intros s k HI Hl Hp. pose proof HI as [H1 H2 H3 H4]. destruct k; cbn [CnModel.exec].
  - apply I_add; auto.
  - apply I_add; auto.
  - cbn in Hp. rewrite Hp. unfold fresh. destruct (required V s x) as [[[m nb] b] ps]. apply I_add; auto.
  - cbn in Hp. rewrite Hp. unfold fresh. destruct (required V s x) as [[[m nb] b] ps]. apply I_add; auto.
  - cbn [quiet st]. set (s' := mkS V (arrs V s) (mem V s) (nbuf V s) (nodes V s ++ [([], no_cons)])).
    assert (Nd : forall y, node s' y = node s y) by (intros; apply node_new).
    assert (Li : forall m x, linked s' m x <-> linked s m x).
    { intros m x. unfold linked. rewrite Nd. unfold s'. cbn [nodes]. rewrite app_length. cbn. split; intros [A B]; split; auto; [|lia].
      destruct (Nat.lt_ge_cases m (length (nodes V s))); [assumption|]. unfold CnModel.node in B. rewrite nth_overflow in B by assumption. destruct B. }
    constructor.
    + intros x Hx Hc. specialize (H1 x Hx Hc). change (at_ s' x) with (at_ s x). destruct (parent (at_ s x)); [rewrite Li|]; exact H1.
    + exact H2.
    + intros m x. rewrite Li. apply H3.
    + intros m. rewrite Nd. apply H4.
  - destruct Hl as (Hm & Hx & Hpar). destruct (cls (at_ s x)) eqn:C; try exact HI. destruct (parent (at_ s x)) as [m1|] eqn:P; [exact HI|].
    destruct (node s m) as [ch cs] eqn:En. cbn [quiet st].
    set (s1 := mkS V (arrs V s) _ _ _). set (a := mkA Par _ _ _ _ _ _ _).
    assert (Ex1 : exists_arr s1 x) by exact Hx.
    assert (Len : length (arrs V (set_arr V s1 x a)) = length (arrs V s)) by (apply (length_set (arrs V s)); exact Hx).
    assert (Nd : forall y, node (set_arr V s1 x a) y = if Nat.eqb y m then (ch ++ [x], fun i => if Nat.ltb i (total V s ch) then cs i else own (at_ s x) (i - total V s ch)) else node s y).
    { intros y. change (node (set_arr V s1 x a) y) with (node s1 y). apply node_set. exact Hm. }
    assert (Ln : length (nodes V (set_arr V s1 x a)) = length (nodes V s)) by (apply (length_set (nodes V s)); exact Hm).
    assert (Hnot : ~ In x ch).
    { intros H. assert (L : linked s m x) by (split; [exact Hm | rewrite En; exact H]). destruct (H3 m x L) as (_ & _ & Q). congruence. }
    assert (Li : forall n y, linked (set_arr V s1 x a) n y <-> linked s n y \/ (n = m /\ y = x)).
    { intros n y. unfold linked. rewrite Nd, Ln. destruct (Nat.eqb_spec n m) as [->|N].
      - cbn [fst]. rewrite in_app_iff, En. cbn. split; [intros [A [B|[B|[]]]]; auto | intros [[A B]|[_ ->]]; auto].
      - split; [auto | intros [Q|[Q _]]; [exact Q | congruence]]. }
    assert (Tx : told (at_ s x) = []) by (pose proof (H1 x Hx C) as Q; rewrite P in Q; apply Q).
    constructor.
    + intros y Hy. unfold exists_arr in Hy. rewrite Len in Hy. rewrite at_set by exact Ex1. destruct (Nat.eqb_spec y x) as [->|N].
      * intros _. unfold a. cbn [parent told view]. rewrite Tx. split; [apply Li; auto | auto].
      * intros Cy. specialize (H1 y Hy Cy). change (at_ s1 y) with (at_ s y). destruct (parent (at_ s y)) as [m1|]; [|exact H1].
        destruct H1 as [L1 L2]. split; [apply Li; auto | exact L2].
    + intros y Hy. unfold exists_arr in Hy. rewrite Len in Hy. rewrite at_set by exact Ex1. destruct (Nat.eqb_spec y x) as [->|N]; [intros Q; exfalso; apply Q; reflexivity | apply (H2 y Hy)].
    + intros n y Hln. apply Li in Hln. unfold exists_arr. rewrite Len, at_set by exact Ex1. destruct Hln as [Hln|[-> ->]].
      * destruct (H3 n y Hln) as (A & B & D). destruct (Nat.eqb_spec y x) as [->|N]; [congruence | auto].
      * rewrite Nat.eqb_refl. auto.
    + intros n. rewrite Nd. destruct (Nat.eqb_spec n m) as [->|N]; [|apply H4]. cbn [fst]. specialize (H4 m). rewrite En in H4. cbn in H4.
      apply NoDup_app_one; assumption.
  - destruct (cls (at_ s x)) eqn:C; try exact HI. destruct (parent (at_ s x)) as [m|] eqn:P.
    + pose proof (H1 x Hl C) as Q. rewrite P in Q. destruct Q as (Q1 & Q2 & Q3). rewrite Q3. destruct (node s m) as [ch cs] eqn:En. cbn [st].
      set (s' := mkS V (arrs V s) _ _ _).
      assert (Nd : forall y, node s' y = if Nat.eqb y m then (ch, fun i => if (offset V s ch x <=? i) && (i <? offset V s ch x + length (pos (at_ s x))) then Some c else cs i) else node s y).
      { intros y. apply node_set. apply Q1. }
      assert (Ln : length (nodes V s') = length (nodes V s)) by (apply (length_set (nodes V s)); apply Q1).
      assert (Fs : forall y, fst (node s' y) = fst (node s y)) by (intros y; rewrite Nd; destruct (Nat.eqb_spec y m) as [->|N]; [rewrite En; reflexivity | reflexivity]).
      assert (Li : forall n y, linked s' n y <-> linked s n y) by (intros n y; unfold linked; rewrite Fs, Ln; tauto).
      constructor.
      * intros y Hy Cy. specialize (H1 y Hy Cy). change (at_ s' y) with (at_ s y). destruct (parent (at_ s y)); [rewrite Li|]; exact H1.
      * exact H2.
      * intros n y. rewrite Li. apply H3.
      * intros n. rewrite Fs. apply H4.
    + apply I_set; auto.
  - apply (I_mem s). exact HI.
Qed.
End Proofs.
