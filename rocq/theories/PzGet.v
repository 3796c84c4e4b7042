(** Reading the vector of the free elements of any object, and values that survive moves in memory. *)
From Coq Require Import List ZArith Bool Lia Arith.
From Verif Require Import NpModel NpProofs IndexOpsModel IndexOpsSpec IndexOpsProofs PzModel PzSpec PzTree PzStruct PzLink PzWalk PzMem PzIo PzInv PzConn PzFix PzLinkMem PzPres PzUnlink PzTraverse PzNotify PzNew PzCmd PzInit PzCons PzVal PzOpt PzRandom.
Import ListNotations.
Open Scope Z_scope.

Section Get.
Context {V : Type}.
Implicit Types s : @state V.
Variable tfinv : nat -> V -> V.

Lemma get_any_ok : forall s x, Inv s -> (x < next (st s))%nat -> ready (st s) x ->
  exists l s', get_optimizer_array tfinv x s = Ok (l, s') /\ Inv s' /\ read_only s s' x.
Proof.
  intros s x H Hx Rx. pose proof H as [W I F M N J]. destruct (store_ok s x H Hx Rx) as (m1 & a & Ep & Hlen & Hval & _).
  destruct (pa_ok (st s) (mem s) x m1 a W M Hx Rx Ep) as (M1 & D1 & V1).
  unfold get_optimizer_array. rewrite Ep.
  set (keep := match copied (nt s) x with Some l => _ | None => false end).
  set (m2 := if keep then m1 else mkM (cell m1) (S (nbuf m1)) (arr m1)).
  set (new := if fresh (nt s) x then _ else _).
  assert (M2 : meminv (st s) m2).
  { unfold m2. destruct keep; auto. destruct M1 as [A1 A2 A3 A4 A5]. constructor; auto. intros y b o n E. apply A1 in E. cbn. lia. }
  assert (V2 : forall y j, mval m2 y j = mval m1 y j) by (intros; unfold m2; destruct keep; auto).
  assert (D2 : disj (st s) m1 -> disj (st s) m2) by (unfold m2; destruct keep; auto).
  assert (Fin : forall fx, (forall y, y <> x -> fx y = fix_ s y) -> (par (st s) x = None -> ready (st s) x -> mask_ok (st s) (ios s) fx x) ->
     Inv (with_fix (with_nt (with_mem s m2) (set_fresh (set_copied (nt s) x (Some new)) x true)) fx) /\
     read_only s (with_fix (with_nt (with_mem s m2) (set_fresh (set_copied (nt s) x (Some new)) x true)) fx) x).
  { intros fx E1 E2. split.
    - constructor; auto. intros q Hq Hp Hr. cbn [with_fix fix_ with_nt with_mem st ios]. destruct (Nat.eq_dec q x) as [->|Hne]; auto.
      apply (mask_ok_ext (st s) (ios s) (fix_ s)); auto; try tauto.
    - repeat (split; [auto; fail|]). split; [|repeat (split; [auto; fail|])].
      + intros y j Hy Ry Hj. change (mval m2 y j = mval (mem s) y j). rewrite V2. apply V1; auto.
      + split; [intros y Hne; cbn; rewrite !upd_ne by auto; auto|]. intros Ap. apply D2, D1. exact Ap. }
  assert (Efx : forall (s0 : @state V), with_fix s0 (fix_ s0) = s0) by (intros []; auto).
  destruct (nonempty (cons_get (ios s) x Fixed)) eqn:Ef.
  - pose proof (proj1 (fixed_nonempty s x) Ef) as Hex.
    assert (exists mk, ensure_fixes (st s) (ios s) (fix_ s) x = Ok mk /\ (par (st s) x = None -> mask_ok (st s) (ios s) (upd (fix_ s) x (Some mk)) x)) as (mk & E & Mk).
    { destruct (par (st s) x) as [q|] eqn:Epar.
      - destruct (ensure_ok (st s) (ios s) (fix_ s) x (size_nonneg _ W x)) as (mk & E & _); [intros j; apply hasi_range; auto|]. exists mk. split; auto. discriminate.
      - destruct (getter_mask s x H Hx Rx (or_introl Epar) Hex) as (mk & E & Lm & Nm). exists mk. split; auto. intros _. unfold mask_ok. rewrite upd_eq. auto. }
    rewrite E. eexists; eexists. split; [reflexivity|]. apply (Fin (upd (fix_ s) x (Some mk))); [intros; apply upd_ne; auto | auto].
  - eexists; eexists. split; [reflexivity|].
    rewrite <- (Efx (with_nt (with_mem s m2) (set_fresh (set_copied (nt s) x (Some new)) x true))). apply Fin; auto.
Qed.

Lemma kept_value : forall s s' y j, Inv s -> kept (st s) (mem s) (mem s') -> (y < next (st s))%nat -> is_leaf (st s) y = true ->
  0 <= j < size (st s) y -> value s' y j = value s y j.
Proof.
  intros s s' y j H K Hy Hl Hj. unfold value.
  destruct (arr (mem s) y) as [[[b o] n]|] eqn:E; [|exfalso; apply (mm_leaf _ _ (inv_mem _ H) y Hy Hl); auto].
  destruct (mm_size _ _ (inv_mem _ H) y b o n Hy E) as [->|[Q _]]; [|unfold is_leaf in Hl; rewrite Q in Hl; discriminate].
  destruct (K y b o j Hl E Hj) as (b' & o' & E' & C). rewrite E', C. auto.
Qed.
End Get.
