(** Proofs about gradients, part 4: copying leaves the gradients of the objects there are alone. *)
From Coq Require Import List ZArith Bool Lia Arith.
From Verif Require Import NpModel NpProofs IndexOpsModel IndexOpsSpec IndexOpsProofs PzModel PzSpec PzTree PzStruct PzLink PzWalk PzMem PzIo PzInv PzConn PzFix PzLinkMem PzPres PzUnlink PzTraverse PzNotify PzNew PzCmd PzInit PzCons PzVal PzOpt PzRandom PzGet PzHist PzKeep PzOrder PzGrad CopyModel CopySpec CopyTree CopyDeep CopyJoin CopyConn CopyCall GmModel GmSpec GmInd GmProofs GmFinal.
Import ListNotations.
Open Scope Z_scope.

Section Copied.
Context {V : Type}.
Implicit Types s : @state V.
Implicit Types q : @gstate V.
Variables tinit tf tfinv : nat -> V -> V.
Variable tgrad : nat -> V -> V -> V.
Variables junk junk' : nat -> Z -> V.

Lemma get_arr : forall s x v s', Inv s -> (x < next (st s))%nat -> ready (st s) x -> get_optimizer_array tfinv x s = Ok (v, s') ->
  forall y, 0 < size (st s) y -> arr (mem s') y = arr (mem s) y.
Proof.
  intros s x v s' H Hx Rx E y Hy. unfold get_optimizer_array in E.
  destruct (param_array (st s) (mem s) x) as [m1 a] eqn:Ep.
  assert (A : arr m1 y = arr (mem s) y).
  { destruct (Nat.eq_dec y x) as [->|Hne].
    - destruct (ready_al (st s) (mem s) x (inv_st _ H) (inv_mem _ H) Hx Rx) as (b & o & Al).
      assert (Av : arr (mem s) x = Some (b, o, size (st s) x)) by (apply al_self; auto; lia).
      rewrite (pa_valid _ _ _ _ _ Av) in Ep. injection Ep as <- <-. reflexivity.
    - unfold param_array in Ep. destruct (arr (mem s) x) as [[[b o] n]|].
      + destruct (is_leaf (st s) x || (n =? size (st s) x)); injection Ep as <- <-; auto. cbn. rewrite upd_ne; auto.
      + injection Ep as <- <-. cbn. rewrite upd_ne; auto. }
  cbv zeta in E.
  match type of E with context [if ?k then m1 else _] => set (keep := k) in * end.
  match type of E with context [set_copied (nt s) x (Some ?k)] => set (new := k) in * end.
  clearbody keep new.
  assert (B : arr (if keep then m1 else mkM (cell m1) (S (nbuf m1)) (arr m1)) y = arr (mem s) y) by (destruct keep; auto).
  destruct (nonempty (cons_get (ios s) x Fixed)).
  - destruct (ensure_fixes (st s) (ios s) (fix_ s) x); [|discriminate]. injection E as <- <-. exact B.
  - injection E as <- <-. exact B.
Qed.

Lemma pickle_arr : forall s x s', Inv s -> (x < next (st s))%nat -> pickle_copy x s = (s', None) ->
  forall y, (y < next (st s))%nat -> arr (mem s') y = arr (mem s) y.
Proof.
  intros s x s' H Hx E y Hy. pose proof H as [W I F M N J]. unfold pickle_copy in E. destruct (wf_up (st s) W x) as [l Hl].
  destruct (traverse_parents_spec (fuel (st s)) (st s) (fun _ => false) x l (nt s) [] W Hl) as (n' & seen & e & Et & _ & A & _).
  { eapply up_length; eauto. } { intros z _. apply N. } { apply N. }
  destruct A as (-> & [(q1 & q2 & q3 & q4 & q5) q6] & _); [auto|]. rewrite Et in E.
  set (s0 := with_nt s n') in *. assert (H0 : Inv s0).
  { constructor; auto. destruct N as [N1 N2]. split; [intros z; cbn; rewrite q1; apply N1 | intros z; cbn; rewrite q6; apply N2]. }
  destruct (tree_exists (st s) W x) as [tr [Er [R Nd]]].
  destruct (dcopy_ok s0 tr H0 R Nd (fuel (st s0)) s0 None) as (s1 & tr' & Rd & Ct).
  { rewrite Er. auto. } { apply ext_refl. } { apply M. } { apply (rep_new_height _ _ W R Nd). }
  rewrite Er in Rd. change (fuel (st s)) with (fuel (st s0)) in E. rewrite Rd in E.
  assert (Q : arr (mem s1) y = arr (mem s) y) by (apply (ex_arr _ _ (ct_ext _ _ _ _ _ _ _ Ct)); left; exact Hy).
  unfold andthen, upd_st, lift in E. cbn [st with_st ios nt mem] in E.
  match type of E with context [trigger_params ?a ?b ?c ?d ?e ?f] => destruct (trigger_params a b c d e f) as [n3|] eqn:Etr end; [|discriminate].
  apply pair_equal_spec in E as [<- _]. exact Q.
Qed.

Lemma reconnect_arr : forall s h s', Inv s -> (h < next (st s))%nat -> andthen (c_connect h) (andthen (c_connect_fixes h) (c_notify_parent h)) s = (s', None) ->
  forall y, ~ above (st s) h y -> arr (mem s') y = arr (mem s) y.
Proof.
  intros s h s' H Hh E y Hy. pose proof H as [W I F M N J].
  destruct (connect_top (st s) h W Hh) as (S3 & W3 & I31 & I30).
  destruct (connect_wf (connect_struct (st s) h) h (mem s) W3) as (m' & Em & _ & _ & A & _).
  { intros z Hz Lz. assert (Hl : is_leaf (st s) z = true) by (unfold is_leaf in *; rewrite <- (proj1 (proj2 S3 z)); auto).
    assert (Hz' : (z < next (st s))%nat). { destruct Hz as (o & n & B). apply (same_below _ (st s)) in B; [|apply same_sym; auto]. eapply below_lt; eauto. }
    destruct (leaf_valid _ _ z M Hz' Hl) as (b & o & Ea). exists b, o. rewrite (same_size (st s) _ z S3). auto. }
  { apply M. }
  unfold andthen, c_connect, upd_st, lift in E. cbn [st with_st ios nt mem] in E. unfold andthen in E. cbn [st with_st ios nt mem] in E. rewrite Em in E.
  assert (Q : arr m' y = arr (mem s) y). { apply A. intros (o & n & B). apply Hy. exists o, n. eapply same_below; [apply same_sym|]; eauto. }
  rewrite <- Q. clear - E. unfold c_connect_fixes, c_notify_parent, lift in E.
  match type of E with context [connect_fixes ?a ?b ?c] => destruct (connect_fixes a b c) as [[i4 f4]|] end; [|discriminate].
  match type of E with context [notify_parent_change ?a ?b ?c] => destruct (notify_parent_change a b c) as [[i5 f5]|] end; [|discriminate].
  apply pair_equal_spec in E as [<- _]. reflexivity.
Qed.

Lemma copy_arr : forall s x s', Inv s -> (x < next (st s))%nat -> ready (st s) x -> in_init (st s) x = false ->
  (is_leaf (st s) x = true -> forall j, ~ has s x Fixed j) -> copy_object tfinv x s = (s', None) ->
  forall y, (y < next (st s))%nat -> 0 < size (st s) y -> arr (mem s') y = arr (mem s) y.
Proof.
  intros s x s' H Hx Rx Hin Hfx E y Hy Hp. unfold copy_object in E. destruct (is_leaf (st s) x) eqn:Lx.
  - apply (pickle_arr s x s' H Hx E y Hy).
  - destruct (get_any_ok tfinv s x H Hx Rx) as (v & s1 & R1 & H1 & Ro). pose proof (get_arr s x v s1 H Hx Rx R1 y Hp) as A1.
    destruct Ro as (Es & _).
    assert (Lx1 : is_leaf (st s1) x = false) by (rewrite Es; auto).
    destruct (pickle_copy_ok s1 x H1) as (s2 & R2 & H2 & Co2 & P2 & I2 & K2 & N2 & Tr2); [rewrite Es; auto | rewrite Es; auto | congruence|].
    pose proof (pickle_arr s1 x s2 H1 ltac:(rewrite Es; auto) R2 y ltac:(rewrite Es; auto)) as A2. rewrite Es in Co2, P2, I2.
    set (h := next (st s)) in *. assert (Hy2 : (h < next (st s2))%nat) by apply (co_new _ _ _ _ (proj1 Co2)).
    unfold andthen at 1 in E. rewrite R1 in E. unfold andthen at 1 in E. rewrite R2 in E.
    rewrite (reconnect_arr s2 h s' H2 Hy2 E y); [congruence|].
    intros (o & n & B). apply below_follow in B as [path Ep]. pose proof (co_paths _ _ _ _ (proj1 Co2) path) as Q. rewrite Ep in Q.
    destruct (follow (st s1) x path); [|auto]. destruct Q as (Q & _). rewrite Es in Q. fold h in Q. lia.
Qed.

(** C91 *)
Lemma copy_gradients : forall q x q' e, greach tinit tf tfinv tgrad glegal junk junk' q -> legal (base q) (Copy x) ->
  gexec tinit tf tfinv tgrad (Call (Copy x)) q = (q', e) ->
  e = None /\ forall y j, (y < next (st (base q)))%nat -> ready (st (base q)) y -> 0 <= j < size (st (base q)) y -> gradient q' y j = gradient q y j.
Proof.
  intros q x q' e R L E. pose proof (reach_ginv tinit tf tfinv tgrad junk junk' q R) as G. pose proof G as [H O M].
  destruct (twin_call tinit tf tfinv tgrad q (Copy x) q' e G L eq_refl E) as (t' & E' & Es).
  apply base_call in E as [_ Eg]. cbn [grd_after] in Eg. rewrite E' in Eg. cbn [fst] in Eg.
  pose proof (twin_inv _ _ H M) as Ht. destruct L as (Hx & Rx & Ix & Fx).
  destruct (copy_object_ok tfinv (twin (base q) (grd q)) x Ht Hx Rx Ix Fx) as (t2 & E2 & _ & Ck & _).
  cbn [exec] in E'. rewrite E2 in E'. apply pair_equal_spec in E' as [<- <-]. split; auto. intros y j Hy Ry Hj.
  pose proof (copy_arr (twin (base q) (grd q)) x t2 Ht Hx Rx Ix Fx E2 y Hy ltac:(cbn [twin st]; lia)) as Ea. change (mem (twin (base q) (grd q))) with (grd q) in Ea.
  pose proof (aw_values _ _ _ _ (proj1 (proj1 (proj2 Ck) y Hy)) Ry j Hj) as Ev.
  unfold gradient. rewrite Eg. cbn [arr cell]. unfold value in Ev. change (mem (twin (base q) (grd q))) with (grd q) in Ev. rewrite Ea in *.
  destruct (arr (grd q) y) as [[[b o] n]|] eqn:Eb; auto. pose proof (mm_bnd _ _ M _ _ _ _ Eb) as Hb.
  destruct (Nat.ltb_spec b (nbuf (grd q))); [exact Ev | lia].
Qed.
End Copied.
