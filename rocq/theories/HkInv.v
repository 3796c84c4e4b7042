(** Proofs about observers of a hierarchy, part 2: the registrations after any history of calls. *)
From Coq Require Import List ZArith Bool Lia Arith Sorted.
From Verif Require Import NpModel NpProofs IndexOpsModel IndexOpsSpec PzModel PzSpec PzTree PzStruct PzLink PzWalk PzMem PzIo PzInv PzConn PzFix PzLinkMem PzPres PzUnlink PzTraverse PzNotify PzNew PzCmd PzInit PzCons PzVal PzOpt PzRandom PzGet PzHist PzKeep PzOrder CopyModel CopySpec CopyCall CopyTree HkModel HkSpec HkProofs.
Import ListNotations.
Open Scope Z_scope.

Section Inv.
Context {V : Type}.
Variables tinit tf tfinv : nat -> V -> V.

(** A call leaves the kinds of the objects that exist alone, and only adds objects. *)
Lemma exec_kinds : forall s c s' e, Inv s -> one s -> legal s c -> exec tinit tf tfinv c s = (s', e) ->
  (next (st s) <= next (st s'))%nat /\ forall y, (y < next (st s))%nat -> is_leaf (st s') y = is_leaf (st s) y.
Proof.
  intros s c s' e H O L E. pose proof (inv_st _ H) as W.
  assert (K : forall s2, exec tinit tf tfinv c s = (s2, e) -> next (st s2) = next (st s) -> (forall y, kind (st s2) y = kind (st s) y) ->
    (next (st s) <= next (st s'))%nat /\ forall y, (y < next (st s))%nat -> is_leaf (st s') y = is_leaf (st s) y).
  { intros s2 R Nx Kd. rewrite E in R. inversion R; subst s2. split; [lia|]. intros y _. unfold is_leaf. rewrite Kd. auto. }
  assert (K' : forall s2, exec tinit tf tfinv c s = (s2, None) -> st s2 = st s -> (next (st s) <= next (st s'))%nat /\ forall y, (y < next (st s))%nat -> is_leaf (st s') y = is_leaf (st s) y).
  { intros s2 R Es. rewrite E in R. inversion R; subst. apply (K s2); auto; rewrite Es; auto. }
  destruct c; cbn [exec legal] in *.
  - destruct (new_leaf_ok s vals H) as (s2 & R & H' & G & _). rewrite E in R. inversion R; subst s2. rewrite (gr_next _ _ G). split; [lia|].
    intros y Hy. unfold is_leaf. destruct (gr_old _ _ G y) as [-> _]; auto. lia.
  - destruct (new_node_ok s ps initialize H L) as (s2 & R & H' & B). rewrite E in R. inversion R; subst s2. rewrite (bu_next _ _ _ _ _ B). split; [lia|].
    intros y Hy. unfold is_leaf. destruct (bu_kind _ _ _ _ _ B) as (_ & _ & Q). destruct (Q y) as [-> _]; auto. lia.
  - destruct (bare_node_ok s H) as (s2 & R & H' & G & _). rewrite E in R. inversion R; subst s2. rewrite (gr_next _ _ G). split; [lia|].
    intros y Hy. unfold is_leaf. destruct (gr_old _ _ G y) as [-> _]; auto. lia.
  - destruct L as (Hx & Hk & Hi). destruct (ii_in _ (inv_init _ H) x Hi) as [Hp Hin].
    assert (H1 : Inv (with_st s (set_inited (set_in_init (st s) x false) x (Some false)))) by (apply finish_inv; auto; rewrite Hin; discriminate).
    set (s1 := with_st s (set_inited (set_in_init (st s) x false) x (Some false))) in *.
    assert (R1 : upd_st (fun t => set_inited (set_in_init t x false) x (Some false)) s = (s1, None)) by reflexivity.
    unfold end_init in *. rewrite (andthen_ok _ _ _ _ R1) in *. destruct initialize.
    + destruct (initialize_ok s1 x x 0 0%nat H1) as (s2 & R2 & H2 & I2); auto; [constructor | cbn; apply upd_eq |].
      assert (e = None) as -> by (rewrite E in R2; inversion R2; auto).
      apply (K s2 R2); [apply (proj1 (in_same _ _ _ I2)) | intros y; apply (proj2 (in_same _ _ _ I2))].
    + cbn in E. inversion E; subst. apply (K s1); auto.
  - destruct L as [L|[Hk ->]].
    + destruct (link_ok s self param index H L) as (s2 & R & H' & Rl). destruct (relinked_next _ _ _ _ _ Rl) as [Nx Kd].
      assert (e = None) as -> by (rewrite E in R; inversion R; auto). apply (K s2 R); auto. intros y. apply Kd.
    + rewrite (link_refused_kid s self param Hk) in E. inversion E; subst. split; auto.
  - destruct L as [Hs L]. destruct (in_dec Nat.eq_dec param (kids (st s) self)) as [Hk|Hk].
    + destruct (In_nth_error _ _ Hk) as [k Ek].
      destruct (unlink_ok s self param k H) as (s2 & R & H' & D); [constructor; auto; intros r A1 A2; apply L; [auto | split; auto]|].
      assert (e = None) as -> by (rewrite E in R; inversion R; auto). apply (K s2 R); [apply (de_next _ _ _ _ _ D) | intros y; apply (de_kind _ _ _ _ _ D)].
    + rewrite (unlink_refused s self param Hk) in E. inversion E; subst. split; auto.
  - destruct L as [Hx L]. destruct (root_out s x H) as (r & o & n & B & Hp).
    destruct (initialize_ok s x r o n H Hx B Hp) as (s2 & R2 & H2 & I2); [apply L; split; auto; exists o, n; auto|].
    assert (e = None) as -> by (rewrite E in R2; inversion R2; auto).
    apply (K s2 R2); [apply (proj1 (in_same _ _ _ I2)) | intros y; apply (proj2 (in_same _ _ _ I2))].
  - destruct L as (Hx & Ls & Rx). destruct (constrain_ok tinit s x sel n H Hx Rx Ls) as (s2 & l & R & H' & _ & _ & Es & _). eapply K'; eauto.
  - destruct L as (Hx & Ls). destruct (unconstrain_ok s x sel ts H Hx Ls) as (s2 & R & H' & (Es & _) & Hh). eapply K'; eauto.
  - destruct L as (Hx & Ls). destruct (fix_ok s x sel H Hx Ls) as (s2 & l & R & H' & Es & _). eapply K'; eauto.
  - destruct L as (Hx & Ls). destruct (unfix_ok s x sel H Hx Ls) as (s2 & R & H' & (Es & _) & Hh). eapply K'; eauto.
  - destruct L as (Hx & Rx). destruct (assign_ok s x g H Hx Rx) as (s2 & l & R & H' & _ & _ & Es & _). eapply K'; eauto.
  - destruct L as (Hx & Rx). destruct (free_exists s x H Hx) as [ks Hks].
    destruct (set_opt_ok tf s x p ks H Hx Rx (O x Hx) Hks) as (s2 & l & F & R & H' & _ & _ & _ & Es & _). eapply K'; eauto.
  - destruct L as (Hx & Rx). destruct (get_any_ok tfinv s x H Hx Rx) as (l & s2 & R & H' & (Es & _)). apply (K' s2); auto. rewrite R. auto.
  - destruct (update_model_ok s x on H L) as (s2 & l & r & R & H' & _ & _ & Es & _). eapply K'; eauto.
  - destruct (trigger_full s x H L) as (s2 & l & R & (Es & _) & _). eapply K'; eauto.
  - destruct L as (Hx & Rx). destruct (free_exists s x H Hx) as [ks Hks].
    destruct (randomize_ok tf s x draw ks H Hx Rx (O x Hx) Hks) as (s2 & l & F & R & H' & _ & _ & _ & Es & _). eapply K'; eauto.
  - destruct L as (Hx & Rx & Ix & Fx). destruct (copy_object_ok tfinv s x H Hx Rx Ix Fx) as (s2 & R & H' & (Co & Un & _) & _).
    rewrite E in R. inversion R; subst s2. split.
    + pose proof (co_new _ _ _ _ Co). lia.
    + intros y Hy. unfold is_leaf. destruct (Un y Hy) as (A & _). rewrite (aw_kind _ _ _ _ A). auto.
Qed.

(** ** The registrations *)
Record hinv (q : @hstate V) : Prop := mkHinv {
  hi_base : Inv (base q);
  hi_one : one (base q);
  hi_desc : forall y, (y < next (st (base q)))%nat -> desc (regs q y);
  hi_up : forall y, (y < next (st (base q)))%nat -> filter is_up (regs q y) = match par (st (base q)) y with Some p => [(NegInf, Up p)] | None => [] end;
  hi_own : forall y, (y < next (st (base q)))%nat -> if is_leaf (st (base q)) y then no_own (regs q y) else own_at (regs q y) }.

Lemma filter_comm : forall (A : Type) (f g : A -> bool) l, filter f (filter g l) = filter g (filter f l).
Proof.
  intros A f g l. induction l as [|a l IH]; auto. cbn [filter]. destruct (f a) eqn:F, (g a) eqn:G; cbn [filter]; rewrite ?F, ?G, IH; auto.
Qed.
Lemma existsb_up : forall p (l : list reg), existsb (fun e : reg => match snd e with Up r => Nat.eqb r p | _ => false end) l =
  existsb (fun e : reg => match snd e with Up r => Nat.eqb r p | _ => false end) (filter is_up l).
Proof.
  intros p l. induction l as [|e l IH]; auto. cbn [filter existsb]. unfold is_up at 1. destruct (snd e) eqn:E; cbn [existsb orb]; auto. rewrite E, IH. auto.
Qed.
Lemma sync_regs : forall (s s' : @state V) again r x, Inv s' -> 
  let l0 : list reg := if Nat.ltb x (next (st s)) then r x else if is_leaf (st s') x then [] else [(Fin (-100), Own)] in
  desc l0 -> (if is_leaf (st s') x then no_own l0 else own_at l0) -> (filter is_up l0 = [] \/ exists p, filter is_up l0 = [(NegInf, Up p)]) ->
  desc (sync s s' again r x) /\ (filter is_up (sync s s' again r x) = match par (st s') x with Some p => [(NegInf, Up p)] | None => [] end) /\
  if is_leaf (st s') x then no_own (sync s s' again r x) else own_at (sync s s' again r x).
Proof.
  intros s s' again r x H' l0 D O U. unfold sync. fold l0. rewrite (proj1 (inv_nt _ H') x).
  set (k := fun e : reg => match snd e with Up q => negb (again x) && omem q match par (st s') x with Some p => [p] | None => [] end | _ => true end).
  assert (Dk : desc (filter k l0)) by (apply filter_desc; auto).
  assert (Ok : if is_leaf (st s') x then no_own (filter k l0) else own_at (filter k l0)).
  { destruct (is_leaf (st s') x); [apply filter_no_own | apply filter_own]; auto. }
  assert (Uk : filter is_up (filter k l0) = filter k (filter is_up l0)) by apply filter_comm.
  destruct (par (st s') x) as [p|]; cbn [fold_left].
  - assert (C : filter is_up (filter k l0) = [(NegInf, Up p)] \/ filter is_up (filter k l0) = []).
    { rewrite Uk. destruct U as [->|(p' & ->)]; [right; auto|]. cbn [filter]. unfold k. cbn [snd omem existsb]. destruct (Nat.eqb_spec p' p) as [->|N]; [|right; rewrite andb_false_r; auto].
      destruct (again x); cbn [negb andb orb]; auto. }
    rewrite existsb_up. destruct C as [C|C]; rewrite C; cbn [existsb snd].
    + rewrite Nat.eqb_refl. cbn [orb]. auto.
    + split; [apply insert_desc; auto|]. split.
      * rewrite insert_bottom, filter_app, C. auto.
      * destruct (is_leaf (st s') x); [apply insert_no_own | apply insert_own]; auto; discriminate.
  - split; auto. split; auto. rewrite Uk. destruct U as [->|(p' & ->)]; auto. cbn [filter]. unfold k. cbn [snd omem existsb]. rewrite andb_false_r. auto.
Qed.

Lemma hexec_inv : forall q c, hinv q -> hlegal q c -> hinv (fst (hexec tinit tf tfinv c q)).
Proof.
  intros q c [H O D U W] L. destruct c as [c|x p o|x o]; cbn [hexec hlegal] in *.
  - destruct (exec_ok tinit tf tfinv (base q) c H O L) as (s' & e & E & H' & O' & _). rewrite E. cbn [fst].
    destruct (exec_kinds (base q) c s' e H O L E) as [N K].
    assert (G : forall y, (y < next (st s'))%nat -> forall again, 
      desc (sync (base q) s' again (regs q) y) /\ (filter is_up (sync (base q) s' again (regs q) y) = match par (st s') y with Some p => [(NegInf, Up p)] | None => [] end) /\
      if is_leaf (st s') y then no_own (sync (base q) s' again (regs q) y) else own_at (sync (base q) s' again (regs q) y)).
    { intros y Hy again. apply sync_regs; auto; destruct (Nat.ltb_spec y (next (st (base q)))) as [Lt|Ge]; auto.
      - destruct (is_leaf (st s') y); repeat constructor.
      - rewrite K by auto. apply W; auto.
      - destruct (is_leaf (st s') y); [intros a [] | exists [], []; split; auto; split; intros a []].
      - rewrite (U y Lt). destruct (par (st (base q)) y); eauto.
      - destruct (is_leaf (st s') y); auto. }
    constructor; cbn [base regs]; auto; intros y Hy; apply (G y Hy).
  - constructor; cbn [fst base regs] in *; auto; intros y Hy; (destruct (Nat.eqb_spec y x) as [->|Ne]; [|first [exact (W y Hy) | exact (U y Hy) | exact (D y Hy)]]).
    + apply insert_desc; auto.
    + rewrite filter_insert. cbn [is_up snd]. auto.
    + specialize (W x Hy). destruct (is_leaf (st (base q)) x); [apply insert_no_own | apply insert_own]; auto; discriminate.
  - constructor; cbn [fst base regs] in *; auto; intros y Hy; (destruct (Nat.eqb_spec y x) as [->|Ne]; [|first [exact (W y Hy) | exact (U y Hy) | exact (D y Hy)]]); unfold withdraw.
    + apply filter_desc; auto.
    + rewrite <- U by auto. induction (regs q x) as [|e l IH]; auto. cbn [filter]. unfold is_up at 2. destruct (snd e) eqn:E; cbn [filter]; unfold is_up at 1; rewrite ?E, ?IH; auto.
      destruct (negb (Nat.eqb o0 o)); cbn [filter]; auto. unfold is_up at 1. rewrite E. auto.
    + specialize (W x Hy). destruct (is_leaf (st (base q)) x); [apply filter_no_own | apply filter_own]; auto.
Qed.
Lemma hinit_inv : forall junk, hinv (hinit junk).
Proof. intros junk. constructor; cbn [base hinit]; [apply init_inv | apply init_one | | |]; intros y Hy; cbn in Hy; lia. Qed.
Lemma hreach_inv : forall (ok : hstate -> hcall -> Prop) junk q, (forall q c, ok q c -> hlegal q c) -> hreach tinit tf tfinv ok junk q -> hinv q.
Proof. intros ok junk q Hok R. induction R as [|q c R IH L]; [apply hinit_inv | apply hexec_inv; auto]. Qed.
(** The hierarchy does not depend on the observers. *)
Lemma hreach_base : forall (ok : hstate -> hcall -> Prop) (ok' : state -> call -> Prop) junk q, (forall q c, ok q (Base c) -> ok' (base q) c) ->
  hreach tinit tf tfinv ok junk q -> reach tinit tf tfinv ok' junk (base q).
Proof.
  intros ok ok' junk q Hok R. induction R as [|q c R IH L]; [constructor|]. destruct c as [c|x p o|x o]; cbn [hexec fst base]; auto.
  destruct (exec tinit tf tfinv c (base q)) as [s' e] eqn:E. cbn [fst base]. eapply reach_call; eauto.
Qed.
End Inv.
