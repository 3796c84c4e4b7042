(** Proofs about observers of a hierarchy, part 4: what each call announces, how often and in which order. *)
From Coq Require Import List ZArith Bool Lia Arith Sorted.
From Verif Require Import NpModel NpProofs IndexOpsModel IndexOpsSpec PzModel PzSpec PzTree PzStruct PzLink PzWalk PzMem PzIo PzInv PzConn PzFix PzLinkMem PzPres PzUnlink PzTraverse PzNotify PzNew PzCmd PzInit PzCons PzVal PzOpt PzRandom PzGet PzHist PzKeep PzOrder PzGrad PzFinal CopyModel CopySpec CopyCall CopyTree HkModel HkSpec HkProofs HkInv HkFinal.
Import ListNotations.
Open Scope Z_scope.

Section Calls.
Context {V : Type}.
Variables tinit tf tfinv : nat -> V -> V.
Implicit Types q : @hstate V.

Lemma part_lt : forall t x y, swf t -> (x < next t)%nat -> part t y x -> (y < next t)%nat.
Proof.
  intros t x y W Hx P. destruct (wf_up t W x) as [u Hu]. apply (up_below t x u W Hu) in P. eapply up_lt; eauto.
Qed.
(** ** Counts *)
Lemma notify_told : forall q x u, hinv q -> (x < next (st (base q)))%nat -> up (st (base q)) x u -> awake (base q) x ->
  told_above q x (map event_of (climb (updates (nt (base q))) (regs q) u)).
Proof.
  intros q x u H Hx Hu A y o. pose proof (inv_st _ (hi_base _ H)) as W.
  assert (T : times y o (map event_of (climb (updates (nt (base q))) (regs q) u)) = srcs_at y o (climb (updates (nt (base q))) (regs q) u)).
  { apply times_srcs. intros a Ha. apply (climb_sources q H x u Hx Hu a Ha). }
  rewrite T. split; intros P.
  - apply (climb_count (st (base q)) _ _ W (hi_up _ H) x u Hu Hx).
    + intros z Hz. apply A. apply (up_below _ x u W Hu). auto.
    + apply (up_below _ x u W Hu). auto.
  - apply srcs_none. intros a Ha E. apply P. rewrite <- E. apply (climb_sources q H x u Hx Hu a Ha).
Qed.
Lemma inner_woken : forall q x tr fx, hinv q -> (x < next (st (base q)))%nat -> root tr = x -> rep (st (base q)) tr ->
  (forall y, (y < next (st (base q)))%nat -> (fx y = true <-> all_fixed (st (base q)) (ios (base q)) y)) -> forall y, In y (inner fx tr) <-> woken (base q) x y.
Proof.
  intros q x tr fx H Hx E R Hf y. rewrite woken_wk.
  destruct (inner_post (st (base q)) (fun c => ~ fixed (base q) c) fx tr (rep_krep _ _ R)) as [Q _]; [|rewrite <- E; apply Q].
  intros z Hz. apply (koids_below _ tr z (rep_krep _ _ R)) in Hz. rewrite E in Hz. pose proof (above_lt' (base q) x z (hi_base _ H) Hx Hz) as Lz. specialize (Hf z Lz).
  change (all_fixed (st (base q)) (ios (base q)) z) with (fixed (base q) z) in Hf. destruct (fx z); split; intros Q; try discriminate; auto.
  - exfalso. apply Q, Hf. auto.
  - intros Q'. apply Hf in Q'. discriminate.
Qed.
Lemma woken_part : forall (s : @state V) x y, Inv s -> woken s x y -> part (st s) x y /\ x <> y.
Proof. intros s x y H Q. apply woken_wk in Q. apply wk_above in Q; auto. apply (inv_st _ H). Qed.
Lemma trigger_told : forall q x tr u fx, hinv q -> (x < next (st (base q)))%nat -> root tr = x -> rep (st (base q)) tr -> NoDup (oids tr) -> up (st (base q)) x u ->
  (forall y, (y < next (st (base q)))%nat -> (fx y = true <-> all_fixed (st (base q)) (ios (base q)) y)) -> all_on (base q) x ->
  told q q x (map event_of (concat (map (self (updates (nt (base q))) (regs q)) (inner fx tr)) ++ climb (updates (nt (base q))) (regs q) u)).
Proof.
  intros q x tr u fx H Hx E R Nd Hu Hf A y o. pose proof (inv_st _ (hi_base _ H)) as W.
  assert (A' : awake (base q) x) by (intros z Hz; apply A, part_together'; auto).
  assert (Hin : forall z, In z (inner fx tr) -> (z < next (st (base q)))%nat /\ part (st (base q)) x z) by (intros z Hz; eapply inner_lt; eauto).
  set (L := concat (map (self (updates (nt (base q))) (regs q)) (inner fx tr))).
  assert (UL : forall a, In a L -> is_up (snd a) = false /\ In (fst a) (inner fx tr)).
  { intros a Ha. unfold L in Ha. apply in_concat in Ha as (k & Hk & Ha). apply in_map_iff in Hk as (z & <- & Hz).
    destruct (self_sources q z (proj1 (Hin z Hz)) a Ha) as (Q1 & _ & Q3). rewrite Q1. auto. }
  assert (T : times y o (map event_of (L ++ climb (updates (nt (base q))) (regs q) u)) = (srcs_at y o L + times y o (map event_of (climb (updates (nt (base q))) (regs q) u)))%nat).
  { rewrite map_app. unfold times at 1. rewrite filter_app, app_length. f_equal. fold (times y o (map event_of L)). apply times_srcs. intros a Ha. apply (UL a Ha). }
  rewrite T. clear T. destruct (notify_told q x u H Hx Hu A' y o) as [T1 T2].
  assert (C : srcs_at y o L = if omem y (inner fx tr) then registered_finite q y o else 0%nat).
  { unfold L. apply (selfs_count (st (base q))); [apply (inner_nodup (fun _ => True)); auto|]. intros z Hz. destruct (Hin z Hz) as [Q1 Q2]. split; auto.
    apply A. apply part_together. auto. }
  rewrite C. clear C. pose proof (inner_woken q x tr fx H Hx E R Hf y) as Q.
  assert (D : part (st (base q)) y x -> woken (base q) x y -> False).
  { intros P1 P2. apply woken_part in P2 as [P2 P3]; [|apply (hi_base _ H)]. apply P3. eapply above_antisym; eauto. }
  split; [|split].
  - intros P. rewrite T1 by auto. destruct (omem y (inner fx tr)) eqn:Eo; auto. exfalso. apply omem_In in Eo. apply (D P). apply Q. auto.
  - intros P. rewrite T2 by (intros P'; apply (D P' P)). rewrite (proj2 (omem_In _ _) (proj2 Q P)). lia.
  - intros P1 P2. rewrite T2 by auto. destruct (omem y (inner fx tr)) eqn:Eo; auto. exfalso. apply P2, Q, omem_In. auto.
Qed.

(** ** Calls that leave the structure alone *)
Lemma fold_same : forall (l : list reg) p, filter is_up l = [(NegInf, Up p)] ->
  fold_left (fun l0 r => if existsb (fun e : reg => match snd e with Up z => Nat.eqb z r | _ => false end) l0 then l0 else insert (NegInf, Up r) l0) [p] l = l.
Proof. intros l p E. cbn [fold_left]. rewrite existsb_up, E. cbn [existsb snd]. rewrite Nat.eqb_refl. auto. Qed.
Lemma filter_all : forall (A : Type) (f : A -> bool) l, (forall a, In a l -> f a = true) -> filter f l = l.
Proof. intros A f l. induction l as [|a l IH]; intros Q; auto. cbn [filter]. rewrite (Q a) by (left; auto). f_equal. apply IH. intros; apply Q; right; auto. Qed.
Lemma sync_same : forall q s' again y, hinv q -> Inv s' -> st s' = st (base q) -> again y = false -> (y < next (st (base q)))%nat ->
  sync (base q) s' again (regs q) y = regs q y.
Proof.
  intros q s' again y H H' Es Ea Hy. unfold sync. rewrite (proj1 (inv_nt _ H') y), Es, Ea. pose proof (hi_up _ H y Hy) as U.
  destruct (Nat.ltb_spec y (next (st (base q)))) as [_|Ge]; [|lia]. cbn [negb andb].
  assert (F : filter (fun e : reg => match snd e with Up p => omem p match par (st (base q)) y with Some p0 => [p0] | None => [] end | _ => true end) (regs q y) = regs q y).
  { apply filter_all. intros e He. destruct (snd e) as [|p|o] eqn:E; auto. assert (Q : In e (filter is_up (regs q y))) by (apply filter_In; split; auto; unfold is_up; rewrite E; auto).
    rewrite U in Q. destruct (par (st (base q)) y); [|destruct Q]. destruct Q as [<-|[]]. cbn in E. inversion E. cbn. rewrite Nat.eqb_refl. auto. }
  rewrite F. destruct (par (st (base q)) y); [apply fold_same; auto | auto].
Qed.
Lemma hexec_quiet : forall q c s', hinv q -> exec tinit tf tfinv c (base q) = (s', None) -> Inv s' -> st s' = st (base q) ->
  match c with Link _ _ _ => False | _ => True end ->
  exists r, hexec tinit tf tfinv (Base c) q = (mkH s' r, calls c (base q) s' r) /\ forall y, (y < next (st (base q)))%nat -> r y = regs q y.
Proof.
  intros q c s' H E H' Es Hc. cbn [hexec]. rewrite E. eexists. split; [reflexivity|]. intros y Hy. apply sync_same; auto. destruct c; auto. destruct Hc.
Qed.

Lemma registered_ext : forall q q' y o, regs q' y = regs q y -> registered q' y o = registered q y o /\ registered_finite q' y o = registered_finite q y o.
Proof. intros q q' y o E. unfold registered, registered_finite. rewrite E. auto. Qed.
Lemma told_above_ext : forall q q' x ev, Inv (base q) -> (x < next (st (base q)))%nat -> st (base q') = st (base q) -> (forall y, (y < next (st (base q)))%nat -> regs q' y = regs q y) ->
  told_above q' x ev -> told_above q x ev.
Proof.
  intros q q' x ev H Hx Es Er T y o. specialize (T y o). rewrite Es in T. destruct T as [T1 T2]. split; auto. intros P. rewrite T1 by auto.
  apply registered_ext. apply Er. eapply part_lt; eauto. apply (inv_st _ H).
Qed.
Lemma told_ext : forall q q' x ev, Inv (base q) -> Inv (base q') -> (x < next (st (base q)))%nat -> st (base q') = st (base q) -> (forall y, (y < next (st (base q)))%nat -> regs q' y = regs q y) ->
  told q' q' x ev -> told q q' x ev.
Proof.
  intros q q' x ev H H' Hx Es Er T y o. specialize (T y o). rewrite Es in T. destruct T as (T1 & T2 & T3). split; [|split; auto].
  - intros P. rewrite T1 by auto. apply registered_ext. apply Er. eapply part_lt; eauto. apply (inv_st _ H).
  - intros P. rewrite T2 by auto. apply registered_ext. apply Er. apply woken_part in P as [P _]; auto. rewrite <- Es. eapply above_lt'; eauto. rewrite Es; auto.
Qed.

(** The events of a round, ordered by the registrations before the call. *)
Lemma ordered_ext : forall q q' l, hinv q' -> st (base q') = st (base q) -> (forall y, (y < next (st (base q)))%nat -> regs q' y = regs q y) ->
  StronglySorted (in_order (st (base q'))) l -> (forall a, In a l -> (fst a < next (st (base q')))%nat /\ In (snd a) (regs q' (fst a)) /\ is_up (snd a) = false) -> ordered q (map event_of l).
Proof.
  intros q q' l H' Es Er L M. apply ordered_srcs; [rewrite <- Es; auto|]. intros a Ha. destruct (M a Ha) as (M1 & M2 & M3).
  split; [rewrite <- Er by (rewrite <- Es; auto); auto|]. split; auto. intros E. apply (round_own q' H' a); auto.
Qed.

Lemma notified : forall q q' x, hinv q -> hinv q' -> (x < next (st (base q)))%nat -> st (base q') = st (base q) ->
  (forall y, (y < next (st (base q)))%nat -> regs q' y = regs q y) -> awake (base q') x ->
  exists ev u, hnotify (updates (nt (base q'))) (regs q') (fuel (st (base q'))) x true = Ok ev /\ up (st (base q)) x u /\
    told_above q x ev /\ ordered q ev /\ runs ev = chain (st (base q)) (nt (base q')) u.
Proof.
  intros q q' x H H' Hx Es Er A. assert (Hx' : (x < next (st (base q')))%nat) by (rewrite Es; auto).
  destruct (notify_round q' H' x Hx') as (u & Hu & E). exists (map event_of (climb (updates (nt (base q'))) (regs q') u)), u.
  split; auto. split; [rewrite <- Es; auto|]. split; [|split].
  - apply (told_above_ext q q'); auto; [apply (hi_base _ H)|]. apply notify_told; auto.
  - apply (ordered_ext q q'); auto.
    + apply (climb_order _ _ _ (inv_st _ (hi_base _ H')) (hi_desc _ H') (hi_up _ H') (hi_own _ H') x u Hu Hx').
    + intros a Ha. destruct (climb_sources q' H' x u Hx' Hu a Ha) as (Q1 & _ & Q2). auto.
  - rewrite <- Es. apply (runs_climb q' H' x u); auto.
Qed.
Lemma inner_ext : forall f g tr, (forall y, In y (oids tr) -> f y = g y) -> inner f tr = inner g tr /\ post f tr = post g tr.
Proof.
  intros f g tr. induction tr as [x ts IH] using tree_ind'. intros Q.
  assert (E : inner f (T x ts) = inner g (T x ts)).
  { cbn [inner]. f_equal. apply map_ext_in. intros c Hc. rewrite Forall_forall in IH.
    assert (Hin : forall y, In y (oids c) -> In y (oids (T x ts))) by (intros y Hy; cbn [oids]; right; apply in_concat; exists (oids c); split; auto; apply in_map; auto).
    rewrite (Q (root c)) by (apply Hin; destruct c; left; auto). destruct (g (root c)); auto. apply IH; auto. }
  split; auto. change (post f (T x ts)) with (inner f (T x ts) ++ [x]). rewrite E. auto.
Qed.
Lemma triggered_fun : forall t i (n : @ntst V) x l l', swf t -> (x < next t)%nat -> triggered t i n x l -> triggered t i n x l' -> l = l'.
Proof.
  intros t i n x l l' W Hx (tr & u & f & E & R & Nd & Hu & Hf & ->) (tr' & u' & f' & E' & R' & Nd' & Hu' & Hf' & ->).
  rewrite <- (up_fun _ _ _ _ Hu Hu'). assert (tr = tr') as <- by (eapply krep_fun; [apply rep_krep; eauto | apply rep_krep; eauto | congruence]).
  assert (inner f tr = inner f' tr) as ->; auto. apply inner_ext. intros y Hy. apply (koids_below t tr y (rep_krep _ _ R)) in Hy. rewrite E in Hy.
  assert (Hl : (y < next t)%nat) by (destruct Hy as (o & m & B); eapply below_lt; eauto). specialize (Hf y Hl). specialize (Hf' y Hl). destruct (f y), (f' y); auto; exfalso.
  - assert (false = true) by (apply Hf', Hf; auto). discriminate.
  - assert (false = true) by (apply Hf, Hf'; auto). discriminate.
Qed.
Lemma triggered_round : forall q q' x, hinv q -> hinv q' -> (x < next (st (base q)))%nat -> st (base q') = st (base q) -> in_init (st (base q)) x = false ->
  (forall y, (y < next (st (base q)))%nat -> regs q' y = regs q y) -> all_on (base q') x ->
  exists ev, htrigger (updates (nt (base q'))) (regs q') (st (base q')) (ios (base q')) x = Ok ev /\
    told q q' x ev /\ ordered q ev /\ triggered (st (base q)) (ios (base q')) (nt (base q')) x (runs ev).
Proof.
  intros q q' x H H' Hx Es Ei Er A. assert (Hx' : (x < next (st (base q')))%nat) by (rewrite Es; auto).
  destruct (trigger_round q' H' x Hx') as (tr & u & fx & E1 & R & Nd & Hu & Hf & E).
  assert (B : updates (nt (base q')) x && negb (in_init (st (base q')) x) = true) by (rewrite Es, Ei, A; auto; apply part_together; apply above_refl).
  rewrite B in E. eexists. split; [exact E|]. split; [|split].
  - apply (told_ext q q'); auto; [apply (hi_base _ H) | apply (hi_base _ H')|]. apply trigger_told; auto.
  - apply (ordered_ext q q'); auto.
    + apply (trigger_sorted q' H' x tr u fx); auto.
    + intros a Ha. apply in_app_or in Ha as [Ha|Ha].
      * apply in_concat in Ha as (k & Hk & Ha). apply in_map_iff in Hk as (y & <- & Hy). destruct (inner_lt q' H' x tr fx Hx' E1 R y Hy) as [Q1 _].
        destruct (self_sources q' y Q1 a Ha) as (Q2 & Q3). rewrite Q2. rewrite Q2 in Q3. auto.
      * destruct (climb_sources q' H' x u Hx' Hu a Ha) as (Q1 & _ & Q2). auto.
  - exists tr, u, fx. rewrite <- Es. split; auto. split; auto. split; auto. split; auto. split; auto. rewrite B. apply (runs_trigger q' H' x tr u fx); auto.
Qed.
End Calls.
