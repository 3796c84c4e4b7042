(** Lemmas in the form used by the property theorems of cachers. *)
From Coq Require Import List ZArith NArith Bool Ascii Lia Permutation Sorted.
From Verif Require Import CachingModel CachingSpec CachingKeys CachingProofs CachingProofs2.
Import ListNotations.

Section P.
Variables C V E : Type.
Variable F : list C -> list (nat * C) -> V + E.
Notation world := (world C).
Notation cacher := (cacher V).

Lemma transparent : forall sg lim ig fo en x ol l, (1 <= lim)%Z -> respects_ignore F ig ->
  (forall a b : nat, ol a = ol b -> a = b) ->
  legal F sg (new_world x ol) (new_cacher lim ig fo en) l ->
  fst (fst (history F (new_world x ol) (new_cacher lim ig fo en) l)) = ideal F (fun _ => x) l.
Proof.
  intros sg lim ig fo en x ol l H1 H2 H3 Hl.
  destruct (history_inv C V E F sg l _ _ (inv_new C V E F sg lim ig fo en x ol H1 H2 H3) Hl)
    as (xs & w' & c' & Hh & _ & Hx & _). rewrite Hh. exact Hx.
Qed.

Lemma hit_later : forall sg w c args kw l args' kw', reached F sg w c ->
  has_sig sg args kw -> Forall (fun o => live w o = true) (args ++ map snd kw) ->
  let ins := combine_inputs (ignore c) args kw in
  enabled c = true -> cacheable w (force c) kw ins = true ->
  let s1 := call F w c args kw in
  legal F sg (snd (fst s1)) (snd s1) l -> Forall (leaves_alone ins) l ->
  let s2 := history F (snd (fst s1)) (snd s1) l in
  let w2 := snd (fst s2) in let c2 := snd s2 in
  has_sig sg args' kw' -> Forall (fun o => live w2 o = true) (args' ++ map snd kw') ->
  combine_inputs (ignore c2) args' kw' = ins ->
  enabled c2 = true -> cacheable w2 (force c2) kw' ins = true -> retains c2 ins ->
  exists v, call F w2 c2 args' kw' = (Ret v, w2, c2) /\ operate F w2 args' kw' = inl v.
Proof.
  intros sg w c args kw l args' kw' R Hs Hl ins Hen Hca s1 Hleg Hal s2 w2 c2 Hs' Hl' Hins' Hen' Hca' Hret.
  pose proof (reached_inv _ _ _ _ _ _ _ R) as H.
  pose proof (call_fresh C V E F sg w c args kw ins H Hs Hl) as Hf. cbv zeta in Hf.
  fold s1 in Hf.
  assert (Hf1 : fresh_entry C V (snd (fst s1)) (snd s1) ins).
  { apply Hf. right. split; [reflexivity|]. rewrite Hen, Hca. reflexivity. }
  destruct (call_spec C V E F sg w c args kw H Hs Hl) as (w1 & c1 & Hc & _ & H1 & _).
  fold s1 in Hc. rewrite Hc in *. cbn [fst snd] in *.
  pose proof (history_fresh C V E F sg l w1 c1 ins H1 Hleg Hal Hf1) as Hf2.
  destruct (history_inv C V E F sg l w1 c1 H1 Hleg) as (xs & w2' & c2' & Hh & H2 & _).
  subst w2 c2. subst s2. rewrite Hc in *. cbn [fst snd] in *. rewrite Hh in *. cbn [fst snd] in *.
  apply (hit_no_run C V E F sg w2' c2' args' kw' H2 Hs' Hl'); rewrite Hins'; auto.
  rewrite Hen', Hca'. reflexivity.
Qed.

Lemma not_evicted : forall sg w c args kw l v, reached F sg w c ->
  has_sig sg args kw -> Forall (fun o => live w o = true) (args ++ map snd kw) ->
  let ins := combine_inputs (ignore c) args kw in
  enabled c = true -> cacheable w (force c) kw ins = true -> ~ retains c ins ->
  let s1 := call F w c args kw in
  fst (fst s1) = Ret v ->
  legal F sg (snd (fst s1)) (snd s1) l -> Forall no_reset l ->
  Forall (fun r => match r with Exc _ => False | _ => True end) (ideal F (content w) l) ->
  (Z.of_nat (calls l) < limit c)%Z ->
  retains (snd (history F (snd (fst s1)) (snd s1) l)) ins.
Proof.
  intros sg w c args kw l v R Hs Hl ins Hen Hca Hnr s1 Hv Hleg Hres Hid Hlen.
  pose proof (reached_inv _ _ _ _ _ _ _ R) as H.
  (* the queue of the reached state *)
  destruct R as (lim & ig & fo & en & x & ol & l0 & R1 & R2 & R3 & R4 & R5 & R6).
  set (w0 := new_world x ol) in *. set (c0 := new_cacher lim ig fo en) in *.
  pose proof (inv_new C V E F sg lim ig fo en x ol R1 R2 R3) as H0. fold w0 c0 in H0.
  pose proof (history_queue C V E F sg l0 w0 c0 (en, []) H0 R4 ltac:(split; reflexivity)) as Q.
  rewrite R5 in Q. set (eq := queue _ _ _ _ _ _ _ _) in Q.
  pose proof (call_queue C V E F sg w c args kw eq H Hs Hl Q) as Q1. cbv zeta in Q1. fold s1 in Q1.
  destruct (call_spec C V E F sg w c args kw H Hs Hl) as (w1 & c1 & Hc & Hro & H1 & Hsc).
  fold s1 in Hc. rewrite Hc in *. cbn [fst snd] in *.
  destruct Hsc as (El & Eg & Ef & Ee).
  assert (Hop : operate F w args kw = inl v).
  { destruct (operate F w args kw); simpl in Hv; congruence. }
  assert (Hb : behind (queue_call F (limit c) (ignore c) (force c) w (fst eq) (snd eq) args kw) ins 0).
  { unfold queue_call. rewrite <- (proj1 Q), Hen. fold ins. rewrite Hca. simpl. rewrite Hop.
    destruct (in_dec ins_dec ins (snd eq)) as [Hi|_].
    - exfalso. apply Hnr. apply (retains_queue C V E F sg w c eq ins H Q). exact Hi.
    - unfold push. destruct (Z.eqb _ _); eexists _, []; split; reflexivity. }
  pose proof (queue_behind C V E F sg l w1 c1 _ ins 0 H1 Hleg Q1 Hb) as Hq.
  rewrite El in Hq. simpl in Hq. specialize (Hq Hlen Hres).
  assert (Hcw : content w1 = content w) by (rewrite Hro; reflexivity).
  rewrite Hcw in Hq. specialize (Hq Hid).
  pose proof (history_queue C V E F sg l w1 c1 _ H1 Hleg Q1) as Q2. rewrite El in Q2.
  destruct (history_inv C V E F sg l w1 c1 H1 Hleg) as (xs & w2 & c2 & Hh & H2 & _).
  rewrite Hh in *. cbn [fst snd] in *.
  apply (retains_queue C V E F sg w2 c2 _ ins H2 Q2).
  destruct Hq as (a & b & Hq & _). rewrite Hq. apply in_or_app. right. left. reflexivity.
Qed.

Lemma keys_iff : forall sg w c l1 l2, reached F sg w c ->
  Forall (fun o => live w o = true) l1 -> Forall (fun o => live w o = true) l2 ->
  (prepare_cache_id (map (addr w) l1) = prepare_cache_id (map (addr w) l2) <-> l1 = l2).
Proof.
  intros sg w c l1 l2 R H1 H2. split; [|congruence]. intros He. apply prepare_inj in He.
  apply reached_inv in R. destruct (i_w _ _ _ _ _ _ _ R) as [W _].
  revert l2 H2 He. induction l1 as [|a l1 IH]; intros [|b l2] H2 He; simpl in He; try discriminate; auto.
  inversion H1; inversion H2; subst. injection He as He1 He2. f_equal; auto.
Qed.

Lemma registrations : forall sg w c o, reached F sg w c ->
  (kindof w o = KObs /\ held c o -> registered_with w o = 1%nat) /\
  (~ (kindof w o = KObs /\ held c o) -> registered_with w o = 0%nat).
Proof.
  intros sg w c o R. apply reached_inv in R. unfold registered_with.
  assert (Hh : held c o -> live w o = true).
  { intros (ins & [k Hk] & Hin). destruct (i_entry _ _ _ _ _ _ _ R _ _ Hk) as [_ Hg].
    rewrite Forall_forall in Hg. apply (Hg o Hin). }
  assert (Hx : isobs C w o -> (held c o <-> iget (c_ids c) (oid_key w o) <> None)).
  { intros Hob. split.
    - intros (ins & [k Hk] & Hin) Hn.
      pose proof (t_none _ _ _ _ (i_tbl _ _ _ _ _ _ _ R) o Hob Hn k) as Hz.
      unfold cnt in Hz. rewrite Hk in Hz. apply ocount_in in Hin. lia.
    - intros Hn. destruct (iget (c_ids c) (oid_key w o)) as [[r l]|] eqn:Hi; [|congruence].
      destruct (t_some _ _ _ _ (i_tbl _ _ _ _ _ _ _ R) _ _ _ Hi) as (A & B & D & G).
      assert (r = o) by (symmetry; apply (okey_inj C w _ _ (i_w _ _ _ _ _ _ _ R) (proj1 Hob) (proj1 A) B)).
      subst r. destruct l as [|k l]; [congruence|]. specialize (G k). unfold count in G. simpl in G.
      destruct (key_dec k k) as [_|]; [|congruence]. unfold cnt in G.
      destruct (c_in c k) as [ins|] eqn:Hk; [|discriminate].
      exists ins. split; [exists k; exact Hk|]. apply ocount_in. lia. }
  split.
  - intros [Hk Hd]. assert (Hob : isobs C w o) by (split; auto).
    rewrite (t_reg _ _ _ _ (i_tbl _ _ _ _ _ _ _ R) o Hob). apply (Hx Hob) in Hd.
    destruct (iget _ _); congruence.
  - intros Hn. destruct (live w o) eqn:Hl.
    + destruct (kindof w o) eqn:Hk.
      * assert (Hob : isobs C w o) by (split; auto).
        rewrite (t_reg _ _ _ _ (i_tbl _ _ _ _ _ _ _ R) o Hob).
        destruct (iget (c_ids c) (oid_key w o)) eqn:Hi; [|reflexivity].
        exfalso. apply Hn. split; [reflexivity|]. apply Hx; congruence.
      * apply (t_unreg _ _ _ _ (i_tbl _ _ _ _ _ _ _ R)). intros [_ ?]. congruence.
      * apply (t_unreg _ _ _ _ (i_tbl _ _ _ _ _ _ _ R)). intros [_ ?]. congruence.
    + apply (t_unreg _ _ _ _ (i_tbl _ _ _ _ _ _ _ R)). intros [? _]. congruence.
Qed.

Lemma reset_clean : forall sg w c, reached F sg w c ->
  (forall o, registered_with (fst (reset w c)) o = 0%nat) /\ forall ins, ~ retains (snd (reset w c)) ins.
Proof.
  intros sg w c R. apply reached_inv in R.
  destruct (reset_spec C V E F sg w c R) as (w' & c' & Hr & _ & H' & _ & Ho & Hz).
  rewrite Hr. simpl. split; [exact Hz|]. intros ins [k Hk].
  assert (Hin : In k (order c')) by (apply (i_in _ _ _ _ _ _ _ H'); congruence).
  rewrite Ho in Hin. exact Hin.
Qed.

Lemma failure_clean : forall sg w c args kw e, reached F sg w c -> has_sig sg args kw ->
  Forall (fun o => live w o = true) (args ++ map snd kw) ->
  enabled c = true -> cacheable w (force c) kw (combine_inputs (ignore c) args kw) = true ->
  operate F w args kw = inr e ->
  exists w', call F w c args kw = (Exc e, w', new_cacher (limit c) (ignore c) (force c) true) /\
    (forall o, registered_with w' o = 0%nat) /\ content w' = content w.
Proof.
  intros sg w c args kw e R Hs Hl Hen Hca Hop. apply reached_inv in R.
  pose proof (begin_call_spec C V E F sg w c args kw R Hs Hl) as Hb. cbv zeta in Hb.
  assert (Hnb : begin_call w c args kw <> Bypass).
  { apply begin_not_bypass. rewrite Hen, Hca. reflexivity. }
  unfold call. destruct (begin_call w c args kw) as [|v| |p].
  - congruence.
  - destruct Hb as (_ & _ & _ & Hb). congruence.
  - destruct Hb.
  - rewrite Hop. unfold end_call.
    destruct (reset_spec C V E F sg (tick w) c (inv_tick _ _ _ _ _ _ _ R)) as (w' & c' & Hr & Hro & _ & _ & _ & Hz).
    rewrite Hr. unfold reset in Hr. injection Hr as Hw Hc. rewrite Hen in Hc. exists w'.
    split; [rewrite <- Hc; reflexivity|]. split; [exact Hz|]. rewrite Hro. reflexivity.
Qed.

(** Keyword order. *)
Lemma kw_insert_comm : forall A (x y : nat * A) l, fst x <> fst y ->
  kw_insert x (kw_insert y l) = kw_insert y (kw_insert x l).
Proof.
  intros A x y l Hne. induction l as [|z l IH]; simpl.
  - destruct (Nat.leb_spec (fst x) (fst y)); destruct (Nat.leb_spec (fst y) (fst x)); auto; lia.
  - destruct (Nat.leb_spec (fst y) (fst z)); destruct (Nat.leb_spec (fst x) (fst z)); simpl.
    + destruct (Nat.leb_spec (fst x) (fst y)); destruct (Nat.leb_spec (fst y) (fst x)); try lia; simpl.
      * destruct (Nat.leb_spec (fst y) (fst z)); [reflexivity | lia].
      * destruct (Nat.leb_spec (fst x) (fst z)); [reflexivity | lia].
    + destruct (Nat.leb_spec (fst x) (fst y)); [lia|]. simpl.
      destruct (Nat.leb_spec (fst x) (fst z)); [lia|].
      destruct (Nat.leb_spec (fst y) (fst z)); [|lia]. reflexivity.
    + destruct (Nat.leb_spec (fst x) (fst z)); [|lia].
      destruct (Nat.leb_spec (fst y) (fst x)); [lia|]. simpl.
      destruct (Nat.leb_spec (fst y) (fst z)); [lia|]. reflexivity.
    + destruct (Nat.leb_spec (fst x) (fst z)); [lia|].
      destruct (Nat.leb_spec (fst y) (fst z)); [lia|]. f_equal. exact IH.
Qed.
Lemma kw_sort_unique : forall A (l l' : list (nat * A)), Permutation l l' -> NoDup (map fst l) ->
  kw_sort l = kw_sort l'.
Proof.
  intros A l l' P. induction P; intros Hn; simpl in *.
  - reflexivity.
  - f_equal. apply IHP. inversion Hn; assumption.
  - apply kw_insert_comm. inversion Hn as [|? ? Hi _]; subst. simpl in Hi. intros He. apply Hi. left. auto.
  - rewrite IHP1 by assumption. apply IHP2. eapply Permutation_NoDup; [|exact Hn].
    apply Permutation_map. exact P1.
Qed.
Lemma existsb_perm : forall A (f : A -> bool) l l', Permutation l l' -> existsb f l = existsb f l'.
Proof.
  intros A f l l' P. induction P; simpl; auto; [congruence| |congruence].
  destruct (f x), (f y); reflexivity.
Qed.
Lemma kw_order : forall (w : world) (c : cacher) args kw kw', by_name F -> Permutation kw kw' -> NoDup (map fst kw) ->
  call F w c args kw = call F w c args kw'.
Proof.
  intros w c args kw kw' Hb P Hn. pose proof (kw_sort_unique _ _ _ P Hn) as Hk.
  unfold call, begin_call, combine_inputs, operate. rewrite Hk.
  rewrite (Hb _ _ _ (Permutation_map (fun x => (fst x, content w (snd x))) P)).
  rewrite (existsb_perm _ _ _ _ P). reflexivity.
Qed.

(** Tools for checking concrete histories. *)
Lemma legal_app : forall sg l1 l2 w c, legal F sg w c l1 ->
  legal F sg (snd (fst (history F w c l1))) (snd (history F w c l1)) l2 -> legal F sg w c (l1 ++ l2).
Proof.
  intros sg l1 l2. induction l1 as [|e l1 IH]; intros w c H1 H2; [exact H2|].
  destruct H1 as [He H1]. cbn [app legal]. split; [exact He|]. apply IH; [exact H1|].
  cbn [history] in H2. destruct (step F w c e) as [[x w1] c1]. cbn [fst snd] in *.
  destruct (history F w1 c1 l1) as [[xs w2] c2]. exact H2.
Qed.
Lemma not_held_queue : forall sg lim ig fo en x ol l o, (1 <= lim)%Z -> respects_ignore F ig ->
  (forall a b : nat, ol a = ol b -> a = b) ->
  legal F sg (new_world x ol) (new_cacher lim ig fo en) l ->
  existsb (Nat.eqb o) (concat (snd (queue F lim ig fo (new_world x ol) (new_cacher lim ig fo en) (en, []) l))) = false ->
  ~ held (snd (history F (new_world x ol) (new_cacher lim ig fo en) l)) o.
Proof.
  intros sg lim ig fo en x ol l o H1 H2 H3 Hl Hq (ins & Hr & Hin).
  destruct (retained_fifo C V E F sg lim ig fo en x ol l H1 H2 H3 Hl) as (Hf & _).
  apply Hf in Hr. assert (Ht : existsb (Nat.eqb o) (concat (snd (queue F lim ig fo (new_world x ol) (new_cacher lim ig fo en) (en, []) l))) = true).
  { apply existsb_exists. exists o. split; [|apply Nat.eqb_refl]. apply in_concat. eauto. }
  congruence.
Qed.

Definition legal_after (sg : signature) (w : world) (c : cacher) (l1 l2 : list (event C)) : Prop :=
  legal F sg (snd (fst (history F w c l1))) (snd (history F w c l1)) l2.
Lemma history_snoc : forall l w c e,
  snd (fst (history F w c (l ++ [e]))) = snd (fst (step F (snd (fst (history F w c l))) (snd (history F w c l)) e)) /\
  snd (history F w c (l ++ [e])) = snd (step F (snd (fst (history F w c l))) (snd (history F w c l)) e).
Proof.
  induction l as [|a l IH]; intros w c e; cbn [app history].
  - destruct (step F w c e) as [[x w1] c1] eqn:He. cbn [fst snd]. rewrite He. split; reflexivity.
  - destruct (step F w c a) as [[x w1] c1]. specialize (IH w1 c1 e).
    destruct (history F w1 c1 (l ++ [e])) as [[? ?] ?]. destruct (history F w1 c1 l) as [[? ?] ?].
    exact IH.
Qed.
Lemma legal_after_cons : forall sg w c l1 e r,
  legal_event sg (snd (fst (history F w c l1))) (snd (history F w c l1)) e ->
  legal_after sg w c (l1 ++ [e]) r -> legal_after sg w c l1 (e :: r).
Proof.
  intros sg w c l1 e r He Hr. unfold legal_after in *. split; [exact He|].
  destruct (history_snoc l1 w c e) as [<- <-]. exact Hr.
Qed.
End P.

Lemma inputs_exact : forall ig args kw, exists kws, Permutation kws kw /\ Sorted.StronglySorted le (map fst kws) /\ combine_inputs ig args kw = kept ig (args ++ map snd kws).
Proof.
  intros. exists (kw_sort kw). split; [apply kw_sort_perm|]. split.
  - apply kw_sort_sorted.
  - unfold combine_inputs, kept. apply drop_kept.
Qed.
