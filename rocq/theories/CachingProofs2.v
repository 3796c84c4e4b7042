(** Proofs about cachers, continued: retention order, hits, registrations, failures. *)
From Coq Require Import List ZArith NArith Bool Ascii Lia Permutation.
From Verif Require Import CachingModel CachingSpec CachingKeys CachingProofs.
Import ListNotations.

Section P.
Variables C V E : Type.
Variable F : list C -> list (nat * C) -> V + E.
Notation world := (world C).
Notation cacher := (cacher V).
Notation inv := (inv C V E F).

Definition qrel (c : cacher) (eq : bool * list (list nat)) : Prop :=
  enabled c = fst eq /\ map (c_in c) (order c) = map Some (snd eq).

Lemma qrel_in : forall sg w c eq ins, inv sg w c -> qrel c eq ->
  (In ins (snd eq) <-> c_in c (prepare_cache_id (map (addr w) ins)) = Some ins).
Proof.
  intros sg w c eq ins H [_ Q]. split.
  - intros Hin. apply (in_map Some) in Hin. rewrite <- Q in Hin. apply in_map_iff in Hin.
    destruct Hin as (k & Hk & _). destruct (i_entry _ _ _ _ _ _ _ H _ _ Hk) as [-> _]. exact Hk.
  - intros Hc. assert (Ho : In (prepare_cache_id (map (addr w) ins)) (order c)).
    { apply (i_in _ _ _ _ _ _ _ H). congruence. }
    apply (in_map (c_in c)) in Ho. rewrite Q, Hc in Ho. apply in_map_iff in Ho.
    destruct Ho as (x & [= <-] & Hx). exact Hx.
Qed.

Lemma map_Some_inj : forall A (a b : list A), map Some a = map Some b -> a = b.
Proof.
  induction a; intros [|y b] H; simpl in H; try discriminate; auto.
  injection H as -> H. f_equal. auto.
Qed.
Lemma map_Some_tl : forall A (a : list A), tl (map Some a) = map Some (tl a).
Proof. destruct a; reflexivity. Qed.
Lemma map_tl : forall A B (f : A -> B) l, map f (tl l) = tl (map f l).
Proof. destruct l; reflexivity. Qed.

Lemma begin_cacheable : forall (w : world) (c : cacher) args kw,
  enabled c && cacheable w (force c) kw (combine_inputs (ignore c) args kw) = false ->
  begin_call w c args kw = Bypass.
Proof.
  intros w c args kw H. unfold begin_call. destruct (enabled c); [|reflexivity]. simpl in *.
  unfold cacheable in H. destruct (existsb _ kw); [reflexivity|]. simpl in H.
  destruct (existsb (fun o => match kindof w o with KOther => true | _ => false end) _) eqn:He; [reflexivity|].
  exfalso. assert (Ht : forallb (fun o => match kindof w o with KOther => false | _ => true end)
     (combine_inputs (ignore c) args kw) = true).
  { apply forallb_forall. intros x Hx. destruct (kindof w x) eqn:Hk; auto.
    rewrite <- He. apply existsb_exists. exists x. rewrite Hk. auto. }
  congruence.
Qed.
Lemma begin_not_bypass : forall (w : world) (c : cacher) args kw,
  enabled c && cacheable w (force c) kw (combine_inputs (ignore c) args kw) = true ->
  begin_call w c args kw <> Bypass.
Proof.
  intros w c args kw H. unfold begin_call. apply andb_true_iff in H. destruct H as [-> H]. simpl.
  unfold cacheable in H. apply andb_true_iff in H. destruct H as [H1 H2].
  destruct (existsb _ kw); [discriminate|].
  destruct (existsb (fun o => match kindof w o with KOther => true | _ => false end) _) eqn:He.
  - apply existsb_exists in He. destruct He as (x & Hx & Hk). rewrite forallb_forall in H2.
    specialize (H2 x Hx). destruct (kindof w x); discriminate.
  - destruct (c_chg c _) as [[|]|]; try discriminate. destruct (c_out c _); discriminate.
Qed.

(** A call, in detail. *)
Lemma call_queue : forall sg w c args kw eq, inv sg w c -> has_sig sg args kw ->
  Forall (fun o => live w o = true) (args ++ map snd kw) -> qrel c eq ->
  let s := call F w c args kw in
  qrel (snd s) (fst eq, queue_call F (limit c) (ignore c) (force c) w (fst eq) (snd eq) args kw).
Proof.
  intros sg w c args kw eq H Hs Hl Q s. unfold queue_call.
  pose proof (begin_call_spec C V E F sg w c args kw H Hs Hl) as Hb. cbv zeta in Hb.
  set (ins := combine_inputs (ignore c) args kw) in *.
  set (cid := prepare_cache_id (map (addr w) ins)) in *.
  destruct (fst eq && cacheable w (force c) kw ins) eqn:Hca.
  2:{ rewrite <- (proj1 Q) in Hca. pose proof (begin_cacheable w c args kw Hca) as Hby.
      unfold s, call. rewrite Hby. simpl. exact Q. }
  rewrite <- (proj1 Q) in Hca. pose proof (begin_not_bypass w c args kw Hca) as Hnb.
  pose proof (qrel_in sg w c eq ins H Q) as Hin. fold cid in Hin.
  unfold s, call. destruct (begin_call w c args kw) as [|v| |p].
  - congruence.
  - destruct Hb as (Hci & _ & _ & Hop). rewrite Hop. simpl.
    destruct (in_dec ins_dec ins (snd eq)) as [_|Hn]; [exact Q | tauto].
  - destruct Hb.
  - destruct Hb as (Hcid & Hins & (Hok1 & Hok2 & Hok3) & Hch).
    destruct (operate F w args kw) as [v|e] eqn:Hop.
    + unfold end_call. destruct (p_changed p).
      * simpl. rewrite Hcid, Hins in Hok3.
        destruct (in_dec ins_dec ins (snd eq)) as [_|Hn]; [exact Q | tauto].
      * destruct (in_dec ins_dec ins (snd eq)) as [Hy|_].
        { exfalso. apply Hin in Hy. rewrite Hcid in Hok3. congruence. }
        pose proof (inv_tick C V E F sg w c H) as Ht.
        destruct (ensure_spec C V E F sg (tick w) c Ht) as (w1 & c1 & He & Hro & H1 & Hsc & Hlen & Ho & Hsame & Hnone).
        rewrite He.
        destruct (add_spec C V E F sg w1 c1 (p_cid p) (p_ins p) v H1 Hlen)
          as (w2 & c2 & Ha & Hro2 & H2 & Hsc2 & Ho2 & Hi2 & _).
        { apply Hnone. exact Hok3. }
        { rewrite Hro. exact Hok1. }
        { rewrite Hro. exact Hok2. }
        { intros args' kw' Hs' Hc'. rewrite Hro. destruct Hsc as (_ & Hig & _). rewrite Hig in Hc'.
          change (operate F w args' kw' = inl v). rewrite <- Hop. symmetry.
          eapply same_inputs_same_result; eauto; [apply H|]. rewrite Hc', Hins. reflexivity. }
        rewrite Ha. simpl. split.
        { simpl. destruct Hsc2 as (_ & _ & _ & ->). destruct Hsc as (_ & _ & _ & ->). apply Q. }
        simpl. rewrite Ho2, Hi2. rewrite map_app. simpl. rewrite mset_same.
        assert (Hmap : map (mset (c_in c1) (p_cid p) (Some (p_ins p))) (order c1) = map (c_in c) (order c1)).
        { apply map_ext_in. intros k Hk. rewrite mset_other; [apply Hsame; exact Hk|].
          intros ->. apply (i_in _ _ _ _ _ _ _ H1) in Hk. apply Hk. apply Hnone. exact Hok3. }
        rewrite Hmap, Ho, Hins. unfold push.
        assert (Hlq : length (order c) = length (snd eq)).
        { rewrite <- (map_length (c_in c)), (proj2 Q), map_length. reflexivity. }
        rewrite Hlq. destruct (Z.eqb (Z.of_nat (length (snd eq))) (limit c)).
        { rewrite map_tl, (proj2 Q), map_app, map_Some_tl. reflexivity. }
        { rewrite (proj2 Q), map_app. reflexivity. }
    + simpl. split; [apply Q | reflexivity].
Qed.

Lemma step_queue : forall sg w c e eq, inv sg w c -> legal_event sg w c e -> qrel c eq ->
  qrel (snd (step F w c e)) (queue_step F (limit c) (ignore c) (force c) w eq e).
Proof.
  intros sg w c e [en q] H Hl Q. destruct e as [args kw|l notes| | | |o k none y a|o|o b]; simpl.
  - destruct Hl as [Hs Hlive]. pose proof (call_queue sg w c args kw (en, q) H Hs Hlive Q) as Hc.
    cbv zeta in Hc. destruct (call F w c args kw) as [[r w'] c']. exact Hc.
  - destruct (change_spec C V E F sg w c l notes H Hl) as [_ M].
    destruct (marks_in _ _ _ M) as (Eo & Ei & _ & (_ & _ & _ & Ee)). split.
    + rewrite Ee. apply Q.
    + rewrite Eo, Ei. apply Q.
  - split; [apply Q | reflexivity].
  - split; reflexivity.
  - split; [reflexivity | apply Q].
  - exact Q.
  - exact Q.
  - exact Q.
Qed.

Lemma history_queue : forall sg l w c eq, inv sg w c -> legal F sg w c l -> qrel c eq ->
  qrel (snd (history F w c l)) (queue F (limit c) (ignore c) (force c) w c eq l).
Proof.
  intros sg l. induction l as [|e l IH]; intros w c eq H Hl Q; [exact Q|].
  destruct Hl as [He Hl]. cbn [history queue].
  pose proof (step_queue sg w c e eq H He Q) as Q1.
  destruct (step_spec C V E F sg w c e H He) as (x & w1 & c1 & Hs & H1 & _ & El & Eg & Ef).
  rewrite Hs in *. cbn [fst snd] in *.
  specialize (IH w1 c1 _ H1 Hl Q1). rewrite El, Eg, Ef in IH.
  destruct (history F w1 c1 l) as [[xs w2] c2]. exact IH.
Qed.

Lemma retains_queue : forall sg w c eq ins, inv sg w c -> qrel c eq ->
  (retains c ins <-> In ins (snd eq)).
Proof.
  intros sg w c eq ins H Q. rewrite (qrel_in sg w c eq ins H Q). split.
  - intros [k Hk]. destruct (i_entry _ _ _ _ _ _ _ H _ _ Hk) as [-> _]. exact Hk.
  - intros Hk. eexists. exact Hk.
Qed.

(** Retention of a whole history. *)
Lemma retained_fifo : forall sg lim ig fo en x ol l, (1 <= lim)%Z -> respects_ignore F ig ->
  (forall a b : nat, ol a = ol b -> a = b) ->
  let w0 := new_world x ol in let c0 := new_cacher lim ig fo en in
  legal F sg w0 c0 l ->
  let c := snd (history F w0 c0 l) in
  let q := snd (queue F lim ig fo w0 c0 (en, []) l) in
  (forall ins, retains c ins <-> In ins q) /\ NoDup q /\ (Z.of_nat (length q) <= lim)%Z.
Proof.
  intros sg lim ig fo en x ol l H1 H2 H3 w0 c0 Hl c q.
  assert (H0 : inv sg w0 c0) by (apply inv_new; assumption).
  pose proof (history_queue sg l w0 c0 (en, []) H0 Hl ltac:(split; reflexivity)) as Q.
  destruct (history_inv C V E F sg l w0 c0 H0 Hl) as (xs & w' & c' & Hh & Hi & _ & El & _).
  assert (Hc : c = c') by (unfold c; rewrite Hh; reflexivity).
  fold c in Q. change (limit c0) with lim in Q. change (ignore c0) with ig in Q.
  change (force c0) with fo in Q. rewrite Hc in Q.
  split; [|split].
  - intros ins. rewrite Hc. apply (retains_queue sg w' c' _ ins Hi Q).
  - destruct Q as [_ Q]. apply (NoDup_map_inv Some). fold q in Q. rewrite <- Q.
    pose proof (i_nodup _ _ _ _ _ _ _ Hi) as Hn. pose proof (i_entry _ _ _ _ _ _ _ Hi) as He.
    pose proof (i_in _ _ _ _ _ _ _ Hi) as Hin.
    assert (Hs : forall k, In k (order c') -> c_in c' k <> None) by (intros; apply Hin; assumption).
    clear - Hn He Hs. induction (order c') as [|k r IH]; simpl; [constructor|].
    apply NoDup_cons_iff in Hn. destruct Hn as [Hk Hr]. constructor.
    + intros Hi. apply in_map_iff in Hi. destruct Hi as (k2 & Hk2 & Hin2).
      destruct (c_in c' k) as [ins|] eqn:Hck; [|apply (Hs k); [left; reflexivity | exact Hck]].
      destruct (He _ _ Hck) as [-> _]. destruct (He _ _ Hk2) as [-> _]. auto.
    + apply IH; auto. intros; apply Hs; right; assumption.
  - destruct Q as [_ Q]. apply (f_equal (@length _)) in Q. rewrite !map_length in Q. fold q in Q.
    rewrite <- Q. change lim with (limit c0). rewrite <- El. apply Hi.
Qed.

(** ** Hits. *)
Definition fresh_entry (w : world) (c : cacher) (ins : list nat) : Prop :=
  forall k, c_in c k = Some ins -> c_chg c k = Some false.

Lemma mark_leaves : forall sg w c d k ins, inv sg w c -> live w d = true -> ~ In d ins ->
  c_in c k = Some ins -> forall c', marks _ c c' -> c_chg c' k = Some false ->
  c_chg (mark c' (oid_key w d)) k = Some false.
Proof.
  intros sg w c d k ins H Hd Hni Hk c' M Hf. unfold mark. rewrite (marks_ids _ _ _ M).
  destruct (iget (c_ids c) (oid_key w d)) as [[r l]|] eqn:Hi; simpl; [|exact Hf].
  rewrite fold_mset. destruct (in_dec key_dec k l) as [Hin|]; [|exact Hf].
  exfalso. destruct (t_some _ _ _ _ (i_tbl _ _ _ _ _ _ _ H) _ _ _ Hi) as (A & B & _ & G).
  assert (r = d) by (symmetry; apply (okey_inj C w _ _ (i_w _ _ _ _ _ _ _ H) Hd (proj1 A) B)).
  subst r. assert (Hp : (0 < count l k)%nat) by (unfold count; apply count_occ_In; exact Hin).
  rewrite G in Hp. unfold cnt in Hp. rewrite Hk in Hp. apply ocount_in in Hp. auto.
Qed.

Lemma deliver_leaves : forall sg (w w' : world) c k ins notes, inv sg w c ->
  addr w' = addr w -> c_in c k = Some ins ->
  Forall (fun n => live w (fst n) = true /\ live w (snd n) = true) notes ->
  (forall n, In n notes -> ~ In (fst n) ins /\ ~ In (snd n) ins) ->
  forall c', marks _ c c' -> c_chg c' k = Some false ->
  c_chg (fold_left (deliver w') notes c') k = Some false.
Proof.
  intros sg w w' c k ins notes H Ha Hk. induction notes as [|n notes IH]; intros Hl Hn c' M Hf; [exact Hf|].
  inversion Hl as [|? ? [L1 L2] Hl']; subst.
  destruct (Hn n (or_introl eq_refl)) as [N1 N2].
  assert (D : marks _ c (deliver w' c' n) /\ c_chg (deliver w' c' n) k = Some false).
  { unfold deliver. destruct (upd w' (fst n)); [|auto].
    set (f := fun c => on_cache_changed w' c (fst n) (snd n)).
    induction (regs w' (olist w' (fst n))) as [|m IHm]; [auto|].
    destruct IHm as [M1 F1]. change (Nat.iter (S m) f c') with (f (Nat.iter m f c')).
    set (c1 := Nat.iter m f c') in *. clearbody c1. unfold f. clear f.
    assert (Hoc : on_cache_changed w' c1 (fst n) (snd n) =
                  mark (mark c1 (oid_key w (fst n))) (oid_key w (snd n))).
    { unfold on_cache_changed, oid_key. rewrite Ha. reflexivity. }
    rewrite Hoc. clear Hoc.
    assert (T1 : tbl_keys _ c1) by (eapply marks_keys; [exact M1 | eapply inv_tbl_keys; exact H]).
    assert (M2 : marks _ c (mark c1 (oid_key w (fst n)))).
    { eapply marks_trans; [exact M1|]. apply mark_spec. exact T1. }
    split.
    - eapply marks_trans; [exact M2|]. apply mark_spec. eapply marks_keys; [exact M2|].
      eapply inv_tbl_keys; exact H.
    - eapply mark_leaves; eauto. eapply mark_leaves; eauto. }
  simpl. apply IH; try apply D; auto. intros; apply Hn; right; assumption.
Qed.

Lemma call_fresh : forall sg w c args kw ins, inv sg w c -> has_sig sg args kw ->
  Forall (fun o => live w o = true) (args ++ map snd kw) ->
  (fresh_entry w c ins \/ (combine_inputs (ignore c) args kw = ins /\
      enabled c && cacheable w (force c) kw ins = true)) ->
  let s := call F w c args kw in fresh_entry (snd (fst s)) (snd s) ins.
Proof.
  intros sg w c args kw ins H Hs Hl Hor s.
  pose proof (begin_call_spec C V E F sg w c args kw H Hs Hl) as Hb. cbv zeta in Hb.
  set (ins0 := combine_inputs (ignore c) args kw) in *.
  set (cid := prepare_cache_id (map (addr w) ins0)) in *.
  unfold s, call. destruct (begin_call w c args kw) as [|v| |p] eqn:Hbc.
  - simpl. destruct Hor as [Hf|[<- Hc]]; [exact Hf|].
    exfalso. eapply begin_not_bypass; eauto.
  - simpl. destruct Hb as (Hci & Hch & _). destruct Hor as [Hf|[<- _]]; [exact Hf|].
    intros k Hk. destruct (i_entry _ _ _ _ _ _ _ H _ _ Hk) as [-> _]. exact Hch.
  - destruct Hb.
  - destruct Hb as (Hcid & Hins & (Hok1 & Hok2 & Hok3) & Hch).
    destruct (operate F w args kw) as [v|e] eqn:Hop.
    + unfold end_call. destruct (p_changed p).
      * simpl. intros k Hk. simpl in *. unfold mset. destruct (key_eqb k (p_cid p)) eqn:Hkk; [reflexivity|].
        destruct Hor as [Hf|[<- _]]; [apply Hf; exact Hk|].
        destruct (i_entry _ _ _ _ _ _ _ H _ _ Hk) as [-> _]. fold cid in Hkk.
        rewrite Hcid, key_eqb_refl in Hkk. discriminate.
      * pose proof (inv_tick C V E F sg w c H) as Ht.
        destruct (ensure_spec C V E F sg (tick w) c Ht) as (w1 & c1 & He & Hro & H1 & Hsc & Hlen & Ho & Hsame & Hnone).
        rewrite He.
        destruct (add_spec C V E F sg w1 c1 (p_cid p) (p_ins p) v H1 Hlen)
          as (w2 & c2 & Ha & Hro2 & H2 & Hsc2 & Ho2 & Hi2 & _ & Hc2).
        { apply Hnone. exact Hok3. }
        { rewrite Hro. exact Hok1. }
        { rewrite Hro. exact Hok2. }
        { intros args' kw' Hs' Hc'. rewrite Hro. destruct Hsc as (_ & Hig & _). rewrite Hig in Hc'.
          change (operate F w args' kw' = inl v). rewrite <- Hop. symmetry.
          eapply same_inputs_same_result; eauto; [apply H|]. rewrite Hc', Hins. reflexivity. }
        rewrite Ha. simpl. intros k Hk. rewrite Hi2 in Hk. rewrite Hc2. unfold mset in *.
        destruct (key_eqb k (p_cid p)) eqn:Hkk; [reflexivity|].
        assert (Hkin : In k (order c1)) by (apply (i_in _ _ _ _ _ _ _ H1); congruence).
        destruct (Hsame k Hkin) as (S1 & S2 & S3). rewrite S3. rewrite S1 in Hk.
        destruct Hor as [Hf|[<- _]]; [apply Hf; exact Hk|].
        destruct (i_entry _ _ _ _ _ _ _ H _ _ Hk) as [-> _]. fold cid in Hkk.
        rewrite Hcid, key_eqb_refl in Hkk. discriminate.
    + simpl. intros k Hk. discriminate.
Qed.

Lemma step_fresh : forall sg w c e ins, inv sg w c -> legal_event sg w c e -> leaves_alone ins e ->
  fresh_entry w c ins -> fresh_entry (snd (fst (step F w c e))) (snd (step F w c e)) ins.
Proof.
  intros sg w c e ins H Hl Ha Hf. destruct e as [args kw|l notes| | | |o k none y a|o|o b]; cbn [step].
  - destruct Hl as [Hs Hlive].
    pose proof (call_fresh sg w c args kw ins H Hs Hlive (or_introl Hf)) as Hc. cbv zeta in Hc.
    destruct (call F w c args kw) as [[r w'] c']. exact Hc.
  - cbn [fst snd]. intros k Hk. set (w' := set_content w (assign (content w) l)) in *.
    destruct (change_spec C V E F sg w c l notes H Hl) as [_ M]. fold w' in M.
    destruct (marks_in _ _ _ M) as (_ & Ei & _). rewrite Ei in Hk.
    destruct Hl as [_ Hl]. destruct Ha as [_ Ha].
    apply (deliver_leaves sg w w' c k ins notes H eq_refl Hk Hl Ha c (marks_refl _ c)).
    apply Hf. exact Hk.
  - intros k Hk. discriminate.
  - intros k Hk. discriminate.
  - exact Hf.
  - exact Hf.
  - exact Hf.
  - exact Hf.
Qed.

Lemma history_fresh : forall sg l w c ins, inv sg w c -> legal F sg w c l ->
  Forall (leaves_alone ins) l -> fresh_entry w c ins ->
  fresh_entry (snd (fst (history F w c l))) (snd (history F w c l)) ins.
Proof.
  intros sg l. induction l as [|e l IH]; intros w c ins H Hl Ha Hf; [exact Hf|].
  destruct Hl as [He Hl]. inversion Ha; subst.
  pose proof (step_fresh sg w c e ins H He ltac:(assumption) Hf) as Hf1.
  destruct (step_spec C V E F sg w c e H He) as (x & w1 & c1 & Hs & H1 & _).
  cbn [history]. rewrite Hs in *. cbn [fst snd] in *.
  specialize (IH w1 c1 ins H1 Hl ltac:(assumption) Hf1).
  destruct (history F w1 c1 l) as [[xs w2] c2]. exact IH.
Qed.

Lemma hit_no_run : forall sg w c args kw, inv sg w c -> has_sig sg args kw ->
  Forall (fun o => live w o = true) (args ++ map snd kw) ->
  let ins := combine_inputs (ignore c) args kw in
  enabled c && cacheable w (force c) kw ins = true -> fresh_entry w c ins -> retains c ins ->
  exists v, call F w c args kw = (Ret v, w, c) /\ operate F w args kw = inl v.
Proof.
  intros sg w c args kw H Hs Hl ins Hca Hf [k Hk].
  pose proof (begin_call_spec C V E F sg w c args kw H Hs Hl) as Hb. cbv zeta in Hb.
  fold ins in Hb. pose proof (begin_not_bypass w c args kw Hca) as Hnb.
  pose proof (Hf k Hk) as Hfk. destruct (i_entry _ _ _ _ _ _ _ H _ _ Hk) as [Hke _]. rewrite Hke in *.
  unfold call. destruct (begin_call w c args kw) as [|v| |p].
  - congruence.
  - exists v. split; [reflexivity | apply Hb].
  - destruct Hb.
  - destruct Hb as (_ & _ & _ & Hch). destruct (p_changed p); congruence.
Qed.

(** The queue when nothing empties it. *)
Lemma tl_in : forall A (q : list A) x, In x (tl q) -> In x q.
Proof. destruct q; simpl; auto. Qed.

(** [ins] sits in the queue with at most [m] entries after it... *)
Definition behind (q : list (list nat)) (ins : list nat) (m : nat) : Prop :=
  exists a b, q = a ++ ins :: b /\ (length b <= m)%nat.

Lemma push_behind : forall lim q ins m x, behind q ins m -> (Z.of_nat (S m) < lim)%Z ->
  behind (push lim q x) ins (S m).
Proof.
  intros lim q ins m x (a & b & -> & Hb) Hm. unfold push.
  destruct (Z.eqb_spec (Z.of_nat (length (a ++ ins :: b))) lim) as [He|_].
  - destruct a as [|y a].
    + simpl in He. lia.
    + exists a, (b ++ [x]). simpl. rewrite <- app_assoc. split; [reflexivity|].
      rewrite app_length; simpl; lia.
  - exists a, (b ++ [x]). rewrite <- app_assoc. split; [reflexivity|].
    rewrite app_length; simpl; lia.
Qed.

Lemma queue_behind : forall sg l w c eq ins m, inv sg w c -> legal F sg w c l ->
  qrel c eq -> behind (snd eq) ins m -> (Z.of_nat (m + calls l) < limit c)%Z ->
  Forall no_reset l -> Forall (fun r => match r with Exc _ => False | _ => True end) (ideal F (content w) l) ->
  behind (snd (queue F (limit c) (ignore c) (force c) w c eq l)) ins (m + calls l).
Proof.
  intros sg l. induction l as [|e l IH]; intros w c eq ins m H Hl Q Hb Hm Hnr Hid.
  - unfold calls; simpl. rewrite Nat.add_0_r. exact Hb.
  - destruct Hl as [He Hl]. inversion Hnr as [|? ? Hn1 Hn2]; subst. cbn [queue].
    pose proof (step_queue sg w c e eq H He Q) as Q1.
    destruct (step_spec C V E F sg w c e H He) as (x & w1 & c1 & Hs & H1 & Hx & El & Eg & Ef).
    rewrite Hs in *. cbn [fst snd] in *.
    specialize (IH w1 c1 (queue_step F (limit c) (ignore c) (force c) w eq e) ins).
    rewrite El, Eg, Ef in IH. destruct eq as [en q]. simpl in Hb.
    destruct e as [args kw|l0 notes| | | |o k none y a|o|o b]; simpl in Hn1; try contradiction.
    + destruct Hx as [_ Hx]. simpl in Hid. inversion Hid as [|? ? Hr Hid']; subst.
      change (F (map (content w) args) (map (fun x => (fst x, content w (snd x))) kw))
        with (operate F w args kw) in Hr.
      unfold calls in *. cbn [filter] in *. cbn [length] in *.
      set (n := length _) in *. simpl queue_step.
      replace (m + S n)%nat with (S m + n)%nat by lia. apply IH; auto.
      * simpl. unfold queue_call. destruct (en && _).
        { destruct (operate F w args kw); [|destruct Hr].
          destruct (in_dec _ _ _).
          - destruct Hb as (a & b & -> & Hb). exists a, b. split; [reflexivity | lia].
          - apply push_behind; [exact Hb | lia]. }
        { destruct Hb as (a & b & -> & Hb). exists a, b. split; [reflexivity | lia]. }
      * lia.
      * rewrite Hx. exact Hid'.
    + destruct Hx as [_ Hx]. apply IH; auto. rewrite Hx; exact Hid.
    + destruct Hx as [_ Hx]. apply IH; auto. rewrite Hx; exact Hid.
    + destruct Hx as [_ Hx]. apply IH; auto. rewrite Hx; exact Hid.
    + destruct Hx as [_ Hx]. apply IH; auto. rewrite Hx; exact Hid.
    + destruct Hx as [_ Hx]. apply IH; auto. rewrite Hx; exact Hid.
Qed.
End P.
