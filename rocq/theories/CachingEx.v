(** Concrete histories used as examples beside the properties of cachers. *)
From Coq Require Import List ZArith NArith Bool Ascii Lia Permutation.
From Verif Require Import CachingModel CachingSpec CachingProofs CachingFinal CachingProofs2.
Import ListNotations.

(** An example operation on numbers: the first argument is ignored (as an uncacheable [self]
    would be), the others are added up; it raises when the sum exceeds 100. *)
Definition total (l : list nat) : nat := fold_right Nat.add 0 l.
Definition ex_F (xs : list nat) (kx : list (nat * nat)) : nat + nat :=
  match xs with
  | [] => inr 0
  | _ :: r => let s := total r + total (map snd kx) in if Nat.leb s 100 then inl s else inr s
  end.
Lemma total_perm : forall l l', Permutation l l' -> total l = total l'.
Proof. intros l l' P. induction P; simpl; lia. Qed.
Lemma ex_F_named : by_name ex_F.
Proof.
  intros xs kx ky P. unfold ex_F. rewrite (total_perm _ _ (Permutation_map snd P)). reflexivity.
Qed.
Lemma total_app : forall l l', total (l ++ l') = total l + total l'.
Proof. induction l as [|a l IH]; intros; simpl; [reflexivity|]. rewrite IH. lia. Qed.
Lemma drop_above : forall A (l : list A) i, drop_ignored [0] (S i) l = l.
Proof. induction l as [|a l IH]; intros i; simpl; [reflexivity|]. f_equal. apply IH. Qed.
Lemma ex_F_ok : respects_ignore ex_F [0].
Proof.
  split; [exact ex_F_named|]. intros xs ys kx ky Hl _ _ H. rewrite !kept_drop in H.
  destruct xs as [|x xs], ys as [|y ys]; try discriminate Hl; [reflexivity|].
  cbn [app drop_ignored existsb Nat.eqb orb] in H. rewrite !drop_above in H. unfold ex_F.
  rewrite <- !total_app, H. reflexivity.
Qed.
Lemma ex_ol : forall a b : nat, (fun o : nat => o) a = (fun o : nat => o) b -> a = b.
Proof. auto. Qed.

Definition ex_sig : signature := (2, [5]).
(** Objects 0 (uncacheable), 1, 2, 3 (observables), 4 (a number); object 6 gets the address of
    the dead object 1. *)
Definition ex_l1 : list (event nat) :=
  [ENew 0 KOther false 0 1%N; ENew 1 KObs false 1 2%N; ENew 2 KObs false 2 3%N;
   ENew 3 KObs false 3 4%N; ENew 4 KPlain false 4 5%N;
   ECall [0; 1] [(5, 2)]; ECall [0; 1] [(5, 2)]; ECall [0; 2] [(5, 4)]; EChange [(2, 20)] [(2, 2)];
   ECall [0; 1] [(5, 2)]; ECall [0; 3] [(5, 3)]; ECall [0; 2] [(5, 4)]].
Definition ex_l2 : list (event nat) :=
  [ENew 6 KObs false 60 2%N; ECall [0; 6] [(5, 2)]; EChange [(6, 90)] [(6, 6)];
   ECall [0; 6] [(5, 2)]; ECall [0; 2] [(5, 4)]; EDisable; ECall [0; 2] [(5, 4)]; EEnable; EReset;
   ECall [0; 2] [(5, 4)]; ECall [0; 3] [(5, 3)]].
Definition ex_w0 : world nat := new_world 0 (fun o => o).
Definition ex_c0 : cacher nat := new_cacher 2 [0] [] true.

Ltac legal1 :=
  match goal with
  | |- legal_after _ _ _ _ _ _ _ _ [] => exact I
  | |- legal_after _ _ _ _ _ _ _ _ (_ :: _) =>
      apply legal_after_cons;
      [ first
        [ exact I
        | split; [vm_compute; reflexivity
                 | let o := fresh "o" in let H := fresh "H" in intros o H;
                   do 8 (destruct o as [|o];
                         [vm_compute in H; vm_compute; first [discriminate H | discriminate] |]);
                   vm_compute in H; discriminate H ]
        | split; [split; [vm_compute; reflexivity | apply Permutation_refl] | repeat (constructor; [vm_compute; reflexivity|]); constructor]
        | split; [ repeat (constructor; [split; [vm_compute; reflexivity
                     | right; repeat split; try (vm_compute; reflexivity); eexists; left; reflexivity]|]); constructor
                 | repeat (constructor; [split; vm_compute; reflexivity|]); constructor ] ]
      | ]
  end.

Lemma ex_legal1 : legal ex_F ex_sig ex_w0 ex_c0 ex_l1.
Proof. change (legal_after _ _ _ ex_F ex_sig ex_w0 ex_c0 [] ex_l1). unfold ex_l1. repeat legal1. Qed.

Lemma ex_legal : legal ex_F ex_sig ex_w0 ex_c0 (ex_l1 ++ EDie 1 :: ex_l2).
Proof.
  apply legal_app; [exact ex_legal1|].
  change (legal_after _ _ _ ex_F ex_sig ex_w0 ex_c0 ex_l1 (EDie 1 :: ex_l2)).
  apply legal_after_cons.
  - split; [vm_compute; reflexivity|].
    apply not_held_queue with (sg := ex_sig); [lia | exact ex_F_ok | exact ex_ol | exact ex_legal1 |].
    vm_compute. reflexivity.
  - unfold ex_l2. repeat legal1.
Qed.

Lemma ex_reached : forall l, legal ex_F ex_sig ex_w0 ex_c0 l ->
  reached ex_F ex_sig (snd (fst (history ex_F ex_w0 ex_c0 l))) (snd (history ex_F ex_w0 ex_c0 l)).
Proof.
  intros l H. exists 2%Z, [0], [], true, 0, (fun o => o), l.
  split; [lia|]. split; [exact ex_F_ok|]. split; [auto|]. split; [exact H|]. split; reflexivity.
Qed.
Definition ex_reached1 := ex_reached ex_l1 ex_legal1.

Lemma ex_hit :
  let w := snd (fst (history ex_F ex_w0 ex_c0 (firstn 5 ex_l1))) in
  let c := snd (history ex_F ex_w0 ex_c0 (firstn 5 ex_l1)) in
  let s1 := call ex_F w c [0; 1] [(5, 2)] in
  let l := [ECall [0; 3] [(5, 4)]; EChange [(3, 30)] [(3, 3)]] in
  let s2 := history ex_F (snd (fst s1)) (snd s1) l in
  reached ex_F ex_sig w c /\ ~ retains c [1; 2] /\ fst (fst s1) = Ret 3 /\
  legal ex_F ex_sig (snd (fst s1)) (snd s1) l /\ Forall (leaves_alone [1; 2]) l /\
  Forall no_reset l /\ (Z.of_nat (calls l) < limit c)%Z /\
  fst (fst (call ex_F (snd (fst s2)) (snd s2) [0; 1] [(5, 2)])) = Ret 3 /\
  runs (snd (fst (call ex_F (snd (fst s2)) (snd s2) [0; 1] [(5, 2)]))) = runs (snd (fst s2)).
Proof.
  assert (L5 : legal ex_F ex_sig ex_w0 ex_c0 (firstn 5 ex_l1)).
  { change (legal_after _ _ _ ex_F ex_sig ex_w0 ex_c0 [] (firstn 5 ex_l1)). cbn [firstn ex_l1]. repeat legal1. }
  intros w c s1 l s2. split; [exact (ex_reached _ L5)|]. split.
  { intros Hr. destruct (retained_fifo _ _ _ ex_F ex_sig 2 [0] [] true 0 (fun o => o) (firstn 5 ex_l1)
      ltac:(lia) ex_F_ok ex_ol L5) as (Hf & _). apply Hf in Hr. vm_compute in Hr. exact Hr. }
  split; [vm_compute; reflexivity|]. split.
  { assert (H6 : legal_after _ _ _ ex_F ex_sig ex_w0 ex_c0 (firstn 6 ex_l1) l).
    { unfold l. repeat legal1. }
    unfold legal_after in H6.
    assert (E1 : snd (fst (history ex_F ex_w0 ex_c0 (firstn 6 ex_l1))) = snd (fst s1) /\
                 snd (history ex_F ex_w0 ex_c0 (firstn 6 ex_l1)) = snd s1).
    { change (firstn 6 ex_l1) with (firstn 5 ex_l1 ++ [ECall [0; 1] [(5, 2)]]).
      destruct (history_snoc _ _ _ ex_F (firstn 5 ex_l1) ex_w0 ex_c0 (ECall [0; 1] [(5, 2)])) as [-> ->].
      fold w c. cbn [step]. fold s1. destruct s1 as [[? ?] ?]. split; reflexivity. }
    destruct E1 as [E1 E2]. rewrite E1, E2 in H6. exact H6. }
  split.
  { constructor; [exact I|]. constructor; [|constructor]. split.
    - intros x [<-|[]] Hx. simpl in Hx. intuition discriminate.
    - intros n [<-|[]]. split; intros Hx; simpl in Hx; intuition discriminate. }
  split; [repeat constructor|]. split; [vm_compute; reflexivity|]. split; vm_compute; reflexivity.
Qed.

(** Caching n different numbers with limit -1. *)
Lemma hist_app : forall C V E (F : list C -> list (nat * C) -> V + E) l1 l2 w c,
  snd (history F w c (l1 ++ l2)) =
  snd (history F (snd (fst (history F w c l1))) (snd (history F w c l1)) l2).
Proof.
  intros C V E F l1. induction l1 as [|e l1 IH]; intros l2 w c; cbn [app history]; [reflexivity|].
  destruct (step F w c e) as [[x w1] c1]. specialize (IH l2 w1 c1).
  destruct (history F w1 c1 (l1 ++ l2)) as [[? ?] ?]. destruct (history F w1 c1 l1) as [[? ?] ?].
  exact IH.
Qed.

Lemma zero_limit : exists l sg,
  legal ex_F sg ex_w0 (new_cacher 0 [] [] true) l /\
  fst (fst (history ex_F ex_w0 (new_cacher 0 [] [] true) l)) = [Internal IndexErr] /\
  ideal ex_F (content ex_w0) l = [Ret 1].
Proof.
  exists [ENew 1 KObs false 1 2%N; ECall [1; 1] []], (2, []). split.
  - change (legal_after _ _ _ ex_F (2, []) ex_w0 (new_cacher 0 [] [] true) []
       [ENew 1 KObs false 1 2%N; ECall [1; 1] []]). repeat legal1.
  - split; vm_compute; reflexivity.
Qed.

Fixpoint ex_many (n : nat) : list (event nat) :=
  match n with
  | O => []
  | S m => ex_many m ++ [ENew m KPlain false 1 (N.of_nat m); ECall [m] []]
  end.
Record many_inv (n : nat) (w : world nat) (c : cacher nat) : Prop := {
  m_live : forall o, live w o = Nat.ltb o n;
  m_addr : forall o, (o < n)%nat -> addr w o = N.of_nat o;
  m_conf : limit c = (-1)%Z /\ enabled c = true /\ ignore c = [] /\ force c = [];
  m_len : length (order c) = n;
  m_chg : forall i, (n <= i)%nat -> c_chg c (prepare_cache_id [N.of_nat i]) = None }.
Lemma many_spec : forall n, let c0 := new_cacher (-1) [] [] true in
  legal ex_F (1, []) ex_w0 c0 (ex_many n) /\
  many_inv n (snd (fst (history ex_F ex_w0 c0 (ex_many n)))) (snd (history ex_F ex_w0 c0 (ex_many n))).
Proof.
  intros n c0. induction n as [|n [IHl IH]]; cbn [ex_many].
  - split; [exact I|]. constructor; simpl; auto. intros; lia.
  - change [ENew n KPlain false 1 (N.of_nat n); ECall [n] []]
      with ([ENew n KPlain false 1 (N.of_nat n)] ++ [ECall [n] [] : event nat]).
    set (w := snd (fst (history ex_F ex_w0 c0 (ex_many n)))) in *.
    set (c := snd (history ex_F ex_w0 c0 (ex_many n))) in *.
    set (w1 := mkW (upd1 (content w) n 1) (upd1 (kindof w) n KPlain) (upd1 (isnone w) n false)
                 (upd1 (addr w) n (N.of_nat n)) (upd1 (live w) n true) (upd1 (upd w) n true)
                 (olist w) (regs w) (runs w)).
    assert (S1 : step ex_F w c (ENew n KPlain false 1 (N.of_nat n)) = (None, w1, c)) by reflexivity.
    destruct IH as [L A (C1 & C2 & C3 & C4) Len Chg].
    assert (Ha : addr w1 n = N.of_nat n) by (simpl; unfold upd1; rewrite Nat.eqb_refl; reflexivity).
    assert (Hk : kindof w1 n = KPlain) by (simpl; unfold upd1; rewrite Nat.eqb_refl; reflexivity).
    assert (S2 : exists v, step ex_F w1 c (ECall [n] []) =
       (Some (Ret v), tick w1, mkC (-1)%Z [] [] true (order c ++ [prepare_cache_id [N.of_nat n]])
         (mset (c_in c) (prepare_cache_id [N.of_nat n]) (Some [n]))
         (mset (c_out c) (prepare_cache_id [N.of_nat n]) (Some v))
         (mset (c_chg c) (prepare_cache_id [N.of_nat n]) (Some false)) (c_ids c))).
    { exists 0. unfold step, call, begin_call. rewrite C2, C3, C4. cbn [negb existsb].
      unfold combine_inputs. cbn [app map kw_sort fold_right drop_ignored existsb]. rewrite Hk, Ha.
      cbn [orb]. rewrite Chg by lia.
      assert (Ho : operate ex_F w1 [n] [] = inl 0) by reflexivity. rewrite Ho.
      unfold end_call. cbn [p_changed p_cid p_ins]. unfold ensure_cache_length. rewrite C1.
      destruct (Z.eqb_spec (Z.of_nat (length (order c))) (-1)); [lia|].
      unfold add_to_cache. cbn [acquire]. change (kindof (tick w1) n) with (kindof w1 n). rewrite Hk.
      rewrite C1, C2, C3, C4. reflexivity. }
    destruct S2 as [v S2].
    split.
    + apply legal_app; [exact IHl|]. fold w c. cbn [legal app]. rewrite S1. cbn [fst snd].
      split; [|split; [|exact I]].
      * split; [rewrite L; apply Nat.ltb_irrefl|]. intros o' Ho'. rewrite L in Ho'. apply Nat.ltb_lt in Ho'.
        rewrite A by assumption. lia.
      * split; [split; [reflexivity | constructor]|]. constructor; [|constructor]. simpl. unfold upd1.
        rewrite Nat.eqb_refl. reflexivity.
    + assert (Hw : snd (fst (history ex_F ex_w0 c0 (ex_many n ++ [ENew n KPlain false 1 (N.of_nat n)] ++ [ECall [n] []]))) = tick w1 /\
        snd (history ex_F ex_w0 c0 (ex_many n ++ [ENew n KPlain false 1 (N.of_nat n)] ++ [ECall [n] []])) =
        snd (step ex_F w1 c (ECall [n] []))).
      { rewrite app_assoc.
        destruct (history_snoc _ _ _ ex_F (ex_many n ++ [ENew n KPlain false 1 (N.of_nat n)]) ex_w0 c0 (ECall [n] [])) as [-> ->].
        destruct (history_snoc _ _ _ ex_F (ex_many n) ex_w0 c0 (ENew n KPlain false 1 (N.of_nat n))) as [-> ->].
        fold w c. rewrite S1. cbn [fst snd]. rewrite S2. split; reflexivity. }
      destruct Hw as [-> ->]. rewrite S2. cbn [snd]. constructor; simpl.
      * intros o. unfold upd1. destruct (Nat.eqb_spec o n) as [->|Hn].
        { symmetry. apply Nat.ltb_lt. lia. }
        { rewrite L. destruct (Nat.ltb_spec o n); destruct (Nat.ltb_spec o (S n)); auto; lia. }
      * intros o Ho. unfold upd1. destruct (Nat.eqb_spec o n) as [->|Hn]; [reflexivity|]. apply A. lia.
      * auto.
      * rewrite app_length, Len. simpl. lia.
      * intros i Hi. rewrite CachingProofs.mset_other; [apply Chg; lia|].
        intros He. apply CachingKeys.prepare_inj in He. injection He as He. lia.
Qed.

Lemma negative_limit : forall n, exists lim l sg,
  (lim < 0)%Z /\ legal ex_F sg ex_w0 (new_cacher lim [] [] true) l /\
  length (order (snd (history ex_F ex_w0 (new_cacher lim [] [] true) l))) = n.
Proof.
  intros n. exists (-1)%Z, (ex_many n), (1, []). destruct (many_spec n) as [H1 H2].
  split; [lia|]. split; [exact H1 | apply H2].
Qed.
