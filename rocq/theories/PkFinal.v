(** Proofs about saving and loading, part 3: the theorems, and concrete cases. *)
From Coq Require Import List ZArith Bool Lia Arith.
From Verif Require Import NpModel NpProofs IndexOpsModel IndexOpsSpec PzModel CopyModel PzSpec PzTree PzStruct PzLink PzInv PzPres PzTraverse PzCmd PzVal PzOpt PzRandom CopySpec PzHist PzKeep PzOrder PzGrad PzCheck PzFinal PzEx CopyTree CopyCall CopyFinal CopyEx DomEx PkModel PkSpec PkProofs PkFail.
Import ListNotations.
Open Scope Z_scope.

Section Final.
Context {V : Type}.
Implicit Types s : @state V.
Variables tinit tf tfinv : nat -> V -> V.
Variable junk : nat -> Z -> V.
Variables before after : oid -> list oid.

Lemma load_final : forall s x, reach tinit tf tfinv legal junk s -> (x < next (st s))%nat -> par (st s) x = None -> in_init (st s) x = false ->
  (is_leaf (st s) x = true -> forall j, ~ has s x Fixed j) -> tidy (st s) before after x ->
  exists s', load before after x s = (s', Done) /\ copy_of s s' x (next (st s)) /\ untouched s s' /\
    (forall z, (z < next (st s))%nat -> ~ together (st s') z (next (st s))) /\
    exists l, trace (nt s') = l ++ trace (nt s) /\ (forall z, In z l -> (next (st s) <= z)%nat) /\
      forall z, part (st s') (next (st s)) z -> kind (st s') z = KNode -> In z l.
Proof.
  intros s x R Hx Hp Ix Fx Td. destruct (reach_legal tinit tf tfinv junk s R) as [H O].
  destruct (load_ok before after s x H Hx Hp Ix Fx Td) as (s' & E & H' & Ck & (l & Et & Hl & Al)).
  exists s'. split; auto. split; [apply Ck|]. split; [apply Ck|]. split.
  - intros z Hz T. apply (untouched_together tinit tf tfinv s s' z x (next (st s)) H H' Hz Ck) in T. apply (together_lt s z) in T; auto. lia.
  - exists l. split; auto. split; [intros z Hz; apply Hl in Hz; lia|]. intros z Pz Kz. apply Al; auto.
    destruct Pz as (o & n & B). destruct (below_follow _ _ _ _ _ B) as [path Ep]. pose proof (co_paths _ _ _ _ (proj1 Ck) path) as Q.
    rewrite Ep in Q. destruct (follow (st s) x path); [apply Q | destruct Q].
Qed.
Lemma copied_one : forall s s' x, Inv s -> Inv s' -> one s -> (x < next (st s))%nat -> copied_ok s s' x (next (st s)) -> one s'.
Proof.
  intros s s' x H H' O Hx (Co & Un & _). apply one_leaf; auto. intros y Hy Hl k a b Ha Hb.
  destruct (Nat.lt_ge_cases y (next (st s))) as [Hlt|Hge].
  + destruct (Un y Hlt) as (A & _). apply (O y Hlt k); apply (aw_has _ _ _ _ A); auto.
  + destruct (copy_source s s' x (next (st s)) y Co) as (path & z & Ez & _ & A); [lia|].
    assert (Hz : (z < next (st s))%nat) by (apply follow_below in Ez; destruct Ez as (o & n & B); eapply above_lt'; [apply H | eauto | exists o, n; auto]).
    apply (O z Hz k); apply (aw_has _ _ _ _ A); auto.
Qed.
Lemma load_apart_final : forall s x s1 o, reach tinit tf tfinv careful junk s -> (x < next (st s))%nat -> par (st s) x = None -> in_init (st s) x = false ->
  (is_leaf (st s) x = true -> forall j, ~ has s x Fixed j) -> tidy (st s) before after x -> load before after x s = (s1, o) ->
  forall s2,
  (hist tinit tf tfinv (fun s' c => legal s' c /\ elsewhere s' (next (st s)) c) s1 s2 -> unheard s1 s2 (next (st s)) /\
     forall path, match follow (st s) x path, follow (st s2) (next (st s)) path with
     | Some a, Some b => as_was s s2 a b
     | None, None => True
     | _, _ => False
     end) /\
  (hist tinit tf tfinv (fun s' c => legal s' c /\ elsewhere s' x c) s1 s2 -> unheard s1 s2 x /\ stays s1 s2 x).
Proof.
  intros s x s1 o R Hx Hp Ix Fx Td E s2.
  destruct (reach_inv tinit tf tfinv careful junk s (fun s c Q => proj1 Q) R) as [H O].
  assert (Ap : apart s) by (apply (reach_apart tinit tf tfinv careful junk s); auto).
  destruct (load_ok before after s x H Hx Hp Ix Fx Td) as (s1' & E' & H1 & Ck & _). rewrite E in E'. injection E' as <- ->.
  pose proof (copied_one s s1 x H H1 O Hx Ck) as O1. destruct Ck as (Co & Un & Ap'). specialize (Ap' Ap). pose proof (co_new _ _ _ _ Co) as Hn. split; intros Hh.
  - destruct (elsewhere_hist tinit tf tfinv s1 s2 (next (st s)) H1 O1 Ap') as (_ & _ & _ & St & Uh & Tg); auto; [lia|]. split; auto. intros path.
    assert (Ty : together (st s1) (next (st s)) (next (st s))) by (exists (next (st s)); split; exists 0, 0%nat; constructor).
    rewrite (follow_stays s1 s2 (next (st s)) path (next (st s)) St Ty).
    pose proof (co_paths _ _ _ _ Co path) as P. destruct (follow (st s) x path) as [a|]; destruct (follow (st s1) (next (st s)) path) as [b|] eqn:Eb; auto.
    destruct P as (P1 & P2 & P3). destruct (St b) as (Q & _).
    { apply follow_below in Eb as (o & n & B). exists (next (st s)). split; [exists 0, 0%nat; constructor | exists o, n; auto]. }
    apply (was_trans s s1 s2 a b b); auto.
  - destruct (elsewhere_hist tinit tf tfinv s1 s2 x H1 O1 Ap') as (_ & _ & _ & St & Uh & Tg); auto. lia.
Qed.
Lemma load_inv : forall s x s1 o, Inv s -> (x < next (st s))%nat -> par (st s) x = None -> in_init (st s) x = false ->
  (is_leaf (st s) x = true -> forall j, ~ has s x Fixed j) -> tidy (st s) before after x -> load before after x s = (s1, o) -> one s -> Inv s1 /\ one s1.
Proof.
  intros s x s1 o H Hx Hp Ix Fx Td E O. destruct (load_ok before after s x H Hx Hp Ix Fx Td) as (s' & E' & H' & Ck & _). rewrite E in E'. injection E' as -> ->. split; auto. apply (copied_one s s' x); auto.
Qed.
Lemma part_final : forall s x p, reach tinit tf tfinv legal junk s -> (x < next (st s))%nat -> par (st s) x = Some p ->
  (forall y z, In z (before y ++ after y) -> (z < next (st s))%nat) -> exists s' e, load before after x s = (s', Raised e).
Proof. intros s x p R Hx Hp Hr. destruct (reach_legal tinit tf tfinv junk s R) as [H O]. apply (part_fails before after s x p); auto. apply H. Qed.
Lemma plain_final : forall s x p, reach tinit tf tfinv legal junk s -> (x < next (st s))%nat -> par (st s) x = Some p ->
  exists s', load none none x s = (s', Raised AttributeError).
Proof. intros s x p R Hx Hp. destruct (reach_legal tinit tf tfinv junk s R) as [H O]. apply (plain_fails s x p); auto. Qed.
End Final.

(** ** Concrete cases *)
(** In [ex], 4 = [2 = [0, 1], 3]. The object 2 also refers to 0 and to 4; 3 refers to 1, and 4 to all its parts. *)
Definition ex_refs (x : oid) : list oid := match x with 2%nat => [0; 4]%nat | 3%nat => [1; 3]%nat | 4%nat => [1; 3; 2; 4]%nat | _ => [] end.
Definition ex_up (x : oid) : list oid := match x with 0%nat => [2; 4]%nat | 1%nat => [0]%nat | _ => [] end.
Lemma kids_ex : kids (st ex) 4 = [2; 3]%nat /\ kids (st ex) 2 = [0; 1]%nat /\ kids (st ex) 0 = [] /\ kids (st ex) 1 = [] /\ kids (st ex) 3 = [].
Proof. vm_compute. auto 10. Qed.
Lemma follow_ex : forall p x, follow (st ex) 4 p = Some x -> In (p, x) [([], 4%nat); ([0], 2%nat); ([0; 0], 0%nat); ([0; 1], 1%nat); ([1], 3%nat)]%nat.
Proof.
  intros p x. destruct kids_ex as (K4 & K2 & K0 & K1 & K3). generalize dependent (st ex). intros t K4 K2 K0 K1 K3 F.
  assert (Leaf : forall y q, kids t y = [] -> follow t y q = Some x -> q = [] /\ x = y).
  { intros y q Ky Fq. destruct q as [|i q]; cbn [follow] in Fq; [injection Fq as <-; auto|]. rewrite Ky in Fq. destruct i; discriminate. }
  destruct p as [|i p]; cbn [follow] in F; [injection F as <-; cbn; auto|]. rewrite K4 in F.
  destruct i as [|[|i]]; cbn [nth_error] in F.
  - destruct p as [|j p]; cbn [follow] in F; [injection F as <-; cbn; auto|]. rewrite K2 in F. destruct j as [|[|j]]; cbn [nth_error] in F.
    + apply Leaf in F as [-> ->]; auto. cbn. auto.
    + apply Leaf in F as [-> ->]; auto. cbn. auto.
    + destruct j; discriminate.
  - apply Leaf in F as [-> ->]; auto. cbn. auto 10.
  - destruct i; discriminate.
Qed.
Ltac by_path q := exists q; split; [vm_compute; reflexivity | cbn; first [solve [auto 10] | solve [right; left; lia] | solve [right; right; eexists; cbn; reflexivity]]].
Lemma ex_tidy : tidy (st ex) ex_up ex_refs 4.
Proof.
  intros p x z F. apply follow_ex in F. cbn [In] in F.
  destruct F as [F|[F|[F|[F|[F|[]]]]]]; injection F as <- <-; cbn [ex_up ex_refs In]; (split; intros Q; repeat (destruct Q as [<-|Q]); try destruct Q);
    first [by_path (@nil nat) | by_path [0]%nat | by_path [0; 0]%nat | by_path [0; 1]%nat | by_path [1]%nat].
Qed.
Notation ex_loaded := (fst (load ex_up ex_refs 4 ex)).
Lemma pair_out : forall (A B : Type) (q : A * B) b, snd q = b -> q = (fst q, b).
Proof. intros A B [a b'] b <-. reflexivity. Qed.
Lemma ex_load_is : load ex_up ex_refs 4 ex = (ex_loaded, Done).
Proof. apply pair_out. vm_compute. reflexivity. Qed.
Lemma ex_load : ex_reach ex /\ (4 < next (st ex))%nat /\ par (st ex) 4 = None /\ in_init (st ex) 4 = false /\ is_leaf (st ex) 4 = false /\ tidy (st ex) ex_up ex_refs 4 /\
  next (st ex) = 8%nat /\ load ex_up ex_refs 4 ex = (ex_loaded, Done) /\ follow (st ex) 4 [0;1]%nat = Some 1%nat /\ follow (st ex_loaded) 8 [0;1]%nat = Some 11%nat /\
  map (value ex_loaded 8) [0;1;2;3;4] = [Some 1; Some 2; Some 3; Some 4; Some 5] /\ has ex_loaded 11 Fixed 0 /\ has ex_loaded 10 (Tr 7) 0.
Proof.
  split; [exact ex_reachable|]. split; [vm_compute; lia|]. split; [vm_compute; reflexivity|]. split; [vm_compute; reflexivity|]. split; [vm_compute; reflexivity|].
  split; [exact ex_tidy|]. split; [vm_compute; reflexivity|]. split; [exact ex_load_is|]. split; [vm_compute; reflexivity|]. split; [vm_compute; reflexivity|].
  split; [vm_compute; reflexivity|]. split; apply has_is; vm_compute; reflexivity.
Qed.
(** A fixed Param of its own: 0. *)
Notation ex_fixed := (from_start [NewParam [1;2]; Fix 0%nat None]).
Lemma fixed_load_refuted : exists s x s1 s2 p, ex_reach s /\ (x < next (st s))%nat /\ par (st s) x = None /\ ready (st s) x /\ in_init (st s) x = false /\ tidy (st s) none none x /\
  has s x Fixed 0 /\ load none none x s = (s1, Done) /\ has s1 (next (st s)) Fixed 0 /\ value s1 (next (st s)) 0 = value s x 0 /\
  set_optimizer_array ex_f (next (st s)) p s1 = (s2, None) /\ value s2 (next (st s)) 0 <> value s1 (next (st s)) 0.
Proof.
  exists ex_fixed, 0%nat, (fst (load none none 0 ex_fixed)), (fst (set_optimizer_array ex_f 1 [99;98] (fst (load none none 0 ex_fixed)))), [99;98].
  split; [apply start_reach; vm_compute; reflexivity|]. split; [vm_compute; lia|]. split; [vm_compute; reflexivity|]. split; [rd|]. split; [vm_compute; reflexivity|].
  split; [intros p x z _; split; intros []|].
  split; [hs|]. split; [apply pair_out; vm_compute; reflexivity|]. split; [apply has_is; vm_compute; reflexivity|]. split; [vm_compute; reflexivity|].
  split; [apply pair_is; vm_compute; reflexivity | vm_compute; congruence].
Qed.
(** 4 = [2 = [0], 3 = [1]], and 2 has an attribute that is 1. *)
Notation ex_cross := (from_start [NewParam [1]; NewParam [2]; NewNode [0]%nat true; NewNode [1]%nat true; NewNode [2; 3]%nat true]).
Definition ex_link (x : oid) : list oid := match x with 2%nat => [1]%nat | _ => [] end.
Lemma cross_refuted : exists s x after s', ex_reach s /\ (x < next (st s))%nat /\ par (st s) x = None /\ in_init (st s) x = false /\ is_leaf (st s) x = false /\
  (forall y z, In z (after y) -> part (st s) x z) /\ load none after x s = (s', Raised AttributeError).
Proof.
  assert (R : ex_reach ex_cross) by (apply start_reach; vm_compute; reflexivity).
  exists ex_cross, 4%nat, ex_link, (fst (load none ex_link 4 ex_cross)).
  split; [exact R|]. split; [vm_compute; lia|]. split; [vm_compute; reflexivity|]. split; [vm_compute; reflexivity|]. split; [vm_compute; reflexivity|].
  split; [|apply pair_out; vm_compute; reflexivity].
  intros y z Hz. assert (z = 1%nat) as ->. { do 3 (destruct y as [|y]; cbn in Hz; try (destruct Hz as [<-|[]]; auto; fail); try contradiction). }
  apply partb_ok; [apply reach_Inv, R | vm_compute; reflexivity].
Qed.
Lemma hist_away : forall x cs s, Inv s -> one s -> played ex_init ex_f ex_finv (fun s c => legalb s c && elsewhereb s x c) cs s = true ->
  hist ex_init ex_f ex_finv (fun s c => legal s c /\ elsewhere s x c) s (play ex_init ex_f ex_finv cs s).
Proof.
  intros x cs s H O P. apply (DomEx.play_hist ex_init ex_f ex_finv _ (fun s c => legalb s c && elsewhereb s x c)); auto.
  - intros s' c [Q _]. exact Q.
  - intros s' c H' A. apply andb_true_iff in A as [A B]. split; [apply legalb_ok | apply elsewhereb_ok]; auto.
Qed.
Lemma ex_one : one ex.
Proof. exact (proj2 (reach_legal ex_init ex_f ex_finv ex_junk ex ex_reachable)). Qed.
Lemma ex_loaded_inv : Inv ex_loaded /\ one ex_loaded.
Proof.
  apply (load_inv ex_up ex_refs ex 4 ex_loaded Done); [exact ex_Inv | vm_compute; lia | vm_compute; reflexivity | vm_compute; reflexivity | vm_compute; discriminate | exact ex_tidy | exact ex_load_is | exact ex_one].
Qed.
Lemma ex_load_apart : reach ex_init ex_f ex_finv careful ex_junk ex /\ tidy (st ex) ex_up ex_refs 4 /\ load ex_up ex_refs 4 ex = (ex_loaded, Done) /\
  (let s2 := play ex_init ex_f ex_finv (ex_work 4 0) ex_loaded in
   hist ex_init ex_f ex_finv (fun s c => legal s c /\ elsewhere s 8 c) ex_loaded s2 /\ value s2 4 2 <> value ex_loaded 4 2 /\ value s2 8 2 = Some 3) /\
  (let s2 := play ex_init ex_f ex_finv (ex_work 8 10) ex_loaded in
   hist ex_init ex_f ex_finv (fun s c => legal s c /\ elsewhere s 4 c) ex_loaded s2 /\ value s2 8 2 <> value ex_loaded 8 2 /\ value s2 4 2 = Some 3).
Proof.
  split; [exact ex_careful|]. split; [exact ex_tidy|]. split; [exact ex_load_is|]. destruct ex_loaded_inv as [H O].
  split; (split; [apply hist_away; [exact H | exact O | vm_compute; reflexivity]|]; split; vm_compute; congruence).
Qed.
Lemma ex_part : ex_reach ex /\ (1 < next (st ex))%nat /\ par (st ex) 1 = Some 2%nat /\ (forall y z, In z (ex_up y ++ ex_refs y) -> (z < next (st ex))%nat) /\
  load ex_up ex_refs 1 ex = (fst (load ex_up ex_refs 1 ex), Raised AttributeError) /\ (2 < next (st ex))%nat /\ par (st ex) 2 = Some 4%nat.
Proof.
  split; [exact ex_reachable|]. split; [vm_compute; lia|]. split; [vm_compute; reflexivity|]. split; [|split; [apply pair_out; vm_compute; reflexivity|]; split; [vm_compute; lia | vm_compute; reflexivity]].
  intros y z Hz. change (next (st ex)) with 8%nat. do 5 (destruct y as [|y]; cbn in Hz; [repeat (destruct Hz as [<-|Hz]; [lia|]); destruct Hz|]). destruct Hz.
Qed.
