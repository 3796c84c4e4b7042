(** Concrete hierarchies used as examples beside the properties, and as witnesses. *)
From Coq Require Import List ZArith Bool Lia Arith.
From Verif Require Import NpModel NpProofs IndexOpsModel IndexOpsSpec PzModel PzSpec PzTree PzStruct PzLink PzInv PzPres PzTraverse PzCmd PzVal PzOpt PzRandom PzHist PzKeep PzOrder PzGrad PzCheck PzFinal.
Import ListNotations.
Open Scope Z_scope.

(** Transformation [n] adds [n]; its [initialize] takes the absolute value. *)
Definition ex_init (n : nat) (v : Z) : Z := Z.abs v.
Definition ex_f (n : nat) (v : Z) : Z := v + Z.of_nat n.
Definition ex_finv (n : nat) (v : Z) : Z := v - Z.of_nat n.
Definition ex_junk (b : nat) (i : Z) : Z := 77.
Notation ex_reach := (reach ex_init ex_f ex_finv legal ex_junk).
Definition from_start (cs : list (@call Z)) : @state Z := play ex_init ex_f ex_finv cs (init_state ex_junk).

(** 4 = [2 = [0, 1], 3], 6 = [5], 7; constrained, partly fixed. *)
Definition ex_calls : list (@call Z) :=
  [NewParam [1;2]; NewParam [3]; NewNode [0;1]%nat true; NewParam [4;5]; NewNode [2;3]%nat true;
   NewParam [6]; NewNode [5]%nat true; NewParam [8;9];
   Constrain 0%nat (Some [0]) 7; Fix 1%nat None; Fix 3%nat (Some [1])].
Notation ex := (from_start ex_calls).

Lemma start_reach : forall cs, played ex_init ex_f ex_finv legalb cs (init_state ex_junk) = true -> ex_reach (from_start cs).
Proof. intros cs H. apply play_legal; auto. constructor. Qed.
Lemma start_careful : forall cs, played ex_init ex_f ex_finv carefulb cs (init_state ex_junk) = true -> reach ex_init ex_f ex_finv careful ex_junk (from_start cs).
Proof. intros cs H. apply play_careful; auto. constructor. Qed.
Lemma ex_reachable : ex_reach ex.
Proof. apply start_reach. vm_compute. reflexivity. Qed.
Lemma ex_careful : reach ex_init ex_f ex_finv careful ex_junk ex.
Proof. apply start_careful. vm_compute. reflexivity. Qed.
Lemma reach_Inv : forall s, ex_reach s -> Inv s.
Proof. intros s R. apply (reach_legal ex_init ex_f ex_finv ex_junk s R). Qed.
Lemma ex_Inv : Inv ex.
Proof. apply reach_Inv, ex_reachable. Qed.

(** Going down by child numbers. *)
Fixpoint walk (t : struct) (x : oid) (p : list nat) : option (oid * Z * nat) :=
  match p with
  | [] => Some (x, 0, 0%nat)
  | i :: r => match nth_error (kids t x) i with
              | None => None
              | Some c => match walk t c r with
                          | Some (y, o, n) => Some (y, sum_sizes t (firstn i (kids t x)) + o, S n)
                          | None => None
                          end
              end
  end.
Lemma walk_below : forall t p x y o n, walk t x p = Some (y, o, n) -> below t x y o n.
Proof.
  induction p as [|i p IH]; intros x y o n E; cbn [walk] in E; [injection E as <- <- <-; constructor|].
  destruct (nth_error (kids t x) i) as [c|] eqn:En; [|discriminate]. destruct (walk t c p) as [[[y' o'] n']|] eqn:Ew; [|discriminate].
  injection E as <- <- <-. eapply below_kid; eauto.
Qed.
Lemma walk_same : forall t p x y o n j, walk t x p = Some (y, o, n) -> 0 <= j < size t y -> 0 <= j + o < size t x -> same_elem t y j x (j + o).
Proof.
  intros t p x y o n j E Hj Hk. split; auto. split; auto. exists x, o, n, 0, 0%nat. split; [eapply walk_below; eauto|]. split; [constructor | lia].
Qed.
Definition freel {V} (s : @state V) (x : oid) : list Z := filter (fun k => negb (zmem k (cons_get (ios s) x Fixed))) (arange (size (st s) x)).
Lemma freel_free : forall {V} (s : @state V) x, free s x (freel s x).
Proof.
  intros V s x. unfold freel. split; [apply sorted_increasing, ssorted_filter, arange_sorted|].
  intros k. rewrite filter_In, arange_In. destruct (zmem k (cons_get (ios s) x Fixed)) eqn:E; cbn [negb].
  - apply zmem_In in E. split; [intros [_ Q]; discriminate | intros [_ Q]; exfalso; apply Q; exact E].
  - apply zmem_false in E. split; intros [Q1 Q2]; split; auto.
Qed.
Lemma free_is : forall {V} (s : @state V) x ks, freel s x = ks -> free s x ks.
Proof. intros V s x ks <-. apply freel_free. Qed.
Lemma has_is : forall {V} (s : @state V) x p k, zmem k (cons_get (ios s) x p) = true -> has s x p k.
Proof. intros V s x p k E. apply zmem_In in E. exact E. Qed.
Lemma has_not : forall {V} (s : @state V) x p k, zmem k (cons_get (ios s) x p) = false -> ~ has s x p k.
Proof. intros V s x p k E Q. apply zmem_false in E. apply E. exact Q. Qed.
Lemma partb_no : forall {V} (s : @state V) r x, Inv s -> partb s r x = false -> ~ part (st s) r x.
Proof. intros V s r x H E Q. apply partb_ok in Q; auto. congruence. Qed.
Definition awakeb {V} (s : @state V) (y : oid) : bool := forallb (updates (nt s)) (ups (fuel (st s)) (st s) y).
Lemma awakeb_ok : forall {V} (s : @state V) y, Inv s -> awakeb s y = true -> awake s y.
Proof.
  intros V s y H E z Hz. unfold awakeb in E. rewrite forallb_forall in E. apply E. apply omem_In. apply partb_ok; auto.
Qed.
Lemma top_is : forall {V} (s : @state V) r x, Inv s -> In r (roots s x) -> top (st s) r x.
Proof. intros V s r x H E. apply roots_ok in E; auto. Qed.
Lemma top_only : forall {V} (s : @state V) r x q, Inv s -> roots s x = [r] -> top (st s) q x -> q = r.
Proof. intros V s r x q H E Q. apply roots_ok in Q; auto. rewrite E in Q. destruct Q as [Q|[]]; auto. Qed.
Lemma together_on : forall {V} (s : @state V) x, Inv s -> forallb (updates (nt s)) (seq 0 (next (st s))) = true -> (x < next (st s))%nat ->
  forall y, together (st s) x y -> updates (nt s) y = true.
Proof.
  intros V s x H E Hx y (r & A & B). rewrite forallb_forall in E. apply E. apply in_seq. split; [lia|]. cbn.
  assert (r < next (st s))%nat.
  { destruct A as (o & n & A). inversion A as [|z i c w o' n' En]; subst; auto. apply (kid_lt (st s) r c (inv_st _ H)). eapply nth_error_In; eauto. }
  eapply above_lt'; eauto.
Qed.

(** ** The examples *)
Lemma pair_is : forall {A B} (p : A * B) b, snd p = b -> p = (fst p, b).
Proof. intros A B [a b'] b <-. reflexivity. Qed.
Lemma ex_apart : apart ex.
Proof. exact (apart_final ex_init ex_f ex_finv ex_junk ex ex_careful). Qed.
Lemma ex_lnk : forall s self param index, ex_reach s -> linkb s self param index = true -> legal_link s self param index.
Proof. intros s self param index R. apply linkb_ok, reach_Inv, R. Qed.
Ltac rd := apply readyb_ok; vm_compute; reflexivity.
Ltac lk R := apply ex_lnk; [exact R | vm_compute; reflexivity].
Ltac hs := apply has_is; vm_compute; reflexivity.
Ltac nhs := apply has_not; vm_compute; reflexivity.
Ltac fr := apply free_is; vm_compute; reflexivity.
Ltac pt R := apply partb_ok; [apply reach_Inv, R | vm_compute; reflexivity].
Ltac tops R := let r := fresh in let Q := fresh in intros r Q; eapply top_only in Q; [|apply reach_Inv, R | vm_compute; reflexivity]; subst r.

Lemma ex_links : ex_reach ex /\ legal_link ex 4 5 (Some 1) /\ legal_link ex 4 2 (Some 1) /\ has ex 0 (Tr 7) 0 /\
  kids (st (fst (link 4 5 (Some 1) ex))) 4 = [2;5;3]%nat /\ kids (st (fst (link 4 2 (Some 1) ex))) 4 = [3;2]%nat.
Proof. split; [exact ex_reachable|]. split; [lk ex_reachable|]. split; [lk ex_reachable|]. split; [hs|]. split; vm_compute; reflexivity. Qed.
Lemma ex_unlinks : ex_reach ex /\ In 3%nat (kids (st ex) 4) /\ (forall r, top (st ex) r 4 -> in_init (st ex) r = false) /\ has ex 3 Fixed 1.
Proof. split; [exact ex_reachable|]. split; [vm_compute; auto|]. split; [tops ex_reachable; reflexivity | hs]. Qed.
Lemma ex_same34 : same_elem (st ex) 3 1 4 4.
Proof. apply (walk_same (st ex) [1]%nat 4 3 3 1 1); vm_compute; auto; split; congruence. Qed.
Lemma ex_same : ex_reach ex /\ same_elem (st ex) 3 1 4 4 /\ has ex 3 Fixed 1 /\ has ex 4 Fixed 4.
Proof. split; [exact ex_reachable|]. split; [exact ex_same34|]. split; hs. Qed.
Lemma ex_selections : ex_reach ex /\ ready (st ex) 2 /\ legal_sel (st ex) 2 None /\ legal_sel (st ex) 3 (Some [1]) /\ has ex 2 (Tr 7) 0 /\ has ex 3 Fixed 1.
Proof. split; [exact ex_reachable|]. split; [rd|]. split; [exact Logic.I|]. split; [apply selb_ok; vm_compute; reflexivity|]. split; hs. Qed.
Lemma ex_unconstrain : ex_reach ex /\ legal_sel (st ex) 4 None /\ has ex 4 (Tr 7) 0 /\ exists k, selected (st ex) 4 None k /\ same_elem (st ex) 0 0 4 k.
Proof.
  split; [exact ex_reachable|]. split; [exact Logic.I|]. split; [hs|]. exists (0 + 0). split; [vm_compute; split; congruence|].
  apply (walk_same (st ex) [0;0]%nat 4 0 0 2 0); vm_compute; auto; split; congruence.
Qed.
Lemma ex_fix : ex_reach ex /\ legal_sel (st ex) 0 (Some [1;0]) /\ has ex 0 (Tr 7) 0 /\ ~ has ex 0 Fixed 0.
Proof. split; [exact ex_reachable|]. split; [apply selb_ok; vm_compute; reflexivity|]. split; [hs | nhs]. Qed.
Lemma ex_refused : ex_reach ex /\ In 2%nat (kids (st ex) 4) /\ together (st ex) 4 0 /\ ~ part (st ex) 0 4 /\ ~ In 0%nat (kids (st ex) 4).
Proof.
  split; [exact ex_reachable|]. split; [vm_compute; auto|]. split; [exists 4%nat; split; pt ex_reachable|].
  split; [apply partb_no; [exact ex_Inv | vm_compute; reflexivity] | vm_compute; intuition congruence].
Qed.
Lemma loop_refuted : exists s self param s', ex_reach s /\ self <> param /\ part (st s) param self /\
  link self param None s = (s', Some Endless) /\ part (st s') param self /\ part (st s') self param.
Proof.
  exists ex, 2%nat, 4%nat, (fst (link 2 4 None ex)). split; [exact ex_reachable|]. split; [congruence|]. split; [pt ex_reachable|].
  split; [apply pair_is; vm_compute; reflexivity|].
  split; [exists 0, 1%nat; apply (walk_below _ [0]%nat) | exists 3, 1%nat; apply (walk_below _ [2]%nat)]; vm_compute; reflexivity.
Qed.
Lemma self_refuted : exists s x s', ex_reach s /\ link x x None s = (s', Some Endless) /\ In x (kids (st s') x).
Proof.
  exists ex, 2%nat, (fst (link 2 2 None ex)). split; [exact ex_reachable|].
  split; [apply pair_is; vm_compute; reflexivity | vm_compute; auto 10].
Qed.
Lemma ex_fix_unfix : ex_reach ex /\ (forall k, selected (st ex) 0 None k -> ~ has ex 0 Fixed k) /\ has ex 0 (Tr 7) 0.
Proof.
  split; [exact ex_reachable|]. split; [|hs]. cbn [selected]. change (size (st ex) 0) with 2. intros k Hk.
  assert (Q : k = 0 \/ k = 1) by lia. destruct Q as [->| ->]; nhs.
Qed.
Lemma fix_unfix_refuted : exists s s1 s2, ex_reach s /\ fix_param 4 None s = (s1, None) /\ unfix_param 4 None s1 = (s2, None) /\
  has s 3 Fixed 1 /\ ~ has s2 3 Fixed 1.
Proof.
  exists ex, (fst (fix_param 4 None ex)), (fst (unfix_param 4 None (fst (fix_param 4 None ex)))).
  split; [exact ex_reachable|]. split; [apply pair_is; vm_compute; reflexivity|]. split; [apply pair_is; vm_compute; reflexivity|]. split; [hs | nhs].
Qed.
Lemma ex_top : ex_reach ex /\ ready (st ex) 4 /\ par (st ex) 4 = None /\ free ex 4 [0;1;3].
Proof. split; [exact ex_reachable|]. split; [rd|]. split; [vm_compute; reflexivity | fr]. Qed.
Definition got {A} (r : res (A * @state Z)) (d : @state Z) : @state Z := match r with Ok (_, s) => s | Er _ => d end.
Lemma got_ok : forall {A} (r : res (A * @state Z)) l d, match r with Ok (l', _) => Some l' | Er _ => None end = Some l -> r = Ok (l, got r d).
Proof. intros A [[l' s]|e] l d E; [injection E as ->; reflexivity | discriminate]. Qed.
Lemma leaf_length_refuted : exists s x ks l s', ex_reach s /\ ready (st s) x /\ free s x ks /\
  get_optimizer_array ex_finv x s = Ok (l, s') /\ length l <> length ks.
Proof.
  exists ex, 3%nat, [0], [4;5], (got (get_optimizer_array ex_finv 3 ex) ex). split; [exact ex_reachable|]. split; [rd|]. split; [fr|].
  split; [apply got_ok; vm_compute; reflexivity | cbn; congruence].
Qed.
Lemma ex_copy : ex_reach ex /\ ready (st ex) 4 /\ ready (st ex) 3 /\ same_elem (st ex) 3 1 4 4 /\ value ex 3 1 = Some 5.
Proof. split; [exact ex_reachable|]. split; [rd|]. split; [rd|]. split; [exact ex_same34 | vm_compute; reflexivity]. Qed.

Notation ex_refill0 := (from_start [NewParam [1]; NewNode [0]%nat true; Unlink 1 0; NewParam [5]]).
Notation ex_refill := (from_start [NewParam [1]; NewNode [0]%nat true; Unlink 1 0; NewParam [5]; Link 1 2 None]).
Lemma apart_refuted : exists s s', ex_reach s /\ ~ apart s /\ par (st s) 0 = None /\ par (st s) 2 = Some 1%nat /\
  assign 2 (fun _ _ => 9) s = (s', None) /\ value s 0 0 <> Some 9 /\ value s' 0 0 = Some 9.
Proof.
  exists ex_refill, (fst (assign 2 (fun _ _ => 9) ex_refill)). split; [apply start_reach; vm_compute; reflexivity|].
  split; [|split; [vm_compute; reflexivity|]; split; [vm_compute; reflexivity|]; split; [apply pair_is; vm_compute; reflexivity|]; split; [vm_compute; congruence | vm_compute; reflexivity]].
  intros A. destruct (arr (mem ex_refill) 0) as [[[b o] n]|] eqn:E; [|vm_compute in E; discriminate]. vm_compute in E. injection E as <- <- <-.
  destruct (A 0%nat 2%nat 1%nat 0 0) as [Q|Q]; try (vm_compute; reflexivity); try congruence; vm_compute in Q; congruence.
Qed.
Lemma ex_link_values : ex_reach ex /\ legal_link ex 2 5 None /\ roomy ex 2 5 /\ (exists n, depth (st ex) 2 n /\ (n <= 1)%nat) /\ ready (st ex) 5 /\
  (forall pp, par (st ex) 5 = Some pp -> (exists n, depth (st ex) pp n /\ (n <= 2)%nat) /\ forall r, top (st ex) r pp -> inited (st ex) r = Some true).
Proof.
  split; [exact ex_reachable|]. split; [lk ex_reachable|]. split; [left; exists 0%nat; split; [vm_compute; auto | congruence]|].
  split; [exists 1%nat; split; auto; exists 4%nat, 0; split; [apply (walk_below _ [0]%nat)|]; vm_compute; reflexivity|].
  split; [rd|]. intros pp E. vm_compute in E. injection E as <-. split.
  - exists 0%nat. split; auto. exists 6%nat, 0. split; [constructor | vm_compute; reflexivity].
  - tops ex_reachable. vm_compute; reflexivity.
Qed.
Lemma ex_unlink_values : ex_reach ex /\ In 1%nat (kids (st ex) 2) /\ (exists n, depth (st ex) 2 n /\ (n <= 2)%nat) /\
  (forall r, top (st ex) r 2 -> in_init (st ex) r = false /\ inited (st ex) r = Some true).
Proof.
  split; [exact ex_reachable|]. split; [vm_compute; auto|].
  split; [exists 1%nat; split; auto; exists 4%nat, 0; split; [apply (walk_below _ [0]%nat)|]; vm_compute; reflexivity|]. tops ex_reachable. split; vm_compute; reflexivity.
Qed.
Notation ex_deep := (from_start [NewParam [1]; NewNode [0]%nat true; NewNode [1]%nat true; NewNode [2]%nat true; NewParam [5]]).
Lemma deep_link_refuted : exists s s', reach ex_init ex_f ex_finv careful ex_junk s /\ legal_link s 1 4 None /\ roomy s 1 4 /\ depth (st s) 1 2 /\ ready (st s) 4 /\
  link 1 4 None s = (s', None) /\ value s 0 0 = Some 1 /\ value s' 0 0 = Some (ex_junk 0 0) /\ value s 4 0 = Some 5 /\ value s' 4 0 = Some (ex_junk 0 0).
Proof.
  assert (R : reach ex_init ex_f ex_finv careful ex_junk ex_deep) by (apply start_careful; vm_compute; reflexivity).
  exists ex_deep, (fst (link 1 4 None ex_deep)). split; auto. split; [apply linkb_ok; [|vm_compute; reflexivity]|].
  { apply reach_Inv. apply (reach_mono ex_init ex_f ex_finv careful legal); auto. apply careful_legal. }
  split; [left; exists 0%nat; split; [vm_compute; auto | congruence]|]. split; [exists 3%nat, 0; split; [apply (walk_below _ [0;0]%nat)|]; vm_compute; reflexivity|].
  split; [rd|]. split; [apply pair_is; vm_compute; reflexivity|]. repeat split; vm_compute; reflexivity.
Qed.
Notation ex_deep2 := (from_start [NewParam [1]; NewParam [3]; NewNode [0;1]%nat true; NewNode [2]%nat true; NewNode [3]%nat true; NewNode [4]%nat true]).
Lemma deep_unlink_refuted : exists s s', reach ex_init ex_f ex_finv careful ex_junk s /\ In 0%nat (kids (st s) 2) /\ depth (st s) 2 3 /\
  unlink 2 0 s = (s', None) /\ value s 1 0 = Some 3 /\ value s' 1 0 = Some (ex_junk 0 0).
Proof.
  exists ex_deep2, (fst (unlink 2 0 ex_deep2)). split; [apply start_careful; vm_compute; reflexivity|]. split; [vm_compute; auto|].
  split; [exists 5%nat, 0; split; [apply (walk_below _ [0;0;0]%nat)|]; vm_compute; reflexivity|].
  split; [apply pair_is; vm_compute; reflexivity|]. split; vm_compute; reflexivity.
Qed.
Lemma refill_refuted : exists s s', ex_reach s /\ legal_link s 1 2 None /\ par (st s) 0 = None /\ link 1 2 None s = (s', None) /\
  value s 0 0 = Some 1 /\ value s' 0 0 = Some 5.
Proof.
  assert (R : ex_reach ex_refill0) by (apply start_reach; vm_compute; reflexivity).
  exists ex_refill0, (fst (link 1 2 None ex_refill0)). split; auto. split; [lk R|]. split; [vm_compute; reflexivity|].
  split; [apply pair_is; vm_compute; reflexivity|]. split; vm_compute; reflexivity.
Qed.
Lemma ex_round : ex_reach ex /\ ready (st ex) 4 /\ par (st ex) 4 = None /\ free ex 4 [0;1;3] /\ fresh (nt ex) 4 = false /\ apart ex /\
  (forall n v, ex_finv n (ex_f n v) = v) /\ (forall n v, ex_f n (ex_finv n v) = v) /\ has ex 4 (Tr 7) 0.
Proof.
  split; [exact ex_reachable|]. split; [rd|]. split; [vm_compute; reflexivity|]. split; [fr|]. split; [vm_compute; reflexivity|]. split; [exact ex_apart|].
  unfold ex_f, ex_finv. split; [intros; lia|]. split; [intros; lia | hs].
Qed.
Lemma ex_set : ex_reach ex /\ ready (st ex) 3 /\ free ex 3 [0] /\ ready (st ex) 4 /\ free ex 4 [0;1;3] /\ has ex 4 (Tr 7) 0 /\ has ex 4 Fixed 2 /\ apart ex.
Proof. split; [exact ex_reachable|]. split; [rd|]. split; [fr|]. split; [rd|]. split; [fr|]. split; [hs|]. split; [hs | exact ex_apart]. Qed.
Lemma any_length_refuted : exists s s1 s2, ex_reach s /\ free s 4 [0;1;3] /\
  set_optimizer_array ex_f 4 [10] s = (s1, None) /\ value s1 4 0 = Some 17 /\ value s1 4 1 = Some 10 /\ value s1 4 3 = Some 10 /\
  set_optimizer_array ex_f 4 [10;20;30;40] s = (s2, None) /\ value s2 4 0 = Some 17 /\ value s2 4 1 = Some 20 /\ value s2 4 3 = Some 30.
Proof.
  exists ex, (fst (set_optimizer_array ex_f 4 [10] ex)), (fst (set_optimizer_array ex_f 4 [10;20;30;40] ex)). split; [exact ex_reachable|]. split; [fr|].
  split; [apply pair_is; vm_compute; reflexivity|]. do 3 (split; [vm_compute; reflexivity|]). split; [apply pair_is; vm_compute; reflexivity|]. repeat split; vm_compute; reflexivity.
Qed.
Notation ex_read := (from_start (ex_calls ++ [ReadOptimizer 4])).
Lemma ex_read_reach : ex_reach ex_read.
Proof. apply start_reach. vm_compute. reflexivity. Qed.
Lemma ex_awake : ex_reach ex_read /\ fresh (nt ex_read) 4 = true /\ awake ex_read 0 /\ in_init (st ex_read) 0 = false /\ ready (st ex_read) 0 /\
  kind (st ex_read) 4 = KNode /\ part (st ex_read) 4 0 /\ ready (st ex_read) 4 /\ par (st ex_read) 4 = None /\ free ex_read 4 [0;1;3].
Proof.
  split; [exact ex_read_reach|]. split; [vm_compute; reflexivity|]. split; [apply awakeb_ok; [apply reach_Inv, ex_read_reach | vm_compute; reflexivity]|].
  split; [vm_compute; reflexivity|]. split; [rd|]. split; [vm_compute; reflexivity|]. split; [pt ex_read_reach|]. split; [rd|]. split; [vm_compute; reflexivity | fr].
Qed.
Notation ex_stale := (from_start (ex_calls ++ [ReadOptimizer 4; Updates 4 false; Assign 0 (fun _ _ => 50)])).
Lemma ex_stale_reach : ex_reach ex_stale.
Proof. apply start_reach. vm_compute. reflexivity. Qed.
Lemma stale_off_refuted : exists s l s', ex_reach s /\ get_optimizer_array ex_finv 4 s = Ok (l, s') /\
  free s 4 [0;1;3] /\ ~ get_spec ex_finv s 4 [0;1;3] l.
Proof.
  exists ex_stale, [-6;2;4], (got (get_optimizer_array ex_finv 4 ex_stale) ex_stale). split; [exact ex_stale_reach|]. split; [apply got_ok; vm_compute; reflexivity|].
  split; [fr|]. intros [_ Q]. destruct (Q 0%nat 0 eq_refl) as (v & E & Q1 & _). vm_compute in E. injection E as <-.
  assert (Hh : has ex_stale 4 (Tr 7) 0) by hs. apply Q1 in Hh. discriminate Hh.
Qed.
Lemma get_set_refuted : exists s p s1 s2, ex_reach s /\ get_optimizer_array ex_finv 4 s = Ok (p, s1) /\
  set_optimizer_array ex_f 4 p s1 = (s2, None) /\ ~ has s 4 Fixed 0 /\ value s 4 0 = Some 50 /\ value s2 4 0 = Some 1.
Proof.
  set (s1 := got (get_optimizer_array ex_finv 4 ex_stale) ex_stale).
  exists ex_stale, [-6;2;4], s1, (fst (set_optimizer_array ex_f 4 [-6;2;4] s1)).
  split; [exact ex_stale_reach|]. split; [apply got_ok; vm_compute; reflexivity|]. split; [apply pair_is; vm_compute; reflexivity|]. split; [nhs|]. split; vm_compute; reflexivity.
Qed.
Notation ex_stale2 := (from_start (ex_calls ++ [ReadOptimizer 4; Unconstrain 0 None [Tr 7]])).
Lemma ex_stale2_reach : ex_reach ex_stale2.
Proof. apply start_reach. vm_compute. reflexivity. Qed.
Lemma stale_unconstrain_refuted : exists s l s', ex_reach s /\ awake s 0 /\
  get_optimizer_array ex_finv 4 s = Ok (l, s') /\ free s 4 [0;1;3] /\ ~ get_spec ex_finv s 4 [0;1;3] l.
Proof.
  exists ex_stale2, [-6;2;4], (got (get_optimizer_array ex_finv 4 ex_stale2) ex_stale2). split; [exact ex_stale2_reach|].
  split; [apply awakeb_ok; [apply reach_Inv, ex_stale2_reach | vm_compute; reflexivity]|]. split; [apply got_ok; vm_compute; reflexivity|].
  split; [fr|]. intros [_ Q]. destruct (Q 0%nat 0 eq_refl) as (v & E & _ & Q2). vm_compute in E. injection E as <-.
  assert (Hh : forall n, ~ has ex_stale2 4 (Tr n) 0). { intros n. apply has_not. vm_compute. reflexivity. }
  apply Q2 in Hh. discriminate Hh.
Qed.
Lemma ex_gradient : ex_reach ex /\ ready (st ex) 4 /\ par (st ex) 4 = None /\ free ex 4 [0;1;3] /\ size (st ex) 4 = 5 /\ has ex 4 (Tr 7) 0 /\
  transform_gradients (fun n v d => d * Z.of_nat n) 4 ex [10;20;30;40;50] = Ok [70;20;40].
Proof. split; [exact ex_reachable|]. split; [rd|]. split; [vm_compute; reflexivity|]. split; [fr|]. split; [vm_compute; reflexivity|]. split; [hs | vm_compute; reflexivity]. Qed.
Lemma ex_indices : ex_reach ex /\ ready (st ex) 4 /\ par (st ex) 4 = None /\ below (st ex) 4 3 3 1 /\ free ex 4 [0;1;3] /\
  index_for_transformed ex 4 3 None = Ok [2].
Proof.
  split; [exact ex_reachable|]. split; [rd|]. split; [vm_compute; reflexivity|]. split; [apply (walk_below _ [1]%nat); vm_compute; reflexivity|]. split; [fr | vm_compute; reflexivity].
Qed.
Lemma ex_order : ex_reach ex /\ is_leaf (st ex) 0 = true /\ awake ex 0 /\
  trace (nt (fst (assign 0 (fun _ _ => 9) ex))) = [4;2]%nat ++ trace (nt ex).
Proof. split; [exact ex_reachable|]. split; [vm_compute; reflexivity|]. split; [apply awakeb_ok; [exact ex_Inv | vm_compute; reflexivity] | vm_compute; reflexivity]. Qed.
Lemma ex_trigger : ex_reach ex /\ in_init (st ex) 4 = false /\ (forall y, together (st ex) 4 y -> updates (nt ex) y = true) /\
  woken ex 4 2 /\ trace (nt (fst (c_trigger 4 true ex))) = [4;2]%nat ++ trace (nt ex).
Proof.
  split; [exact ex_reachable|]. split; [vm_compute; reflexivity|]. split; [apply together_on; [exact ex_Inv | vm_compute; reflexivity | vm_compute; lia]|].
  split; [|vm_compute; reflexivity]. constructor; [vm_compute; auto|]. intros Q. assert (Hh : ~ has ex 2 Fixed 0) by nhs. apply Hh, Q. vm_compute. split; congruence.
Qed.
Lemma hist_trans : forall ok s1 s2 s3, @hist Z ex_init ex_f ex_finv ok s1 s2 -> hist ex_init ex_f ex_finv ok s2 s3 -> hist ex_init ex_f ex_finv ok s1 s3.
Proof. intros ok s1 s2 s3 H. induction H; auto. intros H'. econstructor; eauto. Qed.
Lemma from_step : forall cs c, snd (exec ex_init ex_f ex_finv c (from_start cs)) = None ->
  exec ex_init ex_f ex_finv c (from_start cs) = (from_start (cs ++ [c]), None).
Proof.
  intros cs c E. rewrite (pair_is _ None E). f_equal. unfold from_start. generalize (init_state ex_junk). clear E.
  induction cs as [|a cs IH]; intros s; cbn [app play]; auto.
Qed.
Lemma exec_upd : forall x b s, exec ex_init ex_f ex_finv (Updates x b) s = update_model x b s.
Proof. reflexivity. Qed.
Notation ex_off1 := (from_start (ex_calls ++ [Updates 3 false])).
Notation ex_off2 := (from_start ((ex_calls ++ [Updates 3 false]) ++ [Assign 0 (fun _ _ => 9)])).
Notation ex_off3 := (from_start (((ex_calls ++ [Updates 3 false]) ++ [Assign 0 (fun _ _ => 9)]) ++ [Constrain 0 (Some [1]) 3])).
Lemma ex_off1_reach : ex_reach ex_off1.
Proof. apply start_reach. vm_compute. reflexivity. Qed.
Lemma ex_off2_reach : ex_reach ex_off2.
Proof. apply start_reach. vm_compute. reflexivity. Qed.
Lemma ex_off1_is : exec ex_init ex_f ex_finv (Updates 3 false) ex = (ex_off1, None).
Proof. apply from_step. vm_compute. reflexivity. Qed.
Lemma ex_off2_is : exec ex_init ex_f ex_finv (Assign 0 (fun _ _ => 9)) ex_off1 = (ex_off2, None).
Proof. apply from_step. vm_compute. reflexivity. Qed.
Lemma ex_off3_is : exec ex_init ex_f ex_finv (Constrain 0 (Some [1]) 3) ex_off2 = (ex_off3, None).
Proof. apply from_step. vm_compute. reflexivity. Qed.
Lemma ex_hist : hist ex_init ex_f ex_finv (fun s c => legal s c /\ quiet_call (st s) 3 c) ex_off1 ex_off3.
Proof.
  eapply hist_call; [|exact ex_off2_is|].
  { split; [apply legalb_ok; [apply reach_Inv, ex_off1_reach | vm_compute; reflexivity]|]. cbn [quiet_call]. exists 4%nat. split; pt ex_off1_reach. }
  eapply hist_call; [|exact ex_off3_is | constructor].
  split; [apply legalb_ok; [apply reach_Inv, ex_off2_reach | vm_compute; reflexivity]|]. cbn [quiet_call]. exists 4%nat. split; pt ex_off2_reach.
Qed.
Lemma ex_quiet : ex_reach ex /\ exists s1 s2, update_model 3 false ex = (s1, None) /\
  hist ex_init ex_f ex_finv (fun s c => legal s c /\ quiet_call (st s) 3 c) s1 s2 /\ value s2 4 0 = Some 9 /\ has s2 4 (Tr 3) 1.
Proof.
  split; [exact ex_reachable|]. exists ex_off1, ex_off3. split; [rewrite <- exec_upd; exact ex_off1_is|]. split; [exact ex_hist|]. split; [vm_compute; reflexivity | hs].
Qed.
Notation ex_quieted := (from_start (ex_calls ++ [Updates 4 false])).
Lemma ex_next : (4 < next (st ex))%nat.
Proof. apply Nat.ltb_lt. vm_compute. reflexivity. Qed.
Lemma ex_quieted_is : exec ex_init ex_f ex_finv (Updates 4 false) ex = (ex_quieted, None).
Proof. apply from_step. vm_compute. reflexivity. Qed.
Lemma pair_fst : forall {A B} (a c : A) (b d : B), (a, b) = (c, d) -> a = c.
Proof. intros A B a c b d E. injection E; auto. Qed.
Lemma ex_quieted_silent : silent ex_quieted 4.
Proof.
  destruct (off_final ex_init ex_f ex_finv ex_junk ex 4 ex_reachable ex_next) as (s1 & E & _ & _ & _ & _ & _ & S1 & _).
  pose proof ex_quieted_is as E'. rewrite exec_upd, E in E'. rewrite <- (pair_fst _ _ _ _ E'). exact S1.
Qed.
Lemma ex_off : ex_reach ex_quieted /\ in_init (st ex_quieted) 4 = false /\ silent ex_quieted 4.
Proof. split; [apply start_reach; vm_compute; reflexivity|]. split; [vm_compute; reflexivity | exact ex_quieted_silent]. Qed.
Notation ex_mixed := (from_start (ex_calls ++ [Updates 4 false; Link 4 6 None])).
Lemma ex_mixed_reach : ex_reach ex_mixed.
Proof. apply start_reach. vm_compute. reflexivity. Qed.
Lemma silent_link_refuted : exists s s', ex_reach s /\ together (st s) 4 5 /\ updates (nt s) 4 = false /\
  assign 5 (fun _ _ => 9) s = (s', None) /\ trace (nt s') = 6%nat :: trace (nt s).
Proof.
  exists ex_mixed, (fst (assign 5 (fun _ _ => 9) ex_mixed)). split; [exact ex_mixed_reach|]. split; [exists 4%nat; split; pt ex_mixed_reach|].
  split; [vm_compute; reflexivity|]. split; [apply pair_is; vm_compute; reflexivity | vm_compute; reflexivity].
Qed.
Lemma switch_refuted : exists s s', ex_reach s /\ together (st s) 6 4 /\ updates (nt s) 4 = false /\
  randomize ex_f 6 (fun _ => 1) s = (s', None) /\ updates (nt s') 4 = true.
Proof.
  exists ex_mixed, (fst (randomize ex_f 6 (fun _ => 1) ex_mixed)). split; [exact ex_mixed_reach|]. split; [exists 4%nat; split; pt ex_mixed_reach|].
  split; [vm_compute; reflexivity|]. split; [apply pair_is; vm_compute; reflexivity | vm_compute; reflexivity].
Qed.
Lemma triple_is : forall {A B C} (p : A * B * C) b c, snd (fst p) = b -> snd p = c -> exists a, p = (a, b, c).
Proof. intros A B C [[a b'] c'] b c <- <-. exists a. reflexivity. Qed.
Lemma ex_traverse : ex_reach ex /\ exists n', traverse (fuel (st ex)) (st ex) (fun _ => false) 4 (nt ex, []) = (n', [3;1;0;2;4]%nat, None).
Proof. split; [exact ex_reachable|]. apply triple_is; vm_compute; reflexivity. Qed.
Lemma failed_link_refuted : exists s s1 s2, ex_reach s /\ link 4 0 None s = (s1, Some HierarchyError) /\
  update_model 4 false s1 = (s2, None) /\ together (st s2) 4 0 /\ updates (nt s2) 4 = false /\ updates (nt s2) 0 = true.
Proof.
  exists ex, (fst (link 4 0 None ex)), (fst (update_model 4 false (fst (link 4 0 None ex)))). split; [exact ex_reachable|].
  split; [apply pair_is; vm_compute; reflexivity|]. split; [apply pair_is; vm_compute; reflexivity|].
  split; [exists 4%nat; split; [exists 0, 0%nat; constructor | exists 0, 2%nat; apply (walk_below _ [0;0]%nat); vm_compute; reflexivity]|]. split; vm_compute; reflexivity.
Qed.
Lemma ex_random : ex_reach ex /\ ready (st ex) 4 /\ free ex 4 [0;1;3] /\ has ex 4 (Tr 7) 0 /\ has ex 4 Fixed 2 /\ apart ex /\ updates (nt ex) 4 = true /\ in_init (st ex) 4 = false.
Proof. split; [exact ex_reachable|]. split; [rd|]. split; [fr|]. split; [hs|]. split; [hs|]. split; [exact ex_apart|]. split; vm_compute; reflexivity. Qed.

(** Writing to the model; constraining one of two negative elements of a Param. *)
Lemma ex_write : ex_reach ex /\ (4 < next (st ex))%nat /\ ready (st ex) 4 /\
  map (value (fst (assign 4 (fun k w => 10 * k + w) ex)) 4) [0;1;2;3;4] = map Some [1;12;23;34;45] /\ value (fst (assign 4 (fun k w => 10 * k + w) ex)) 3 1 = Some 45.
Proof. split; [exact ex_reachable|]. split; [vm_compute; lia|]. split; [apply ex_copy|]. split; vm_compute; reflexivity. Qed.
Notation ex_neg := (from_start [NewParam [-1;2]; NewParam [-4;-5]; NewNode [0;1]%nat true]).
Lemma ex_constrain : ex_reach ex_neg /\ (1 < next (st ex_neg))%nat /\ ready (st ex_neg) 1 /\ legal_sel (st ex_neg) 1 (Some [1]) /\
  map (value ex_neg 2) [0;1;2;3] = map Some [-1;2;-4;-5] /\ map (value (fst (constrain ex_init 1 (Some [1]) 7 ex_neg)) 2) [0;1;2;3] = map Some [-1;2;-4;5].
Proof.
  split; [apply start_reach; vm_compute; reflexivity|]. split; [vm_compute; lia|]. split; [rd|]. split; [|split; vm_compute; reflexivity].
  split; [vm_compute; reflexivity|]. split; [vm_compute; discriminate|]. split; [constructor; [intros []|constructor]|]. intros j [<-|[]]. vm_compute. split; [discriminate | reflexivity].
Qed.
