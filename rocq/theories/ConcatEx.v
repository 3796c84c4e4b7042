(** Concrete concatenations used as examples beside the properties, and as witnesses. *)
From Coq Require Import List ZArith Bool Lia Arith.
From Verif Require Import NpModel NpProofs IndexOpsModel IndexOpsSpec PzModel PzSpec PzTree PzStruct PzLink PzInv PzNotify PzPres PzTraverse PzCmd PzInit PzCons PzVal PzOpt PzRandom PzHist PzKeep PzOrder PzGrad PzCheck PzFinal PzEx ConcatModel ConcatSpec ConcatProofs ConcatOps ConcatCalls ConcatCons ConcatFinal.
Import ListNotations.
Open Scope Z_scope.

Notation ex_creach := (creach ex_init ex_f ex_finv ex_junk).
(** The parameters 0 (values 1, 2) and 3 (values 4, 5) of [ex]; 2 and 4 are above them. *)
Notation ex_c := (mkC [0;3]%nat [2;4]%nat).
Lemma ex_creachable : ex_creach ex.
Proof. apply reach_creach, ex_careful. Qed.

Fixpoint frontb (t : struct) (sel : list Z) (o : Z) (ps : list oid) : bool :=
  match ps with
  | [] => true
  | p :: r => forallb (fun j => negb (zmem (o + j) sel) || forallb (fun i => zmem (o + i) sel) (arange j)) (arange (size t p)) && frontb t sel (o + size t p) r
  end.
Lemma frontb_ok : forall t sel ps, frontb t sel 0 ps = true -> from_front t ps sel.
Proof.
  intros t sel ps H k p j i Hk (l & r & E & Hj & ->) Hi.
  assert (G : forall l o ps, ps = l ++ p :: r -> frontb t sel o ps = true -> In (o + sum_sizes t l + j) sel -> In (o + sum_sizes t l + i) sel).
  { clear ps H Hk E l. induction l as [|q l IH]; intros o ps -> H Hin; cbn [app frontb] in H; apply andb_prop in H as [H1 H2].
    - change (sum_sizes t []) with 0 in *. rewrite Z.add_0_r in *. rewrite forallb_forall in H1. specialize (H1 j (proj2 (arange_In _ _) Hj)).
      rewrite (proj2 (zmem_In _ _) Hin) in H1. cbn in H1. rewrite forallb_forall in H1. apply zmem_In, H1, arange_In. auto.
    - rewrite sum_cons in *. rewrite Z.add_assoc in *. eapply IH; eauto. }
  replace (sum_sizes t l + j - j + i) with (0 + sum_sizes t l + i) by lia. eapply G; eauto.
Qed.
Lemma ex_params : forall (P : oid -> Prop), P 0%nat -> P 3%nat -> forall p, In p (cparams ex_c) -> P p.
Proof. intros P A B p [<-|[<-|[]]]; auto. Qed.
Lemma ex_conc_of : conc_of (st ex) ex_c.
Proof. split; [repeat constructor; cbn; intuition congruence|]. apply ex_params; split; vm_compute; auto; lia. Qed.
Lemma ex_left : forall q, In q (cleft ex_c) -> (q < next (st ex))%nat.
Proof. intros q [<-|[<-|[]]]; vm_compute; lia. Qed.
Lemma ex_on : on ex (cparams ex_c).
Proof.
  intros p y Hp. revert y. apply together_on; [exact ex_Inv | vm_compute; reflexivity |]. revert p Hp. apply ex_params; vm_compute; lia.
Qed.
Lemma finished_ok : forall (s : @state Z) ps, Inv s -> forallb (fun q => negb (in_init (st s) q)) (seq 0 (next (st s))) = true -> finished (st s) ps.
Proof.
  intros s ps H B q Ho. rewrite forallb_forall in B. apply negb_true_iff, B, in_seq. split; [apply Nat.le_0_l|]. apply (over_lt s ps q H Ho).
Qed.
Lemma ex_finished : finished (st ex) (cparams ex_c).
Proof. apply finished_ok; [exact ex_Inv | vm_compute; reflexivity]. Qed.
Lemma ex_sel : forall sel, forallb (fun k => (0 <=? k) && (k <? 4)) sel = true -> sel_ok ex ex_c sel.
Proof.
  intros sel H k Hk. rewrite forallb_forall in H. apply H in Hk. apply andb_prop in Hk as [A B]. apply Z.leb_le in A. apply Z.ltb_lt in B.
  assert (E : conc_size ex ex_c = 4) by (vm_compute; reflexivity). rewrite E. auto.
Qed.
Definition after {A B C : Type} (r : A * B * C) : B := snd (fst r).
Lemma triple_is : forall {A B C} (r : A * B * C) a c, fst (fst r) = a -> snd r = c -> r = (a, after r, c).
Proof. intros A B C [[a b] c] a' c' <- <-. reflexivity. Qed.
Lemma pos_at : forall t l p r j, 0 <= j < size t p -> position_of t (l ++ p :: r) (sum_sizes t l + j) p j.
Proof. intros t l p r j H. exists l, r. auto. Qed.
Lemma pos0 : forall j, 0 <= j < 2 -> position_of (st ex) (cparams ex_c) j 0 j.
Proof. intros j H. apply (pos_at (st ex) [] 0%nat [3]%nat j). exact H. Qed.
Lemma pos3 : forall j, 0 <= j < 2 -> position_of (st ex) (cparams ex_c) (2 + j) 3 j.
Proof. intros j H. apply (pos_at (st ex) [0]%nat 3%nat [] j). exact H. Qed.

(** C55 *)
Lemma ex_set_partial : ex_creach ex /\ conc_of (st ex) ex_c /\ (forall q, In q (cleft ex_c) -> (q < next (st ex))%nat) /\
  sel_ok ex ex_c [3;0;2] /\ fits [3;0;2] [13;10;12] /\ from_front (st ex) (cparams ex_c) [3;0;2] /\
  map (fun k => value (after (conc_set [3;0;2] [13;10;12] ex_c ex)) 4 k) [0;1;2;3;4] = [Some 10; Some 2; Some 3; Some 12; Some 13].
Proof.
  split; [exact ex_creachable|]. split; [exact ex_conc_of|]. split; [exact ex_left|]. split; [apply ex_sel; reflexivity|]. split; [right; reflexivity|].
  split; [apply frontb_ok; vm_compute; reflexivity | vm_compute; reflexivity].
Qed.
Lemma set_refuted : exists s c sel val k p i v c' s', ex_creach s /\ conc_of (st s) c /\ sel_ok s c sel /\ fits sel val /\ In k sel /\
  position_of (st s) (cparams c) k p i /\ conc_set sel val c s = (c', s', None) /\ (forall v', given sel val k v' <-> v' = v) /\ value s' p i <> Some v.
Proof.
  exists ex, ex_c, [1], [9], 1, 0%nat, 1, 9, (used ex_c), (after (conc_set [1] [9] ex_c ex)). split; [exact ex_creachable|]. split; [exact ex_conc_of|].
  split; [apply ex_sel; reflexivity|]. split; [left; reflexivity|]. split; [left; auto|]. split; [apply pos0; lia|]. split; [apply triple_is; vm_compute; reflexivity|].
  split; [|vm_compute; discriminate]. intros v'. split.
  - intros (l & r & _ & _ & [Q|[_ Q]]); [congruence|]. destruct l as [|? [|? l]]; cbn in Q; congruence.
  - intros ->. exists [], []. repeat split; auto.
Qed.

(** The effect of an assignment to the second element of each parameter. *)
Lemma ex_set_effect : sel_ok ex ex_c [1;3] /\ fits [1;3] [8;9] /\ counted [1;3] 2 3 0 /\ given [1;3] [8;9] 3 9 /\
  map (fun k => value (after (conc_set [1;3] [8;9] ex_c ex)) 4 k) [0;1;2;3;4] = [Some 1; Some 1; Some 3; Some 4; Some 4].
Proof.
  split; [apply ex_sel; reflexivity|]. split; [right; reflexivity|]. split; [exists []; split; [constructor|]; split; auto; intros x; split; [intros []|]; intros [[<-|[<-|[]]] Hx]; lia|].
  split; [exists [1], []; repeat split; auto; right; split; reflexivity | vm_compute; reflexivity].
Qed.

(** C56 *)
Lemma ex_conc_is : concatenation (st ex) [0;3]%nat = ex_c.
Proof. vm_compute. reflexivity. Qed.
Lemma ex_over2 : over (st ex) (cparams ex_c) 2.
Proof. exists 0%nat. split; [left; auto|]. split; [pt ex_reachable | discriminate]. Qed.
Lemma ex_over4 : over (st ex) (cparams ex_c) 4.
Proof. exists 3%nat. split; [right; left; auto|]. split; [pt ex_reachable | discriminate]. Qed.
Lemma ex_set_updates : ex_creach ex /\ concatenation (st ex) [0;3]%nat = ex_c /\ sel_ok ex ex_c [0] /\ fits [0] [7] /\ on ex (cparams ex_c) /\ finished (st ex) (cparams ex_c) /\
  over (st ex) (cparams ex_c) 2 /\ over (st ex) (cparams ex_c) 4 /\ trace (nt (after (conc_set [0] [7] ex_c ex))) = [4;2;2]%nat ++ trace (nt ex).
Proof.
  split; [exact ex_creachable|]. split; [exact ex_conc_is|]. split; [apply ex_sel; reflexivity|]. split; [left; reflexivity|]. split; [exact ex_on|]. split; [exact ex_finished|].
  split; [exact ex_over2|]. split; [exact ex_over4|]. vm_compute. reflexivity.
Qed.
Lemma ex_constrain_updates : trace (nt (after (conc_constrain ex_init 5 (used ex_c) ex))) = [4;4;2]%nat ++ trace (nt ex) /\
  trace (nt (after (conc_fix ex_c ex))) = [4;4;2]%nat ++ trace (nt ex).
Proof. split; vm_compute; reflexivity. Qed.
(** The second assignment through the same concatenation. *)
Notation ex_s1 := (after (conc_set [0] [7] ex_c ex)).
Lemma set_twice_refuted : exists s xs sel val c1 s1 c2 s2, ex_creach s /\ (forall x, In x xs -> (x < next (st s))%nat) /\ sel_ok s (concatenation (st s) xs) sel /\ fits sel val /\
  on s (cparams (concatenation (st s) xs)) /\ finished (st s) (cparams (concatenation (st s) xs)) /\
  conc_set sel val (concatenation (st s) xs) s = (c1, s1, None) /\ conc_set sel [8] c1 s1 = (c2, s2, None) /\
  value s1 0 0 = Some 7 /\ value s2 0 0 = Some 8 /\ over (st s) (cparams c1) 2 /\ trace (nt s2) = trace (nt s1).
Proof.
  exists ex, [0;3]%nat, [0], [7], (used ex_c), ex_s1, (used ex_c), (after (conc_set [0] [8] (used ex_c) ex_s1)). rewrite ex_conc_is.
  split; [exact ex_creachable|]. split; [intros x [<-|[<-|[]]]; vm_compute; lia|]. split; [apply ex_sel; reflexivity|]. split; [left; reflexivity|]. split; [exact ex_on|]. split; [exact ex_finished|].
  split; [apply triple_is; vm_compute; reflexivity|]. split; [apply triple_is; vm_compute; reflexivity|]. split; [vm_compute; reflexivity|]. split; [vm_compute; reflexivity|].
  split; [exact ex_over2|]. vm_compute. reflexivity.
Qed.

(** C57 *)
Notation nz := (fun v : Z => negb (v =? 0)).
Lemma val_is : forall (s : @state Z) p i v, value s p i = Some v -> nz v = true -> exists v', value s p i = Some v' /\ nz v' = true.
Proof. eauto. Qed.
Lemma ex_get : ex_creach ex /\ conc_of (st ex) ex_c /\ sel_ok ex ex_c [3;0] /\ no_zeros nz ex (cparams ex_c) [3;0] /\
  conc_get nz ex ex_c [3;0] = Ok [[1];[5]] /\ conc_values ex ex_c = [1;2;4;5].
Proof.
  split; [exact ex_creachable|]. split; [exact ex_conc_of|]. split; [apply ex_sel; reflexivity|]. split; [|split; vm_compute; reflexivity].
  intros k p j Hk P. exists k, j.
  assert (E : exists v, value ex p j = Some v /\ nz v = true); [|destruct E as (v & A & B); exists v; auto].
  destruct Hk as [<-|[<-|[]]].
  - assert (p = 3%nat /\ j = 1) as [-> ->] by (eapply position_fun; [apply (inv_st _ ex_Inv) | exact P | apply (pos3 1); lia]). exists 5. split; vm_compute; reflexivity.
  - assert (p = 0%nat /\ j = 0) as [-> ->] by (eapply position_fun; [apply (inv_st _ ex_Inv) | exact P | apply (pos0 0); lia]). exists 1. split; vm_compute; reflexivity.
Qed.
Lemma get_order_refuted : exists s c sel ls l, ex_creach s /\ conc_of (st s) c /\ sel_ok s c sel /\ NoDup sel /\ no_zeros nz s (cparams c) sel /\
  conc_get nz s c sel = Ok ls /\ shown ls = Ok l /\ ~ values_at s (cparams c) sel l.
Proof.
  exists ex, ex_c, [3;0], [[1];[5]], [1;5]. destruct ex_get as (A & B & C & D & E & _). split; auto. split; auto. split; auto.
  split; [repeat constructor; cbn; intuition discriminate|]. split; auto. split; auto. split; [reflexivity|].
  intros Q. inversion Q as [|k v ks l (p & j & P & Hv) _]; subst.
  assert (p = 3%nat /\ j = 1) as [-> ->] by (eapply position_fun; [apply (inv_st _ ex_Inv) | exact P | apply (pos3 1); lia]). vm_compute in Hv. discriminate.
Qed.
(** With zeros among the selected values. *)
Notation ex_z := (after (conc_set [0] [0] ex_c ex)).
Lemma ex_z_reach : ex_creach ex_z.
Proof. eapply (creach_conc _ _ _ _ ex ex_c (CSet [0] [0])); [exact ex_creachable | exact ex_conc_of | exact ex_left | apply triple_is; reflexivity]. Qed.
Lemma get_zeros_refuted : exists s c, ex_creach s /\ conc_of (st s) c /\ sel_ok s c [0;2] /\ value s 0 0 = Some 0 /\ value s 3 0 = Some 4 /\
  position_of (st s) (cparams c) 0 0 0 /\ position_of (st s) (cparams c) 2 3 0 /\
  (exists ls, conc_get nz s c [0;2] = Ok ls /\ shown ls = Ok [4]) /\ (exists ls, conc_get nz s c [0] = Ok ls /\ shown ls = Er ValueError).
Proof.
  assert (E : st ex_z = st ex) by (vm_compute; reflexivity).
  exists ex_z, ex_c. split; [exact ex_z_reach|]. rewrite E. split; [exact ex_conc_of|].
  split; [intros k [<-|[<-|[]]]; vm_compute; intuition discriminate|]. split; [vm_compute; reflexivity|]. split; [vm_compute; reflexivity|].
  split; [apply pos0; lia|]. split; [apply (pos3 0); lia|]. split; [exists [[4]] | exists []]; split; vm_compute; reflexivity.
Qed.

(** C68 *)
Lemma ex_same04 : same_elem (st ex) 4 0 0 0.
Proof. apply same_elem_sym. apply (walk_same (st ex) [0;0]%nat 4 0 0 2 0); [vm_compute; reflexivity | split; vm_compute; congruence | split; vm_compute; congruence]. Qed.
Lemma ex_cons_calls : ex_creach ex /\ conc_of (st ex) ex_c /\ (forall q, In q (cleft ex_c) -> (q < next (st ex))%nat) /\
  has ex 4 (Tr 7) 0 /\ ~ has ex 4 Fixed 0 /\ has ex 4 Fixed 2 /\ has ex 4 Fixed 4 /\ covers (st ex) (cparams ex_c) 4 0 /\ covers (st ex) (cparams ex_c) 4 4 /\
  has (after (conc_constrain ex_init 5 ex_c ex)) 4 (Tr 5) 0 /\ ~ has (after (conc_constrain ex_init 5 ex_c ex)) 4 Fixed 4 /\ has (after (conc_constrain ex_init 5 ex_c ex)) 4 Fixed 2 /\
  has (after (conc_fix ex_c ex)) 4 Fixed 0 /\ ~ has (after (conc_unfix ex_c ex)) 4 Fixed 4 /\ has (after (conc_unfix ex_c ex)) 4 Fixed 2 /\
  ~ has (after (conc_unconstrain [Tr 7] ex_c ex)) 4 (Tr 7) 0 /\ has (after (conc_unconstrain [Tr 7] ex_c ex)) 4 Fixed 4.
Proof.
  split; [exact ex_creachable|]. split; [exact ex_conc_of|]. split; [exact ex_left|]. split; [hs|]. split; [nhs|]. split; [hs|]. split; [hs|].
  split; [exists 0%nat, 0; split; [left; auto|]; exact ex_same04|].
  split; [exists 3%nat, 1; split; [right; left; auto|]; apply same_elem_sym, ex_same34|].
  split; [hs|]. split; [nhs|]. split; [hs|]. split; [hs|]. split; [nhs|]. split; [hs|]. split; [nhs|]. hs.
Qed.

(** C69 *)
Lemma ex_contents : ex_creach ex /\ concatenation (st ex) [3;4;0]%nat = mkC [3;0;1]%nat [2;4]%nat /\ (forall x, In x [3;4;0]%nat -> (x < next (st ex))%nat).
Proof. split; [exact ex_creachable|]. split; [vm_compute; reflexivity|]. intros x [<-|[<-|[<-|[]]]]; vm_compute; lia. Qed.
