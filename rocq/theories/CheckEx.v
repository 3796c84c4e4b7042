(** A model to check, and consequences of the main lemmas about checkgrad. *)
From Coq Require Import List ZArith Bool Lia Arith.
From Verif Require Import NpModel NpProofs IndexOpsModel IndexOpsSpec PzModel PzSpec PzTree PzStruct PzLink PzInv PzPres PzTraverse PzCmd PzVal PzOpt PzRandom PzHist PzKeep PzOrder PzGrad PzCheck PzFinal PzEx CheckModel CheckSpec CheckProofs.
Import ListNotations.
Open Scope Z_scope.

Section Consequences.
Context {V W : Type}.
Variables tinit tf tfinv : nat -> V -> V.
Variable tgrad : nat -> V -> V -> V.
Variable fobj : list V -> W.
Variable fgrad : list V -> list V.
Variable own : bool.
Variable junk : nat -> Z -> V.
Notation reachable := (reach tinit tf tfinv legal junk).
Hypothesis Lf : forall l, length (fgrad l) = length l.
Lemma ck_vals : forall g x ks l, reachable (gs g) -> checkable tf tfinv g x ks -> values_of (gs g) x l -> l = vals (gs g) x.
Proof. intros g x ks l R [Hx _ Hi _ _ _ _ _ _] Vl. apply values_vals; auto; [apply (reach_legal tinit tf tfinv junk _ R) | right; auto]. Qed.
Lemma ck_values : forall g x ks, reachable (gs g) -> checkable tf tfinv g x ks -> values_of (gs g) x (vals (gs g) x).
Proof. intros g x ks R [Hx _ Hi _ _ _ _ _ _]. apply vals_ok; auto; [apply (reach_legal tinit tf tfinv junk _ R) | right; auto]. Qed.
Lemma quick_values : forall g x ks target up down decide, reachable (gs g) -> checkable tf tfinv g x ks -> legal_target (st (gs g)) x target ->
  exists g' b, check_quick tf tfinv tgrad fobj fgrad own x target up down decide g = (g', inl b) /\
    st (gs g') = st (gs g) /\ ios (gs g') = ios (gs g) /\ values_kept (gs g) (gs g') x.
Proof.
  intros g x ks target up down decide R C L. destruct (quick_final tinit tf tfinv tgrad fobj fgrad own junk Lf g x ks target up down decide R C L) as (g' & b & E & A & B & K & _).
  exists g', b. auto.
Qed.
Lemma verbose_values : forall g x ks target up down decide, reachable (gs g) -> checkable tf tfinv g x ks -> legal_target (st (gs g)) x target ->
  exists g' b, check_verbose tf tfinv tgrad fobj fgrad own x target up down decide g = (g', inl b) /\
    st (gs g') = st (gs g) /\ ios (gs g') = ios (gs g) /\ values_kept (gs g) (gs g') x.
Proof.
  intros g x ks target up down decide R C L. destruct (verbose_final tinit tf tfinv tgrad fobj fgrad own junk Lf g x ks target up down decide R C L) as (g' & b & E & A & B & K & _).
  exists g', b. auto.
Qed.
Lemma verbose_gradient : forall g x ks target up down decide, reachable (gs g) -> checkable tf tfinv g x ks -> legal_target (st (gs g)) x target ->
  forall l, all_on (gs g) x -> values_of (gs g) x l -> grad g = fgrad l ->
  exists g' b, check_verbose tf tfinv tgrad fobj fgrad own x target up down decide g = (g', inl b) /\ grad g' = grad g.
Proof.
  intros g x ks target up down decide R C L l On Vl Gr. rewrite (ck_vals g x ks l R C Vl) in Gr. destruct (verbose_final tinit tf tfinv tgrad fobj fgrad own junk Lf g x ks target up down decide R C L) as (g' & b & E & A & B & K & G & _).
  exists g', b. auto.
Qed.
Lemma quick_gradient : forall g x ks target up down decide, reachable (gs g) -> checkable tf tfinv g x ks -> legal_target (st (gs g)) x target ->
  forall l, all_on (gs g) x -> values_of (gs g) x l -> grad g = fgrad l -> own = false \/ (forall n k, ~ has (gs g) x (Tr n) k) ->
  exists g' b, check_quick tf tfinv tgrad fobj fgrad own x target up down decide g = (g', inl b) /\ grad g' = grad g.
Proof.
  intros g x ks target up down decide R C L l On Vl Gr No. rewrite (ck_vals g x ks l R C Vl) in Gr. destruct (quick_final tinit tf tfinv tgrad fobj fgrad own junk Lf g x ks target up down decide R C L) as (g' & b & E & A & B & K & G & _).
  exists g', b. auto.
Qed.
Lemma quick_verdict : forall g x ks target up down decide, reachable (gs g) -> checkable tf tfinv g x ks -> legal_target (st (gs g)) x target -> all_on (gs g) x ->
  exists g' b p idx, check_quick tf tfinv tgrad fobj fgrad own x target up down decide g = (g', inl b) /\
    get_spec tfinv (gs g) x ks p /\ tested (gs g) x ks target idx /\
    ((idx = [] /\ target <> None /\ b = true) \/
     exists l d r, values_of (gs g) x l /\ grad_spec tgrad (gs g) x ks (fgrad l) d /\ picked idx d r /\
       compared tf fobj (gs g) x ks p up down idx (fun f1 f2 => decide f1 f2 r) b).
Proof.
  intros g x ks target up down decide R C L On. destruct (quick_final tinit tf tfinv tgrad fobj fgrad own junk Lf g x ks target up down decide R C L) as (g' & b & E & _ & _ & _ & _ & p & idx & G & T & D).
  exists g', b, p, idx. split; auto. split; auto. split; auto. destruct D as [D|D]; auto. right.
  destruct (D On) as (d & D1 & D2). exists (vals (gs g) x), d, (pick idx d). split; [apply (ck_values g x ks R C)|]. split; auto. split; auto.
  apply pick_ok. rewrite (proj1 D1). apply (tested_in _ _ _ _ _ T).
Qed.
Lemma verbose_verdict : forall g x ks target up down decide, reachable (gs g) -> checkable tf tfinv g x ks -> legal_target (st (gs g)) x target -> all_on (gs g) x ->
  exists g' p l d idx bs, check_verbose tf tfinv tgrad fobj fgrad own x target up down decide g = (g', inl (forallb (fun c => c) bs)) /\
    get_spec tfinv (gs g) x ks p /\ tested (gs g) x ks (Some match target with None => (x, None) | Some t => t end) idx /\
    values_of (gs g) x l /\ grad_spec tgrad (gs g) x ks (fgrad l) d /\
    Forall2 (fun k c => compared tf fobj (gs g) x ks p up down [k] (fun f1 f2 => decide f1 f2 (nth_error d (Z.to_nat k))) c) idx bs.
Proof.
  intros g x ks target up down decide R C L On. destruct (verbose_final tinit tf tfinv tgrad fobj fgrad own junk Lf g x ks target up down decide R C L) as (g' & b & E & _ & _ & _ & _ & p & idx & bs & G & T & -> & D).
  destruct (D On) as (d & D1 & D2). exists g', p, (vals (gs g) x), d, idx, bs. pose proof (ck_values g x ks R C). auto 10.
Qed.
End Consequences.

(** The hierarchy of PzEx.v with a transformation that changes the sign. The objective is the sum of the
    squares, so its difference at both sides is exact; [cx_wrong] is a gradient with a mistake. *)
Definition cx_tinit (n : nat) (v : Z) : Z := - Z.abs v.
Definition cx_t (n : nat) (v : Z) : Z := - v.
Definition cx_tgrad (n : nat) (v d : Z) : Z := - d.
Notation cx_reach := (reach cx_tinit cx_t cx_t legal ex_junk).
Definition cx_from (cs : list (@call Z)) : @state Z := play cx_tinit cx_t cx_t cs (init_state ex_junk).
Definition cx_obj (l : list Z) : Z := fold_right (fun v a => v * v + a) 0 l.
Definition cx_grad (l : list Z) : list Z := map (fun v => 2 * v) l.
Definition cx_wrong (l : list Z) : list Z := match l with a :: b :: r => 2 * a :: 2 * b + 1 :: map (fun v => 2 * v) r | _ => cx_grad l end.
Definition cx_up (i : nat) (v : Z) : Z := v + 1.
Definition cx_down (i : nat) (v : Z) : Z := v - 1.
Definition cx_decide (f1 f2 : Z) (d : list Z) : bool := f1 - f2 =? 2 * fold_right Z.add 0 d.
Definition cx_decide1 (f1 f2 : Z) (d : option Z) : bool := match d with Some e => f1 - f2 =? 2 * e | None => false end.
Definition cx_sync (s : @state Z) : @gst Z := mkG s (cx_grad (vals s 4)).
Notation cx := (cx_sync (cx_from ex_calls)).
Notation cx_off := (cx_sync (cx_from (ex_calls ++ [Updates 4 false]))).
Notation cx_stale := (cx_sync (cx_from (ex_calls ++ [ReadOptimizer 4; Updates 4 false; Assign 0 (fun _ _ => 50)]))).

Lemma cx_synced : forall s, grad (cx_sync s) = cx_grad (vals (gs (cx_sync s)) 4).
Proof. reflexivity. Qed.
Lemma values_is : forall (s : @state Z) x l, size (st s) x = Z.of_nat (length l) -> map (value s x) (arange (Z.of_nat (length l))) = map Some l -> values_of s x l.
Proof.
  intros s x l Hs Hm. split; auto. intros k Hk. rewrite Hs in Hk.
  assert (E : nth_error (map (value s x) (arange (Z.of_nat (length l)))) (Z.to_nat k) = Some (value s x k)).
  { apply map_nth_error. rewrite arange_nth_error. destruct (Nat.ltb_spec (Z.to_nat k) (Z.to_nat (Z.of_nat (length l)))); [|lia]. rewrite Z2Nat.id by lia. auto. }
  rewrite Hm, nth_error_map in E. destruct (nth_error l (Z.to_nat k)); [|discriminate]. injection E as ->. auto.
Qed.
Lemma cx_start : forall cs, played cx_tinit cx_t cx_t legalb cs (init_state ex_junk) = true -> cx_reach (cx_from cs).
Proof. intros cs H. apply play_legal; auto. constructor. Qed.
Lemma cx_sync_ok : forall cs, played cx_tinit cx_t cx_t legalb cs (init_state ex_junk) = true ->
  let s := cx_from cs in
  (4 <? next (st s))%nat = true -> kind (st s) 4 = KNode -> inited (st s) 4 = Some true -> in_init (st s) 4 = false -> par (st s) 4 = None ->
  freel s 4 = [0;1;3] -> fresh (nt s) 4 = false -> Z.of_nat (length (cx_grad (vals s 4))) = size (st s) 4 ->
  checkable cx_t cx_t (cx_sync s) 4 [0;1;3].
Proof.
  intros cs P s Hx Hk Hi Hin Hp Hf Hr Hg. apply Nat.ltb_lt in Hx.
  assert (R : cx_reach s) by (apply cx_start; auto). assert (F : free s 4 [0;1;3]) by (apply free_is; auto).
  constructor; cbn [gs grad cx_sync]; auto.
  - intros p s' E. destruct (get_final cx_tinit cx_t cx_t ex_junk s 4 [0;1;3] R Hx (or_intror Hi) (or_introl Hp) F Hr) as (l & s2 & E2 & G).
    rewrite E in E2. injection E2 as <- <-. exact G.
  - intros k n v _ _ _. unfold cx_t. lia.
Qed.
Lemma cx_grad_length : forall l, length (cx_grad l) = length l.
Proof. intros l. apply map_length. Qed.
Lemma cx_checkable : checkable cx_t cx_t cx 4 [0;1;3].
Proof. apply cx_sync_ok; vm_compute; reflexivity. Qed.
Lemma cx_all_on : all_on (gs cx) 4.
Proof.
  intros y. apply together_on; [|vm_compute; reflexivity|vm_compute; lia].
  apply (reach_legal cx_tinit cx_t cx_t ex_junk). apply cx_start. vm_compute. reflexivity.
Qed.
Lemma cx_ok : cx_reach (gs cx) /\ checkable cx_t cx_t cx 4 [0;1;3] /\ has (gs cx) 4 (Tr 7) 0 /\
  legal_target (st (gs cx)) 4 None /\ legal_target (st (gs cx)) 4 (Some (3%nat, None)) /\ all_on (gs cx) 4 /\ values_of (gs cx) 4 [-1;2;3;4;5] /\ grad cx = cx_grad [-1;2;3;4;5] /\
  (forall l, length (cx_grad l) = length l).
Proof.
  split; [apply cx_start; vm_compute; reflexivity|]. split; [exact cx_checkable|]. split; [hs|]. split; [exact Logic.I|].
  split. { split; [|exact Logic.I]. exists 3, 1%nat. apply (walk_below _ [1%nat]). vm_compute. reflexivity. }
  split; [exact cx_all_on|]. split; [apply values_is; vm_compute; reflexivity|]. split; [vm_compute; reflexivity | exact cx_grad_length].
Qed.
Lemma quick_gradient_refuted : exists g g' b l, cx_reach (gs g) /\ checkable cx_t cx_t g 4 [0;1;3] /\ all_on (gs g) 4 /\ values_of (gs g) 4 l /\ grad g = cx_grad l /\
  check_quick cx_t cx_t cx_tgrad cx_obj cx_grad true 4 None cx_up cx_down cx_decide g = (g', inl b) /\
  values_of (gs g') 4 l /\ grad g' <> cx_grad l.
Proof.
  exists cx, (fst (check_quick cx_t cx_t cx_tgrad cx_obj cx_grad true 4 None cx_up cx_down cx_decide cx)), true, [-1;2;3;4;5].
  split; [apply cx_start; vm_compute; reflexivity|]. split; [exact cx_checkable|]. split; [exact cx_all_on|]. split; [apply values_is; vm_compute; reflexivity|]. split; [vm_compute; reflexivity|].
  split; [apply pair_is; vm_compute; reflexivity|]. split; [apply values_is; vm_compute; reflexivity | vm_compute; discriminate].
Qed.
Lemma off_gradient_refuted : exists g g' b l, cx_reach (gs g) /\ checkable cx_t cx_t g 4 [0;1;3] /\ values_of (gs g) 4 l /\ grad g = cx_grad l /\ updates (nt (gs g)) 4 = false /\
  check_verbose cx_t cx_t cx_tgrad cx_obj cx_grad true 4 None cx_up cx_down cx_decide1 g = (g', inl b) /\
  values_of (gs g') 4 l /\ grad g' <> cx_grad l.
Proof.
  exists cx_off, (fst (check_verbose cx_t cx_t cx_tgrad cx_obj cx_grad true 4 None cx_up cx_down cx_decide1 cx_off)), true, [-1;2;3;4;5].
  split; [apply cx_start; vm_compute; reflexivity|]. split; [apply cx_sync_ok; vm_compute; reflexivity|]. split; [apply values_is; vm_compute; reflexivity|]. split; [vm_compute; reflexivity|]. split; [vm_compute; reflexivity|].
  split; [apply pair_is; vm_compute; reflexivity|]. split; [apply values_is; vm_compute; reflexivity | vm_compute; discriminate].
Qed.
Lemma quick_stale_refuted : exists g g' b, cx_reach (gs g) /\ ~ has (gs g) 4 Fixed 0 /\
  check_quick cx_t cx_t cx_tgrad cx_obj cx_grad true 4 None cx_up cx_down cx_decide g = (g', inl b) /\
  value (gs g) 4 0 = Some 50 /\ value (gs g') 4 0 = Some (-1).
Proof.
  exists cx_stale, (fst (check_quick cx_t cx_t cx_tgrad cx_obj cx_grad true 4 None cx_up cx_down cx_decide cx_stale)),
    (match snd (check_quick cx_t cx_t cx_tgrad cx_obj cx_grad true 4 None cx_up cx_down cx_decide cx_stale) with inl b => b | _ => false end).
  split; [apply cx_start; vm_compute; reflexivity|]. split; [nhs|].
  split; [apply pair_is; vm_compute; reflexivity|]. split; vm_compute; reflexivity.
Qed.
Lemma cx_verdicts :
  snd (check_quick cx_t cx_t cx_tgrad cx_obj cx_grad true 4 None cx_up cx_down cx_decide cx) = inl true /\
  snd (check_quick cx_t cx_t cx_tgrad cx_obj cx_wrong true 4 None cx_up cx_down cx_decide cx) = inl false /\
  snd (check_verbose cx_t cx_t cx_tgrad cx_obj cx_grad true 4 None cx_up cx_down cx_decide1 cx) = inl true /\
  snd (check_verbose cx_t cx_t cx_tgrad cx_obj cx_wrong true 4 None cx_up cx_down cx_decide1 cx) = inl false /\
  snd (check_verbose cx_t cx_t cx_tgrad cx_obj cx_wrong true 4 (Some (3%nat, None)) cx_up cx_down cx_decide1 cx) = inl true.
Proof. repeat split; vm_compute; reflexivity. Qed.
