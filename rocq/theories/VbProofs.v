(** Proofs about the display of an optimization. *)
From Coq Require Import List ZArith Bool Arith Lia Psatz.
From Verif Require Import NpModel IndexOpsModel IndexOpsSpec PzModel PzSpec PzTree PzLink PzInv PzCheck PzEx HkModel HkSpec HkProofs HkInv HkFinal HkCalls HkWatch HkMain HkLast HkEx VbModel VbSpec.
Import ListNotations.
Open Scope Z_scope.

Lemma cent_ok : forall p q, 0 <= p -> 0 < q -> let c := p mod q * 100 / q in 0 <= c < 100 /\ (100 * (p / q) + c) * q <= 100 * p < (100 * (p / q) + c + 1) * q.
Proof.
  intros p q Hp Hq c. pose proof (Z.div_mod p q ltac:(lia)) as D. pose proof (Z.mod_pos_bound p q Hq) as B.
  pose proof (Z.div_mod (p mod q * 100) q ltac:(lia)) as D2. pose proof (Z.mod_pos_bound (p mod q * 100) q Hq) as B2.
  fold c in D2. set (r := p mod q) in *. set (s := p / q) in *. split; [|nia]. split; nia.
Qed.
Lemma runtime_final : forall p q, 0 <= p -> 0 < q -> let t := timestring p q in
  proper t /\ hundredths t * q <= 100 * p < (hundredths t + resolution t) * q.
Proof.
  intros p q Hp Hq t. unfold t, timestring. destruct (cent_ok p q Hp Hq) as [Cb Cc]. set (c := p mod q * 100 / q) in *.
  assert (S0 : 0 <= p / q) by (apply Z.div_pos; lia). set (S := p / q) in *.
  assert (M : p / (60 * q) = S / 60) by (unfold S; rewrite Z.div_div by lia; f_equal; lia).
  assert (Sc : p mod (60 * q) / q = S mod 60).
  { replace (60 * q) with (q * 60) by lia. rewrite Z.rem_mul_r by lia. fold S.
    replace (p mod q + q * (S mod 60)) with (S mod 60 * q + p mod q) by lia. rewrite Z.div_add_l by lia.
    rewrite (Z.div_small (p mod q) q) by (apply Z.mod_pos_bound; lia). lia. }
  assert (SS : S * q <= p < (S + 1) * q) by (unfold S; pose proof (Z.div_mod p q ltac:(lia)); pose proof (Z.mod_pos_bound p q Hq); nia).
  rewrite M, Sc. clearbody S c.
  destruct (Z.ltb_spec p (60 * q)) as [L|L].
  { cbn [proper hundredths resolution]. split; [|exact Cc]. split; [nia | exact Cb]. }
  assert (60 <= S) by nia.
  pose proof (Z.div_mod S 60 ltac:(lia)) as D1. pose proof (Z.mod_pos_bound S 60 ltac:(lia)) as B1. set (m := S / 60) in *. set (s := S mod 60) in *.
  destruct (Z.ltb_spec 59 m) as [L2|L2].
  2: { cbn [proper hundredths resolution]. replace (60 * m + s) with S by lia. split; [|exact Cc]. lia. }
  pose proof (Z.div_mod m 60 ltac:(lia)) as D2. pose proof (Z.mod_pos_bound m 60 ltac:(lia)) as B2. set (h := m / 60) in *. set (mm := m mod 60) in *.
  destruct (Z.ltb_spec 23 h) as [L3|L3].
  2: { cbn [proper hundredths resolution]. replace (3600 * h + 60 * mm + s) with S by lia. split; [lia | nia]. }
  pose proof (Z.div_mod h 24 ltac:(lia)) as D3. pose proof (Z.mod_pos_bound h 24 ltac:(lia)) as B3. set (d := h / 24) in *. set (hh := h mod 24) in *.
  cbn [proper hundredths resolution]. replace (86400 * d + 3600 * hh + 60 * mm) with (S - s) by lia. split; [lia | nia].
Qed.
Lemma ex_runtime : timestring 12345 100 = MinSecCent 2 3 45 /\ timestring 90061 1 = DayHourMin 1 1 1 /\ timestring 7 2 = SecCent 3 50 /\ timestring 3600 1 = HourMinSec 1 0 0.
Proof. repeat split. Qed.

Section Vb.
Context {V : Type}.
Variables tinit tf tfinv : nat -> V -> V.
Variable junk : nat -> Z -> V.
Notation hexec := (hexec tinit tf tfinv).
Notation hexecs := (hexecs tinit tf tfinv).
Notation reached := (hreach tinit tf tfinv hlegal junk).
Notation each := (each tinit tf tfinv).
Implicit Types q : @hstate V.

Lemma hexecs_cons : forall c cs q, fst (hexecs (c :: cs) q) = fst (hexecs cs (fst (hexec c q))).
Proof. intros c cs q. cbn [VbModel.hexecs]. destruct (hexec c q) as [q1 e]. cbn [fst]. destruct (hexecs cs q1). reflexivity. Qed.
Lemma hexec_base : forall c q, base (fst (hexec (Base c) q)) = fst (exec tinit tf tfinv c (base q)).
Proof. intros c q. cbn [HkModel.hexec]. destruct (exec tinit tf tfinv c (base q)) as [s' e]. reflexivity. Qed.
Lemma bases : forall cs q q', base q = base q' -> base (fst (hexecs (map Base cs) q)) = base (fst (hexecs (map Base cs) q')).
Proof.
  induction cs as [|c cs IH]; intros q q' E; auto. cbn [map]. rewrite !hexecs_cons. apply IH. rewrite !hexec_base, E. reflexivity.
Qed.
Lemma users_all : forall cs q y, reached q -> each hlegal (map Base cs) q -> (y < next (st (base q)))%nat ->
  users (fst (hexecs (map Base cs) q)) y = users q y.
Proof.
  induction cs as [|c cs IH]; intros q y R L Hy; auto. cbn [map] in *. destruct L as [L1 L2]. rewrite hexecs_cons, IH; auto.
  - apply kept_final; auto.
  - constructor; auto.
  - pose proof (reached_inv tinit tf tfinv junk q R) as H. rewrite hexec_base. destruct (exec tinit tf tfinv c (base q)) as [s' e] eqn:E. cbn [fst].
    pose proof (proj1 (exec_kinds tinit tf tfinv (base q) c s' e (hi_base _ H) (hi_one _ H) L1 E)). lia.
Qed.

(** The display leaves no trace. *)
Lemma removed_final : forall cs q x vo, reached q -> (x < next (st (base q)))%nat -> ~ In vo (map snd (users q x)) ->
  each hlegal (map Base cs) (fst (hexec (AddObserver x (Fin 0) vo) q)) ->
  let q' := fst (displayed tinit tf tfinv x vo true (map Base cs) q) in
  base q' = base (fst (hexecs (map Base cs) q)) /\ forall y, (y < next (st (base q)))%nat -> users q' y = users q y.
Proof.
  intros cs q x vo R Hx Nv L q'. unfold q', displayed. clear q'.
  pose proof (add_final tinit tf tfinv junk q x (Fin 0) vo R Hx) as A. cbv zeta in A.
  assert (R1 : reached (fst (hexec (AddObserver x (Fin 0) vo) q))) by (constructor; auto).
  set (q1 := fst (hexec (AddObserver x (Fin 0) vo) q)) in *. destruct A as (Ab & Ao & a & b & Ua & Ub & _).
  pose proof (users_all cs q1) as K. pose proof (bases cs q1 q Ab) as Bs. destruct (hexecs (map Base cs) q1) as [q2 ev] eqn:E2. cbn [fst] in *.
  pose proof (remove_final tinit tf tfinv q2 x vo) as Rm. cbv zeta in Rm. destruct Rm as (Rb & Ro & Rx). split; [rewrite Rb; exact Bs|].
  intros y Hy. destruct (Nat.eq_dec y x) as [->|Ny].
  - rewrite Rx, (K x R1 L) by (rewrite Ab; auto). rewrite Ub, Ua.
    assert (F : forall l : list (prio * nat), ~ In vo (map snd l) -> filter (fun e => negb (Nat.eqb (snd e) vo)) l = l).
    { induction l as [|e l IH]; intros N; auto. cbn [filter map] in *. destruct (Nat.eqb_spec (snd e) vo) as [Ee|]; [exfalso; apply N; left; auto|]. cbn [negb]. f_equal. apply IH. intros J. apply N. right. auto. }
    rewrite Ua, map_app in Nv. rewrite filter_app. cbn [filter snd]. rewrite Nat.eqb_refl. cbn [negb]. rewrite !F; auto; intros J; apply Nv, in_or_app; auto.
  - rewrite Ro, (K y R1 L) by (rewrite ?Ab; auto). apply Ao. auto.
Qed.

Lemma count_all : forall ps q x o, hinv q -> (x < next (st (base q)))%nat -> ready (st (base q)) x -> in_init (st (base q)) x = false ->
  all_on (base q) x -> registered q x o = 1%nat -> times x o (snd (hexecs (map (fun p => Base (SetOptimizer x p)) ps) q)) = length ps.
Proof.
  induction ps as [|p ps IH]; intros q x o H Hx Rx Ii On Rg; auto. cbn [map VbModel.hexecs].
  assert (L : hlegal q (Base (SetOptimizer x p))) by (split; auto).
  destruct (trigger_exec tinit tf tfinv (base q) (SetOptimizer x p) x (hi_base _ H) (hi_one _ H) L (tc_opt _ _ _ On)) as (_ & s' & l & E & H' & Es & _ & _ & On').
  destruct (hexec_calls tinit tf tfinv q _ s' H L E H' Es Logic.I) as (q1 & Eq & Eb & Hq & Er). subst s'.
  destruct (trigger_call_ok tinit tf tfinv q (SetOptimizer x p) x H L (tc_opt _ _ _ On) Ii) as (q' & ev & E' & Tl & _).
  rewrite Eq in E'. assert (q' = q1) by congruence. subst q'. assert (Ec : calls (SetOptimizer x p) (base q) (base q1) (regs q1) = Ok ev) by congruence.
  rewrite Eq, Ec. clear E' Ec Eq. specialize (IH q1 x o Hq). rewrite Es in IH. specialize (IH Hx Rx Ii On').
  assert (Rg' : registered q1 x o = 1%nat) by (unfold registered; rewrite Er by auto; auto). specialize (IH Rg').
  destruct (hexecs (map (fun p0 => Base (SetOptimizer x p0)) ps) q1) as [q2 ev2]. cbn [snd] in *. rewrite times_app, IH, (proj1 (Tl x o)), Rg by apply above_refl. reflexivity.
Qed.
Lemma registered_users : forall q x o, registered q x o = length (filter (fun e => Nat.eqb (snd e) o) (users q x)).
Proof.
  intros q x o. unfold registered, users.
  induction (regs q x) as [|[p t] l IH]; auto. destruct t as [|z|u]; try exact IH.
  cbn [filter flat_map app fst snd]. replace (is_reg o (p, User u)) with (Nat.eqb u o) by reflexivity.
  destruct (Nat.eqb u o); [cbn [length]; f_equal; exact IH | exact IH].
Qed.
Lemma count_final : forall ps q x vo, reached q -> (x < next (st (base q)))%nat -> ready (st (base q)) x -> in_init (st (base q)) x = false ->
  all_on (base q) x -> ~ In vo (map snd (users q x)) ->
  times x vo (snd (displayed tinit tf tfinv x vo true (map (fun p => Base (SetOptimizer x p)) ps) q)) = length ps.
Proof.
  intros ps q x vo R Hx Rx Ii On Nv. unfold displayed.
  pose proof (add_final tinit tf tfinv junk q x (Fin 0) vo R Hx) as A. cbv zeta in A.
  assert (R1 : reached (fst (hexec (AddObserver x (Fin 0) vo) q))) by (constructor; auto).
  set (q1 := fst (hexec (AddObserver x (Fin 0) vo) q)) in *. destruct A as (Ab & Ao & a & b & Ua & Ub & _).
  pose proof (count_all ps q1 x vo (reached_inv _ _ _ _ _ R1)) as C. rewrite Ab in C. specialize (C Hx Rx Ii On).
  destruct (hexecs (map (fun p => Base (SetOptimizer x p)) ps) q1) as [q2 ev]. cbn [snd] in *. apply C.
  rewrite registered_users, Ub. rewrite Ua, map_app in Nv.
  assert (F : forall l : list (prio * nat), ~ In vo (map snd l) -> filter (fun e => Nat.eqb (snd e) vo) l = []).
  { induction l as [|e l IH]; intros N; auto. cbn [filter map] in *. destruct (Nat.eqb_spec (snd e) vo) as [Ee|]; [exfalso; apply N; left; auto|]. apply IH. intros J. apply N. right. auto. }
  rewrite filter_app. cbn [filter snd]. rewrite Nat.eqb_refl. rewrite !F; auto; intros J; apply Nv, in_or_app; auto.
Qed.
End Vb.

Notation ex_displayed := (displayed ex_init ex_f ex_finv).
Lemma played_each : forall cs q, ex_hcareful q -> hplayed cs q = true -> each ex_init ex_f ex_finv hlegal cs q.
Proof.
  induction cs as [|c cs IH]; intros q R E; [exact Logic.I|]. cbn [hplayed each] in *. apply andb_true_iff in E as [A B].
  assert (C : hcareful q c) by (apply hcarefulb_ok; [apply hreach_Inv, careful_hreach, R | exact A]).
  split; [apply hcareful_legal, C | apply IH; [constructor; auto | exact B]].
Qed.
Lemma add_careful : forall q x p o, ex_hcareful q -> (x < next (st (base q)))%nat -> ex_hcareful (fst (ex_hrun (AddObserver x p o) q)).
Proof. intros q x p o R Hx. constructor; auto. Qed.
Lemma ex_display_run : ex_hreach exh /\ (4 < next (st (base exh)))%nat /\ ready (st (base exh)) 4 /\ in_init (st (base exh)) 4 = false /\ all_on (base exh) 4 /\ ~ In 9%nat (map snd (users exh 4)) /\
  each ex_init ex_f ex_finv hlegal (map Base [SetOptimizer 4%nat [5;6;7]; SetOptimizer 4%nat [1;2;3]]) (fst (ex_hrun (AddObserver 4%nat (Fin 0) 9) exh)) /\
  times 4 9 (snd (ex_displayed 4%nat 9 true (map Base [SetOptimizer 4%nat [5;6;7]; SetOptimizer 4%nat [1;2;3]]) exh)) = 2%nat.
Proof.
  destruct ex_display as (R & Hx & Rx & _ & Ii & On & _).
  split; [exact R|]. split; [exact Hx|]. split; [exact Rx|]. split; [exact Ii|]. split; [exact On|].
  split; [vm_compute; intuition discriminate|]. split; [|vm_compute; reflexivity].
  apply played_each; [apply add_careful; [exact exh_careful | exact Hx] | vm_compute; reflexivity].
Qed.
(** An objective that cannot be evaluated at the start leaves the display behind, and it goes on being called. *)
Lemma left_refuted : exists q x vo run p, ex_hreach q /\ (x < next (st (base q)))%nat /\ ~ In vo (map snd (users q x)) /\
  let q' := fst (ex_displayed x vo false run q) in In vo (map snd (users q' x)) /\ hlegal q' (Base (SetOptimizer x p)) /\ times x vo (events (Base (SetOptimizer x p)) q') = 1%nat.
Proof.
  exists exh, 4%nat, 9%nat, [], [5;6;7]. split; [exact exh_reach|]. split; [vm_compute; lia|]. split; [vm_compute; intuition discriminate|]. cbv zeta.
  split; [vm_compute; auto|]. split; [|vm_compute; reflexivity]. unfold displayed. cbn [fst].
  assert (Q : ex_hcareful (fst (ex_hrun (AddObserver 4%nat (Fin 0) 9) exh))) by (apply add_careful; [exact exh_careful | vm_compute; lia]).
  apply (proj1 (played_each [Base (SetOptimizer 4%nat [5;6;7])] _ Q ltac:(vm_compute; reflexivity))).
Qed.
