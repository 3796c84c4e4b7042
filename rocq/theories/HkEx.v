(** Concrete hierarchies with observers, as examples beside the properties and as witnesses. *)
From Coq Require Import List ZArith Bool Lia Arith.
From Verif Require Import NpModel NpProofs IndexOpsModel IndexOpsSpec PzModel PzSpec PzTree PzStruct PzLink PzIo PzInv PzPres PzTraverse PzCmd PzVal PzOpt PzRandom PzHist PzKeep PzOrder PzGrad PzCheck PzFinal PzEx HkModel HkSpec HkProofs HkInv HkFinal HkCalls HkWatch HkMain HkRuns.
Import ListNotations.
Open Scope Z_scope.

Notation ex_hreach := (hreach ex_init ex_f ex_finv hlegal ex_junk).
Notation ex_hcareful := (hreach ex_init ex_f ex_finv hcareful ex_junk).
Notation ex_hrun := (hexec ex_init ex_f ex_finv).
Fixpoint hplay (cs : list (@hcall Z)) (q : @hstate Z) : hstate :=
  match cs with [] => q | c :: r => hplay r (fst (ex_hrun c q)) end.
Definition hcarefulb (q : @hstate Z) (c : @hcall Z) : bool :=
  match c with Base c => carefulb (base q) c | AddObserver x _ _ | RemoveObserver x _ => (x <? next (st (base q)))%nat end.
Fixpoint hplayed (cs : list (@hcall Z)) (q : @hstate Z) : bool :=
  match cs with [] => true | c :: r => hcarefulb q c && hplayed r (fst (ex_hrun c q)) end.
Lemma hcarefulb_ok : forall q c, Inv (base q) -> hcarefulb q c = true -> hcareful q c.
Proof.
  intros q c H E. destruct c as [c|x p o|x o]; cbn [hcarefulb hcareful hlegal] in *; [apply carefulb_ok; auto | apply Nat.ltb_lt; auto | apply Nat.ltb_lt; auto].
Qed.
Lemma hplay_careful : forall cs q, ex_hcareful q -> hplayed cs q = true -> ex_hcareful (hplay cs q).
Proof.
  induction cs as [|c cs IH]; intros q R E; cbn [hplay hplayed] in *; auto. apply andb_true_iff in E as [A B]. apply IH; auto. constructor; auto. apply hcarefulb_ok; auto.
  apply (hi_base q (hreach_inv ex_init ex_f ex_finv hcareful ex_junk q hcareful_legal R)).
Qed.
Definition hstart (cs : list (@hcall Z)) : @hstate Z := hplay cs (hinit ex_junk).
Lemma hstart_careful : forall cs, hplayed cs (hinit ex_junk) = true -> ex_hcareful (hstart cs).
Proof. intros cs E. apply hplay_careful; auto. constructor. Qed.
Lemma careful_hreach : forall q, ex_hcareful q -> ex_hreach q.
Proof. intros q R. induction R as [|q c R IH L]; [constructor | constructor; auto; apply hcareful_legal; auto]. Qed.
Lemma hreach_Inv : forall q, ex_hreach q -> Inv (base q).
Proof. intros q R. apply (hi_base q (hreach_inv ex_init ex_f ex_finv hlegal ex_junk q hlegal_id R)). Qed.

(** The hierarchy of the other examples; observers of 4: 1 at the default priority 0, 2 at -200, both
    taken off and put on again; of 2: 3; of 0: 4 and, at -inf, 5. *)
Definition ex_hcalls : list (@hcall Z) := map Base ex_calls ++
  [AddObserver 4%nat (Fin 0) 1; AddObserver 4%nat (Fin (-200)) 2; AddObserver 4%nat (Fin 7) 6; AddObserver 2%nat (Fin 5) 3; AddObserver 0%nat (Fin 0) 4; AddObserver 0%nat NegInf 5;
   RemoveObserver 4%nat 6].
Notation exh := (hstart ex_hcalls).
Lemma exh_careful : ex_hcareful exh.
Proof. apply hstart_careful. vm_compute. reflexivity. Qed.
Lemma exh_reach : ex_hreach exh.
Proof. apply careful_hreach, exh_careful. Qed.
Lemma exh_Inv : Inv (base exh).
Proof. apply hreach_Inv, exh_reach. Qed.
(** The same with node 2 fixed. *)
Definition ex_fcalls : list (@hcall Z) := ex_hcalls ++ [Base (Fix 0%nat None)].
Notation exf := (hstart ex_fcalls).
Lemma exf_careful : ex_hcareful exf.
Proof. apply hstart_careful. vm_compute. reflexivity. Qed.
Lemma exf_Inv : Inv (base exf).
Proof. apply hreach_Inv, careful_hreach, exf_careful. Qed.
Lemma on_all : forall q x, ex_hreach q -> forallb (updates (nt (base q))) (seq 0 (next (st (base q)))) = true -> (x < next (st (base q)))%nat -> all_on (base q) x.
Proof. intros q x R E Hx y Hy. apply (together_on (base q) x); auto. apply hreach_Inv; auto. Qed.
Lemma same_no : forall (s s' : @state Z) y j, 0 <= j < size (st s) y -> value s' y j <> value s y j -> ~ same_values s s' y.
Proof. intros s s' y j Hj N Q. apply N, Q, Hj. Qed.
Definition fixedb (s : @state Z) (y : oid) : bool := forallb (fun k => zmem k (cons_get (ios s) y Fixed)) (arange (size (st s) y)).
Lemma fixedb_ok : forall s y, fixedb s y = true -> fixed s y.
Proof. intros s y E j Hj. unfold fixedb in E. rewrite forallb_forall in E. specialize (E j (proj2 (arange_In _ _) Hj)). apply zmem_In in E. exact E. Qed.
Lemma fixedb_no : forall (s : @state Z) y j, 0 <= j < size (st s) y -> zmem j (cons_get (ios s) y Fixed) = false -> ~ fixed s y.
Proof. intros s y j Hj E Q. specialize (Q j Hj). apply zmem_false in E. apply E. exact Q. Qed.

(** What the calls announce. *)
Definition events (c : @hcall Z) (q : @hstate Z) : list event := match snd (ex_hrun c q) with Ok ev => ev | Er _ => [] end.
Lemma events_ok : forall c q, match snd (ex_hrun c q) with Ok _ => true | Er _ => false end = true -> ex_hrun c q = (fst (ex_hrun c q), Ok (events c q)).
Proof. intros c q E. unfold events. destruct (ex_hrun c q) as [q' [ev|e]]; [auto | discriminate]. Qed.
Ltac evs := apply events_ok; vm_compute; reflexivity.
Lemma ex_events :
  events (Base (Assign 0%nat (fun _ _ => 9))) exh = [Heard 0%nat 4; Heard 2%nat 3; Ran 2%nat; Heard 4%nat 1; Ran 4%nat; Heard 4%nat 2; Heard 0%nat 5] /\
  events (Base (SetOptimizer 4%nat [5;6;7])) exh = [Heard 0%nat 4; Heard 2%nat 3; Ran 2%nat; Heard 4%nat 1; Ran 4%nat; Heard 4%nat 2] /\
  events (Base (Constrain 0%nat None 3)) exh =
    [Heard 0%nat 4; Heard 2%nat 3; Ran 2%nat; Heard 4%nat 1; Ran 4%nat; Heard 4%nat 2; Heard 0%nat 5;
     Heard 0%nat 4; Heard 2%nat 3; Ran 2%nat; Heard 4%nat 1; Ran 4%nat; Heard 4%nat 2; Heard 0%nat 5] /\
  events (Base (Assign 4%nat (fun _ _ => 9))) exf = [Heard 4%nat 1; Ran 4%nat; Heard 4%nat 2].
Proof. vm_compute. repeat split; reflexivity. Qed.

(** ** Refuted *)
(** A fixed part of a Parameterized that is written to as a whole is changed, but not told. *)
Lemma fixed_refuted : exists q x g q' ev y o, ex_hcareful q /\ hlegal q (Base (Assign x g)) /\ all_on (base q) x /\ in_init (st (base q)) x = false /\
  ex_hrun (Base (Assign x g)) q = (q', Ok ev) /\ (y < next (st (base q)))%nat /\ ready (st (base q)) y /\ kind (st (base q)) y = KNode /\ ~ same_values (base q) (base q') y /\
  registered_finite q y o = 1%nat /\ times y o ev = 0%nat /\ ~ In y (runs ev) /\
  exists stored, current q stored /\
    fst (observe (values (base q')) ev stored) y <> values (base q') y.
Proof.
  exists exf, 4%nat, (fun _ _ => 9), (fst (ex_hrun (Base (Assign 4%nat (fun _ _ => 9))) exf)), (events (Base (Assign 4%nat (fun _ _ => 9))) exf), 2%nat, 3%nat.
  split; [exact exf_careful|]. split; [split; [vm_compute; lia | rd]|]. split; [apply on_all; [apply careful_hreach, exf_careful | vm_compute; reflexivity | vm_compute; lia]|].
  split; [vm_compute; reflexivity|]. split; [evs|]. split; [vm_compute; lia|]. split; [rd|]. split; [vm_compute; reflexivity|].
  split; [apply (same_no _ _ 2%nat 0); [split; vm_compute; congruence | vm_compute; congruence]|]. split; [vm_compute; reflexivity|]. split; [vm_compute; reflexivity|].
  split; [vm_compute; intros [Q|[]]; discriminate|]. exists (values (base exf)). split; [intros z _ _ _; reflexivity|]. vm_compute. congruence.
Qed.
(** An observer at the default priority shows the quantities of the evaluation before. *)
Lemma display_refuted : exists q x o p stored q' ev, ex_hreach q /\ hlegal q (Base (SetOptimizer x p)) /\ all_on (base q) x /\ in_init (st (base q)) x = false /\
  users q x = [(Fin 0, o)] /\ stored x = values (base q) x /\ ex_hrun (Base (SetOptimizer x p)) q = (q', Ok ev) /\
  readings x o (snd (observe (values (base q')) ev stored)) = [values (base q) x] /\ values (base q) x <> values (base q') x.
Proof.
  exists (hstart (ex_hcalls ++ [RemoveObserver 4%nat 2])), 4%nat, 1%nat, [5;6;7], (values (base exh)), (fst (ex_hrun (Base (SetOptimizer 4%nat [5;6;7])) (hstart (ex_hcalls ++ [RemoveObserver 4%nat 2])))),
    (events (Base (SetOptimizer 4%nat [5;6;7])) (hstart (ex_hcalls ++ [RemoveObserver 4%nat 2]))).
  assert (R : ex_hreach (hstart (ex_hcalls ++ [RemoveObserver 4%nat 2]))) by (apply careful_hreach, hstart_careful; vm_compute; reflexivity).
  split; [exact R|]. split; [split; [vm_compute; lia | rd]|]. split; [apply on_all; [exact R | vm_compute; reflexivity | vm_compute; lia]|].
  split; [vm_compute; reflexivity|]. split; [vm_compute; reflexivity|]. split; [vm_compute; reflexivity|]. split; [evs|]. split; [vm_compute; reflexivity | vm_compute; congruence].
Qed.
(** Below the object that is set, observers registered at -inf are not told. *)
Lemma bottom_refuted : exists q x p q' ev y o, ex_hcareful q /\ hlegal q (Base (SetOptimizer x p)) /\ all_on (base q) x /\ in_init (st (base q)) x = false /\
  ex_hrun (Base (SetOptimizer x p)) q = (q', Ok ev) /\ (y < next (st (base q)))%nat /\ ready (st (base q)) y /\ ~ same_values (base q) (base q') y /\
  registered q y o = 1%nat /\ times y o ev = 0%nat.
Proof.
  exists exh, 4%nat, [5;6;7], (fst (ex_hrun (Base (SetOptimizer 4%nat [5;6;7])) exh)), (events (Base (SetOptimizer 4%nat [5;6;7])) exh), 0%nat, 5%nat.
  split; [exact exh_careful|]. split; [split; [vm_compute; lia | rd]|]. split; [apply on_all; [exact exh_reach | vm_compute; reflexivity | vm_compute; lia]|].
  split; [vm_compute; reflexivity|]. split; [evs|]. split; [vm_compute; lia|]. split; [rd|].
  split; [apply (same_no _ _ 0%nat 1); [split; vm_compute; congruence | vm_compute; congruence]|]. split; vm_compute; reflexivity.
Qed.

(** ** Examples *)
Lemma trig_legal : forall (q : @hstate Z) x p, (x < next (st (base q)))%nat -> ready (st (base q)) x -> hlegal q (Base (SetOptimizer x p)).
Proof. intros. split; auto. Qed.
Lemma ex_notify : ex_hreach exh /\ hlegal exh (Base (Assign 0%nat (fun _ _ => 9))) /\ notify_call (base exh) 0 (Assign 0%nat (fun _ _ => 9)) /\ awake (base exh) 0 /\
  part (st (base exh)) 4 0 /\ registered exh 4 1 = 1%nat /\ registered exh 4 6 = 0%nat /\ registered exh 0 5 = 1%nat /\
  events (Base (Assign 0%nat (fun _ _ => 9))) exh = [Heard 0%nat 4; Heard 2%nat 3; Ran 2%nat; Heard 4%nat 1; Ran 4%nat; Heard 4%nat 2; Heard 0%nat 5].
Proof.
  split; [exact exh_reach|]. split; [split; [vm_compute; lia | rd]|]. split; [constructor; vm_compute; reflexivity|].
  split; [apply awakeb_ok; [exact exh_Inv | vm_compute; reflexivity]|]. split; [apply partb_ok; [exact exh_Inv | vm_compute; reflexivity]|].
  split; [vm_compute; reflexivity|]. split; [vm_compute; reflexivity|]. split; [vm_compute; reflexivity|]. exact (proj1 ex_events).
Qed.
Lemma exh_on : forall x, (x < next (st (base exh)))%nat -> all_on (base exh) x.
Proof. intros x Hx. apply on_all; [exact exh_reach | vm_compute; reflexivity | exact Hx]. Qed.
Lemma ex_trigger : ex_hreach exh /\ hlegal exh (Base (SetOptimizer 4%nat [5;6;7])) /\ trigger_call (base exh) 4 (SetOptimizer 4%nat [5;6;7]) /\ in_init (st (base exh)) 4 = false /\
  woken (base (fst (ex_hrun (Base (SetOptimizer 4%nat [5;6;7])) exh))) 4 2 /\ registered_finite exh 2 3 = 1%nat /\ registered exh 0 5 = 1%nat /\ registered_finite exh 0 5 = 0%nat /\
  events (Base (SetOptimizer 4%nat [5;6;7])) exh = [Heard 0%nat 4; Heard 2%nat 3; Ran 2%nat; Heard 4%nat 1; Ran 4%nat; Heard 4%nat 2].
Proof.
  split; [exact exh_reach|]. split; [apply trig_legal; [vm_compute; lia | rd]|]. split; [constructor; apply exh_on; vm_compute; lia|]. split; [vm_compute; reflexivity|].
  split; [apply woken_kid; [vm_compute; auto | apply (fixedb_no _ 2%nat 0); [split; vm_compute; congruence | vm_compute; reflexivity]]|].
  split; [vm_compute; reflexivity|]. split; [vm_compute; reflexivity|]. split; [vm_compute; reflexivity|]. exact (proj1 (proj2 ex_events)).
Qed.
Lemma ex_twice : ex_hreach exh /\ hlegal exh (Base (Constrain 0%nat None 3)) /\ is_leaf (st (base exh)) 0 = true /\ all_on (base exh) 0 /\ part (st (base exh)) 4 0 /\
  registered exh 4 1 = 1%nat /\ times 4 1 (events (Base (Constrain 0%nat None 3)) exh) = 2%nat.
Proof.
  split; [exact exh_reach|]. split; [split; [vm_compute; lia | split; [exact Logic.I | rd]]|]. split; [vm_compute; reflexivity|]. split; [apply exh_on; vm_compute; lia|].
  split; [apply partb_ok; [exact exh_Inv | vm_compute; reflexivity]|]. split; vm_compute; reflexivity.
Qed.
Lemma ex_runs : ex_hreach exh /\ hlegal exh (Base (NewNode [4;7]%nat true)) /\ runs (events (Base (NewNode [4;7]%nat true)) exh) = [2;4;8]%nat.
Proof.
  split; [exact exh_reach|]. split; [|vm_compute; reflexivity]. apply hcareful_legal, hcarefulb_ok; [exact exh_Inv | vm_compute; reflexivity].
Qed.
Lemma ex_heard : ex_hcareful exh /\ hlegal exh (Base (SetOptimizer 4%nat [5;6;7])) /\ value_call (base exh) 4 (SetOptimizer 4%nat [5;6;7]) /\ all_on (base exh) 4 /\
  in_init (st (base exh)) 4 = false /\ ready (st (base exh)) 2 /\ ~ same_values (base exh) (base (fst (ex_hrun (Base (SetOptimizer 4%nat [5;6;7])) exh))) 2 /\
  registered_finite exh 2 3 = 1%nat /\ times 2 3 (events (Base (SetOptimizer 4%nat [5;6;7])) exh) = 1%nat /\ same_values (base exh) (base (fst (ex_hrun (Base (SetOptimizer 4%nat [5;6;7])) exh))) 1.
Proof.
  split; [exact exh_careful|]. split; [apply trig_legal; [vm_compute; lia | rd]|]. split; [constructor|]. split; [apply exh_on; vm_compute; lia|]. split; [vm_compute; reflexivity|]. split; [rd|].
  split; [apply (same_no _ _ 2%nat 1); [split; vm_compute; congruence | vm_compute; congruence]|]. split; [vm_compute; reflexivity|]. split; [vm_compute; reflexivity|].
  intros j Hj. change (size (st (base exh)) 1) with (Z.of_nat 1) in Hj. assert (j = 0) as -> by (cbn in Hj; lia). vm_compute. reflexivity.
Qed.
(** Seven calls of all kinds on [exh], whose derived quantities are current. *)
Definition ex_setting : list (@hcall Z) :=
  [Base (Assign 0%nat (fun _ v => v + 1)); Base (SetOptimizer 4%nat [5;6;7]); AddObserver 2%nat (Fin 3) 8; Base (Constrain 2%nat None 3); Base (Constrain 3%nat (Some [0]) 2);
   Base (Randomize 4%nat Z.of_nat); RemoveObserver 4%nat 1; Base (SetOptimizer 2%nat [5])].
Definition settlingb (q : @hstate Z) (c : @hcall Z) : bool :=
  hcarefulb q c && match c with
    | Base c => forallb (updates (nt (base q))) (seq 0 (next (st (base q)))) &&
        match c with
        | Assign x _ => is_leaf (st (base q)) x
        | SetOptimizer x _ | Randomize x _ | Constrain x _ _ => (x <? next (st (base q)))%nat && negb (in_init (st (base q)) x)
        | _ => false
        end
    | _ => true
    end.
Fixpoint eachb (cs : list (@hcall Z)) (q : @hstate Z) : bool := match cs with [] => true | c :: r => settlingb q c && eachb r (fst (ex_hrun c q)) end.
Lemma settlingb_ok : forall q c, ex_hcareful q -> settlingb q c = true -> settling q c.
Proof.
  intros q c R E. pose proof (hreach_Inv q (careful_hreach q R)) as H. apply andb_true_iff in E as [A B]. split; [apply hcarefulb_ok; auto|]. destruct c as [c|x p o|x o]; auto.
  apply andb_true_iff in B as [U B]. pose proof (hcarefulb_ok q (Base c) H A) as [L _].
  assert (K : forall x, (x <? next (st (base q)))%nat && negb (in_init (st (base q)) x) = true -> all_on (base q) x /\ in_init (st (base q)) x = false).
  { intros x Q. apply andb_true_iff in Q as [Q1 Q2]. apply Nat.ltb_lt in Q1. apply negb_true_iff in Q2. split; auto. apply on_all; auto. apply careful_hreach; auto. }
  destruct c; try discriminate; exists x; try (destruct (K x B); split; [constructor|split; auto]).
  split; [constructor; auto|]. destruct L as [L _]. split; [apply on_all; auto; apply careful_hreach; auto | apply leaf_in_init; auto].
Qed.
Lemma eachb_ok : forall cs q, ex_hcareful q -> eachb cs q = true -> each ex_init ex_f ex_finv settling cs q.
Proof.
  induction cs as [|c cs IH]; intros q R E; cbn [each eachb] in *; auto. apply andb_true_iff in E as [A B]. apply settlingb_ok in A; auto. split; auto. apply IH; auto. constructor; auto. apply A.
Qed.
Lemma ex_settled : ex_hcareful exh /\ each ex_init ex_f ex_finv settling ex_setting exh /\ current exh (values (base exh)) /\
  values (base exh) 4 = [Some 1; Some 2; Some 3; Some 4; Some 5] /\
  values (base (fst (fst (watch ex_init ex_f ex_finv ex_setting exh (values (base exh)))))) 4 <> values (base exh) 4.
Proof.
  split; [exact exh_careful|]. split; [apply eachb_ok; [exact exh_careful | vm_compute; reflexivity]|]. split; [intros y _ _ _; reflexivity|]. split; [vm_compute; reflexivity | vm_compute; congruence].
Qed.
Lemma above_prio : forall (q : @hstate Z) y o,
  forallb (fun e : reg => match snd e with User n => if Nat.eqb n o then match fst e with ObserversModel.Fin z => -100 <? z | _ => false end else true | _ => true end) (regs q y) = true -> at_prio q y o above_own.
Proof. intros q y o E p Hp. rewrite forallb_forall in E. specialize (E _ Hp). cbn [snd fst] in E. rewrite Nat.eqb_refl in E. destruct p; try discriminate. apply Z.ltb_lt, E. Qed.
Lemma below_prio : forall (q : @hstate Z) y o,
  forallb (fun e : reg => match snd e with User n => if Nat.eqb n o then match fst e with ObserversModel.Fin z => z <=? -100 | _ => true end else true | _ => true end) (regs q y) = true -> at_prio q y o below_own.
Proof. intros q y o E p Hp. rewrite forallb_forall in E. specialize (E _ Hp). cbn [snd fst] in E. rewrite Nat.eqb_refl in E. destruct p; cbn; auto. apply Z.leb_le, E. Qed.
Lemma ex_display : ex_hreach exh /\ (4 < next (st (base exh)))%nat /\ ready (st (base exh)) 4 /\ kind (st (base exh)) 4 = KNode /\ in_init (st (base exh)) 4 = false /\ all_on (base exh) 4 /\
  registered exh 4 1 = 1%nat /\ at_prio exh 4 1 above_own /\ registered exh 4 2 = 1%nat /\ at_prio exh 4 2 below_own /\
  (let l := snd (watch ex_init ex_f ex_finv (map (fun p => Base (SetOptimizer 4%nat p)) [[1;2;3];[4;5;6];[7;8;9]]) exh (values (base exh))) in
   readings 4 1 l = [[Some 1; Some 2; Some 3; Some 4; Some 5]; [Some 8; Some 2; Some 3; Some 3; Some 5]; [Some 11; Some 5; Some 3; Some 6; Some 5]] /\
   readings 4 2 l = [[Some 8; Some 2; Some 3; Some 3; Some 5]; [Some 11; Some 5; Some 3; Some 6; Some 5]; [Some 14; Some 8; Some 3; Some 9; Some 5]]).
Proof.
  split; [exact exh_reach|]. split; [vm_compute; lia|]. split; [rd|]. split; [vm_compute; reflexivity|]. split; [vm_compute; reflexivity|]. split; [apply exh_on; vm_compute; lia|].
  split; [vm_compute; reflexivity|]. split.
  { apply above_prio. vm_compute. reflexivity. }
  split; [vm_compute; reflexivity|]. split.
  { apply below_prio. vm_compute. reflexivity. }
  vm_compute. split; reflexivity.
Qed.
Lemma ex_users : ex_hreach exh /\ users exh 4 = [(Fin 0, 1%nat); (Fin (-200), 2%nat)] /\ hlegal exh (Base (Unlink 4%nat 2%nat)) /\
  users (fst (ex_hrun (Base (Unlink 4%nat 2%nat)) exh)) 2 = [(Fin 5, 3%nat)] /\ hlegal exh (Base (Copy 4%nat)) /\ users (fst (ex_hrun (Base (Copy 4%nat)) exh)) 8 = [] /\
  users (fst (ex_hrun (AddObserver 4%nat (Fin 0) 9) exh)) 4 = [(Fin 0, 1%nat); (Fin 0, 9%nat); (Fin (-200), 2%nat)].
Proof.
  split; [exact exh_reach|]. split; [vm_compute; reflexivity|]. split; [apply hcareful_legal, hcarefulb_ok; [exact exh_Inv | vm_compute; reflexivity]|]. split; [vm_compute; reflexivity|].
  split; [apply hcareful_legal, hcarefulb_ok; [exact exh_Inv | vm_compute; reflexivity]|]. split; vm_compute; reflexivity.
Qed.
Lemma ex_assign : ex_hcareful exf /\ hlegal exf (Base (Assign 4%nat (fun _ v => v + 1))) /\ all_on (base exf) 4 /\ in_init (st (base exf)) 4 = false /\
  ~ fixed (base exf) 4 /\ ~ same_values (base exf) (base (fst (ex_hrun (Base (Assign 4%nat (fun _ v => v + 1))) exf))) 4 /\ current exf (values (base exf)) /\
  events (Base (Assign 4%nat (fun _ v => v + 1))) exf = [Heard 4%nat 1; Ran 4%nat; Heard 4%nat 2].
Proof.
  split; [exact exf_careful|]. split; [split; [vm_compute; lia | rd]|]. split; [apply on_all; [apply careful_hreach, exf_careful | vm_compute; reflexivity | vm_compute; lia]|].
  split; [vm_compute; reflexivity|]. split; [apply (fixedb_no _ 4%nat 3); [split; vm_compute; congruence | vm_compute; reflexivity]|].
  split; [apply (same_no _ _ 4%nat 0); [split; vm_compute; congruence | vm_compute; congruence]|]. split; [intros y _ _ _; reflexivity | vm_compute; reflexivity].
Qed.
