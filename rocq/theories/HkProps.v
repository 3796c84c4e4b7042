(** Property theorems about observers of the objects of a hierarchy (C99 to C103). *)
From Coq Require Import List ZArith Bool Arith.
From Verif Require Import NpModel IndexOpsModel IndexOpsSpec PzModel PzSpec PzCheck PzEx HkModel HkSpec HkLast HkEx.
Import ListNotations.
Open Scope Z_scope.

Notation hreachable V tinit tf tfinv junk := (@hreach V tinit tf tfinv hlegal junk).
Notation hcarefully V tinit tf tfinv junk := (@hreach V tinit tf tfinv hcareful junk).

(** ** C99 *)
(** Writing to a Param and fixing: what is registered with [x] and with the objects above is called once per
    registration, nothing else is; in order of priority, and for a part before what it is part of. *)
Theorem C99_notify : forall V tinit tf tfinv junk q c x, hreachable V tinit tf tfinv junk q -> hlegal q (Base c) -> notify_call (base q) x c -> awake (base q) x ->
  exists q' ev, hexec tinit tf tfinv (Base c) q = (q', Ok ev) /\ told_above q x ev /\ ordered q ev /\ bottom_up (base q) (base q') (runs ev) /\
    forall y, In y (runs ev) <-> kind (st (base q)) y = KNode /\ part (st (base q)) y x.
Proof. exact @notify_final. Qed.
Print Assumptions C99_notify.
Example C99_notify_example : ex_hreach exh /\ hlegal exh (Base (Assign 0%nat (fun _ _ => 9))) /\ notify_call (base exh) 0 (Assign 0%nat (fun _ _ => 9)) /\ awake (base exh) 0 /\
  part (st (base exh)) 4 0 /\ registered exh 4 1 = 1%nat /\ registered exh 4 6 = 0%nat /\ registered exh 0 5 = 1%nat /\
  events (Base (Assign 0%nat (fun _ _ => 9))) exh = [Heard 0%nat 4; Heard 2%nat 3; Ran 2%nat; Heard 4%nat 1; Ran 4%nat; Heard 4%nat 2; Heard 0%nat 5].
Proof. exact ex_notify. Qed.
(** Calls that update from [x] down: also what is registered with the parts of [x] that are not fixed is called,
    once per registration with a finite priority. *)
Theorem C99_trigger : forall V tinit tf tfinv junk q c x, hreachable V tinit tf tfinv junk q -> hlegal q (Base c) -> trigger_call (base q) x c -> in_init (st (base q)) x = false ->
  exists q' ev, hexec tinit tf tfinv (Base c) q = (q', Ok ev) /\ told q q' x ev /\ ordered q ev /\ bottom_up (base q) (base q') (runs ev) /\
    (forall y, In y (runs ev) <-> kind (st (base q)) y = KNode /\ (woken (base q') x y \/ part (st (base q)) y x)).
Proof. exact @trigger_final. Qed.
Print Assumptions C99_trigger.
Example C99_trigger_example : ex_hreach exh /\ hlegal exh (Base (SetOptimizer 4%nat [5;6;7])) /\ trigger_call (base exh) 4 (SetOptimizer 4%nat [5;6;7]) /\ in_init (st (base exh)) 4 = false /\
  woken (base (fst (ex_hrun (Base (SetOptimizer 4%nat [5;6;7])) exh))) 4 2 /\ registered_finite exh 2 3 = 1%nat /\ registered exh 0 5 = 1%nat /\ registered_finite exh 0 5 = 0%nat /\
  events (Base (SetOptimizer 4%nat [5;6;7])) exh = [Heard 0%nat 4; Heard 2%nat 3; Ran 2%nat; Heard 4%nat 1; Ran 4%nat; Heard 4%nat 2].
Proof. exact ex_trigger. Qed.
(** Constraining a Param calls everything twice. *)
Theorem C99_constrain_twice : forall V tinit tf tfinv junk q x sel n, hreachable V tinit tf tfinv junk q -> hlegal q (Base (Constrain x sel n)) -> is_leaf (st (base q)) x = true -> all_on (base q) x ->
  exists q' ev, hexec tinit tf tfinv (Base (Constrain x sel n)) q = (q', Ok ev) /\
    forall y o, (part (st (base q)) y x -> times y o ev = 2 * registered q y o)%nat /\ (~ part (st (base q)) y x -> times y o ev = 0%nat).
Proof. exact @twice_final. Qed.
Print Assumptions C99_constrain_twice.
Example C99_twice_example : ex_hreach exh /\ hlegal exh (Base (Constrain 0%nat None 3)) /\ is_leaf (st (base exh)) 0 = true /\ all_on (base exh) 0 /\ part (st (base exh)) 4 0 /\
  registered exh 4 1 = 1%nat /\ times 4 1 (events (Base (Constrain 0%nat None 3)) exh) = 2%nat.
Proof. exact ex_twice. Qed.
(** Whatever is registered, every call on the hierarchy has the effect, and runs the updates, it has without observers. *)
Theorem C99_runs : forall V tinit tf tfinv junk q c, hreachable V tinit tf tfinv junk q -> hlegal q (Base c) ->
  match hexec tinit tf tfinv (Base c) q with
  | (q', Ok ev) => trace (nt (base q')) = rev (runs ev) ++ trace (nt (base q)) /\ exec tinit tf tfinv c (base q) = (base q', None)
  | (q', Er e) => exec tinit tf tfinv c (base q) = (base q', Some e)
  end.
Proof. exact @runs_final. Qed.
Print Assumptions C99_runs.
Example C99_runs_example : ex_hreach exh /\ hlegal exh (Base (NewNode [4;7]%nat true)) /\ runs (events (Base (NewNode [4;7]%nat true)) exh) = [2;4;8]%nat.
Proof. exact ex_runs. Qed.

(** ** C100 *)
(** Whatever object's values a call changes, its observers are told and its [parameters_changed] runs. *)
Theorem C100_heard : forall V tinit tf tfinv junk q c x, hcarefully V tinit tf tfinv junk q -> hlegal q (Base c) -> value_call (base q) x c -> all_on (base q) x -> in_init (st (base q)) x = false ->
  exists q' ev, hexec tinit tf tfinv (Base c) q = (q', Ok ev) /\
    (forall y o, (y < next (st (base q)))%nat -> ready (st (base q)) y -> ~ same_values (base q) (base q') y -> (registered_finite q y o <= times y o ev)%nat) /\
    forall y, (y < next (st (base q)))%nat -> ready (st (base q)) y -> kind (st (base q)) y = KNode -> ~ same_values (base q) (base q') y -> In y (runs ev).
Proof. exact @heard_final. Qed.
Print Assumptions C100_heard.
Example C100_example : ex_hcareful exh /\ hlegal exh (Base (SetOptimizer 4%nat [5;6;7])) /\ value_call (base exh) 4 (SetOptimizer 4%nat [5;6;7]) /\ all_on (base exh) 4 /\
  in_init (st (base exh)) 4 = false /\ ready (st (base exh)) 2 /\ ~ same_values (base exh) (base (fst (ex_hrun (Base (SetOptimizer 4%nat [5;6;7])) exh))) 2 /\
  registered_finite exh 2 3 = 1%nat /\ times 2 3 (events (Base (SetOptimizer 4%nat [5;6;7])) exh) = 1%nat /\ same_values (base exh) (base (fst (ex_hrun (Base (SetOptimizer 4%nat [5;6;7])) exh))) 1.
Proof. exact ex_heard. Qed.
(** Writing to a Parameterized as a whole does this for the parts that are not fixed only; *)
Theorem C100_assign_partial : forall V tinit tf tfinv junk q x g, hcarefully V tinit tf tfinv junk q -> hlegal q (Base (Assign x g)) -> all_on (base q) x -> in_init (st (base q)) x = false ->
  exists q' ev, hexec tinit tf tfinv (Base (Assign x g)) q = (q', Ok ev) /\
    (forall y o, (y < next (st (base q)))%nat -> ready (st (base q)) y -> ~ fixed (base q) y -> ~ same_values (base q) (base q') y -> (registered_finite q y o <= times y o ev)%nat) /\
    forall y, (y < next (st (base q)))%nat -> ready (st (base q)) y -> kind (st (base q)) y = KNode -> ~ fixed (base q) y -> ~ same_values (base q) (base q') y -> In y (runs ev).
Proof. exact @heard_assign_final. Qed.
Print Assumptions C100_assign_partial.
(** a fixed part is changed without being told, and what it derived from its values is left as it was. *)
Theorem C100_fixed_refuted : exists q x g q' ev y o, ex_hcareful q /\ hlegal q (Base (Assign x g)) /\ all_on (base q) x /\ in_init (st (base q)) x = false /\
  ex_hrun (Base (Assign x g)) q = (q', Ok ev) /\ (y < next (st (base q)))%nat /\ ready (st (base q)) y /\ kind (st (base q)) y = KNode /\ ~ same_values (base q) (base q') y /\
  registered_finite q y o = 1%nat /\ times y o ev = 0%nat /\ ~ In y (runs ev) /\
  exists stored, current q stored /\ fst (observe (values (base q')) ev stored) y <> values (base q') y.
Proof. exact fixed_refuted. Qed.
Print Assumptions C100_fixed_refuted.
(** Observers registered at -inf with a part of the object that is set are not told of the part's new values. *)
Theorem C100_bottom_refuted : exists q x p q' ev y o, ex_hcareful q /\ hlegal q (Base (SetOptimizer x p)) /\ all_on (base q) x /\ in_init (st (base q)) x = false /\
  ex_hrun (Base (SetOptimizer x p)) q = (q', Ok ev) /\ (y < next (st (base q)))%nat /\ ready (st (base q)) y /\ ~ same_values (base q) (base q') y /\
  registered q y o = 1%nat /\ times y o ev = 0%nat.
Proof. exact bottom_refuted. Qed.
Print Assumptions C100_bottom_refuted.

(** ** C101 *)
(** What every Parameterized derives from its values in [parameters_changed] is current after every
    sequence of calls that set values or deal with observers, if it was before. *)
Theorem C101_current : forall V tinit tf tfinv junk cs q stored, hcarefully V tinit tf tfinv junk q -> each tinit tf tfinv settling cs q -> current q stored ->
  current (fst (fst (watch tinit tf tfinv cs q stored))) (snd (fst (watch tinit tf tfinv cs q stored))).
Proof. exact @settled_final. Qed.
Print Assumptions C101_current.
Example C101_example : ex_hcareful exh /\ each ex_init ex_f ex_finv settling ex_setting exh /\ current exh (values (base exh)) /\
  values (base exh) 4 = [Some 1; Some 2; Some 3; Some 4; Some 5] /\
  values (base (fst (fst (watch ex_init ex_f ex_finv ex_setting exh (values (base exh)))))) 4 <> values (base exh) 4.
Proof. exact ex_settled. Qed.
(** Writing to a Parameterized as a whole: for the parts that are not fixed (else: [C100_fixed_refuted]). *)
Theorem C101_assign_partial : forall V tinit tf tfinv junk q x g stored, hcarefully V tinit tf tfinv junk q -> hlegal q (Base (Assign x g)) -> all_on (base q) x -> in_init (st (base q)) x = false ->
  current q stored -> exists q' ev, hexec tinit tf tfinv (Base (Assign x g)) q = (q', Ok ev) /\
  forall y, (y < next (st (base q)))%nat -> ready (st (base q)) y -> kind (st (base q)) y = KNode -> ~ fixed (base q) y -> fst (observe (values (base q')) ev stored) y = values (base q') y.
Proof. exact @assign_current_final. Qed.
Print Assumptions C101_assign_partial.
Example C101_assign_example : ex_hcareful exf /\ hlegal exf (Base (Assign 4%nat (fun _ v => v + 1))) /\ all_on (base exf) 4 /\ in_init (st (base exf)) 4 = false /\
  ~ fixed (base exf) 4 /\ ~ same_values (base exf) (base (fst (ex_hrun (Base (Assign 4%nat (fun _ v => v + 1))) exf))) 4 /\ current exf (values (base exf)) /\
  events (Base (Assign 4%nat (fun _ v => v + 1))) exf = [Heard 4%nat 1; Ran 4%nat; Heard 4%nat 2].
Proof. exact ex_assign. Qed.

(** ** C102 *)
(** An observer of a model below its own update's priority reads, at every step of an optimizer, what
    the model derived from this step's parameters; *)
Theorem C102_low : forall V tinit tf tfinv junk ps q x o stored, hreachable V tinit tf tfinv junk q -> (x < next (st (base q)))%nat -> ready (st (base q)) x ->
  kind (st (base q)) x = KNode -> in_init (st (base q)) x = false -> all_on (base q) x -> registered q x o = 1%nat -> at_prio q x o below_own ->
  let cs := map (fun p => Base (SetOptimizer x p)) ps in
  readings x o (snd (watch tinit tf tfinv cs q stored)) = map (fun q' => values (base q') x) (afters tinit tf tfinv cs q).
Proof. exact @low_final. Qed.
Print Assumptions C102_low.
(** one above it, as the display of the optimization is, always what it derived from those of the step before. *)
Theorem C102_lags : forall V tinit tf tfinv junk ps q x o stored, hreachable V tinit tf tfinv junk q -> (x < next (st (base q)))%nat -> ready (st (base q)) x ->
  kind (st (base q)) x = KNode -> in_init (st (base q)) x = false -> all_on (base q) x -> registered q x o = 1%nat -> at_prio q x o above_own ->
  let cs := map (fun p => Base (SetOptimizer x p)) ps in
  readings x o (snd (watch tinit tf tfinv cs q stored)) = removelast (stored x :: map (fun q' => values (base q') x) (afters tinit tf tfinv cs q)).
Proof. exact @lags_final. Qed.
Print Assumptions C102_lags.
Example C102_example : ex_hreach exh /\ (4 < next (st (base exh)))%nat /\ ready (st (base exh)) 4 /\ kind (st (base exh)) 4 = KNode /\ in_init (st (base exh)) 4 = false /\ all_on (base exh) 4 /\
  registered exh 4 1 = 1%nat /\ at_prio exh 4 1 above_own /\ registered exh 4 2 = 1%nat /\ at_prio exh 4 2 below_own /\
  (let l := snd (watch ex_init ex_f ex_finv (map (fun p => Base (SetOptimizer 4%nat p)) [[1;2;3];[4;5;6];[7;8;9]]) exh (values (base exh))) in
   readings 4 1 l = [[Some 1; Some 2; Some 3; Some 4; Some 5]; [Some 8; Some 2; Some 3; Some 3; Some 5]; [Some 11; Some 5; Some 3; Some 6; Some 5]] /\
   readings 4 2 l = [[Some 8; Some 2; Some 3; Some 3; Some 5]; [Some 11; Some 5; Some 3; Some 6; Some 5]; [Some 14; Some 8; Some 3; Some 9; Some 5]]).
Proof. exact ex_display. Qed.
(** So what is displayed need not be what belongs to the parameters set. *)
Theorem C102_display_refuted : exists q x o p stored q' ev, ex_hreach q /\ hlegal q (Base (SetOptimizer x p)) /\ all_on (base q) x /\ in_init (st (base q)) x = false /\
  users q x = [(Fin 0, o)] /\ stored x = values (base q) x /\ ex_hrun (Base (SetOptimizer x p)) q = (q', Ok ev) /\
  readings x o (snd (observe (values (base q')) ev stored)) = [values (base q) x] /\ values (base q) x <> values (base q') x.
Proof. exact display_refuted. Qed.
Print Assumptions C102_display_refuted.

(** ** C103 *)
(** No call on the hierarchy, failing or not, changes which observers an object has, *)
Theorem C103_kept : forall V tinit tf tfinv q c y, (y < next (st (base q)))%nat -> users (fst (@hexec V tinit tf tfinv (Base c) q)) y = users q y.
Proof. exact @kept_final. Qed.
Print Assumptions C103_kept.
(** an object made by a call, also by copying one that has observers, has none, *)
Theorem C103_fresh : forall V tinit tf tfinv q c y, (next (st (base q)) <= y)%nat -> users (fst (@hexec V tinit tf tfinv (Base c) q)) y = [].
Proof. exact @fresh_final. Qed.
Print Assumptions C103_fresh.
(** [add_observer] adds one registration, behind those of the same or a higher priority, *)
Theorem C103_add : forall V tinit tf tfinv junk q x p o, hreachable V tinit tf tfinv junk q -> (x < next (st (base q)))%nat -> let q' := fst (hexec tinit tf tfinv (AddObserver x p o) q) in
  base q' = base q /\ (forall y, y <> x -> users q' y = users q y) /\
  exists a b, users q x = a ++ b /\ users q' x = a ++ (p, o) :: b /\ (forall e, In e a -> ~ higher p (fst e)) /\ (forall e, In e b -> higher p (fst e)).
Proof. exact @add_final. Qed.
Print Assumptions C103_add.
(** and [remove_observer] removes those of the observer. *)
Theorem C103_remove : forall V tinit tf tfinv q x o, let q' := fst (@hexec V tinit tf tfinv (RemoveObserver x o) q) in
  base q' = base q /\ (forall y, y <> x -> users q' y = users q y) /\ users q' x = filter (fun e => negb (Nat.eqb (snd e) o)) (users q x).
Proof. exact @remove_final. Qed.
Print Assumptions C103_remove.
Example C103_example : ex_hreach exh /\ users exh 4 = [(Fin 0, 1%nat); (Fin (-200), 2%nat)] /\ hlegal exh (Base (Unlink 4%nat 2%nat)) /\
  users (fst (ex_hrun (Base (Unlink 4%nat 2%nat)) exh)) 2 = [(Fin 5, 3%nat)] /\ hlegal exh (Base (Copy 4%nat)) /\ users (fst (ex_hrun (Base (Copy 4%nat)) exh)) 8 = [] /\
  users (fst (ex_hrun (AddObserver 4%nat (Fin 0) 9) exh)) 4 = [(Fin 0, 1%nat); (Fin 0, 9%nat); (Fin (-200), 2%nat)].
Proof. exact ex_users. Qed.
