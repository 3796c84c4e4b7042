(** Properties C08-C11 and C61: observers. *)
From Coq Require Import List ZArith Bool.
From Verif Require Import ObserversModel ObserversSpec ObserversProofs.
Import ListNotations.
Open Scope Z_scope.

Definition ex_hist : list oop :=
  [ OAddO (Fin 0) 1 10; OAddO (Fin (-100)) 2 20; OAddO NegInf 3 30; OAddO (Fin 0) 4 40;
    OAddO (Fin 5) 1 11; OKill 2; ORemO 1 (Some 10%nat); OAddO (Fin 0) 1 10; OChP 4 40 (Fin 7) ].
Lemma ex_hist_legal : legal_from [] ex_hist.
Proof. simpl; intuition discriminate. Qed.
Example ex_hist_registered :
  registered (orun onew ex_hist) = [mkE (Fin 7) 4 40; mkE (Fin 5) 1 11; mkE (Fin 0) 1 10; mkE NegInf 3 30].
Proof. reflexivity. Qed.

(** C08. *)
Theorem C08_priority_order : forall l, legal_from [] l ->
  stable_by_priority (registered (orun onew l)) (log_of l).
Proof. exact order_inv. Qed.
Print Assumptions C08_priority_order.
Example C08_example : legal_from [] ex_hist /\
  log_of ex_hist = [mkE NegInf 3 30; mkE (Fin 5) 1 11; mkE (Fin 0) 1 10; mkE (Fin 7) 4 40].
Proof. split; [exact ex_hist_legal | reflexivity]. Qed.

(** C09 (callbacks that do not touch the observable) and C11 (callbacks that do: the k-th
    callback of the round performs the operations [script k]).  The calls made are those
    registered when the round started; afterwards the state is what the operations of the
    callbacks made of it. *)
Theorem C09_notify_exact : forall l self which minp fuel, legal_from [] l ->
  let s := orun onew l in
  (length (registered s) < fuel)%nat ->
  option_map fst (notify_observers fuel self which minp (fun _ => []) s) =
  Some (if updates s then
          map (fun e => (e_cb e, self, match which with Some w => w | None => self end))
              (filter (fun e => match minp with Some m => prio_gtb (e_prio e) m | None => true end)
                      (registered s))
        else []).
Proof. exact notify_calls. Qed.
Print Assumptions C09_notify_exact.
Example C09_example : legal_from [] ex_hist /\
  option_map fst (notify_observers 9 77 None (Some (Fin 0)) (fun _ => []) (orun onew ex_hist))
  = Some [(40%nat, 77%nat, 77%nat); (11%nat, 77%nat, 77%nat)].
Proof. split; [exact ex_hist_legal | reflexivity]. Qed.

(** C10. *)
Theorem C10_remove_exact : forall s o c,
  registered (remove_observer s o c) =
  filter (fun e => negb (Nat.eqb (e_obs e) o && match c with Some k => Nat.eqb (e_cb e) k | None => true end))
         (registered s).
Proof. exact remove_exact. Qed.
Print Assumptions C10_remove_exact.

Theorem C10_change_priority_exact : forall s o c p, alive s o = true ->
  let s' := change_priority s o c p in
  filter (fun e => Nat.eqb (e_obs e) o && Nat.eqb (e_cb e) c) (registered s') = [mkE p o c] /\
  filter (fun e => negb (Nat.eqb (e_obs e) o && Nat.eqb (e_cb e) c)) (registered s') =
  filter (fun e => negb (Nat.eqb (e_obs e) o && Nat.eqb (e_cb e) c)) (registered s).
Proof. exact change_exact. Qed.
Print Assumptions C10_change_priority_exact.
Example C10_example : alive (orun onew ex_hist) 1 = true /\
  registered (remove_observer (orun onew ex_hist) 1 None) = [mkE (Fin 7) 4 40; mkE NegInf 3 30] /\
  registered (change_priority (orun onew ex_hist) 1 11 (Fin 0))
    = [mkE (Fin 7) 4 40; mkE (Fin 0) 1 10; mkE (Fin 0) 1 11; mkE NegInf 3 30].
Proof. repeat split. Qed.

(** C11. *)
Theorem C11_snapshot : forall l self which minp script fuel, legal_from [] l ->
  let s := orun onew l in
  (length (registered s) < fuel)%nat ->
  notify_observers fuel self which minp script s =
  if updates s then
    let targets := filter (fun e => match minp with Some m => prio_gtb (e_prio e) m | None => true end)
                          (registered s) in
    Some (map (fun e => (e_cb e, self, match which with Some w => w | None => self end)) targets,
          orun (flush s) (concat (map script (seq 0 (length targets)))))
  else Some ([], s).
Proof. exact notify_reached. Qed.
Print Assumptions C11_snapshot.
(** The first callback removes every other observer and registers a new one; all old ones are
    still called in this round, only the new one in the next. *)
Definition ex_script (k : nat) : list oop :=
  match k with
  | O => [ORemO 1 None; ORemO 3 None; ORemO 4 None; OAddO (Fin 99) 8 80; OIter]
  | _ => []
  end.
Example C11_example : legal_from [] ex_hist /\
  option_map (fun r => (map (fun c => fst (fst c)) (fst r), registered (snd r)))
    (notify_observers 9 77 None None ex_script (orun onew ex_hist))
  = Some ([40; 11; 10; 30]%nat, [mkE (Fin 99) 8 80]).
Proof. split; [exact ex_hist_legal | reflexivity]. Qed.

(** C61: wrapping an observable array again with ObsAr(a) drops its observers. *)
Theorem C61_rewrap_keeps_observers_refuted : exists l, legal_from [] l /\
  registered (orun onew l) <> [] /\ registered (rewrap (orun onew l)) = [].
Proof. exists [OAddO (Fin 0) 1 10]. split; [simpl; tauto | split; [discriminate | reflexivity]]. Qed.
Print Assumptions C61_rewrap_keeps_observers_refuted.
