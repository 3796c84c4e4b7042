(** Property theorems about checkgrad (C59, C67). *)
From Coq Require Import List ZArith Bool Lia Arith.
From Verif Require Import NpModel IndexOpsModel IndexOpsSpec PzModel PzSpec PzFinal PzEx CheckModel CheckSpec CheckProofs CheckEx.
Import ListNotations.
Open Scope Z_scope.

Notation reachable V tinit tf tfinv junk := (reach (V := V) tinit tf tfinv legal junk).

(** ** C59 *)
(** Not verbose: the values, the hierarchy and the constraints are as before, if the optimizer array
    is up to date and transforming is exact for the values. Missing from the full statement: these two
    conditions, see [C59_stale_refuted], and the gradient, see [C59_gradient_refuted]. *)
Theorem C59_values_partial : forall V W tinit tf tfinv tgrad (fobj : list V -> W) fgrad own junk, (forall l, length (fgrad l) = length l) ->
  forall g x ks target up down decide, reachable V tinit tf tfinv junk (gs g) -> checkable tf tfinv g x ks -> legal_target (st (gs g)) x target ->
  exists g' b, check_quick tf tfinv tgrad fobj fgrad own x target up down decide g = (g', inl b) /\
    st (gs g') = st (gs g) /\ ios (gs g') = ios (gs g) /\ values_kept (gs g) (gs g') x.
Proof. exact @quick_values. Qed.
Print Assumptions C59_values_partial.
Theorem C59_verbose_values_partial : forall V W tinit tf tfinv tgrad (fobj : list V -> W) fgrad own junk, (forall l, length (fgrad l) = length l) ->
  forall g x ks target up down decide, reachable V tinit tf tfinv junk (gs g) -> checkable tf tfinv g x ks -> legal_target (st (gs g)) x target ->
  exists g' b, check_verbose tf tfinv tgrad fobj fgrad own x target up down decide g = (g', inl b) /\
    st (gs g') = st (gs g) /\ ios (gs g') = ios (gs g) /\ values_kept (gs g) (gs g') x.
Proof. exact @verbose_values. Qed.
Print Assumptions C59_verbose_values_partial.
(** A model that is not initialised is not checked: the answer is no, and nothing happens. *)
Theorem C59_uninitialised : forall V W tf tfinv tgrad (fobj : list V -> W) fgrad own g x target up down decide decide1, inited (st (gs g)) x <> Some true ->
  check_quick tf tfinv tgrad fobj fgrad own x target up down decide g = (g, inl false) /\ check_verbose tf tfinv tgrad fobj fgrad own x target up down decide1 g = (g, inl false).
Proof. exact @not_checked. Qed.
Print Assumptions C59_uninitialised.
Example C59_uninitialised_example : ex_reach (from_start [NewParam [1;2]; NewNode [0]%nat false]) /\ inited (st (from_start [NewParam [1;2]; NewNode [0]%nat false])) 1 <> Some true.
Proof. split; [apply start_reach; vm_compute; reflexivity | vm_compute; discriminate]. Qed.
(** Verbose: with updates on, the gradient is as before, too. *)
Theorem C59_verbose_gradient_partial : forall V W tinit tf tfinv tgrad (fobj : list V -> W) fgrad own junk, (forall l, length (fgrad l) = length l) ->
  forall g x ks target up down decide, reachable V tinit tf tfinv junk (gs g) -> checkable tf tfinv g x ks -> legal_target (st (gs g)) x target ->
  forall l, all_on (gs g) x -> values_of (gs g) x l -> grad g = fgrad l ->
  exists g' b, check_verbose tf tfinv tgrad fobj fgrad own x target up down decide g = (g', inl b) /\ grad g' = grad g.
Proof. exact @verbose_gradient. Qed.
Print Assumptions C59_verbose_gradient_partial.
(** Not verbose: the gradient is as before if nothing is transformed, or if the model hands out a new
    array as its gradient. *)
Theorem C59_gradient_partial : forall V W tinit tf tfinv tgrad (fobj : list V -> W) fgrad own junk, (forall l, length (fgrad l) = length l) ->
  forall g x ks target up down decide, reachable V tinit tf tfinv junk (gs g) -> checkable tf tfinv g x ks -> legal_target (st (gs g)) x target ->
  forall l, all_on (gs g) x -> values_of (gs g) x l -> grad g = fgrad l -> own = false \/ (forall n k, ~ has (gs g) x (Tr n) k) ->
  exists g' b, check_quick tf tfinv tgrad fobj fgrad own x target up down decide g = (g', inl b) /\ grad g' = grad g.
Proof. exact @quick_gradient. Qed.
Print Assumptions C59_gradient_partial.
(** A model with a transformed, a free and two fixed elements, checked as a whole and in a part. *)
Example C59_example : cx_reach (gs cx) /\ checkable cx_t cx_t cx 4 [0;1;3] /\ has (gs cx) 4 (Tr 7) 0 /\
  legal_target (st (gs cx)) 4 None /\ legal_target (st (gs cx)) 4 (Some (3%nat, None)) /\ all_on (gs cx) 4 /\ values_of (gs cx) 4 [-1;2;3;4;5] /\ grad cx = cx_grad [-1;2;3;4;5] /\
  (forall l, length (cx_grad l) = length l).
Proof. exact cx_ok. Qed.
(** With a transformed element and the gradient handed out itself, the gradient is wrong afterwards. *)
Theorem C59_gradient_refuted : exists g g' b l, cx_reach (gs g) /\ checkable cx_t cx_t g 4 [0;1;3] /\ all_on (gs g) 4 /\ values_of (gs g) 4 l /\ grad g = cx_grad l /\
  check_quick cx_t cx_t cx_tgrad cx_obj cx_grad true 4 None cx_up cx_down cx_decide g = (g', inl b) /\
  values_of (gs g') 4 l /\ grad g' <> cx_grad l.
Proof. exact quick_gradient_refuted. Qed.
Print Assumptions C59_gradient_refuted.
(** With updates off also the verbose variant leaves a wrong gradient. *)
Theorem C59_off_refuted : exists g g' b l, cx_reach (gs g) /\ checkable cx_t cx_t g 4 [0;1;3] /\ values_of (gs g) 4 l /\ grad g = cx_grad l /\ updates (nt (gs g)) 4 = false /\
  check_verbose cx_t cx_t cx_tgrad cx_obj cx_grad true 4 None cx_up cx_down cx_decide1 g = (g', inl b) /\
  values_of (gs g') 4 l /\ grad g' <> cx_grad l.
Proof. exact off_gradient_refuted. Qed.
Print Assumptions C59_off_refuted.
(** Values assigned while updates were off are lost. *)
Theorem C59_stale_refuted : exists g g' b, cx_reach (gs g) /\ ~ has (gs g) 4 Fixed 0 /\
  check_quick cx_t cx_t cx_tgrad cx_obj cx_grad true 4 None cx_up cx_down cx_decide g = (g', inl b) /\
  value (gs g) 4 0 = Some 50 /\ value (gs g') 4 0 = Some (-1).
Proof. exact quick_stale_refuted. Qed.
Print Assumptions C59_stale_refuted.

(** ** C67 *)
(** The verdict compares the objective at the two sides of the current point with the transformed
    gradient at the current point, for the free elements of the target and no others; with nothing
    to check it is positive. *)
Theorem C67_verdict : forall V W tinit tf tfinv tgrad (fobj : list V -> W) fgrad own junk, (forall l, length (fgrad l) = length l) ->
  forall g x ks target up down decide, reachable V tinit tf tfinv junk (gs g) -> checkable tf tfinv g x ks -> legal_target (st (gs g)) x target -> all_on (gs g) x ->
  exists g' b p idx, check_quick tf tfinv tgrad fobj fgrad own x target up down decide g = (g', inl b) /\
    get_spec tfinv (gs g) x ks p /\ tested (gs g) x ks target idx /\
    ((idx = [] /\ target <> None /\ b = true) \/
     exists l d r, values_of (gs g) x l /\ grad_spec tgrad (gs g) x ks (fgrad l) d /\ picked idx d r /\
       compared tf fobj (gs g) x ks p up down idx (fun f1 f2 => decide f1 f2 r) b).
Proof. exact @quick_verdict. Qed.
Print Assumptions C67_verdict.
(** Verbose: one comparison for each of these elements, and the verdict is positive if all are. *)
Theorem C67_verbose_verdict : forall V W tinit tf tfinv tgrad (fobj : list V -> W) fgrad own junk, (forall l, length (fgrad l) = length l) ->
  forall g x ks target up down decide, reachable V tinit tf tfinv junk (gs g) -> checkable tf tfinv g x ks -> legal_target (st (gs g)) x target -> all_on (gs g) x ->
  exists g' p l d idx bs, check_verbose tf tfinv tgrad fobj fgrad own x target up down decide g = (g', inl (forallb (fun c => c) bs)) /\
    get_spec tfinv (gs g) x ks p /\ tested (gs g) x ks (Some match target with None => (x, None) | Some t => t end) idx /\
    values_of (gs g) x l /\ grad_spec tgrad (gs g) x ks (fgrad l) d /\
    Forall2 (fun k c => compared tf fobj (gs g) x ks p up down [k] (fun f1 f2 => decide f1 f2 (nth_error d (Z.to_nat k))) c) idx bs.
Proof. exact @verbose_verdict. Qed.
Print Assumptions C67_verbose_verdict.
(** The example of C59: a model that passes, and one with a wrong gradient that does not. *)
Example C67_example :
  snd (check_quick cx_t cx_t cx_tgrad cx_obj cx_grad true 4 None cx_up cx_down cx_decide cx) = inl true /\
  snd (check_quick cx_t cx_t cx_tgrad cx_obj cx_wrong true 4 None cx_up cx_down cx_decide cx) = inl false /\
  snd (check_verbose cx_t cx_t cx_tgrad cx_obj cx_grad true 4 None cx_up cx_down cx_decide1 cx) = inl true /\
  snd (check_verbose cx_t cx_t cx_tgrad cx_obj cx_wrong true 4 None cx_up cx_down cx_decide1 cx) = inl false /\
  snd (check_verbose cx_t cx_t cx_tgrad cx_obj cx_wrong true 4 (Some (3%nat, None)) cx_up cx_down cx_decide1 cx) = inl true.
Proof. exact cx_verdicts. Qed.
