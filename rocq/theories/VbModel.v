(** Model of the display of an optimization: /repo/paramz/optimization/verbose_optimization.py:43-231, outside of
    notebooks, with messages on, as [optimize] uses it (model.py:110-111).

    Simplifications: times are rational numbers, not floats; what is printed apart from the time is not
    modelled ([Heard] stands for one call of [print_status], which counts one iteration); the routine is any
    sequence of calls on the hierarchy. *)
From Coq Require Import List ZArith Bool Arith.
From Verif Require Import PzModel HkModel.
Import ListNotations.
Open Scope Z_scope.

(** The time string, by its numbers: ss s cc; mm m ss s cc; hh h mm m ss; dd d hh h mm. *)
Inductive shown : Type := SecCent (s c : Z) | MinSecCent (m s c : Z) | HourMinSec (h m s : Z) | DayHourMin (d h m : Z).
(** [print_out(p / q)]; verbose_optimization.py:121-139. [/] and [mod] are Python's [divmod]. *)
Definition timestring (p q : Z) : shown :=
  let cent := p mod q * 100 / q in
  if p <? 60 * q then SecCent (p / q) cent
  else
    let m := p / (60 * q) in let s := p mod (60 * q) / q in
    if 59 <? m then
      let h := m / 60 in let m := m mod 60 in
      if 23 <? h then DayHourMin (h / 24) (h mod 24) m else HourMinSec h m s
    else MinSecCent m s cent.

Section Vb.
Context {V : Type}.
Variables tinit tf tfinv : nat -> V -> V.
(** A sequence of calls, with all that they called. *)
Fixpoint hexecs (cs : list hcall) (q : @hstate V) : @hstate V * list event :=
  match cs with
  | [] => (q, [])
  | c :: r =>
      let (q1, e) := hexec tinit tf tfinv c q in
      let (q2, ev) := hexecs r q1 in (q2, match e with Ok l => l ++ ev | Er _ => ev end)
  end.
(** The [with] statement of [optimize]: the display [vo] registers with the model [x] (verbose_optimization.py:54;
    priority 0 is the default of add_observer, observable.py:49), evaluates the objective (58, 198), which may fail
    ([evaluates = false]); then the run, whether or not it raises; then [__exit__] removes the display (214).
    The events are those of the run. *)
Definition displayed (x : oid) (vo : nat) (evaluates : bool) (run : list hcall) (q : @hstate V) : @hstate V * list event :=
  let q1 := fst (hexec tinit tf tfinv (AddObserver x (Fin 0) vo) q) in
  if evaluates then
    let (q2, ev) := hexecs run q1 in (fst (hexec tinit tf tfinv (RemoveObserver x vo) q2), ev)
  else (q1, []).
End Vb.
