(** Model of SCG, /repo/paramz/optimization/scg.py:44-174.

    [f] and [gradf] are arbitrary functions on real vectors (lists). Simplifications: reals instead
    of floating point numbers; division by zero and its consequences (inf, nan) are not followed:
    the run then has no result ([None]); gradients are values, not array objects (an [np.ndarray]
    returned twice by [gradf] and changed in between is outside this model: see OwModel); [optargs] is empty.
    Two ghost fields record what was done: [calls], the evaluations in order (latest first), and
    [steps], the quantities of each iteration (latest first). *)
From Coq Require Import List Reals Arith.
Import ListNotations.
Open Scope R_scope.

Definition vec := list R.
(** [np.dot(a,b)], [a+b], [a-b], [s*a], [-a], [np.max(np.abs(a))] on vectors of equal length. *)
Fixpoint dot (a b : vec) : R :=
  match a, b with x :: a', y :: b' => x * y + dot a' b' | _, _ => 0 end.
Fixpoint vadd (a b : vec) : vec :=
  match a, b with x :: a', y :: b' => (x + y) :: vadd a' b' | _, _ => [] end.
Definition vscale (s : R) (a : vec) : vec := map (Rmult s) a.
Definition vneg (a : vec) : vec := map Ropp a.
Definition vsub (a b : vec) : vec := vadd a (vneg b).
Definition maxabs (a : vec) : R := fold_right (fun x m => Rmax (Rabs x) m) 0 a.
Definition rdiv (a b : R) : option R := if Req_EM_T b 0 then None else Some (a / b).

(** Values of [status]; scg.py:135, 139, 150, 172. *)
Inductive status : Type := ConvObjective | ConvStep | ConvGradient | MaxIter.

Inductive evaluation : Type := CallF (x : vec) | CallG (x : vec).
(** Ghost: what iteration used: point, direction, mu, delta, alpha and the scale after it. *)
Record stepinfo : Type := mkI { i_x : vec; i_d : vec; i_mu : R; i_delta : R; i_alpha : R; i_beta : R }.

(** The local variables; scg.py:65-85. [mu], [kappa], [theta] are unbound before the first
    iteration, which sets them because [success] is True; here they start as 0. *)
Record st : Type := mkS {
  x : vec; fold : R; gradnew : vec; gradold : vec; d : vec; success : bool; nsuccess : nat;
  beta : R; mu : R; kappa : R; theta : R; flog : list R; fevals : nat;
  calls : list evaluation; steps : list stepinfo }.

Definition sigma0 : R := / 10 ^ 7.
Definition betamin : R := / 10 ^ 15.
Definition betamax : R := 10 ^ 15.

Section SCG.
Variable f : vec -> R.
Variable gradf : vec -> vec.
Variables xtol ftol gtol : R.

(** Lines 66-85. *)
Definition start (x0 : vec) : st :=
  let fold := f x0 in
  let g := gradf x0 in
  mkS x0 fold g g (vneg g) true 0 1 0 0 0 [fold] 2 [CallG x0; CallF x0] [].

(** Lines 91-101: first and second directional derivatives. *)
Definition directional (s : st) : option st :=
  if success s then
    let m0 := dot (d s) (gradnew s) in
    let d' := if Rle_dec 0 m0 then vneg (gradnew s) else d s in
    let m := if Rle_dec 0 m0 then dot d' (gradnew s) else m0 in
    let k := dot d' d' in
    match rdiv sigma0 (sqrt k) with
    | None => None
    | Some sigma =>
        let xplus := vadd (x s) (vscale sigma d') in
        let gplus := gradf xplus in
        match rdiv (dot d' (vsub gplus (gradnew s))) sigma with
        | None => None
        | Some t =>
            Some (mkS (x s) (fold s) (gradnew s) (gradold s) d' (success s) (nsuccess s) (beta s)
                      m k t (flog s) (S (fevals s)) (CallG xplus :: calls s) (steps s))
        end
    end
  else Some s.

(** Lines 104-107: effective curvature and scale. *)
Definition curvature (s : st) : option (R * R) :=
  let delta := theta s + beta s * kappa s in
  if Rle_dec delta 0 then
    match rdiv (theta s) (kappa s) with
    | None => None
    | Some q => Some (beta s * kappa s, beta s - q)
    end
  else Some (delta, beta s).

(** Lines 155-158: adjust the scale. *)
Definition adjust (Delta b : R) : R :=
  let b1 := if Rlt_dec Delta (1 / 4) then Rmin (4 * b) betamax else b in
  if Rlt_dec (3 / 4) Delta then Rmax (1 / 4 * b1) betamin else b1.

(** One pass through the loop body; lines 88-168. [inr] is a break with a status. *)
Definition body (s0 : st) : option (st + st * status) :=
  match directional s0 with
  | None => None
  | Some s =>
  match curvature s with
  | None => None
  | Some (delta, b) =>
  match rdiv (- mu s) delta with
  | None => None
  | Some alpha =>
  let xnew := vadd (x s) (vscale alpha (d s)) in
  let fnew := f xnew in
  match rdiv (2 * (fnew - fold s)) (alpha * mu s) with
  | None => None
  | Some Delta =>
  let ok := if Rle_dec 0 Delta then true else false in
  let x' := if ok then xnew else x s in
  let fnow := if ok then fnew else fold s in
  let ns := if ok then S (nsuccess s) else nsuccess s in
  let log' := flog s ++ [fnow] in
  let info b' := mkI (x s) (d s) (mu s) delta alpha b' in
  let calls1 := CallF xnew :: calls s in
  let brk stat := Some (inr (mkS x' (fold s) (gradnew s) (gradold s) (d s) ok ns b (mu s) (kappa s)
                                 (theta s) log' (S (fevals s)) calls1 (info b :: steps s), stat)) in
  (* lines 154-168, with the gradients, objective and counters after the convergence tests *)
  let continue (go gn : vec) (fo : R) (ev : nat) (cl : list evaluation) :=
    let b2 := adjust Delta b in
    if Nat.eqb ns (length x') then
      Some (inl (mkS x' fo gn go (vneg gn) ok 0 1 (mu s) (kappa s) (theta s) log' ev cl
                     (info 1 :: steps s)))
    else if ok then
      match rdiv (dot (vsub go gn) gn) (mu s) with
      | None => None
      | Some Gamma =>
          Some (inl (mkS x' fo gn go (vsub (vscale Gamma (d s)) gn) ok ns b2 (mu s) (kappa s)
                         (theta s) log' ev cl (info b2 :: steps s)))
      end
    else
      Some (inl (mkS x' fo gn go (d s) ok ns b2 (mu s) (kappa s) (theta s) log' ev cl
                     (info b2 :: steps s))) in
  if ok then
    if Rlt_dec (Rabs (fnew - fold s)) ftol then brk ConvObjective
    else if Rlt_dec (maxabs (vscale alpha (d s))) xtol then brk ConvStep
    else
      let gn := gradf x' in
      if Rle_dec (dot gn gn) gtol then
        Some (inr (mkS x' fnew gn (gradnew s) (d s) ok ns b (mu s) (kappa s) (theta s) log'
                       (S (S (fevals s))) (CallG x' :: calls1) (info b :: steps s), ConvGradient))
      else continue (gradnew s) gn fnew (S (S (fevals s))) (CallG x' :: calls1)
  else continue (gradold s) (gradnew s) (fold s) (S (fevals s)) calls1
  end end end end.

(** The loop with its else branch; lines 88, 169-172. *)
Fixpoint loop (maxiters : nat) (s : st) : option (st * status) :=
  match maxiters with
  | O => Some (s, MaxIter)
  | S n =>
      match body s with
      | None => None
      | Some (inr r) => Some r
      | Some (inl s') => loop n s'
      end
  end.

(** [SCG(f, gradf, x, (), maxiters, max_f_eval, xtol, ftol, gtol)]; the defaults of the tolerances
    (lines 58-63) are values of the arguments here. *)
Definition SCG (x0 : vec) (maxiters : nat) (max_f_eval : nat) : option (st * status) :=
  loop maxiters (start x0).
End SCG.
