(** Model of the optimizer classes: /repo/paramz/optimization/optimization.py:30-354.

    An optimizer object is what its constructor stores; [opt] hands options to a routine of scipy, climin or
    paramz and records what that returns. The routines are arbitrary: an [answer] is whatever came back.

    Simplifications: numbers and points are of any type; the time is left out; evaluating the objective at the
    point found does not fail; [assert]s that the evaluation functions are given hold (model.py:111 gives
    all of them); a routine itself does not fail. *)
From Coq Require Import List ZArith Bool String.
From Verif Require Import RunModel.
Import ListNotations.
Open Scope Z_scope.

Section Wr.
Context {A X : Type}.

(** Arguments of the constructor that a user gave; optimization.py:30-31. *)
Record given : Type := mkG { g_max_f_eval : option Z; g_max_iters : Z; g_ftol : option A; g_gtol : option A; g_xtol : option A; g_bfgs : option A }.
(** Attributes; optimization.py:32-47. *)
Record attrs : Type := mkA { max_f_eval : Z; max_iters : Z; ftol : option A; gtol : option A; xtol : option A; bfgs_factor : option A }.
Definition init (g : given) : attrs := mkA (g_max_iters g) (g_max_iters g) (g_ftol g) (g_gtol g) (g_xtol g) (g_bfgs g).

(** What the routine is called with ([None]: its own default), and the options whose being ignored is announced. *)
Inductive oname : Type := NMaxFEval | NFtol | NGtol | NXtol | NBfgs.
Record passed : Type := mkP { p_maxfun : option Z; p_maxiter : option Z; p_ftol : option A; p_gtol : option A; p_xtol : option A; p_factr : option A }.
Definition told (o : option A) (n : oname) : list oname := match o with Some _ => [n] | None => [] end.
(** optimization.py: tnc 85-94; lbfgsb 114-124; bfgs 146-155; simplex 173-182; SCG 234-238; Adadelta 268-276,
    RProp 298-312, Adam 340-354, where the limit is checked by the loop (see [climin]). *)
Definition invoke (c : optimizer) (a : attrs) : passed * list oname :=
  match c with
  | OptTnc => (mkP (Some (max_f_eval a)) None (ftol a) (gtol a) (xtol a) None, [])
  | OptLbfgsb => (mkP (Some (max_iters a)) (Some (max_iters a)) None (gtol a) None (bfgs_factor a), told (xtol a) NXtol ++ told (ftol a) NFtol)
  | OptBfgs => (mkP None (Some (max_iters a)) None (gtol a) None None, told (xtol a) NXtol ++ told (ftol a) NFtol)
  | OptSimplex => (mkP (Some (max_f_eval a)) None (ftol a) None (xtol a) None, told (gtol a) NGtol)
  | OptScg => (mkP (Some (max_f_eval a)) (Some (max_iters a)) (ftol a) (gtol a) (xtol a) None, [])
  | OptAdadelta | OptRprop | OptAdam => (mkP None (Some (max_iters a)) None None None None, [])
  end.
(** What constructor and run announce: also the warning of SCG's constructor; optimization.py:224-225. *)
Definition announced (c : optimizer) (g : given) : list oname :=
  match c, g_max_f_eval g with OptScg, Some _ => [NMaxFEval] | _, _ => [] end ++ snd (invoke c (init g)).

(** What a routine returned: point, objective, number of evaluations, return code, log of objectives and
    status text (SCG) or message (lbfgsb). *)
Record answer : Type := mkAns { r_x : X; r_f : A; r_count : Z; r_code : Z; r_log : list A; r_text : string }.
(** What is recorded. *)
Record fields : Type := mkF { x_opt : option X; f_opt : option A; funct_eval : option Z; status : option string }.
(** [l[i]] of a Python list. *)
Definition pyindex (l : list string) (i : Z) : option string :=
  let n := Z.of_nat (List.length l) in
  if i <? 0 then if - n <=? i then nth_error l (Z.to_nat (n + i)) else None else nth_error l (Z.to_nat i).
(** optimization.py:80-81, 110, 144, 171. *)
Definition tnc_texts : list string :=
  ["Local minimum"; "Converged"; "XConverged"; "Maximum number of f evaluations reached"; "Line search failed"; "Function is constant"]%string.
Definition lbfgsb_texts : list string := ["Converged"; "Maximum number of f evaluations reached"; "Error"]%string.
Definition bfgs_texts : list string := [""; "Maximum number of iterations exceeded"; "Gradient and/or function calls not changing"]%string.
Definition simplex_texts : list string := ["Converged"; "Maximum number of function evaluations made"; "Maximum number of iterations reached"]%string.
(** The end of [opt]; the flag tells whether it raised an IndexError. [obj]: the objective, evaluated once more by
    [f_fp(self.x_opt)[0]]. optimization.py: tnc 95-98; lbfgsb 125-132; bfgs 156-159; simplex 184-188; SCG 240-244 (the
    log is not empty); Adadelta 272-273, RProp 308-309, Adam 350-351. *)
Definition by_code (x : X) (f : A) (n : Z) (texts : list string) (code : Z) : fields * bool :=
  match pyindex texts code with
  | Some t => (mkF (Some x) (Some f) (Some n) (Some t), false)
  | None => (mkF (Some x) (Some f) (Some n) None, true)
  end.
Definition record (c : optimizer) (obj : X -> A) (r : answer) : fields * bool :=
  match c with
  | OptTnc => by_code (r_x r) (obj (r_x r)) (r_count r) tnc_texts (r_code r)
  | OptLbfgsb =>
      let (f, e) := by_code (r_x r) (obj (r_x r)) (r_count r) lbfgsb_texts (r_code r) in
      if negb e && (r_code r =? 2) then (mkF (x_opt f) (f_opt f) (funct_eval f) (Some ("Error" ++ r_text r)%string), e) else (f, e)
  | OptBfgs => by_code (r_x r) (obj (r_x r)) (r_count r) bfgs_texts (r_code r)
  | OptSimplex => by_code (r_x r) (r_f r) (r_count r) simplex_texts (r_code r)
  | OptScg => (mkF (Some (r_x r)) (Some (List.last (r_log r) (r_f r))) (Some (r_count r)) (Some (r_text r)), false)
  | OptAdadelta => (mkF (Some (r_x r)) None None (Some "maximum number of function evaluations exceeded "%string), false)
  | OptRprop | OptAdam => (mkF (Some (r_x r)) None None (Some "maximum number of function evaluations exceeded"%string), false)
  end.
(** [for info in opt: if info['n_iter'] >= max_iters: ... break]: the number of steps made; the first step has
    number [n0]. optimization.py:270-274, 306-310, 348-352. [None]: still running. *)
Fixpoint climin (fuel : nat) (n0 limit : Z) : option nat :=
  match fuel with
  | O => None
  | S f => if limit <=? n0 then Some 1%nat else match climin f (n0 + 1) limit with Some k => Some (S k) | None => None end
  end.
(** [str(opt)] works: every field it formats with a number format is a number; optimization.py:58-64. *)
Definition printable (f : fields) : bool :=
  match f_opt f, funct_eval f with Some _, Some _ => true | _, _ => false end.
End Wr.
Arguments mkG {A}. Arguments given : clear implicits. Arguments answer : clear implicits. Arguments fields : clear implicits. Arguments passed : clear implicits. Arguments attrs : clear implicits.
