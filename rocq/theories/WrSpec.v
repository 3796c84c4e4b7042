(** Vocabulary for the properties of the optimizer classes. *)
From Coq Require Import List ZArith Bool String Ascii.
From Verif Require Import RunModel WrModel.
Import ListNotations.
Open Scope Z_scope.

(** How a run ended. *)
Inductive kind : Type := KConverged | KLimit | KStuck | KConstant | KInfeasible | KAborted | KNaN | KOther.
(** The return codes as scipy documents them: fmin_tnc, fmin_l_bfgs_b, fmin_bfgs, fmin. *)
Inductive documented : optimizer -> Z -> kind -> Prop :=
| d_tnc_infeasible : documented OptTnc (-1) KInfeasible
| d_tnc_local : documented OptTnc 0 KConverged
| d_tnc_f : documented OptTnc 1 KConverged
| d_tnc_x : documented OptTnc 2 KConverged
| d_tnc_max : documented OptTnc 3 KLimit
| d_tnc_ls : documented OptTnc 4 KStuck
| d_tnc_const : documented OptTnc 5 KConstant
| d_tnc_progress : documented OptTnc 6 KStuck
| d_tnc_abort : documented OptTnc 7 KAborted
| d_l_conv : documented OptLbfgsb 0 KConverged
| d_l_max : documented OptLbfgsb 1 KLimit
| d_l_other : documented OptLbfgsb 2 KOther
| d_b_conv : documented OptBfgs 0 KConverged
| d_b_max : documented OptBfgs 1 KLimit
| d_b_stuck : documented OptBfgs 2 KStuck
| d_b_nan : documented OptBfgs 3 KNaN
| d_s_conv : documented OptSimplex 0 KConverged
| d_s_maxf : documented OptSimplex 1 KLimit
| d_s_maxi : documented OptSimplex 2 KLimit.
(** The codes the classes know how to report. *)
Definition reportable (c : optimizer) (code : Z) : Prop :=
  match c with OptTnc => 0 <= code <= 5 | OptBfgs => 1 <= code <= 2 | _ => True end.
(** What a reader of a status understands; an empty one says nothing. *)
Definition reads (t : string) : option kind :=
  if existsb (String.eqb t) ["Local minimum"; "Converged"; "XConverged"]%string then Some KConverged
  else if prefix "Maximum number of" t then Some KLimit
  else if existsb (String.eqb t) ["Line search failed"; "Gradient and/or function calls not changing"]%string then Some KStuck
  else if String.eqb t "Function is constant" then Some KConstant
  else if prefix "Error" t then Some KOther else None.

(** The optimizers of climin and those of scipy. *)
Definition of_climin (c : optimizer) : Prop := c = OptAdadelta \/ c = OptRprop \/ c = OptAdam.
Definition of_scipy (c : optimizer) : Prop := c = OptTnc \/ c = OptLbfgsb \/ c = OptBfgs \/ c = OptSimplex.

(** The tolerances: what the user gave and what reaches the routine. *)
Inductive tol : Type := Ftol | Gtol | Xtol.
Definition gave {A} (g : given A) (t : tol) : option A := match t with Ftol => g_ftol g | Gtol => g_gtol g | Xtol => g_xtol g end.
Definition gets {A} (p : passed A) (t : tol) : option A := match t with Ftol => p_ftol p | Gtol => p_gtol p | Xtol => p_xtol p end.
Definition tol_name (t : tol) : oname := match t with Ftol => NFtol | Gtol => NGtol | Xtol => NXtol end.
(** The limits a routine gets. *)
Definition limits {A} (p : passed A) : list Z :=
  match p_maxfun p with Some n => [n] | None => [] end ++ match p_maxiter p with Some n => [n] | None => [] end.
(** What the routine is called with, for given arguments of the constructor. *)
Definition call_of {A} (c : optimizer) (g : given A) : passed A := fst (invoke c (init g)).
