(** Model of the optimization layer of a model: /repo/paramz/model.py (optimize, optimize_restarts,
    _grads, _objective, _objective_grads) and /repo/paramz/optimization/optimization.py
    (get_optimizer, the bookkeeping of Optimizer objects).

    Not modelled: the optimizers of scipy and climin themselves (a run is an arbitrary outcome),
    progress output. The parallel branch of optimize_restarts is in PaModel.v. *)
From Coq Require Import List NArith ZArith Bool String Ascii Arith.
Import ListNotations.
Open Scope list_scope.

(** ** get_optimizer; optimization.py:357-375 *)
Definition chars := list N.
Definition text (s : string) : chars := map N_of_ascii (list_ascii_of_string s).
(** [str.lower()] on ASCII characters. Simplification: other characters are left as they are. *)
Definition low (c : N) : N := if N.leb 65 c && N.leb c 90 then (c + 32)%N else c.
Definition lower (s : chars) : chars := map low s.
Fixpoint starts (p s : chars) : bool :=
  match p, s with
  | [], _ => true
  | a :: p', b :: s' => N.eqb a b && starts p' s'
  | _ :: _, [] => false
  end.
(** [s.find(p) != -1]. *)
Fixpoint finds (p s : chars) : bool := starts p s || match s with [] => false | _ :: r => finds p r end.
Inductive optimizer : Type := OptTnc | OptSimplex | OptLbfgsb | OptBfgs | OptScg | OptAdadelta | OptRprop | OptAdam.
(** The dict; optimization.py:359-366. *)
Definition optimizers : list (chars * optimizer) :=
  [(text "fmin_tnc", OptTnc); (text "simplex", OptSimplex); (text "lbfgsb", OptLbfgsb); (text "org-bfgs", OptBfgs);
   (text "scg", OptScg); (text "adadelta", OptAdadelta); (text "rprop", OptRprop); (text "adam", OptAdam)].
(** [sorted(...)]: insertion by the order of strings. *)
Fixpoint chars_le (a b : chars) : bool :=
  match a, b with
  | [], _ => true
  | _ :: _, [] => false
  | x :: a', y :: b' => N.ltb x y || (N.eqb x y && chars_le a' b')
  end.
Fixpoint insert_name (e : chars * optimizer) (l : list (chars * optimizer)) : list (chars * optimizer) :=
  match l with
  | [] => [e]
  | h :: t => if chars_le (fst e) (fst h) then e :: l else h :: insert_name e t
  end.
Definition sort_names (l : list (chars * optimizer)) : list (chars * optimizer) := fold_right insert_name [] l.
(** optimization.py:371-375; [None]: KeyError. *)
Definition get_optimizer (q : chars) : option optimizer :=
  match find (fun e => finds (lower q) (lower (fst e))) (sort_names optimizers) with
  | Some e => Some (snd e)
  | None => None
  end.

(** ** The three evaluation callbacks; model.py:225-282 *)
(** [LinAlgError], [ZeroDivisionError], [ValueError] and the others. *)
Inductive err : Type := LinAlgError | ZeroDivisionError | ValueError | OtherError (n : nat).
Definition caught (e : err) : bool := match e with OtherError _ => false | _ => true end.
(** What the user's code does in one evaluation: setting the parameters (which runs the updates), the
    objective, the gradients, and the gradients once more; each may raise. Values are arbitrary. *)
Record attempt (A : Type) : Type := mkAt {
  a_set : option err; a_obj : A + err; a_grad : A + err; a_again : A + err }.
Arguments mkAt {A}. Arguments a_set {A}. Arguments a_obj {A}. Arguments a_grad {A}. Arguments a_again {A}.
Inductive answer (A : Type) : Type :=
| Val (v : A)            (* the computed value, gradient or pair *)
| Both (f g : A)
| Inf                    (* np.inf *)
| Clip (g : A)           (* clipped gradients *)
| InfClip (g : A)
| Raised (e : err).
Arguments Val {A}. Arguments Both {A}. Arguments Inf {A}. Arguments Clip {A}. Arguments InfClip {A}. Arguments Raised {A}.
Inductive callback : Type := CObjective | CGrads | CObjectiveGrads.
(** [_allowed_failures]; model.py:52. *)
Definition allowed : nat := 10.
(** The except clauses: [k] is what follows the increment. *)
Definition fails {A : Type} (n : nat) (e : err) (k : nat -> nat * answer A) : nat * answer A :=
  if caught e then if allowed <=? n then (n, Raised e) else k (S n) else (n, Raised e).
Definition clip_again {A : Type} (a : attempt A) (k : A -> answer A) (n : nat) : nat * answer A :=
  match a_again a with inl g => (n, k g) | inr e => (n, Raised e) end.
(** model.py:248-269. *)
Definition objective {A : Type} (n : nat) (a : attempt A) : nat * answer A :=
  match a_set a with
  | Some e => fails n e (fun n' => (n', Inf))
  | None => match a_obj a with
            | inr e => fails n e (fun n' => (n', Inf))
            | inl v => (0, Val v)
            end
  end.
(** model.py:225-246. *)
Definition grads {A : Type} (n : nat) (a : attempt A) : nat * answer A :=
  match a_set a with
  | Some e => fails n e (clip_again a Clip)
  | None => match a_grad a with
            | inr e => fails n e (clip_again a Clip)
            | inl v => (0, Val v)
            end
  end.
(** model.py:271-282. *)
Definition objective_grads {A : Type} (n : nat) (a : attempt A) : nat * answer A :=
  match a_set a with
  | Some e => fails n e (clip_again a InfClip)
  | None => match a_obj a with
            | inr e => fails n e (clip_again a InfClip)
            | inl f => match a_grad a with
                       | inr e => fails n e (clip_again a InfClip)
                       | inl g => (0, Both f g)
                       end
            end
  end.
Definition evaluate {A : Type} (c : callback) (n : nat) (a : attempt A) : nat * answer A :=
  match c with CObjective => objective n a | CGrads => grads n a | CObjectiveGrads => objective_grads n a end.
(** A sequence of evaluations; the counter is an attribute of the model and is never reset between
    runs. *)
Fixpoint evaluations {A : Type} (n : nat) (l : list (callback * attempt A)) : nat :=
  match l with [] => n | (c, a) :: r => evaluations (fst (evaluate c n a)) r end.

(** ** optimize and optimize_restarts; model.py:65-190 *)
(** An objective value: a number (only the order matters), [nan], or [None]. *)
Inductive fval : Type := FNum (z : Z) | FNaN | FNone.
(** The objects of class Optimizer: [f_opt], [x_opt]. *)
Record oobj (X : Type) : Type := mkO { f_opt : fval; x_opt : X }.
Arguments mkO {X}. Arguments f_opt {X}. Arguments x_opt {X}.
(** [done]: what each completed run reported, only for the statements. *)
Record rst (X : Type) : Type := mkR { params : X; runs : list nat; obj : nat -> option (oobj X); nobj : nat; done : list (fval * X) }.
Arguments mkR {X}. Arguments params {X}. Arguments runs {X}. Arguments obj {X}. Arguments nobj {X}. Arguments done {X}.
(** A run of an optimizer from a start: it raises and leaves the parameters somewhere, or reports an
    objective and a point. *)
Inductive outcome (X : Type) : Type := Fails (e : nat) (rest : X) | Ends (f : fval) (x : X).
Arguments Fails {X}. Arguments Ends {X}.
Inductive rexn : Type := RunError (e : nat) | IndexError | TypeError.

(** [optimize]; model.py:65-116. [free]: there is something to optimize; [shared]: an Optimizer
    instance that the caller passed; [start]: a start point that the caller passed. A failed run of a
    passed instance leaves the instance as it was (simplification: some optimizers set [x_opt] before
    they fail). *)
Definition optimize {X : Type} (free : bool) (shared : option nat) (start : option X) (run : X -> outcome X) (s : rst X)
  : rst X * option rexn :=
  if negb free then (s, None) else
  let x0 := match start with Some x => x | None => params s end in
  let '(o, n) := match shared with Some o => (o, nobj s) | None => (nobj s, S (nobj s)) end in
  match run x0 with
  | Fails e rest => (mkR rest (runs s) (obj s) n (done s), Some (RunError e))
  | Ends f x => (mkR x (runs s ++ [o]) (fun q => if Nat.eqb q o then Some (mkO f x) else obj s q) n (done s ++ [(f, x)]), None)
  end.
(** One pass of the loop, without the handler; model.py:166-177. *)
Definition pass {X : Type} (free : bool) (shared : option nat) (start : option X) (rnd : X -> X) (run : X -> outcome X)
    (verbose first : bool) (s : rst X) : rst X * option rexn :=
  let s1 := if first then s else mkR (rnd (params s)) (runs s) (obj s) (nobj s) (done s) in
  match optimize free shared start run s1 with
  | (s2, None) => if verbose then match runs s2 with [] => (s2, Some IndexError) | _ => (s2, None) end else (s2, None)
  | r => r
  end.
(** The loop; model.py:166-182. The runs and random draws of pass [i] are [run i], [rnd i]. *)
Fixpoint passes {X : Type} (free : bool) (shared : option nat) (start : option X) (rnd : nat -> X -> X) (run : nat -> X -> outcome X)
    (verbose robust : bool) (k i : nat) (s : rst X) : rst X * option rexn :=
  match k with
  | O => (s, None)
  | S k' =>
      match pass free shared start (rnd i) (run i) verbose (Nat.eqb i 0) s with
      | (s1, None) => passes free shared start rnd run verbose robust k' (S i) s1
      | (s1, Some e) => if robust then passes free shared start rnd run verbose robust k' (S i) s1 else (s1, Some e)
      end
  end.
(** [np.argmin]: the first [nan] if there is one, else the first smallest; several [None] cannot be
    compared. *)
Fixpoint argmin_num (best : nat * Z) (i : nat) (l : list fval) : nat :=
  match l with
  | [] => fst best
  | FNum z :: r => argmin_num (if Z.ltb z (snd best) then (i, z) else best) (S i) r
  | _ :: _ => i
  end.
Definition is_none (f : fval) : bool := match f with FNone => true | _ => false end.
Definition argmin (l : list fval) : option nat :=
  if existsb is_none l then match l with [_] => Some 0 | _ => None end
  else match l with
       | FNum z :: r => Some (argmin_num (0, z) 1 r)
       | _ => Some 0
       end.
(** [optimize_restarts(n, robust, verbose, parallel=False)]; model.py:118-190. *)
Definition restarts {X : Type} (free : bool) (shared : option nat) (start : option X) (rnd : nat -> X -> X)
    (run : nat -> X -> outcome X) (verbose robust : bool) (n : nat) (s : rst X) : rst X * option rexn :=
  match passes free shared start rnd run verbose robust n 0 s with
  | (s1, None) =>
      let new := skipn (List.length (runs s)) (runs s1) in
      match new with
      | [] => (mkR (params s) (runs s1) (obj s1) (nobj s1) (done s1), None)
      | _ =>
          match argmin (map (fun o => match obj s1 o with Some b => f_opt b | None => FNone end) new) with
          | None => (s1, Some TypeError)
          | Some i =>
              match obj s1 (nth i new 0) with
              | Some b => (mkR (x_opt b) (runs s1) (obj s1) (nobj s1) (done s1), None)
              | None => (s1, Some TypeError)
              end
          end
      end
  | r => r
  end.
