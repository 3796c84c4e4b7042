(** Model of what passes between a model and SCG: which arrays are new and which are the model's own.

    Files modelled: /repo/paramz/optimization/scg.py:44-174 once more, now with array objects;
    core/parameter_core.py:66-124 and 143-152, model.py:65-116, 118-190, 206-269.

    [optimizer_array] returns [_optimizer_copy_] itself, and [_grads] the gradient array of the model
    itself, unless an element is fixed; in that case indexing by the mask makes new arrays. ScgModel
    takes points and gradients as values; here they are arrays that may change while SCG holds them.

    Simplifications: as in ScgModel; the model's [parameters_changed] is a function [raw] that
    stores gradients in place (GmModel has the memory of hierarchies) and does not read
    [optimizer_array]; [objective_function_gradients] is the default one; the mask of free elements is
    up to date (C34); vectors have the right length (others raise, C65); a constraint acts on each of its
    elements alone; a run that divides by zero has no result, nor has then the call that made it. *)
From Coq Require Import List Reals Bool Arith.
From Verif Require Import ScgModel.
Import ListNotations.
Open Scope R_scope.

(** An element: free or fixed, and [f], [finv], [gradfactor] of its constraint (identities and
    [fun _ g => g] without one; constraints/transformations: see TransformModel). *)
Record elem : Type := mkEl { efree : bool; ef : R -> R; efinv : R -> R; egrad : R -> R -> R }.

(** [optimizer_array = v]: what becomes of the parameters; parameter_core.py:103-121. *)
Fixpoint put (E : list elem) (v p : vec) : vec :=
  match E, p with
  | e :: E', q :: p' => if efree e then ef e (hd 0 v) :: put E' (tl v) p' else q :: put E' v p'
  | _, _ => p
  end.
(** The optimizer copy; parameter_core.py:83-88. *)
Fixpoint untransformed (E : list elem) (p : vec) : vec :=
  match E, p with e :: E', q :: p' => efinv e q :: untransformed E' p' | _, _ => p end.
(** [a[self._fixes_]]; parameter_core.py:92 and 151. *)
Fixpoint pick_free (E : list elem) (a : vec) : vec :=
  match E, a with e :: E', q :: a' => if efree e then q :: pick_free E' a' else pick_free E' a' | _, _ => [] end.
(** The factors of the constraints; parameter_core.py:150. *)
Fixpoint chained (E : list elem) (p g : vec) : vec :=
  match E, p, g with e :: E', q :: p', h :: g' => egrad e q h :: chained E' p' g' | _, _, _ => g end.
(** [_has_fixes()]. *)
Definition has_fixes (E : list elem) : bool := existsb (fun e => negb (efree e)) E.

(** Arrays by identity; the parameters; [_optimizer_copy_] and [_optimizer_copy_transformed]; the array of
    gradients. [made]: ghost, evaluations made. *)
Record world : Type := mkW {
  cells : nat -> vec; nexta : nat; params : vec; ocopy : option nat; ofresh : bool; garr : nat; made : nat }.
Definition set_cell (w : world) (a : nat) (v : vec) : world :=
  mkW (fun b => if Nat.eqb b a then v else cells w b) (nexta w) (params w) (ocopy w) (ofresh w) (garr w) (made w).
(** A new array. *)
Definition alloc (w : world) (v : vec) : world * nat :=
  (mkW (fun b => if Nat.eqb b (nexta w) then v else cells w b) (S (nexta w)) (params w) (ocopy w) (ofresh w) (garr w) (made w), nexta w).
Definition count (w : world) : world := mkW (cells w) (nexta w) (params w) (ocopy w) (ofresh w) (garr w) (S (made w)).

Section Model.
Variable E : list elem.
Variable obj : vec -> R.       (* [objective_function], of the parameters *)
Variable raw : vec -> vec.     (* what [parameters_changed] stores as gradients *)

(** [self.optimizer_array]: returns an array; parameter_core.py:80-93. *)
Definition read_array (w : world) : world * nat :=
  let (w1, c) := match ocopy w with
                 | Some c => (w, c)
                 | None => let (w1, c) := alloc w [] in
                           (mkW (cells w1) (nexta w1) (params w1) (Some c) (ofresh w1) (garr w1) (made w1), c)
                 end in
  let w2 := if ofresh w1 then w1
            else let w' := set_cell w1 c (untransformed E (params w1)) in
                 mkW (cells w') (nexta w') (params w') (ocopy w') true (garr w') (made w') in
  if has_fixes E then alloc w2 (pick_free E (cells w2 c)) else (w2, c).
(** [self.optimizer_array = v]; parameter_core.py:103-124. The update stores the gradients. *)
Definition set_array (w : world) (v : vec) : world :=
  let p := put E v (params w) in
  let w1 := set_cell w (garr w) (raw p) in
  mkW (cells w1) (nexta w1) p (ocopy w1) false (garr w1) (made w1).
(** [self._objective(v)]; model.py:248-269, without failures (C49). *)
Definition objective (w : world) (v : vec) : world * R :=
  let w1 := count (set_array w v) in (w1, obj (params w1)).
(** [self._grads(v)]: returns an array; model.py:225-246, parameter_core.py:143-152. *)
Definition grads (w : world) (v : vec) : world * nat :=
  let w1 := count (set_array w v) in
  let w2 := set_cell w1 (garr w1) (chained E (params w1) (cells w1 (garr w1))) in
  if has_fixes E then alloc w2 (pick_free E (cells w2 (garr w2))) else (w2, garr w2).

Variables xtol ftol gtol : R.

(** The local variables of SCG; [lx], [lgn], [lgo] ([x], [gradnew], [gradold]) are arrays; the others are
    numbers, or arrays made by arithmetic that nobody else has ([d]). scg.py:65-85. *)
Record loc : Type := mkL {
  lx : nat; lfold : R; lgn : nat; lgo : nat; ld : vec; lok : bool; lns : nat; lbeta : R; lmu : R; lkappa : R; ltheta : R;
  llog : list R; lev : nat; lsteps : list stepinfo }.

(** Lines 66-85. *)
Definition scg_start (w : world) (x : nat) : world * loc :=
  let (w1, fold) := objective w (cells w x) in
  let (w2, g) := grads w1 (cells w1 x) in
  let (w3, go) := alloc w2 (cells w2 g) in
  (w3, mkL x fold g go (vneg (cells w3 g)) true 0 1 0 0 0 [fold] 2 []).
(** Lines 91-101. *)
Definition scg_directional (w : world) (l : loc) : option (world * loc) :=
  if lok l then
    let g := cells w (lgn l) in
    let m0 := dot (ld l) g in
    let d := if Rle_dec 0 m0 then vneg g else ld l in
    let m := if Rle_dec 0 m0 then dot d g else m0 in
    let k := dot d d in
    match rdiv sigma0 (sqrt k) with
    | None => None
    | Some sigma =>
        let (w1, gplus) := grads w (vadd (cells w (lx l)) (vscale sigma d)) in
        match rdiv (dot d (vsub (cells w1 gplus) (cells w1 (lgn l)))) sigma with
        | None => None
        | Some t => Some (w1, mkL (lx l) (lfold l) (lgn l) (lgo l) d (lok l) (lns l) (lbeta l) m k t (llog l) (S (lev l)) (lsteps l))
        end
    end
  else Some (w, l).
(** Lines 104-107. *)
Definition scg_curvature (l : loc) : option (R * R) :=
  let delta := ltheta l + lbeta l * lkappa l in
  if Rle_dec delta 0 then
    match rdiv (ltheta l) (lkappa l) with None => None | Some q => Some (lbeta l * lkappa l, lbeta l - q) end
  else Some (delta, lbeta l).
(** Lines 88-168; [inr] is a break. *)
Definition scg_body (w0 : world) (l0 : loc) : option (world * loc + world * loc * status) :=
  match scg_directional w0 l0 with
  | None => None
  | Some (w1, l) =>
  match scg_curvature l with
  | None => None
  | Some (delta, b) =>
  match rdiv (- lmu l) delta with
  | None => None
  | Some alpha =>
  let (w2, xnew) := alloc w1 (vadd (cells w1 (lx l)) (vscale alpha (ld l))) in
  let (w3, fnew) := objective w2 (cells w2 xnew) in
  match rdiv (2 * (fnew - lfold l)) (alpha * lmu l) with
  | None => None
  | Some Delta =>
  let ok := if Rle_dec 0 Delta then true else false in
  let x' := if ok then xnew else lx l in
  let ns := if ok then S (lns l) else lns l in
  let log' := llog l ++ [if ok then fnew else lfold l] in
  let info b' := mkI (cells w1 (lx l)) (ld l) (lmu l) delta alpha b' in
  let brk stat := Some (inr (w3, mkL x' (lfold l) (lgn l) (lgo l) (ld l) ok ns b (lmu l) (lkappa l) (ltheta l) log' (S (lev l)) (info b :: lsteps l), stat)) in
  let continue (w : world) (go gn : nat) (fo : R) (ev : nat) :=
    let b2 := adjust Delta b in
    if Nat.eqb ns (length (cells w x')) then
      Some (inl (w, mkL x' fo gn go (vneg (cells w gn)) ok 0 1 (lmu l) (lkappa l) (ltheta l) log' ev (info 1 :: lsteps l)))
    else if ok then
      match rdiv (dot (vsub (cells w go) (cells w gn)) (cells w gn)) (lmu l) with
      | None => None
      | Some Gamma =>
          Some (inl (w, mkL x' fo gn go (vsub (vscale Gamma (ld l)) (cells w gn)) ok ns b2 (lmu l) (lkappa l) (ltheta l) log' ev (info b2 :: lsteps l)))
      end
    else Some (inl (w, mkL x' fo gn go (ld l) ok ns b2 (lmu l) (lkappa l) (ltheta l) log' ev (info b2 :: lsteps l))) in
  if ok then
    if Rlt_dec (Rabs (fnew - lfold l)) ftol then brk ConvObjective
    else if Rlt_dec (maxabs (vscale alpha (ld l))) xtol then brk ConvStep
    else
      let (w4, gn) := grads w3 (cells w3 x') in
      if Rle_dec (dot (cells w4 gn) (cells w4 gn)) gtol then
        Some (inr (w4, mkL x' fnew gn (lgn l) (ld l) ok ns b (lmu l) (lkappa l) (ltheta l) log' (S (S (lev l))) (info b :: lsteps l), ConvGradient))
      else continue w4 (lgn l) gn fnew (S (S (lev l)))
  else continue w3 (lgo l) (lgn l) (lfold l) (S (lev l))
  end end end end.
(** Lines 88, 169-172. *)
Fixpoint scg_loop (n : nat) (w : world) (l : loc) : option (world * loc * status) :=
  match n with
  | O => Some (w, l, MaxIter)
  | S n' => match scg_body w l with
            | None => None
            | Some (inr r) => Some r
            | Some (inl (w', l')) => scg_loop n' w' l'
            end
  end.
(** [SCG(self._objective, self._grads, x, maxiters=n)]. *)
Definition scg (w : world) (x : nat) (n : nat) : option (world * loc * status) :=
  let (w1, l) := scg_start w x in scg_loop n w1 l.

(** What is kept of a run in [optimization_runs]: [x_opt] (an array) and [f_opt]; optimization.py:228-240.
    [xend]: ghost, the elements of [x_opt] when the run ended; [f0]: ghost, the objective at the start. *)
Record orun : Type := mkRun { x_opt : nat; f_opt : R; xend : vec; f0 : R }.
Definition run_of (w : world) (l : loc) : orun := mkRun (lx l) (last (llog l) 0) (cells w (lx l)) (hd 0 (llog l)).
(** [self.optimize('scg', max_iters=n)]; model.py:90-116. *)
Definition optimize (n : nat) (w : world) (runs : list orun) : option (world * list orun) :=
  if existsb efree E then
    let (w1, x) := read_array w in
    match scg w1 x n with
    | None => None
    | Some (w2, l, _) => Some (set_array w2 (cells w2 (lx l)), runs ++ [run_of w2 l])
    end
  else Some (w, runs).
(** The loop of [optimize_restarts]: [randomize] (parameter_core.py:241-250) and [optimize]; model.py:166-173. *)
Fixpoint restart_loop (n : nat) (draws : list vec) (w : world) (runs : list orun) : option (world * list orun) :=
  match draws with
  | [] => Some (w, runs)
  | v :: r => match optimize n (set_array w v) runs with
              | None => None
              | Some (w', runs') => restart_loop n r w' runs'
              end
  end.
(** [np.argmin], of the objectives of the runs: the first smallest. *)
Fixpoint best (r : orun) (l : list orun) : orun :=
  match l with [] => r | q :: l' => best (if Rlt_dec (f_opt q) (f_opt r) then q else r) l' end.
(** [self.optimize_restarts(1 + length draws, optimizer='scg', max_iters=n)]; model.py:144-190. *)
Definition restarts (n : nat) (draws : list vec) (w0 : world) (runs : list orun) : option (world * list orun) :=
  let (w1, a) := read_array w0 in
  let (w, initial) := alloc w1 (cells w1 a) in
  match optimize n w runs with
  | None => None
  | Some (w1, runs1) =>
      match restart_loop n draws w1 runs1 with
      | None => None
      | Some (w2, runs2) =>
          match skipn (length runs) runs2 with
          | [] => Some (set_array w2 (cells w2 initial), runs2)
          | r :: l => Some (set_array w2 (cells w2 (x_opt (best r l))), runs2)
          end
      end
  end.

(** What a user does with arrays of the model: read [optimizer_array], set it, write into an array
    that was read ([a[...] = g(a)]), evaluate, and run SCG. *)
Inductive ocall : Type := ORead | OSet (v : vec) | OEdit (a : nat) (g : vec -> vec) | OObjective (v : vec) | OGrads (v : vec) | OScg (x n : nat).
Definition ostep (c : ocall) (w : world) : option (world * option nat) :=
  match c with
  | ORead => let (w', a) := read_array w in Some (w', Some a)
  | OSet v => Some (set_array w v, None)
  | OEdit a g => Some (set_cell w a (g (cells w a)), None)
  | OObjective v => Some (fst (objective w v), None)
  | OGrads v => let (w', a) := grads w v in Some (w', Some a)
  | OScg x n => match scg w x n with Some (w', l, _) => Some (w', Some (lx l)) | None => None end
  end.
End Model.

(** A model with parameters [p], nothing read yet. *)
Definition world_init (p : vec) : world := mkW (fun _ => []) 1 p None false 0 0.
