(** Model of [Model.checkgrad]: /repo/paramz/model.py:284-408, on top of the hierarchy of PzModel.v.

    The user's code is abstract: [fobj] is [objective_function] and [fgrad] the gradient that the
    [parameters_changed] of the model stores, both as functions of all parameter values of the model.
    Failing evaluations are the subject of RunModel.v and left out here, and so are printing and
    [parameter_names_flat] (model.py:342-363, 397-405). *)
From Coq Require Import List ZArith Bool.
From Verif Require Import NpModel IndexOpsModel PzModel.
Import ListNotations.
Open Scope Z_scope.

Section Check.
Context {V W : Type}.
Variables tf tfinv : nat -> V -> V.
Variable tgrad : nat -> V -> V -> V.
Variable fobj : list V -> W.
Variable fgrad : list V -> list V.
(** [objective_function_gradients] returns [self.gradient] itself, as the default does
    (model.py:206-223), or a new array. *)
Variable own : bool.

(** The state of the hierarchy and [gradient_full] of the model. *)
Record gst : Type := mkG { gs : @state V; grad : list V }.
(** [self.param_array] of the model. *)
Definition vals (s : @state V) (x : oid) : list V := let (m1, a) := param_array (st s) (mem s) x in read_arr m1 a.
(** [self.optimizer_array = p]; when this runs [parameters_changed] of the model (the latest calls
    are at the front of the trace), the gradient is stored. *)
Definition gset (x : oid) (p : list V) (g : gst) : gst * option exn :=
  let (s', e) := set_optimizer_array tf x p (gs g) in
  let calls := firstn (length (trace (nt s')) - length (trace (nt (gs g)))) (trace (nt s')) in
  (mkG s' (if omem x calls then fgrad (vals s' x) else grad g), e).
(** [_objective(p)]; model.py:248-269. *)
Definition objective (x : oid) (p : list V) (g : gst) : gst * (W + exn) :=
  match gset x p g with
  | (g', None) => (g', inl (fobj (vals (gs g') x)))
  | (g', Some e) => (g', inr e)
  end.
(** [_grads(p)]; model.py:225-246. [_transform_gradients] (parameter_core.py:143-152) writes into the
    array it is given. *)
Definition grads (x : oid) (p : list V) (g : gst) : gst * (list V + exn) :=
  match gset x p g with
  | (g', None) =>
      let s := gs g' in
      let all := apply_all (cons_items (ios s) x) (fun n k d => tgrad n (nth (Z.to_nat k) (vals s x) d) d) (grad g') in
      (mkG s (if own then all else grad g'),
       match transform_gradients tgrad x s (grad g') with Ok l => inl l | Er e => inr e end)
  | (g', Some e) => (g', inr e)
  end.
(** [x + dx], [x - dx]: the elements at [idx] are moved by [move], the others get zero added;
    model.py:325-330. *)
Definition shift (move : nat -> V -> V) (idx : list Z) (p : list V) : list V :=
  map (fun e => if zmem (fst e) idx then move (Z.to_nat (fst e)) (snd e) else snd e) (combine (arange (Z.of_nat (length p))) p).
Definition pick (idx : list Z) (l : list V) : list V := flat_map (fun k => match nth_error l (Z.to_nat k) with Some v => [v] | None => [] end) idx.
(** [checkgrad()], not verbose; model.py:305-340. [up], [down]: adding and subtracting the step;
    [decide]: the comparison of model.py:335-340. *)
Definition check_quick (x : oid) (target : option (oid * option (list Z))) (up down : nat -> V -> V) (decide : W -> W -> list V -> bool) (g : gst)
  : gst * (bool + exn) :=
  match inited (st (gs g)) x with
  | Some true =>
    match get_optimizer_array tfinv x (gs g) with
    | Er e => (g, inr e)
    | Ok (p, s1) =>
      let g1 := mkG s1 (grad g) in
      let idx := match target with
                 | None => Ok (arange (Z.of_nat (length p)))
                 | Some (y, sel) => index_for_transformed s1 x y sel
                 end in
      match idx with
      | Er e => (g1, inr e)
      | Ok idx =>
        if match target with None => false | Some _ => negb (nonempty idx) end then (g1, inl true) else
        match objective x (shift up idx p) g1 with
        | (g2, inr e) => (g2, inr e)
        | (g2, inl f1) =>
          match objective x (shift down idx p) g2 with
          | (g3, inr e) => (g3, inr e)
          | (g3, inl f2) =>
            match grads x p g3 with
            | (g4, inr e) => (g4, inr e)
            | (g4, inl d) => (g4, inl (decide f1 f2 (pick idx d)))
            end
          end
        end
      end
    end
  | _ => (g, inl false)
  end.
(** The loop of the verbose variant; model.py:370-405. *)
Fixpoint check_each (x : oid) (up down : nat -> V -> V) (decide : W -> W -> option V -> bool) (p d : list V) (idx : list Z) (g : gst)
  : gst * (bool + exn) :=
  match idx with
  | [] => (g, inl true)
  | k :: r =>
    match objective x (shift up [k] p) g with
    | (g1, inr e) => (g1, inr e)
    | (g1, inl f1) =>
      match objective x (shift down [k] p) g1 with
      | (g2, inr e) => (g2, inr e)
      | (g2, inl f2) =>
        match check_each x up down decide p d r g2 with
        | (g3, inl b) => (g3, inl (decide f1 f2 (nth_error d (Z.to_nat k)) && b))
        | other => other
        end
      end
    end
  end.
(** [checkgrad(verbose=True)]; model.py:341-408. *)
Definition check_verbose (x : oid) (target : option (oid * option (list Z))) (up down : nat -> V -> V) (decide : W -> W -> option V -> bool) (g : gst)
  : gst * (bool + exn) :=
  match inited (st (gs g)) x with
  | Some true =>
    match get_optimizer_array tfinv x (gs g) with
    | Er e => (g, inr e)
    | Ok (p, s1) =>
      let g1 := mkG s1 (grad g) in
      let '(y, sel) := match target with None => (x, None) | Some t => t end in
      match index_for_transformed s1 x y sel with
      | Er e => (g1, inr e)
      | Ok idx =>
        if negb (nonempty idx) then (g1, inl true) else
        match grads x p g1 with
        | (g2, inr e) => (g2, inr e)
        | (g2, inl d) =>
          match check_each x up down decide p d idx g2 with
          | (g3, inr e) => (g3, inr e)
          | (g3, inl b) => match gset x p g3 with (g4, None) => (g4, inl b) | (g4, Some e) => (g4, inr e) end
          end
        end
      end
    end
  | _ => (g, inl false)
  end.
End Check.
