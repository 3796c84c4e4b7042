(** Vocabulary for the properties of gradients. *)
From Coq Require Import List ZArith Bool.
From Verif Require Import NpModel IndexOpsModel PzModel PzSpec GmModel.
Import ListNotations.
Open Scope Z_scope.

Section Spec.
Context {V : Type}.
Implicit Types q : @gstate V.
Variables tinit tf tfinv : nat -> V -> V.
Variable tgrad : nat -> V -> V -> V.

(** [x.gradient.flat[j]]: the gradient of element [j] of [x], read through its array. *)
Definition gradient q (x : oid) (j : Z) : option V :=
  match arr (grd q) x with
  | Some (b, o, n) => if (0 <=? j) && (j <? n) then Some (cell (grd q) b (o + j)) else None
  | None => None
  end.

(** What a user has to observe: the hierarchy is used as before; gradients are stored in
    objects that were initialised, and taken from the top of a hierarchy. *)
Definition glegal q (c : @gcall V) : Prop :=
  match c with
  | Call c => legal (base q) c
  | SetGradient x _ | EditGradient x _ => (x < next (st (base q)))%nat /\ ready (st (base q)) x
  | TakeGradient x => (x < next (st (base q)))%nat /\ ready (st (base q)) x /\ par (st (base q)) x = None
  end.
(** States that can be reached by calls allowed by [ok], whatever fresh memory contains. *)
Inductive greach (ok : gstate -> gcall -> Prop) (junk junk' : nat -> Z -> V) : gstate -> Prop :=
| greach_init : greach ok junk junk' (ginit junk junk')
| greach_call : forall q c q' e, greach ok junk junk' q -> ok q c -> gexec tinit tf tfinv tgrad c q = (q', e) -> greach ok junk junk' q'.

(** States that can be reached from [q]. *)
Inductive ghist (ok : gstate -> gcall -> Prop) q : gstate -> Prop :=
| ghist_refl : ghist ok q q
| ghist_call : forall q1 c q2 e, ghist ok q q1 -> ok q1 c -> gexec tinit tf tfinv tgrad c q1 = (q2, e) -> ghist ok q q2.
(** Calls that build, link, unlink and copy nothing. *)
Definition still (c : @gcall V) : Prop :=
  match c with
  | Call (NewNode _ _) | Call (End _ _) | Call (Link _ _ _) | Call (Unlink _ _) | Call (Initialize _) | Call (Copy _) => False
  | _ => True
  end.

(** The gradients of different Params have no memory in common. *)
Definition gapart q : Prop :=
  let t := st (base q) in
  forall x y b ox oy, is_leaf t x = true -> is_leaf t y = true -> x <> y ->
    arr (grd q) x = Some (b, ox, size t x) -> arr (grd q) y = Some (b, oy, size t y) ->
    0 < size t x -> 0 < size t y -> ox + size t x <= oy \/ oy + size t y <= ox.
(** [self] keeps another child, or [param] comes from elsewhere and has another size than the
    gradient array that [self] has. *)
Definition groomy q (self param : oid) : Prop :=
  let t := st (base q) in
  (exists c, In c (kids t self) /\ c <> param) \/
  (par t param <> Some self /\ forall b o n, arr (grd q) self = Some (b, o, n) -> n <> size t param).
(** What keeps a history from sharing the memory of gradients between Params. *)
Definition gcareful q (c : gcall) : Prop :=
  glegal q c /\ match c with Call (Link self param index) => legal_link (base q) self param index -> groomy q self param | _ => True end.

(** The gradient of element [k] of [x] became [F k] of what it was, and no other gradient changed. *)
Definition gchanged q q' (x : oid) (F : Z -> V -> V) : Prop :=
  let t := st (base q) in
  (forall y j k, (y < next t)%nat -> ready t y -> same_elem t y j x k -> gradient q' y j = option_map (F k) (gradient q y j)) /\
  (gapart q -> forall y j, (y < next t)%nat -> ready t y -> 0 <= j < size t y -> (forall k, ~ same_elem t y j x k) -> gradient q' y j = gradient q y j).

(** What becomes of gradient [d] of element [k] of [x] on its way to the optimizer. *)
Definition chain_rule (s : @state V) (x : oid) (k : Z) (d r : V) : Prop :=
  exists v, value s x k = Some v /\
    (forall n, has s x (Tr n) k -> r = tgrad n v d) /\ ((forall n, ~ has s x (Tr n) k) -> r = d).

(** [for y in ys: y.gradient = gs(y)], as [parameters_changed] does. *)
Fixpoint store_all (ys : list oid) (gs : oid -> Z -> V) q : gstate * option exn :=
  match ys with
  | [] => (q, None)
  | y :: r => match gexec tinit tf tfinv tgrad (SetGradient y (fun j _ => gs y j)) q with
              | (q1, None) => store_all r gs q1
              | other => other
              end
  end.
End Spec.
