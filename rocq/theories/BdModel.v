(** Model of constraints by transformation objects from the user's side: constrain_positive,
    constrain_bounded, unconstrain_bounded and the like, of copies, pickles and new processes:
    /repo/paramz/core/constrainable.py:133-209 on top of core/index_operations.py (IndexOpsModel.v) and
    of the way transformation objects are made (InstModel.v).

    A model is what its [constraints] hold: transformation objects and the elements of the whole model
    they are for. A parameter of the model is the set of its elements. Simplifications: nothing is
    fixed; no default constraints; the program keeps no transformation object in a variable of its
    own, and no traceback of a failed call; the values of the elements and updates (covered elsewhere)
    are left out. *)
From Coq Require Import List ZArith Bool Arith.
From Verif Require Import NpModel IndexOpsModel InstModel.
Import ListNotations.
Open Scope Z_scope.

(** What a user asks for: [Logexp()], [NegativeLogexp()], ... (class number [c]), or
    [Logistic(lower, upper)]; constrainable.py:165-209. *)
Inductive what : Type := Class (c : nat) | Bounds (lo hi : Z).
(** The transformation objects, all models made (None: deleted), all pickles written (as the dict of
    the model; the bounds of an object never change, see C27_bounds_stay). *)
Record bst : Type := mkB { ts : tst; mods : list (option dict); files : list dict }.
(** A new process, no code. *)
Definition bstart : bst := mkB tstart [] [].

Section Bounded.
(** [float] on the bounds, and the default bound in [Logistic.__new__]; transformations.py:187, 202. *)
Variable fl : Z -> Z.
Variable dflt : Z.

(** Class 0 is [Logistic], class [S c] the class number [c] of the others. No subclasses (so not NegativeExponent, see C27 for it); transformations.py:53-203. *)
Definition bmro (c : nat) : list nat := [c].
(** See [bmro]; transformations.py:184-203. *)
Definition bbounded (c : nat) : bool := Nat.eqb c 0.
(** The call in [constrain_positive] etc. that makes the transformation; constrainable.py:171, 179, 189, 195, 201, 210. *)
Definition make (w : what) (s : tst) : tst * (nat + texn) :=
  match w with
  | Class c => construct bmro bbounded fl dflt (S c) None false s
  | Bounds lo hi => construct bmro bbounded fl dflt 0%nat (Some (lo, hi)) false s
  end.

(** Some model refers to object [o]. *)
Definition used (ms : list (option dict)) (o : nat) : bool :=
  existsb (fun m => match m with Some d => existsb (fun e => prop_eqb (Tr o) (fst e)) d | None => false end) ms.
(** A [Logistic] dies when no model refers to it any more; the other objects are kept by their class
    (transformations.py:53-59, 186-199: [_instances] holds weak references). *)
Definition collect (s : bst) : bst :=
  mkB (mkTst (objs (ts s))
             (fun x => alive (ts s) x && (used (mods s) x || negb (match cls_of (ts s) x with Some c => bbounded c | None => false end)))
             (single (ts s)) (weak (ts s))) (mods s) (files s).

(** The constraints of model [m], and their replacement; no code. *)
Definition model (s : bst) (m : nat) : dict := match nth_error (mods s) m with Some (Some d) => d | _ => [] end.
(** See [model]. *)
Definition set_model (s : bst) (t : tst) (m : nat) (d : option dict) : bst :=
  mkB t (firstn m (mods s) ++ d :: skipn (S m) (mods s)) (files s).
(** [unconstrain()]: all properties in turn; indexable.py:252-266. *)
Definition strip (d : dict) (ix : list Z) : dict :=
  fold_left (fun d p => snd (remove Root d p ix)) (properties Root d) d.
(** Unpickling the dict of a model: every transformation object is made anew; the [_properties] of
    index_operations.py:90-95 are pickled as they are. *)
Fixpoint load_keys (d : dict) (t : tst) : tst * (dict + texn) :=
  match d with
  | [] => (t, inl [])
  | (Fixed, l) :: r => match load_keys r t with (t2, inl r') => (t2, inl ((Fixed, l) :: r')) | other => other end
  | (Tr o, l) :: r =>
      match duplicate bmro bbounded dflt o t with
      | (t1, inr e) => (t1, inr e)
      | (t1, inl o') => match load_keys r t1 with (t2, inl r') => (t2, inl ((Tr o', l) :: r')) | other => other end
      end
  end.

(** The calls; constrainable.py:133-209, indexable.py:252-266, core/pickleable.py:47-104 (copies and
    pickles). *)
Inductive bcall : Type :=
  | NewModel
  | Constrain (m : nat) (ix : list Z) (w : what)      (* m.x.constrain_bounded(lo, hi), ... *)
  | Unconstrain (m : nat) (ix : list Z) (w : what)    (* m.x.unconstrain_bounded(lo, hi), ... *)
  | UnconstrainAll (m : nat) (ix : list Z)            (* m.x.unconstrain() *)
  | CopyModel (m : nat)                               (* m.copy() *)
  | Dump (m : nat)                                    (* pickle.dump(m, f) *)
  | LoadFile (f : nat)                                    (* pickle.load(f) *)
  | Delete (m : nat)                                  (* del m *)
  | NewProcess.                                          (* a new process *)

(** constrainable.py:133-209, index_operations.py:90-95, 183-185, core/pickleable.py:47-104. *)
Definition bexec1 (k : bcall) (s : bst) : bst * option texn :=
  match k with
  | NewModel => (mkB (ts s) (mods s ++ [Some []]) (files s), None)
  | Constrain m ix w =>
      (* constrainable.py:133-153 *)
      match make w (ts s) with
      | (t, inr e) => (mkB t (mods s) (files s), Some e)
      | (t, inl o) => (set_model s t m (Some (add Root (strip (model s m) ix) (Tr o) ix)), None)
      end
  | Unconstrain m ix w =>
      (* constrainable.py:155-162 *)
      match make w (ts s) with
      | (t, inr e) => (mkB t (mods s) (files s), Some e)
      | (t, inl o) => (set_model s t m (Some (snd (remove Root (model s m) (Tr o) ix))), None)
      end
  | UnconstrainAll m ix => (set_model s (ts s) m (Some (strip (model s m) ix)), None)
  | CopyModel m =>
      (* index_operations.py:183-185: the copy refers to the same transformation objects *)
      (mkB (ts s) (mods s ++ [Some (copy Root (model s m))]) (files s), None)
  | Dump m => (mkB (ts s) (mods s) (files s ++ [model s m]), None)
  | LoadFile f =>
      match load_keys (nth f (files s) []) (ts s) with
      | (t, inr e) => (mkB t (mods s) (files s), Some e)
      | (t, inl d) => (mkB t (mods s ++ [Some d]) (files s), None)
      end
  | Delete m => (set_model s (ts s) m None, None)
  | NewProcess =>
      (mkB (mkTst (objs (ts s)) (fun _ => false) (fun _ => None) []) (map (fun _ => None) (mods s)) (files s), None)
  end.
(** A call, and the death of what nobody refers to any more. *)
Definition bexec (k : bcall) (s : bst) : bst * option texn :=
  let (s1, e) := bexec1 k s in (collect s1, e).
End Bounded.
