(** Model of the observable array ObsAr, /repo/paramz/core/observable_array.py, with the parts of
    core/observable.py and core/pickleable.py it inherits.

    An array is a handle (a number): a class, a buffer and the positions of its elements in it, a list
    of observers (which views share) and its own flag [_update_on]. A variable of a program holds a
    handle; [a += v] binds the variable to the handle the operator returns.

    Simplifications: one-dimensional arrays of one element type; selections are given by the positions
    they select (NumPy's translation of slices, integers, masks into positions is not modelled), values
    by one value per selected position (broadcasting is not modelled); all observers have one priority
    (their order: ObserversModel.v), stay alive, neither raise nor change arrays or registrations;
    [which] is the notifying array itself. *)
From Coq Require Import List Arith Bool.
Import ListNotations.

Definition upd {A : Type} (f : nat -> A) (x : nat) (v : A) : nat -> A := fun y => if Nat.eqb y x then v else f y.

Inductive err : Type := IndexError | ValueError | AttributeError | TypeError.

Section Arrays.
Context {V : Type}.

(** An array object: ObsAr or plain ndarray; memory; [observers] and [_update_on], set by
    Observable.__init__ (observable.py:40-44) and handed to views by __array_finalize__
    (observable_array.py:69-73). The last two mean nothing for a plain ndarray. *)
Record arr : Type := mkA { obs : bool; buf : nat; pos : list nat; olist : nat; on : bool }.
(** A call of a callback: which one, by which array, and the memory at that time;
    observable.py:87-97. *)
Record note : Type := mkNote { who : nat; from : nat; seen : nat -> nat -> V }.
(** Memory, arrays, ObserverList objects (their callbacks in order) and all calls of callbacks so far. *)
Record state : Type := mkS {
  mem : nat -> nat -> V; nbuf : nat; arrs : nat -> arr; next : nat;
  lists : nat -> list nat; nlist : nat; log : list note }.
(** No arrays yet. *)
Definition init (junk : nat -> nat -> V) : state :=
  mkS junk 0 (fun _ => mkA false 0 [] 0 true) 0 (fun _ => []) 0 [].

Definition read (s : state) (x : nat) : list V := map (mem s (buf (arrs s x))) (pos (arrs s x)).
(** Writing [vs] to the positions [ps] of buffer [b], one after the other. *)
Definition write (m : nat -> nat -> V) (b : nat) (ps : list nat) (vs : list V) : nat -> nat -> V :=
  fold_left (fun m e => upd m b (upd (m b) (fst e) (snd e))) (combine ps vs) m.
Definition with_mem (s : state) m := mkS m (nbuf s) (arrs s) (next s) (lists s) (nlist s) (log s).
Definition set_arr (s : state) x a := mkS (mem s) (nbuf s) (upd (arrs s) x a) (next s) (lists s) (nlist s) (log s).
Definition set_list (s : state) l cs := mkS (mem s) (nbuf s) (arrs s) (next s) (upd (lists s) l cs) (nlist s) (log s).
(** A new handle. *)
Definition new_arr (s : state) (a : arr) : state :=
  mkS (mem s) (nbuf s) (upd (arrs s) (next s) a) (S (next s)) (lists s) (nlist s) (log s).
(** A new array with memory of its own holding [vs]. *)
Definition new_copy (s : state) (o : bool) (l : nat) (u : bool) (vs : list V) : state :=
  let s1 := new_arr s (mkA o (nbuf s) (seq 0 (length vs)) l u) in
  mkS (write (mem s1) (nbuf s) (seq 0 (length vs)) vs) (S (nbuf s)) (arrs s1) (next s1) (lists s1) (nlist s1) (log s1).
(** [ObserverList()]; lists_and_dicts.py:71-72. *)
Definition new_list (s : state) : state :=
  mkS (mem s) (nbuf s) (arrs s) (next s) (upd (lists s) (nlist s) []) (S (nlist s)) (log s).

(** [notify_observers()]; observable.py:75-97. *)
Definition notify (s : state) (x : nat) : state :=
  if on (arrs s x) then
    mkS (mem s) (nbuf s) (arrs s) (next s) (lists s) (nlist s)
        (log s ++ map (fun c => mkNote c x (mem s)) (lists s (olist (arrs s x))))
  else s.

(** What NumPy does for an index that is out of bounds. *)
Definition in_bounds (s : state) (x : nat) (sel : list nat) : bool :=
  forallb (fun k => Nat.ltb k (length (pos (arrs s x)))) sel.
Definition chosen (a : arr) (sel : list nat) : list nat := map (fun k => nth k (pos a) 0) sel.

(** [x[sel]] with slices: a view, of the same class, with the same observers and the flag as it is
    now; observable_array.py:69-73. *)
Definition getslice (s : state) (x : nat) (sel : list nat) : state * option err :=
  let a := arrs s x in
  if in_bounds s x sel then (new_arr s (mkA (obs a) (buf a) (chosen a sel) (olist a) (on a)), None)
  else (s, Some IndexError).
(** [x[sel]] with index arrays or masks: a copy, for which __array_finalize__ (67-71) runs too. *)
Definition getpick (s : state) (x : nat) (sel : list nat) : state * option err :=
  let a := arrs s x in
  if in_bounds s x sel then (new_copy s (obs a) (olist a) (on a) (map (mem s (buf a)) (chosen a sel)), None)
  else (s, Some IndexError).
(** [x[sel] = vs]; observable_array.py:117-119. *)
Definition setitem (s : state) (x : nat) (sel : list nat) (vs : list V) : state * option err :=
  let a := arrs s x in
  if negb (in_bounds s x sel) then (s, Some IndexError)
  else if negb (Nat.eqb (length sel) (length vs)) then (s, Some ValueError)
  else let s1 := with_mem s (write (mem s) (buf a) (chosen a sel) vs) in
       ((if obs a then notify s1 x else s1), None).
(** [x.__iadd__(v)] and the like, element [k] becoming [g k] of it; observable_array.py:127-201.
    The result of the ufunc goes through __array_wrap__ (73-76), which gives a plain ndarray on the
    same memory; for a plain ndarray the operator returns the array itself. *)
Definition iop (s : state) (x : nat) (g : nat -> V -> V) : state :=
  let a := arrs s x in
  let vs := map (fun e => g (fst e) (snd e)) (combine (seq 0 (length (pos a))) (read s x)) in
  let s1 := with_mem s (write (mem s) (buf a) (pos a) vs) in
  if obs a then new_arr (notify s1 x) (mkA false (buf a) (pos a) (olist a) (on a)) else s1.
(** The handle [iop] returns, and the state after [iop]. *)
Definition iop_result (s : state) (x : nat) : nat := if obs (arrs s x) then next s else x.

(** Positions that follow each other: such an array is C-contiguous. *)
Fixpoint contiguous (ps : list nat) : bool :=
  match ps with
  | p :: ((q :: _) as r) => Nat.eqb q (S p) && contiguous r
  | _ => true
  end.

Inductive call : Type :=
  | New (vs : list V)                          (* np.array(vs) *)
  | Wrap (x : nat)                             (* ObsAr(x) *)
  | Slice (x : nat) (sel : list nat)           (* x[sel], slices *)
  | Pick (x : nat) (sel : list nat)            (* x[sel], index arrays *)
  | Values (x : nat)                           (* x.values *)
  | Put (x : nat) (sel : list nat) (vs : list V)  (* x[sel] = vs *)
  | Iop (x : nat) (g : nat -> V -> V)          (* x op= v *)
  | Aug (x : nat) (sel : list nat) (g : nat -> V -> V)     (* x[sel] op= v, slices *)
  | AugPick (x : nat) (sel : list nat) (g : nat -> V -> V) (* x[sel] op= v, index arrays *)
  | Raw (x : nat) (vs : list V)                (* x.fill(v), x.sort(), x.flat = vs, np.put(x, ...), out=x *)
  | Copy (x : nat)                             (* x.copy() *)
  | Updates (x : nat) (b : bool)               (* x.set_updates(b) *)
  | Observe (x : nat) (c : nat)                (* x.add_observer(o, c) *)
  | Forget (x : nat) (c : nat).                (* x.remove_observer(o, c) *)

(** Handles exist. *)
Definition target (c : call) : option nat :=
  match c with
  | New _ => None
  | Wrap x | Slice x _ | Pick x _ | Values x | Put x _ _ | Iop x _ | Aug x _ _ | AugPick x _ _ | Raw x _
  | Copy x | Updates x _ | Observe x _ | Forget x _ => Some x
  end.

(** [x[sel] op= v]: x.__setitem__(sel, x.__getitem__(sel).__iop__(v)). *)
Definition augment (got : state * option err) (x : nat) (sel : list nat) (g : nat -> V -> V) (t : nat) : state * option err :=
  match got with
  | (s1, Some e) => (s1, Some e)
  | (s1, None) => let s2 := iop s1 t g in setitem s2 x sel (read s2 (iop_result s1 t))
  end.

Definition exec (c : call) (s : state) : state * option err :=
  match c with
  | New vs => (new_copy s false 0 true vs, None)
  | Wrap x =>
      (* observable_array.py:56-67: a float array in C order is used as it is (np.require), an ObsAr
         is returned itself; Observable.__init__ (observable.py:40-44) runs in all cases *)
      let a := arrs s x in
      let l := nlist s in
      let s1 := new_list s in
      if obs a then (set_arr s1 x (mkA true (buf a) (pos a) l true), None)
      else if contiguous (pos a) then (new_arr s1 (mkA true (buf a) (pos a) l true), None)
      else (new_copy s1 true l true (read s x), None)
  | Slice x sel => getslice s x sel
  | Pick x sel => getpick s x sel
  | Values x =>
      (* observable_array.py:84-89 *)
      let a := arrs s x in
      if obs a then (new_arr s (mkA false (buf a) (pos a) (olist a) (on a)), None) else (s, Some AttributeError)
  | Put x sel vs => setitem s x sel vs
  | Iop x g => (iop s x g, None)
  | Aug x sel g => augment (getslice s x sel) x sel g (next s)
  | AugPick x sel g => augment (getpick s x sel) x sel g (next s)
  | Raw x vs =>
      (* methods of ndarray and functions of NumPy that ObsAr does not override *)
      let a := arrs s x in
      if Nat.eqb (length vs) (length (pos a)) then (with_mem s (write (mem s) (buf a) (pos a) vs), None)
      else (s, Some ValueError)
  | Copy x =>
      (* observable_array.py:90-107, pickleable.py:101-128: the observers are left out, the flag is not *)
      let a := arrs s x in
      if obs a then (new_copy (new_list s) true (nlist s) (on a) (read s x), None)
      else (new_copy s false 0 true (read s x), None)
  | Updates x b =>
      (* observable.py:44-45 *)
      let a := arrs s x in
      if obs a then (set_arr s x (mkA (obs a) (buf a) (pos a) (olist a) b), None) else (s, Some AttributeError)
  | Observe x c =>
      (* observable.py:47-52, lists_and_dicts.py:91-102 with equal priorities *)
      let a := arrs s x in
      if obs a then (set_list s (olist a) (lists s (olist a) ++ [c]), None) else (s, Some AttributeError)
  | Forget x c =>
      (* observable.py:54-70 *)
      let a := arrs s x in
      if obs a then (set_list s (olist a) (filter (fun d => negb (Nat.eqb d c)) (lists s (olist a))), None)
      else (s, Some AttributeError)
  end.
End Arrays.
