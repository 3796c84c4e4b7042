(** Model of parts of Params: what [q = p[s]] is and what calls on [q] do; on top of the model of the
    hierarchy (PzModel.v).

    [Param.__getitem__] param.py:157-168 with [__array_finalize__] param.py:101-122 and
    observable_array.py:69-73. A slice gives an array on the memory of [p], a list of positions one with
    memory of its own, one position a number. The new array has [p]'s observers and constraints (the same
    objects), but a copy of [_parent_], [_parent_index_] and [_update_on] from the moment it is made, and
    the index it was made with. Here [p] has one dimension: flat positions of other indices are in
    RavelModel.v. Masks of truth values stand for their lists of positions. Slices have positive steps.
    Not modelled: the gradient of a part. *)
From Coq Require Import List ZArith Bool.
From Verif Require Import NpModel IndexOpsModel PzModel.
Import ListNotations.
Open Scope Z_scope.

(** What stands between the brackets: [lo:hi:step], a list, an integer; param.py:157-159. *)
Inductive index : Type := Slice (lo hi step : Z) | Items (l : list Z) | Item (i : Z).
(** A bound of a slice of [n] elements, and a position in [n] elements, as Python reads them. *)
Definition bound (n i : Z) : Z := if i <? 0 then Z.max 0 (i + n) else Z.min i n.
Definition wrap (n i : Z) : Z := if i <? 0 then i + n else i.
(** The positions an index selects from [n] elements; NumPy's indexing, param.py:162, 255. *)
Definition positions (ix : index) (n : Z) : res (list Z) :=
  match ix with
  | Slice lo hi step =>
      Ok (map (fun k => bound n lo + k * step) (arange ((bound n hi - bound n lo + (step - 1)) / step)))
  | Items l => if forallb (fun i => (- n <=? i) && (i <? n)) l then Ok (map (wrap n) l) else Er IndexError
  | Item i => if (- n <=? i) && (i <? n) then Ok [wrap n i] else Er IndexError
  end.

(** A part: [_original_]; whether its memory is that of the hierarchy ([shared]), which buffer and which
    places in it; [_current_slice_]; [_parent_], [_parent_index_] and [_update_on] when it was made;
    param.py:101-122, 162-166. *)
Record piece : Type := mkP {
  of : oid; shared : bool; buf : nat; cells : list Z; cur : index;
  ppar : option oid; ppos : option Z; pon : bool }.

Section Parts.
Context {V : Type}.
Implicit Types s : @state V.
Variable tinit : nat -> V -> V.

(** The hierarchy, the memory of the copies that lists of positions make, and what the user got from
    indexing: parts and numbers ([None]). *)
Record sstate : Type := mkSl { base : @state V; heap : nat -> Z -> V; nheap : nat; parts : list (option piece) }.
Definition scmd := sstate -> sstate * option exn.
Definition with_base (z : sstate) (s : @state V) : sstate := mkSl s (heap z) (nheap z) (parts z).
Definition on_base (c : @cmd V) : scmd := fun z => let (s, e) := c (base z) in (with_base z s, e).
Definition sthen (a b : scmd) : scmd := fun z => match a z with (z1, None) => b z1 | r => r end.

(** [ndarray.__getitem__] on an array at the places [src] of a buffer, whose Param is [x]; param.py:157-168. *)
Definition view_of (q : piece) (src : list Z) (ix : index) (l : list Z) : piece :=
  mkP (of q) (shared q) (buf q) (map (fun k => nth (Z.to_nat k) src 0) l) ix (ppar q) (ppos q) (pon q).
(** The contents of the places of a part; [np.array(q)]. *)
Definition look (z : sstate) (q : piece) : list V :=
  map (fun a => if shared q then cell (mem (base z)) (buf q) a else heap z (buf q) a) (cells q).
(** Indexing the part [q] (or the Param, seen as the part of all its elements): a slice, a copy, a number. *)
Definition index_part (q : piece) (ix : index) : scmd := fun z =>
  match positions ix (Z.of_nat (length (cells q))) with
  | Er e => (z, Some e)
  | Ok l =>
      let v := view_of q (cells q) ix l in
      match ix with
      | Slice _ _ _ => (mkSl (base z) (heap z) (nheap z) (parts z ++ [Some v]), None)
      | Items _ =>
          let vals := look z v in
          (mkSl (base z) (upd (heap z) (nheap z) (fun a => nth (Z.to_nat a) vals (heap z (nheap z) a))) (S (nheap z))
                (parts z ++ [Some (mkP (of q) false (nheap z) (arange (Z.of_nat (length l))) ix (ppar q) (ppos q) (pon q))]), None)
      | Item _ => (mkSl (base z) (heap z) (nheap z) (parts z ++ [None]), None)
      end
  end.
(** The Param itself; param.py:87-94: [_current_slice_ = (slice(shape[0]),)]. *)
Definition itself (s : @state V) (x : oid) : piece :=
  let t := st s in
  match arr (mem s) x with
  | Some (b, o, n) => mkP x true b (map (Z.add o) (arange n)) (Slice 0 n 1) (par t x) (pidx t x) (updates (nt s) x)
  | None => mkP x true 0 [] (Slice 0 0 1) (par t x) (pidx t x) (updates (nt s) x)
  end.
(** [p[ix]]; param.py:157-168. *)
Definition index_param (x : oid) (ix : index) : scmd := fun z => index_part (itself (base z) x) ix z.

(** [_raveled_index()]: the index the part was made with, applied to the shape of the whole Param
    ([_realshape_]); no position is an error of [apply_along_axis]; param.py:170-176, 249-264. *)
Definition part_index (s : @state V) (q : piece) : res (list Z) :=
  match positions (cur q) (size (st s) (of q)) with
  | Ok [] => Er ValueError
  | r => r
  end.
(** [_highest_parent_]: without parent, the part itself ([None]); parentable.py:63-69. *)
Definition part_highest (f : nat) (t : struct) (q : piece) : res (option oid) :=
  match f with
  | O => Er Endless
  | S f' => match ppar q with None => Ok None | Some p => rbind (highest f' t p) (fun h => Ok (Some h)) end
  end.
(** [_offset_for(q)] on [self]; indexable.py:130-141, constrainable.py:128-132. *)
Fixpoint part_offset (f : nat) (t : struct) (self : oid) (q : piece) : res Z :=
  match f with
  | O => Er Endless
  | S f' =>
      match ppar q, ppos q with
      | Some pp, Some i =>
          rbind (py_nth (kids t pp) i) (fun p =>
          if omem p (kids t self) then
            match pidx t p with
            | Some j => Ok (sum_sizes t (py_prefix (kids t self) j))
            | None => Er AttributeError
            end
          else rbind (offset_for f' t self pp) (fun a =>
               rbind (part_offset f' t pp q) (fun b => Ok (a + b))))
      | _, _ => Ok 0
      end
  end.
(** [_highest_parent_._set_fixed(q, idx)], [_set_unfixed]; constrainable.py:94-104. A part without parent
    marks a mask of its own, which nothing reads. *)
Definition part_mask (q : piece) (idx : list Z) (v : bool) : @cmd V :=
  get (fun s => part_highest (fuel (st s)) (st s) q) (fun h =>
  match h with
  | None => done
  | Some h => lift (fun s =>
      rbind (ensure_fixes (st s) (ios s) (fix_ s) h) (fun m =>
      rbind (part_offset (fuel (st s)) (st s) h q) (fun off =>
      rbind (mask_set m (plus_off off idx) v) (fun m' =>
      Ok (upd (fix_ s) h (if forallb id m' then None else Some m')))))) with_fix
  end).
(** [notify_observers()]: the observers are those of the Param, [_update_on] is the part's;
    observable.py:75-97, updateable.py:42-54. *)
Definition part_notify (q : piece) : @cmd V :=
  lift (fun s => match fuel (st s) with
                 | O => Er Endless
                 | S f' => if pon q then rfold (fun p => notify f' (st s) p true) (passes (nt s) (of q)) (nt s) else Ok (nt s)
                 end) with_nt.
(** [trigger_update()]; updateable.py:68-79, parameter_core.py:126-134 (a part has no parameters). *)
Definition part_trigger (q : piece) : @cmd V := if pon q then part_notify q else done.
(** [which.add(what, index)]; indexable.py:241-254. *)
Definition part_add (q : piece) (t : prop) : @cmd V :=
  get (fun s => part_index s q) (fun l => c_ios (fun s => cons_upd (ios s) (of q) (fun v d => add v d t l))).
(** [_remove_from_index_operations]; indexable.py:256-270. *)
Definition part_remove_one (q : piece) (t : prop) : @cmd V :=
  get (fun s => part_index s q) (fun l s =>
    let i := ios s in
    let (removed, d) := remove (snd (iop i (of q))) (dicts i (fst (iop i (of q)))) t l in
    andthen (c_ios (fun s => set_dict (ios s) (fst (iop i (of q))) d))
            (match t with Fixed => part_mask q removed true | Tr _ => done end) s).
(** [unconstrain( *transforms)]; constrainable.py:158-165. *)
Definition part_unconstrain (q : piece) (ts : list prop) : @cmd V := fun s =>
  let ts' := match ts with [] => map fst (cons_items (ios s) (of q)) | _ => ts end in
  fold_right (fun t c => andthen (part_remove_one q t) c) done ts' s.
(** [unconstrain_fixed()]; constrainable.py:71-82. *)
Definition part_unfix (q : piece) : @cmd V :=
  get (fun s => part_index s q) (fun l s =>
    let i := ios s in
    let (removed, _) := remove (snd (iop i (of q))) (dicts i (fst (iop i (of q)))) Fixed l in
    andthen (part_unconstrain q [Fixed]) (part_mask q removed true) s).

(** The position of place [a] in [l]. *)
Fixpoint place (a : Z) (l : list Z) (k : Z) : option Z :=
  match l with [] => None | b :: r => if a =? b then Some k else place a r (k + 1) end.
(** [q[...] = vals], the values: element [k] becomes [g k] of what it was; observable_array.py:117-119. *)
Definition put (g : Z -> V -> V) (l : list Z) (f : Z -> V) (a : Z) : V :=
  match place a l 0 with Some k => g k (f a) | None => f a end.
Definition part_put (q : piece) (g : Z -> V -> V) : scmd := fun z =>
  if shared q then
    let m := mem (base z) in
    (with_base z (with_mem (base z) (mkM (upd (cell m) (buf q) (put g (cells q) (cell m (buf q)))) (nbuf m) (arr m))), None)
  else (mkSl (base z) (upd (heap z) (buf q) (put g (cells q) (heap z (buf q)))) (nheap z) (parts z), None).
Definition part_assign (q : piece) (g : Z -> V -> V) : scmd := sthen (part_put q g) (on_base (part_notify q)).
(** [constrain_fixed(value)]; constrainable.py:52-68. *)
Definition part_fix (q : piece) (value : option (Z -> V)) : scmd :=
  sthen (match value with Some v => part_assign q (fun k _ => v k) | None => fun z => (z, None) end)
        (on_base (andthen (part_add q Fixed) (andthen (get (fun s => part_index s q) (fun l => part_mask q l false)) (part_notify q)))).
(** [constrain(transform)]; constrainable.py:138-156; [param_array] of a part is the part (param.py:124-129). *)
Definition part_constrain (q : piece) (n : nat) : scmd :=
  sthen (part_assign q (fun _ => tinit n))
        (on_base (andthen (part_unconstrain q []) (andthen (part_add q (Tr n)) (part_trigger q)))).
(** [is_fixed]; param.py:190-193. *)
Definition part_is_fixed (s : @state V) (q : piece) : bool :=
  Z.of_nat (length (cons_get (ios s) (of q) Fixed)) =? Z.of_nat (length (cells q)).
(** A call on the [k]-th thing the user got from indexing; a number has no such methods. *)
Definition on_part (k : nat) (c : piece -> scmd) : scmd := fun z =>
  match nth_error (parts z) k with
  | Some (Some q) => c q z
  | Some None => (z, Some AttributeError)
  | None => (z, Some IndexError)
  end.
End Parts.
