(** Model of /repo/paramz/core/index_operations.py.

    A [ParameterIndexOperations] object is the content of its [_properties] dict: an
    insertion-ordered association list from properties to index arrays
    (/repo/paramz/core/lists_and_dicts.py:33-42, IntArrayDict, a defaultdict).
    A [ParameterIndexOperationsView] is described by the chain of windows from the view to
    the root object.  Every operation is a function of the root dict.
    Simplification: arrays are values, not objects; what happens when a caller changes a returned
    array in place is left out. *)
From Coq Require Import List ZArith Bool.
From Verif Require Import NpModel.
Import ListNotations.
Open Scope Z_scope.

(** Properties (dict keys): the marker [__fixed__] or a transformation object, identified by
    a number; /repo/paramz/transformations.py:47, 53-59. *)
Inductive prop : Type := Fixed | Tr (n : nat).

(** Key equality (object identity / string equality). *)
Definition prop_eqb (a b : prop) : bool :=
  match a, b with
  | Fixed, Fixed => true
  | Tr n, Tr m => Nat.eqb n m
  | _, _ => false
  end.

(** [self._properties]; index_operations.py:90-95. *)
Definition dict := list (prop * list Z).

(** [prop in self._properties] and the stored array; index_operations.py:165. *)
Fixpoint dget (d : dict) (p : prop) : option (list Z) :=
  match d with
  | [] => None
  | (q, l) :: r => if prop_eqb p q then Some l else dget r p
  end.

(** [self._properties[prop] = v] (position kept if present, appended if not). *)
Fixpoint dset (d : dict) (p : prop) (v : list Z) : dict :=
  match d with
  | [] => [(p, v)]
  | (q, l) :: r => if prop_eqb p q then (p, v) :: r else (q, l) :: dset r p v
  end.

(** [del self._properties[prop]]. *)
Fixpoint ddel (d : dict) (p : prop) : dict :=
  match d with
  | [] => []
  | (q, l) :: r => if prop_eqb p q then r else (q, l) :: ddel r p
  end.

(** [self._properties[prop]] on a defaultdict: a missing key is inserted with an empty array;
    lists_and_dicts.py:33-42, index_operations.py:187-188. *)
Definition dd_get (d : dict) (p : prop) : list Z * dict :=
  match dget d p with
  | Some l => (l, d)
  | None => ([], dset d p [])
  end.

Definition nonempty (l : list Z) : bool := match l with [] => false | _ => true end.

(** [items], index_operations.py:97-100. *)
Definition root_items (d : dict) : list (prop * list Z) :=
  filter (fun e => nonempty (snd e)) d.

(** [shift_right], index_operations.py:108-111 (in-place [ind[ind>=start] += size]). *)
Definition shift_arr_right (start size : Z) (l : list Z) : list Z :=
  map (fun i => if start <=? i then i + size else i) l.
Definition root_shift_right (d : dict) (start size : Z) : dict :=
  map (fun e => (fst e, shift_arr_right start size (snd e))) d.

(** [shift_left], index_operations.py:113-122: per non-empty entry, delete the block, move the
    rest down, store or delete the key.  Entries with an empty array are skipped (items()). *)
Definition shift_arr_left (start size : Z) (l : list Z) : list Z :=
  map (fun i => if start <=? i then i - size else i)
      (filter (fun i => negb ((start <=? i) && (i <? start + size))) l).
Definition root_shift_left_step (start size : Z) (d : dict) (e : prop * list Z) : dict :=
  let l := shift_arr_left start size (snd e) in
  if nonempty l then dset d (fst e) l else ddel d (fst e).
Definition root_shift_left (d : dict) (start size : Z) : dict :=
  fold_left (root_shift_left_step start size) (root_items d) d.

(** [add], index_operations.py:161-162. *)
Definition root_add (d : dict) (p : prop) (ix : list Z) : dict :=
  let (old, d1) := dd_get d p in dset d1 p (union1d old ix).

(** [remove], index_operations.py:164-173: returns (removed, new dict). *)
Definition root_remove (d : dict) (p : prop) (ix : list Z) : list Z * dict :=
  match dget d p with
  | Some l =>
      let diff := setdiff1d l ix in
      let removed := intersect1d_au l ix in
      (removed, if nonempty diff then dset d p diff else ddel d p)
  | None => ([], d)
  end.

(** An index-operations object: the root or a view with offset and size on another one;
    index_operations.py:206-210. *)
Inductive io : Type := Root | View (parent : io) (off size : Z).

(** [_filter_index], index_operations.py:220-221. *)
Definition filter_index (off size : Z) (l : list Z) : list Z :=
  map (fun i => i - off) (filter (fun i => (off <=? i) && (i <? off + size)) l).

(** [items], index_operations.py:97-100 and 223-228. *)
Fixpoint items (v : io) (d : dict) : list (prop * list Z) :=
  match v with
  | Root => root_items d
  | View p off size =>
      filter (fun e => nonempty (snd e))
             (map (fun e => (fst e, filter_index off size (snd e))) (items p d))
  end.

(** [properties], [indices], [size]; index_operations.py:102-106, 127-129, 230-234, 246-248. *)
Definition properties (v : io) (d : dict) : list prop := map fst (items v d).
Definition indices (v : io) (d : dict) : list (list Z) := map snd (items v d).
Definition iosize (v : io) (d : dict) : Z :=
  fold_right Z.add 0 (map (fun l => Z.of_nat (length l)) (indices v d)).

(** [__getitem__], index_operations.py:187-188, 289-291. *)
Fixpoint getitem (v : io) (d : dict) (p : prop) : list Z * dict :=
  match v with
  | Root => dd_get d p
  | View q off size =>
      let (l, d') := getitem q d p in (filter_index off size l, d')
  end.

(** [indices + offset] on an integer array. *)
Definition plus_off (off : Z) (l : list Z) : list Z := map (fun i => i + off) l.

(** [add], index_operations.py:161-162, 278-279. *)
Fixpoint add (v : io) (d : dict) (p : prop) (ix : list Z) : dict :=
  match v with
  | Root => root_add d p ix
  | View q off _ => add q d p (plus_off off ix)
  end.

(** [remove], index_operations.py:164-173, 282-286. *)
Fixpoint remove (v : io) (d : dict) (p : prop) (ix : list Z) : list Z * dict :=
  match v with
  | Root => root_remove d p ix
  | View q off _ =>
      let (removed, d') := remove q d p (plus_off off ix) in
      (if nonempty removed then map (fun i => i - off) removed else removed, d')
  end.

(** [shift_right], [shift_left]; index_operations.py:108-122, 236-240. *)
Fixpoint shift_right (v : io) (d : dict) (start size : Z) : dict :=
  match v with
  | Root => root_shift_right d start size
  | View q off _ => shift_right q d (start + off) size
  end.
Fixpoint shift_left (v : io) (d : dict) (start size : Z) : dict :=
  match v with
  | Root => root_shift_left d start size
  | View q off _ => shift_left q d (start + off) size
  end.

(** [clear], index_operations.py:124-125, 242-244. *)
Definition clear (v : io) (d : dict) : dict :=
  match v with
  | Root => []
  | View q off _ =>
      fold_left (fun d e => snd (remove q d (fst e) (plus_off off (snd e)))) (items v d) d
  end.

(** [__delitem__], index_operations.py:190-191, 293-294.  [None] is KeyError. *)
Definition delitem (v : io) (d : dict) (p : prop) : option dict :=
  match v with
  | Root => match dget d p with Some _ => Some (ddel d p) | None => None end
  | View _ _ _ =>
      let (l, d1) := getitem v d p in Some (snd (remove v d1 p l))
  end.

(** [update], index_operations.py:175-178, 301-304; the items of the argument are taken before
    the loop starts (the argument is another object in every use in /repo). *)
Definition update (v : io) (d : dict) (src : list (prop * list Z)) (offset : Z) : dict :=
  fold_left (fun d e => add v d (fst e) (plus_off offset (snd e))) src d.

(** [copy], index_operations.py:180-185, 307-312: a new root object filled by [add];
    index_operations.py:90-95. *)
Definition copy (v : io) (d : dict) : dict :=
  fold_left (fun c e => root_add c (fst e) (snd e)) (items v d) [].

(** [properties_for], index_operations.py:132-143, 250-261; [vectorize] maps over the index.
    Simplification: the lookups [self[prop]] concern present keys only and so do not insert. *)
Definition properties_for (v : io) (d : dict) (index : list Z) : list (list prop) :=
  map (fun i => filter (fun p => zmem i (fst (getitem v d p))) (properties v d)) index.

(** [extract_properties_to_index], index_operations.py:36-47. *)
Definition epi_one (i : Z) (acc : dict) (c : prop) : dict :=
  dset acc c (match dget acc c with Some l => l | None => [] end ++ [i]).
Fixpoint epi_loop (index : list Z) (props : list (list prop)) (acc : dict) : dict :=
  match index, props with
  | i :: index', cl :: props' => epi_loop index' props' (fold_left (epi_one i) cl acc)
  | _, _ => acc
  end.
Definition extract_properties_to_index (index : list Z) (props : list (list prop)) : dict :=
  epi_loop index props [].

(** [properties_dict_for], index_operations.py:145-159, 263-275. *)
Definition properties_dict_for (v : io) (d : dict) (index : list Z) : dict :=
  extract_properties_to_index index (properties_for v d index).

(** One public call on an object or on a view of it; used to quantify over histories. *)
Inductive op : Type :=
| OAdd (v : io) (p : prop) (ix : list Z)
| ORemove (v : io) (p : prop) (ix : list Z)
| OUpdate (v : io) (src : list (prop * list Z)) (offset : Z)
| OClear (v : io)
| ODel (v : io) (p : prop)
| OShiftRight (v : io) (start size : Z)
| OShiftLeft (v : io) (start size : Z)
| OGet (v : io) (p : prop).

(** Effect of one call on the root dict (KeyError leaves it unchanged). *)
Definition exec (d : dict) (o : op) : dict :=
  match o with
  | OAdd v p ix => add v d p ix
  | ORemove v p ix => snd (remove v d p ix)
  | OUpdate v src off => update v d src off
  | OClear v => clear v d
  | ODel v p => match delitem v d p with Some d' => d' | None => d end
  | OShiftRight v s n => shift_right v d s n
  | OShiftLeft v s n => shift_left v d s n
  | OGet v p => snd (getitem v d p)
  end.
Definition run (d : dict) (ops : list op) : dict := fold_left exec ops d.
