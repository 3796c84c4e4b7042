(** Model of the flat indices of a (possibly indexed) Param:
    [Param._indices] and [Param._raveled_index], /repo/paramz/param.py:170-176, 249-264, with the NumPy functions they use.

    An array is a shape and its elements by coordinates. An index is a list of items, one for each of
    the first axes: a slice, given by the positions it selects; an integer; or an array of
    integers of one dimension. Python's [Ellipsis] and negative integers are taken to be resolved; a boolean mask stands for its
    [nonzero()] arrays. Not modelled: [np.newaxis], integer arrays of several dimensions, 0-d arrays. *)
From Coq Require Import List Arith Bool.
From Verif Require Import NpModel IndexOpsModel PzModel.
Import ListNotations.

Record nd (A : Type) : Type := mkNd { shape : list nat; at_ : list nat -> A }.
Arguments mkNd {A} _ _.
Arguments shape {A} _.
Arguments at_ {A} _ _.
(** The coordinates of the elements of an array of shape [d], in C order (last axis fastest). *)
Fixpoint coords (d : list nat) : list (list nat) :=
  match d with
  | [] => [[]]
  | n :: r => flat_map (fun i => map (cons i) (coords r)) (seq 0 n)
  end.
(** [a.ravel()] (and [a.flat]). *)
Definition flat {A : Type} (a : nd A) : list A := map (at_ a) (coords (shape a)).

(** ** [a[index]] of NumPy *)
Inductive item : Type := Sl (l : list nat) | At (i : nat) | Arr (l : list nat).
Definition is_sl (i : item) : bool := match i with Sl _ => true | _ => false end.
Definition is_arr (i : item) : bool := match i with Arr _ => true | _ => false end.
Definition in_axis (i : item) (n : nat) : bool :=
  match i with Sl l | Arr l => forallb (fun k => k <? n) l | At k => k <? n end.
(** An index shorter than the shape leaves the other axes as they are; a longer one is an IndexError. *)
Fixpoint complete (ix : list item) (d : list nat) : res (list item) :=
  match ix, d with
  | [], _ => Ok (map (fun n => Sl (seq 0 n)) d)
  | i :: r, n :: d' => if in_axis i n then rbind (complete r d') (fun t => Ok (i :: t)) else Er IndexError
  | _ :: _, [] => Er IndexError
  end.
(** The common length of the integer arrays; arrays of length 1 are repeated. *)
Definition arr_len (i : item) : list nat := match i with Arr l => [length l] | _ => [] end.
Definition broadcast (ix : list item) : res (option nat) :=
  match flat_map arr_len ix with
  | [] => Ok None
  | ls => match filter (fun n => negb (n =? 1)) ls with
          | [] => Ok (Some 1)
          | n :: r => if forallb (fun m => m =? n) r then Ok (Some n) else Er IndexError
          end
  end.
(** The lengths of the slices. *)
Definition sl_dims (ix : list item) : list nat := flat_map (fun i => match i with Sl l => [length l] | _ => [] end) ix.
(** Where element [b] of the integer arrays and [c] of the slices comes from. *)
Fixpoint source (ix : list item) (b : nat) (c : list nat) : list nat :=
  match ix with
  | [] => []
  | Sl l :: r => nth (hd 0 c) l 0 :: source r b (tl c)
  | At i :: r => i :: source r b c
  | Arr l :: r => nth (if length l =? 1 then 0 else b) l 0 :: source r b c
  end.
(** With integer arrays, integers count as arrays too; if all these are next to each other, their
    axis is where they are, otherwise it is the first. *)
Fixpoint before (ix : list item) : list item := match ix with Sl l :: r => Sl l :: before r | _ => [] end.
Fixpoint from_adv (ix : list item) : list item := match ix with Sl _ :: r => from_adv r | _ => ix end.
Fixpoint after_adv (ix : list item) : list item := match ix with [] => [] | Sl l :: r => Sl l :: r | _ :: r => after_adv r end.
Definition adjacent (ix : list item) : bool := forallb is_sl (after_adv (from_adv ix)).
Definition take {A : Type} (ix : list item) (a : nd A) : res (nd A) :=
  rbind (complete ix (shape a)) (fun ix =>
  rbind (broadcast ix) (fun b =>
  match b with
  | None => Ok (mkNd (sl_dims ix) (fun c => at_ a (source ix 0 c)))
  | Some n =>
      if adjacent ix
      then let k := length (before ix) in
           Ok (mkNd (sl_dims (before ix) ++ n :: sl_dims (after_adv (from_adv ix)))
                    (fun c => at_ a (source ix (nth k c 0) (firstn k c ++ skipn (S k) c))))
      else Ok (mkNd (n :: sl_dims ix) (fun c => at_ a (source ix (hd 0 c) (tl c))))
  end)).

(** ** param.py *)
(** [np.indices(d)]. *)
Definition np_indices (d : list nat) : nd nat := mkNd (length d :: d) (fun c => nth (hd 0 c) (tl c) 0).
(** [np.rollaxis(a, 0, a.ndim)]: the first axis becomes the last. *)
Definition roll_last {A : Type} (a : nd A) : nd A :=
  mkNd (tl (shape a) ++ firstn 1 (shape a)) (fun c => at_ a (last c 0 :: removelast c)).
(** [.reshape(-1, k)], as the list of rows. *)
Fixpoint rows_of {A : Type} (f : nat) (k : nat) (l : list A) : list (list A) :=
  match f, l with
  | S f', _ :: _ => firstn k l :: rows_of f' k (skipn k l)
  | _, _ => []
  end.
Definition reshape_rows {A : Type} (k : nat) (a : nd A) : list (list A) := rows_of (length (flat a)) k (flat a).
(** [_indices(slice_index)]; param.py:249-264. *)
Definition indices (d : list nat) (ix : list item) : res (list (list nat)) :=
  rbind (take (Sl (seq 0 (length d)) :: ix) (np_indices d)) (fun a => Ok (reshape_rows (length d) (roll_last a))).
(** [np.cumprod(l)]. *)
Fixpoint cumprod (acc : nat) (l : list nat) : list nat := match l with [] => [] | n :: r => acc * n :: cumprod (acc * n) r end.
(** [extended_realshape = np.cumprod((1,) + self._realshape_[:0:-1])[::-1]]; param.py:173. *)
Definition strides (d : list nat) : list nat := rev (cumprod 1 (1 :: rev (tl d))).
(** [np.sum(extended_realshape * x)]; param.py:176. *)
Definition dot (w x : list nat) : nat := fold_right Nat.add 0 (map (fun p => fst p * snd p) (combine w x)).
(** [_raveled_index(slice_index)]; param.py:170-176. [np.apply_along_axis] raises a ValueError if there are no rows. *)
Definition raveled_index (d : list nat) (ix : list item) : res (list nat) :=
  rbind (indices d ix) (fun rows => match rows with [] => Er ValueError | _ => Ok (map (dot (strides d)) rows) end).
(** The flat indices of a Param that is not indexed: [_current_slice_] is [slice(shape[0])]; param.py:87, 170. *)
Definition whole (d : list nat) : list item := match d with n :: _ => [Sl (seq 0 n)] | [] => [] end.
