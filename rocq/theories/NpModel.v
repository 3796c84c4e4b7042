(** The numpy integer-array functions used by paramz, on lists of integers.

    numpy itself is not part of /repo; these definitions follow the algorithms of
    numpy.lib.arraysetops and are part of the trusted base (see DESIGN.md).
    Simplification: machine integers are unbounded [Z]. *)
From Coq Require Import List ZArith Bool.
Import ListNotations.
Open Scope Z_scope.

(** Membership test, [i in arr]; used in /repo/paramz/core/index_operations.py:143, 261. *)
Definition zmem (x : Z) (l : list Z) : bool := existsb (Z.eqb x) l.

(** One step of [np.unique] (sorted, no repeats); index_operations.py:197-198. *)
Fixpoint zins (x : Z) (l : list Z) : list Z :=
  match l with
  | [] => [x]
  | y :: r => if x <? y then x :: l else if x =? y then l else y :: zins x r
  end.

(** [np.unique(l)]. *)
Definition np_unique (l : list Z) : list Z := fold_right zins [] l.

(** [np.union1d(a,b) = unique(concatenate(a,b))]; index_operations.py:197-198. *)
Definition union1d (a b : list Z) : list Z := np_unique (a ++ b).

(** [np.setdiff1d(a,b,assume_unique=True) = a[in1d(a,b,assume_unique=True,invert=True)]];
    index_operations.py:200-201.  Both algorithms inside in1d (comparison loop and stable
    merge sort) keep exactly the entries of [a] not in [b] when [a] has no repeats, also if
    [b] has; every caller in /repo passes a stored array as [a]. *)
Definition setdiff1d (a b : list Z) : list Z := filter (fun x => negb (zmem x b)) a.

(** [sort()] of an integer array (repeats kept). *)
Fixpoint zins_dup (x : Z) (l : list Z) : list Z :=
  match l with
  | [] => [x]
  | y :: r => if x <=? y then x :: l else y :: zins_dup x r
  end.
Definition np_sort (l : list Z) : list Z := fold_right zins_dup [] l.

(** [aux[:-1][aux[1:] == aux[:-1]]]. *)
Fixpoint adj_dups (l : list Z) : list Z :=
  match l with
  | x :: ((y :: _) as r) => if x =? y then x :: adj_dups r else adj_dups r
  | _ => []
  end.

(** [np.intersect1d(a,b,assume_unique=True)]: concatenate, sort, keep the entries equal to
    their successor; index_operations.py:167. *)
Definition intersect1d_au (a b : list Z) : list Z := adj_dups (np_sort (a ++ b)).

(** [np.arange(n)] / [range(n)]. *)
Definition arange (n : Z) : list Z := map Z.of_nat (seq 0 (Z.to_nat n)).
