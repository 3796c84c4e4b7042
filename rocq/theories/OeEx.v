(** Removing observers that have an equality of their own: concrete observers. *)
From Coq Require Import List ZArith Bool.
From Verif Require Import ObserversModel OeModel.
Import ListNotations.

(** Observers 1 and 2 are objects, 3 is an array of two elements, 4 an empty one, 5 and 6 are arrays
    with the one element 7. *)
Definition ex_vals (o : nat) : option (list Z) :=
  match o with 3%nat => Some [1%Z; 2%Z] | 4%nat => Some [] | 5%nat | 6%nat => Some [7%Z] | _ => None end.
Definition ex_s (l : list (Z * nat * nat)) : ostate := orun onew (map (fun t => OAddO (Fin (fst (fst t))) (snd (fst t)) (snd t)) l).
