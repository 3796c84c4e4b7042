(** What is said about saving, apart from the functions of the model. *)
From Coq Require Import List Bool NArith ZArith.
From Verif Require Import SvModel.
Import ListNotations.

(** The Param at the end of path [p] below [t] has the values [vs], and is the [i]-th Param from the left; a Param
    alone has its own name as path. *)
Inductive param_at : tree -> list str -> list Z -> Prop :=
  | at_par : forall n vs, param_at (Par n vs) [n] vs
  | at_grp : forall n ks k p vs, In k ks -> below k p vs -> param_at (Grp n ks) p vs
with below : tree -> list str -> list Z -> Prop :=
  | below_par : forall n vs, below (Par n vs) [n] vs
  | below_grp : forall n ks k p vs, In k ks -> below k p vs -> below (Grp n ks) (n :: p) vs.
(** All paths to Params, from the left to the right. *)
Fixpoint full (t : tree) : list (list str) :=
  match t with Par n _ => [[n]] | Grp n ks => map (cons n) (flat_map full ks) end.
Definition paths (t : tree) : list (list str) :=
  match t with Par n _ => [[n]] | Grp _ ks => flat_map full ks end.
(** The names of a path with underscores between. *)
Fixpoint underscored (p : list str) : str :=
  match p with [] => [] | [n] => n | n :: r => n ++ 95%N :: underscored r end.
(** No name has a dot in it. *)
Fixpoint tidy (t : tree) : Prop :=
  match t with
  | Par n _ => ~ In 46%N n
  | Grp n ks => ~ In 46%N n /\ (fix go (l : list tree) : Prop := match l with [] => True | k :: r => tidy k /\ go r end) ks
  end.
(** The same hierarchy with other values. *)
Inductive same_form : tree -> tree -> Prop :=
  | sf_par : forall n a b, length a = length b -> same_form (Par n a) (Par n b)
  | sf_grp : forall n ks ls, Forall2 same_form ks ls -> same_form (Grp n ks) (Grp n ls).
(** The names that [save] uses. *)
Definition keys (t : tree) : list str := map underscored (paths t) ++ [[112; 97; 114; 97; 109; 95; 97; 114; 114; 97; 121]%N].
