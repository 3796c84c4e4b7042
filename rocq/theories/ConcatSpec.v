(** Vocabulary for the properties of concatenations of parameters. *)
From Coq Require Import List ZArith Bool.
From Verif Require Import NpModel IndexOpsModel PzModel PzSpec ConcatModel.
Import ListNotations.
Open Scope Z_scope.

(** The concatenation consists of different, existing Params. *)
Definition conc_of (t : struct) (c : conc) : Prop :=
  NoDup (cparams c) /\ forall p, In p (cparams c) -> (p < next t)%nat /\ is_leaf t p = true.
(** Position [k] of the concatenation of [ps] is element [j] of [p]. *)
Definition position_of (t : struct) (ps : list oid) (k : Z) (p : oid) (j : Z) : Prop :=
  exists l r, ps = l ++ p :: r /\ 0 <= j < size t p /\ k = sum_sizes t l + j.
(** Element [j] of [y] is at a position in [sel]. *)
Definition hit (t : struct) (ps : list oid) (sel : list Z) (y : oid) (j : Z) : Prop :=
  exists k p i, In k sel /\ position_of t ps k p i /\ same_elem t y j p i.
(** Element [j] of [y] belongs to one of [ps]. *)
Definition covers (t : struct) (ps : list oid) (y : oid) (j : Z) : Prop :=
  exists p i, In p ps /\ same_elem t y j p i.
(** [v] is what [a[sel] = val] puts at position [k]: of the entries of [sel] that are [k], the last counts. *)
Definition given {V : Type} (sel : list Z) (val : list V) (k : Z) (v : V) : Prop :=
  exists l r, sel = l ++ k :: r /\ ~ In k r /\
    (val = [v] \/ (length val = length sel /\ nth_error val (length l) = Some v)).
(** [val] can be assigned to the elements [sel]: one value for all, or one for each. *)
Definition fits {V : Type} (sel : list Z) (val : list V) : Prop := length val = 1%nat \/ length val = length sel.
(** In each parameter, if an element is selected then so are all before it. *)
Definition from_front (t : struct) (ps : list oid) (sel : list Z) : Prop :=
  forall k p j i, In k sel -> position_of t ps k p j -> 0 <= i < j -> In (k - j + i) sel.
(** Of the elements of the parameter that starts at [o], [r] are selected before position [k]. *)
Definition counted (sel : list Z) (o k r : Z) : Prop :=
  exists l, NoDup l /\ (forall x, In x l <-> In x sel /\ o <= x < k) /\ r = Z.of_nat (length l).
(** The positions exist. *)
Definition sel_ok {V : Type} (s : @state V) (c : conc) (sel : list Z) : Prop := forall k, In k sel -> 0 <= k < conc_size s c.
(** The objects properly above one of [ps]. *)
Definition over (t : struct) (ps : list oid) (q : oid) : Prop := exists p, In p ps /\ part t q p /\ q <> p.
(** [l], a sequence of updates, leaves nothing out of date: after each update, what is above the
    updated object is updated. *)
Definition settled (t : struct) (l : list oid) : Prop :=
  forall l1 a l2 b, l = l1 ++ a :: l2 -> part t b a -> a <> b -> In b l2.
(** Updates are on in the hierarchies of [ps]; what is above them is finished. *)
Definition on {V : Type} (s : @state V) (ps : list oid) : Prop := forall p y, In p ps -> together (st s) p y -> updates (nt s) y = true.
Definition finished (t : struct) (ps : list oid) : Prop := forall q, over t ps q -> in_init t q = false.
(** The value at each of the positions [ks]. *)
Definition values_at {V : Type} (s : @state V) (ps : list oid) (ks : list Z) (l : list V) : Prop :=
  Forall2 (fun k v => exists p j, position_of (st s) ps k p j /\ value s p j = Some v) ks l.
(** Every parameter of which elements are selected has a selected element that is not zero. *)
Definition no_zeros {V : Type} (nonzero : V -> bool) (s : @state V) (ps : list oid) (sel : list Z) : Prop :=
  forall k p j, In k sel -> position_of (st s) ps k p j ->
    exists k' j' v, In k' sel /\ position_of (st s) ps k' p j' /\ value s p j' = Some v /\ nonzero v = true.

Section Histories.
Context {V : Type}.
Implicit Types s : @state V.
Variables tinit tf tfinv : nat -> V -> V.

(** The calls on a concatenation. *)
Inductive ccal : Type := CSet (sel : list Z) (val : list V) | CConstrain (n : nat) | CFix | CUnfix | CUnconstrain (ts : list prop).
Definition cexec (k : ccal) : ccall :=
  match k with
  | CSet sel val => conc_set sel val
  | CConstrain n => conc_constrain tinit n
  | CFix => conc_fix
  | CUnfix => conc_unfix
  | CUnconstrain ts => conc_unconstrain ts
  end.
(** States that can be reached by careful calls on parameters and calls on concatenations of them. *)
Inductive creach (junk : nat -> Z -> V) : state -> Prop :=
| creach_init : creach junk (init_state junk)
| creach_call : forall s c s' e, creach junk s -> careful s c -> exec tinit tf tfinv c s = (s', e) -> creach junk s'
| creach_conc : forall s c k c' s' e, creach junk s -> conc_of (st s) c -> (forall q, In q (cleft c) -> (q < next (st s))%nat) ->
    cexec k c s = (c', s', e) -> creach junk s'.
End Histories.
