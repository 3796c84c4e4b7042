(** Vocabulary for the properties of checkgrad. *)
From Coq Require Import List ZArith Bool.
From Verif Require Import NpModel IndexOpsModel PzModel PzSpec CheckModel.
Import ListNotations.
Open Scope Z_scope.

(** [l] is what the values of [x] are when the optimizer array of [x] is [p]: the fixed elements as
    they are, the others ([ks]) the transformed elements of [p]. *)
Definition at_point {V : Type} (tf : nat -> V -> V) (s : @state V) (x : oid) (ks : list Z) (p l : list V) : Prop :=
  Z.of_nat (length l) = size (st s) x /\
  (forall k, has s x Fixed k -> nth_error l (Z.to_nat k) = value s x k) /\
  forall i k, nth_error ks i = Some k -> exists v, nth_error p i = Some v /\
    (forall n, has s x (Tr n) k -> nth_error l (Z.to_nat k) = Some (tf n v)) /\
    ((forall n, ~ has s x (Tr n) k) -> nth_error l (Z.to_nat k) = Some v).
(** What is to be checked is part of the model. *)
Definition legal_target (t : struct) (x : oid) (target : option (oid * option (list Z))) : Prop :=
  match target with None => True | Some (y, sel) => part t x y /\ legal_sel t y sel end.
(** All values are as they were. *)
Definition values_kept {V : Type} (s s' : @state V) (x : oid) : Prop :=
  (forall y j k, (y < next (st s))%nat -> ready (st s) y -> same_elem (st s) y j x k -> value s' y j = value s y j) /\
  (apart s -> forall y j, (y < next (st s))%nat -> ready (st s) y -> 0 <= j < size (st s) y -> value s' y j = value s y j).
(** Updates are on in the whole hierarchy of [x]. *)
Definition all_on {V : Type} (s : @state V) (x : oid) : Prop := forall y, together (st s) x y -> updates (nt s) y = true.
(** [x] is an initialised model, [ks] its free elements; its optimizer array is what it should be (C39),
    and transforming back and forth is exact for its values. *)
Record checkable {V : Type} (tf tfinv : nat -> V -> V) (g : @gst V) (x : oid) (ks : list Z) : Prop := mkCheckable {
  ck_x : (x < next (st (gs g)))%nat;
  ck_node : kind (st (gs g)) x = KNode;
  ck_init : inited (st (gs g)) x = Some true;
  ck_in : in_init (st (gs g)) x = false;
  ck_top : par (st (gs g)) x = None;
  ck_free : free (gs g) x ks;
  ck_read : forall p s', get_optimizer_array tfinv x (gs g) = Ok (p, s') -> get_spec tfinv (gs g) x ks p;
  ck_inv : forall k n v, has (gs g) x (Tr n) k -> ~ has (gs g) x Fixed k -> value (gs g) x k = Some v -> tf n (tfinv n v) = v;
  ck_grad : Z.of_nat (length (grad g)) = size (st (gs g)) x }.
(** The positions in the optimizer array that are checked: those of the free elements of the target. *)
Definition tested {V : Type} (s : @state V) (x : oid) (ks : list Z) (target : option (oid * option (list Z))) (idx : list Z) : Prop :=
  match target with
  | None => idx = arange (Z.of_nat (length ks))
  | Some (y, sel) => exists o n fs, below (st s) x y o n /\
      kept_of (fun k => ~ has s x Fixed k) (map (fun k => k + o) (match sel with Some l => l | None => arange (size (st s) y) end)) fs /\
      Forall2 (fun i k => 0 <= i /\ nth_error ks (Z.to_nat i) = Some k) idx fs
  end.
(** [l] are the values of [x]. *)
Definition values_of {V : Type} (s : @state V) (x : oid) (l : list V) : Prop :=
  Z.of_nat (length l) = size (st s) x /\ forall k, 0 <= k < size (st s) x -> nth_error l (Z.to_nat k) = value s x k.
(** [q] is [p] with the elements at [idx] moved and the others as they are. *)
Definition moved {V : Type} (move : nat -> V -> V) (idx : list Z) (p q : list V) : Prop :=
  length q = length p /\ forall i v, nth_error p i = Some v ->
    (In (Z.of_nat i) idx -> nth_error q i = Some (move i v)) /\ (~ In (Z.of_nat i) idx -> nth_error q i = Some v).
(** [r] are the elements of [d] at [idx], in this order. *)
Definition picked {V : Type} (idx : list Z) (d r : list V) : Prop := Forall2 (fun k v => 0 <= k /\ nth_error d (Z.to_nat k) = Some v) idx r.
(** [b] is the verdict of comparing the objective at both sides with the analytical gradient. *)
Definition compared {V W : Type} (tf : nat -> V -> V) (fobj : list V -> W) (s : @state V) (x : oid) (ks : list Z) (p : list V)
    (up down : nat -> V -> V) (idx : list Z) (verdict : W -> W -> bool) (b : bool) : Prop :=
  exists q1 q2 l1 l2, moved up idx p q1 /\ moved down idx p q2 /\ at_point tf s x ks q1 l1 /\ at_point tf s x ks q2 l2 /\
    b = verdict (fobj l1) (fobj l2).
