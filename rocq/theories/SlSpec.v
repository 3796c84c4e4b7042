(** Vocabulary for the properties of parts of Params. *)
From Coq Require Import List ZArith Bool.
From Verif Require Import NpModel IndexOpsModel IndexOpsSpec PzModel CopyModel PzSpec SlModel.
Import ListNotations.
Open Scope Z_scope.

Section Spec.
Context {V : Type}.
Implicit Types s : @state V.
Implicit Types z : @sstate V.
Variables tinit tf tfinv : nat -> V -> V.

(** The calls: those of the hierarchy; [x[ix]]; indexing what was got before ([k]: the how manieth); [q[...] = v];
    [q.fix(value)], [q.unfix()], [q.constrain(n)], [q.unconstrain( *ts)]. *)
Inductive scall : Type :=
| Base (c : @call V) | Take (x : oid) (ix : index) | TakeOf (k : nat) (ix : index)
| PartAssign (k : nat) (g : Z -> V -> V) | PartFix (k : nat) (value : option (Z -> V)) | PartUnfix (k : nat)
| PartConstrain (k : nat) (n : nat) | PartUnconstrain (k : nat) (ts : list prop).
Definition sexec (c : scall) : @scmd V :=
  match c with
  | Base c => on_base (exec tinit tf tfinv c)
  | Take x ix => index_param x ix
  | TakeOf k ix => on_part k (fun q => index_part q ix)
  | PartAssign k g => on_part k (fun q => part_assign q g)
  | PartFix k value => on_part k (fun q => part_fix q value)
  | PartUnfix k => on_part k (fun q => on_base (part_unfix q))
  | PartConstrain k n => on_part k (fun q => part_constrain tinit q n)
  | PartUnconstrain k ts => on_part k (fun q => on_base (part_unconstrain q ts))
  end.

(** ** Positions *)
(** Position [j] of [n] elements is in the slice [lo:hi:step] (a negative bound counts from the end, what lies
    outside is cut off); the position that [i] stands for. *)
Definition from_end (n i : Z) : Z := if i <? 0 then n + i else i.
Definition in_slice (n lo hi step j : Z) : Prop :=
  0 <= j < n /\ exists k, 0 <= k /\ j = Z.max 0 (from_end n lo) + k * step /\ j < from_end n hi.
Definition in_index (n : Z) (ix : index) (j : Z) : Prop :=
  match ix with
  | Slice lo hi step => in_slice n lo hi step j
  | Items l => exists i, In i l /\ j = from_end n i
  | Item i => j = from_end n i
  end.

(** ** Parts that are up to date *)
(** The part [q] is still what indexing its Param the same way would give: the elements [l] (some), the same place
    in the hierarchy, updates switched as they were, and, for a slice, the memory of these elements. *)
Record current s (q : piece) (l : list Z) : Prop := mkCur {
  cu_obj : (of q < next (st s))%nat;
  cu_leaf : is_leaf (st s) (of q) = true;
  cu_pos : positions (cur q) (size (st s) (of q)) = Ok l;
  cu_some : l <> [];
  cu_len : length (cells q) = length l;
  cu_par : ppar q = par (st s) (of q);
  cu_idx : ppos q = pidx (st s) (of q);
  cu_on : pon q = updates (nt s) (of q);
  cu_mem : shared q = true -> exists o n, arr (mem s) (of q) = Some (buf q, o, n) /\ cells q = map (Z.add o) l }.
(** The [k]-th thing got by indexing is such a part, its elements are listed once and its Param is in a hierarchy. *)
Definition part_at z (k : nat) (q : piece) (l : list Z) : Prop :=
  nth_error (parts z) k = Some (Some q) /\ current (base z) q l.
Definition in_model z (q : piece) (l : list Z) : Prop := par (st (base z)) (of q) <> None /\ NoDup l.

Definition good (ix : index) : Prop := match ix with Slice _ _ step => 0 < step | _ => True end.
(** What a user has to observe. *)
Definition slegal z (c : scall) : Prop :=
  match c with
  | Base c => legal (base z) c
  | Take x ix => (x < next (st (base z)))%nat /\ is_leaf (st (base z)) x = true /\ good ix
  | TakeOf k ix => good ix
  | PartAssign k _ => exists q l, part_at z k q l
  | PartFix k _ | PartUnfix k | PartConstrain k _ | PartUnconstrain k _ => exists q l, part_at z k q l /\ in_model z q l
  end.
Definition scareful z (c : scall) : Prop :=
  slegal z c /\ match c with Base c => careful (base z) c | _ => True end.
Definition sinit (junk junk' : nat -> Z -> V) : @sstate V := mkSl (init_state junk) junk' 0 [].
Inductive sreach (ok : sstate -> scall -> Prop) (junk junk' : nat -> Z -> V) : @sstate V -> Prop :=
| sreach_init : sreach ok junk junk' (sinit junk junk')
| sreach_call : forall z c z' e, sreach ok junk junk' z -> ok z c -> sexec c z = (z', e) -> sreach ok junk junk' z'.
Inductive shist (ok : sstate -> scall -> Prop) : @sstate V -> @sstate V -> Prop :=
| shist_nil : forall z, shist ok z z
| shist_call : forall z c z1 e z2, ok z c -> sexec c z = (z1, e) -> shist ok z1 z2 -> shist ok z z2.

(** Calls that link, unlink, initialise and copy nothing, and leave the switch of updates at [b]. *)
Definition settled (b : bool) z (c : scall) : Prop :=
  match c with
  | Base (NewNode _ _) | Base (End _ _) | Base (Link _ _ _) | Base (Unlink _ _) | Base (Initialize _) | Base (Copy _) => False
  | Base (Updates _ b') => b' = b
  | Base (Randomize y _) => updates (nt (base z)) y = b
  | _ => True
  end.

(** ** Effects *)
(** Element [j] of [y] is one of the elements [l] of the Param [x]. *)
Definition hit s (x : oid) (l : list Z) (y : oid) (j : Z) : Prop := exists k, In k l /\ same_elem (st s) y j x k.
(** Element [k] of the part becomes [g k] of what it was, the others stay. *)
Definition on_part_elems (l : list Z) (g : Z -> V -> V) (F : Z -> V -> V) : Prop :=
  (forall i j v, nth_error l i = Some j -> F j v = g (Z.of_nat i) v) /\ forall j v, ~ In j l -> F j v = v.
(** No value of the hierarchy changes. *)
Definition same_values s s' : Prop := forall y j, value s' y j = value s y j.
End Spec.
