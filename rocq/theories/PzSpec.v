(** Vocabulary for the properties of the hierarchy. *)
From Coq Require Import List ZArith Bool.
From Verif Require Import NpModel IndexOpsModel IndexOpsSpec PzModel CopyModel.
Import ListNotations.
Open Scope Z_scope.

(** [y] is [n] levels below [x] ([n = 0]: it is [x]), and its first element is element [o] of [x]:
    before it come the elements of the left siblings of the objects on the way down. *)
Inductive below (st : struct) : oid -> oid -> Z -> nat -> Prop :=
| below_refl : forall x, below st x x 0 0
| below_kid : forall x i c y o n, nth_error (kids st x) i = Some c -> below st c y o n ->
    below st x y (sum_sizes st (firstn i (kids st x)) + o) (S n).

(** Element [i] of [x] carries property [p], as [x.constraints[p]] reports. *)
Definition has {V : Type} (s : @state V) (x : oid) (p : prop) (i : Z) : Prop :=
  carries (snd (iop (ios s) x)) (dicts (ios s) (fst (iop (ios s) x))) p i.

(** Element [j] of [y] and element [k] of [x] are the same element: at the same place of an object
    both are part of. *)
Definition same_elem (st : struct) (y : oid) (j : Z) (x : oid) (k : Z) : Prop :=
  0 <= j < size st y /\ 0 <= k < size st x /\
  exists r oy ny ox nx, below st r y oy ny /\ below st r x ox nx /\ j + oy = k + ox.

(** [x.flat[j]]: the value of element [j] of [x], read through its array. *)
Definition value {V : Type} (s : @state V) (x : oid) (j : Z) : option V :=
  match arr (mem s) x with
  | Some (b, o, n) => if (0 <=? j) && (j <? n) then Some (cell (mem s) b (o + j)) else None
  | None => None
  end.

(** The elements a call on [x] or on a part of the Param [x] is about. *)
Definition selected (st : struct) (x : oid) (sel : option (list Z)) (j : Z) : Prop :=
  match sel with None => 0 <= j < size st x | Some l => In j l end.
(** [sel] selects existing elements, once each, of a Param that is part of a hierarchy. *)
Definition legal_sel (st : struct) (x : oid) (sel : option (list Z)) : Prop :=
  match sel with
  | None => True
  | Some l => is_leaf st x = true /\ par st x <> None /\ NoDup l /\ forall j, In j l -> 0 <= j < size st x
  end.

(** [x] has an array of its own: it is a Param, or a Parameterized that was initialised (with
    [initialize=True], the default, or by [initialize_parameter] on something above it). *)
Definition ready (st : struct) (x : oid) : Prop := is_leaf st x = true \/ inited st x = Some true.
(** The elements of [x] that are not fixed, in order. *)
Fixpoint increasing (l : list Z) : Prop :=
  match l with [] => True | a :: r => (forall b, In b r -> a < b) /\ increasing r end.
Definition free {V : Type} (s : @state V) (x : oid) (ks : list Z) : Prop :=
  increasing ks /\ forall k, In k ks <-> 0 <= k < size (st s) x /\ ~ has s x Fixed k.
(** No element of [x] carries two transformations. *)
Definition one_tr {V : Type} (s : @state V) (x : oid) : Prop :=
  forall k n m, has s x (Tr n) k -> has s x (Tr m) k -> n = m.
(** Different Params have no memory in common. *)
Definition apart {V : Type} (s : @state V) : Prop :=
  forall x y b ox oy, is_leaf (st s) x = true -> is_leaf (st s) y = true -> x <> y ->
    arr (mem s) x = Some (b, ox, size (st s) x) -> arr (mem s) y = Some (b, oy, size (st s) y) ->
    0 < size (st s) x -> 0 < size (st s) y -> ox + size (st s) x <= oy \/ oy + size (st s) y <= ox.

(** All elements of [x] are fixed. *)
Definition fixed {V : Type} (s : @state V) (x : oid) : Prop := forall j, 0 <= j < size (st s) x -> has s x Fixed j.
(** The objects below [x] that can be reached from [x] without meeting one that is fixed. *)
Inductive woken {V : Type} (s : @state V) (x : oid) : oid -> Prop :=
| woken_kid : forall c, In c (kids (st s) x) -> ~ fixed s c -> woken s x c
| woken_deep : forall c d, woken s x c -> In d (kids (st s) c) -> ~ fixed s d -> woken s x d.
(** [y] is [x] or part of [x]; [y] is in the hierarchy of [x]; [r] is the top of that hierarchy. *)
Definition part (t : struct) (x y : oid) : Prop := exists o n, below t x y o n.
Definition top (t : struct) (r x : oid) : Prop := part t r x /\ par t r = None.
Definition together (t : struct) (x y : oid) : Prop := exists r, part t r x /\ part t r y.
(** Updates are on for [x] and all above it; updates are off in all of the hierarchy of [x]. *)
Definition awake {V : Type} (s : @state V) (x : oid) : Prop := forall z, part (st s) z x -> updates (nt s) z = true.
Definition silent {V : Type} (s : @state V) (x : oid) : Prop := forall y, together (st s) x y -> updates (nt s) y = false.
(** [a] comes before [b] in [l]. *)
Definition before (l : list oid) (a b : oid) : Prop := exists l1 l2, l = l1 ++ b :: l2 /\ In a l1.
(** [parameters_changed] ran once for each object of [l], in this order: parts before wholes. *)
Definition bottom_up {V : Type} (s s' : @state V) (l : list oid) : Prop :=
  trace (nt s') = rev l ++ trace (nt s) /\ NoDup l /\
  forall a b, In a l -> In b l -> part (st s) b a -> a <> b -> before l a b.

(** ** Calls and histories of calls *)
Section Calls.
Context {V : Type}.
Implicit Types s : @state V.
Variables tinit tf tfinv : nat -> V -> V.

(** The calls. [NewParam]: Param(name, values). [NewNode]: Parameterized(parameters, initialize);
    [Begin], [End]: the same with anything in between, as the constructor of a subclass does. *)
Inductive call : Type :=
| NewParam (vals : list V) | NewNode (ps : list oid) (initialize : bool)
| Begin | End (x : oid) (initialize : bool)
| Link (self param : oid) (index : option Z) | Unlink (self param : oid) | Initialize (x : oid)
| Constrain (x : oid) (sel : option (list Z)) (n : nat) | Unconstrain (x : oid) (sel : option (list Z)) (ts : list prop)
| Fix (x : oid) (sel : option (list Z)) | Unfix (x : oid) (sel : option (list Z))
| Assign (x : oid) (g : Z -> V -> V) | SetOptimizer (x : oid) (p : list V) | ReadOptimizer (x : oid)
| Updates (x : oid) (on : bool) | Trigger (x : oid) | Randomize (x : oid) (draw : nat -> V)
| Copy (x : oid).

Definition exec (c : call) : @cmd V :=
  match c with
  | NewParam vals => new_leaf vals
  | NewNode ps b => new_node ps b
  | Begin => bare_node
  | End x b => end_init x b
  | Link self param index => link self param index
  | Unlink self param => unlink self param
  | Initialize x => initialize_parameter x
  | Constrain x sel n => constrain tinit x sel n
  | Unconstrain x sel ts => unconstrain x sel ts
  | Fix x sel => fix_param x sel
  | Unfix x sel => unfix_param x sel
  | Assign x g => assign x g
  | SetOptimizer x p => set_optimizer_array tf x p
  | ReadOptimizer x => fun s => match get_optimizer_array tfinv x s with Ok (_, s') => (s', None) | Er e => (s, Some e) end
  | Updates x on => update_model x on
  | Trigger x => c_trigger x true
  | Randomize x draw => randomize tf x draw
  | Copy x => copy_object tfinv x
  end.

(** When [self.link_parameter(param, index)] is called as documented: [self] is a node whose
    hierarchy is initialised (or that is itself still without parent and uninitialised, as in a
    constructor), [param] is a finished object, [self] is not part of [param], and [param] either
    has no parent, or is part of another hierarchy, or is a child of [self] and gets a new index. *)
Record legal_link s (self param : oid) (index : option Z) : Prop := mkLegalL {
  ll_node : kind (st s) self = KNode;
  ll_self : (self < next (st s))%nat;
  ll_param : (param < next (st s))%nat;
  ll_not : ~ part (st s) param self;
  ll_in : in_init (st s) param = false;
  ll_pos : forall i, index = Some i -> i <= Z.of_nat (length (kids (st s) self)) - (if omem param (kids (st s) self) then 1 else 0);
  ll_conn : (in_init (st s) self = false /\ forall r, part (st s) r self -> par (st s) r = None -> inited (st s) r = Some true) \/
            (par (st s) self = None /\ inited (st s) self <> Some true);
  ll_old : forall pp, par (st s) param = Some pp ->
    (forall r, part (st s) r param -> par (st s) r = None -> in_init (st s) r = false) /\
    ((pp = self /\ index <> None) \/ forall r, part (st s) r param -> par (st s) r = None -> ~ part (st s) r self) }.

(** The parameters are finished objects without parent. *)
Definition legal_new s (ps : list oid) : Prop :=
  NoDup ps /\ forall p, In p ps -> (p < next (st s))%nat /\ par (st s) p = None /\ in_init (st s) p = false.

(** What a user has to observe. For [Link] and [Unlink]: a legal call, or one that is refused for
    [param] being, or not being, a child. For [Copy]: a Param that is copied by itself has no fixed
    element (CopyEx.v shows what happens if it has). *)
Definition legal s (c : call) : Prop :=
  match c with
  | NewParam _ => True
  | NewNode ps _ => legal_new s ps
  | Begin => True
  | End x _ => (x < next (st s))%nat /\ kind (st s) x = KNode /\ in_init (st s) x = true
  | Link self param index => legal_link s self param index \/ (In param (kids (st s) self) /\ index = None)
  | Unlink self param => (self < next (st s))%nat /\
      (In param (kids (st s) self) -> forall r, top (st s) r self -> in_init (st s) r = false)
  | Initialize x => (x < next (st s))%nat /\ forall r, top (st s) r x -> in_init (st s) r = false
  | Constrain x sel _ => (x < next (st s))%nat /\ legal_sel (st s) x sel /\ ready (st s) x
  | Unconstrain x sel _ | Fix x sel | Unfix x sel => (x < next (st s))%nat /\ legal_sel (st s) x sel
  | Assign x _ | SetOptimizer x _ | ReadOptimizer x | Randomize x _ => (x < next (st s))%nat /\ ready (st s) x
  | Updates x _ | Trigger x => (x < next (st s))%nat
  | Copy x => (x < next (st s))%nat /\ ready (st s) x /\ in_init (st s) x = false /\
      (is_leaf (st s) x = true -> forall j, ~ has s x Fixed j)
  end.

(** States that can be reached by calls allowed by [ok], whatever fresh memory contains. *)
Inductive reach (ok : state -> call -> Prop) (junk : nat -> Z -> V) : state -> Prop :=
| reach_init : reach ok junk (init_state junk)
| reach_call : forall s c s' e, reach ok junk s -> ok s c -> exec c s = (s', e) -> reach ok junk s'.

(** [self] does not end up with exactly as many elements as it had before it lost its last child:
    it keeps another child, or [param] comes from elsewhere and has another size. *)
Definition roomy s (self param : oid) : Prop :=
  (exists c, In c (kids (st s) self) /\ c <> param) \/
  (par (st s) param <> Some self /\ forall b o n, arr (mem s) self = Some (b, o, n) -> n <> size (st s) param).
(** What keeps a history from sharing memory between Params: only linking needs care. *)
Definition careful s (c : call) : Prop :=
  legal s c /\ match c with Link self param index => legal_link s self param index -> roomy s self param | _ => True end.

(** [x] is [n] levels below the top of its hierarchy. *)
Definition depth (t : struct) (x : oid) (n : nat) : Prop := exists r o, below t r x o n /\ par t r = None.

(** ** Effects on values *)
(** Element [k] of [x] became [F k] of what it was, and nothing else changed. *)
Definition changed s s' (x : oid) (F : Z -> V -> V) : Prop :=
  (forall y j k, (y < next (st s))%nat -> ready (st s) y -> same_elem (st s) y j x k -> value s' y j = option_map (F k) (value s y j)) /\
  (apart s -> forall y j, (y < next (st s))%nat -> ready (st s) y -> 0 <= j < size (st s) y -> (forall k, ~ same_elem (st s) y j x k) -> value s' y j = value s y j).
(** The elements of a selection become [g] of what they were. *)
Definition on_sel (sel : option (list Z)) (g : V -> V) (k : Z) (v : V) : V :=
  match sel with None => g v | Some l => if zmem k l then g v else v end.
(** What the setter does to the elements: [ks] are the free ones, [p] the vector (recycled, if it is
    too short, and cut, if it is too long, as numpy does). *)
Definition set_effect s (x : oid) (ks : list Z) (p : list V) (F : Z -> V -> V) : Prop :=
  (forall k v, has s x Fixed k -> F k v = v) /\
  forall i k v, nth_error ks i = Some k ->
    (forall n, has s x (Tr n) k -> F k v = tf n (cyc p i v)) /\ ((forall n, ~ has s x (Tr n) k) -> F k v = cyc p i v).
(** What the getter returns: the untransformed values of the free elements [ks]. *)
Definition get_spec s (x : oid) (ks : list Z) (l : list V) : Prop :=
  length l = length ks /\ forall i k, nth_error ks i = Some k -> exists v, value s x k = Some v /\
    (forall n, has s x (Tr n) k -> nth_error l i = Some (tfinv n v)) /\ ((forall n, ~ has s x (Tr n) k) -> nth_error l i = Some v).
(** The transformed gradient [l] for the gradient [g]. *)
Definition grad_spec (tgrad : nat -> V -> V -> V) s (x : oid) (ks : list Z) (g l : list V) : Prop :=
  length l = length ks /\ forall i k, nth_error ks i = Some k -> exists v d, value s x k = Some v /\ nth_error g (Z.to_nat k) = Some d /\
    (forall n, has s x (Tr n) k -> nth_error l i = Some (tgrad n v d)) /\ ((forall n, ~ has s x (Tr n) k) -> nth_error l i = Some d).
End Calls.
(** Where in a list of children [link_parameter(param, index)] puts [param]. *)
Definition position {A : Type} (l : list A) (index : option Z) : nat :=
  match index with None => length l | Some i => clip l i end.

(** ** Lists *)
Definition without (p : oid) (l : list oid) : list oid := filter (fun q => negb (Nat.eqb q p)) l.
Definition insert_at {A : Type} (k : nat) (a : A) (l : list A) : list A := firstn k l ++ a :: skipn k l.
(** [l'] is what remains of [l] when the members that do not satisfy [P] are left out. *)
Inductive kept_of {A : Type} (P : A -> Prop) : list A -> list A -> Prop :=
| kept_nil : kept_of P [] []
| kept_yes : forall a l l', P a -> kept_of P l l' -> kept_of P (a :: l) (a :: l')
| kept_no : forall a l l', ~ P a -> kept_of P l l' -> kept_of P (a :: l) l'.

(** [x], then everything below its first child, its second child and so on. *)
Inductive preorder (t : struct) : oid -> list oid -> Prop :=
| pre_node : forall x ls, preorders t (kids t x) ls -> preorder t x (x :: ls)
with preorders (t : struct) : list oid -> list oid -> Prop :=
| pre_nil : preorders t [] []
| pre_cons : forall x r l ls, preorder t x l -> preorders t r ls -> preorders t (x :: r) (l ++ ls).

(** Calls on objects of the hierarchy of [x] that change or read values and constraints, or switch
    updates off. *)
Definition quiet_call {V : Type} (t : struct) (x : oid) (c : @call V) : Prop :=
  match c with
  | Constrain y _ _ | Unconstrain y _ _ | Fix y _ | Unfix y _ | Assign y _ | SetOptimizer y _ | ReadOptimizer y
  | Trigger y | Randomize y _ | Updates y false => together t x y
  | _ => False
  end.
(** Histories of calls allowed by [ok] that lead from one state to another. *)
Inductive hist {V : Type} (tinit tf tfinv : nat -> V -> V) (ok : @state V -> @call V -> Prop) : @state V -> @state V -> Prop :=
| hist_nil : forall s, hist tinit tf tfinv ok s s
| hist_call : forall s c s1 e s2, ok s c -> exec tinit tf tfinv c s = (s1, e) -> hist tinit tf tfinv ok s1 s2 -> hist tinit tf tfinv ok s s2.
