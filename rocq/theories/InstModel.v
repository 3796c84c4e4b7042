(** Model of how transformation objects are made and shared: /repo/paramz/transformations.py:53-59
    (one object per class) and 184-203 (one [Logistic] per pair of bounds), of copying and unpickling
    them, and of the death of objects that nobody refers to any more. *)
From Coq Require Import List ZArith Bool Arith.
Import ListNotations.
Open Scope Z_scope.

(** The errors that occur here. *)
Inductive texn : Type := AssertionError | AttributeError | TypeError.
(** An instance: its class, and [lower] and [upper] once they have been set; transformations.py:200-202. *)
Record tobj : Type := mkT { tcls : nat; bds : option (Z * Z) }.
(** All instances made so far, which of them are alive, the attribute [_instance] of each class
    (55, 58; only the classes' own attributes), and the weak references in [Logistic._instances] (186). *)
Record tst : Type := mkTst { objs : list tobj; alive : nat -> bool; single : nat -> option nat; weak : list nat }.
Definition tstart : tst := mkTst [] (fun _ => false) (fun _ => None) [].

Section Instances.
(** The classes are numbers. [mro c]: the classes among which attributes of class [c] are looked up,
    [c] first; [bounded c]: [Logistic] is one of them. *)
Variable mro : nat -> list nat.
Variable bounded : nat -> bool.
(** [float]: the bounds are stored as floating point numbers, those given by the caller may be any
    numbers (integers, fractions); transformations.py:202. Bounds are counted in some small unit. *)
Variable fl : Z -> Z.
(** The default of both bounds in [__new__], [1e-6]; transformations.py:187. *)
Variable dflt : Z.

Definition cls_of (s : tst) (o : nat) : option nat := option_map tcls (nth_error (objs s) o).
Definition bds_of (s : tst) (o : nat) : option (Z * Z) := match nth_error (objs s) o with Some t => bds t | None => None end.
(** [cls._instance]: the first class in the order of lookup that has it; transformations.py:57. *)
Fixpoint lookup (s : tst) (cs : list nat) : option nat :=
  match cs with
  | [] => None
  | c :: r => match single s c with Some o => Some o | None => lookup s r end
  end.
(** [object.__new__(cls)]. *)
Definition fresh_obj (c : nat) (s : tst) : tst * nat :=
  let o := length (objs s) in
  (mkTst (objs s ++ [mkT c None]) (fun x => if (x =? o)%nat then true else alive s x) (single s) (weak s), o).
(** [Transformation.__new__]; transformations.py:56-59. The extra arguments that [object.__new__]
    rejects ([args]) only matter when an object has to be made. *)
Definition new_single (c : nat) (args : bool) (s : tst) : tst * (nat + texn) :=
  let make := if args then (s, inr TypeError)
              else let (s1, o) := fresh_obj c s in
                   (mkTst (objs s1) (alive s1) (fun x => if (x =? c)%nat then Some o else single s1 x) (weak s1), inl o) in
  match lookup s (mro c) with
  | None => make
  | Some o => match cls_of s o with
              | Some c' => if (c' =? c)%nat then (s, inl o) else make
              | None => make
              end
  end.
(** The search through the list of instances; transformations.py:190-192. An instance whose bounds
    have not been set has no attribute [lower]. *)
Fixpoint search (s : tst) (os : list nat) (lo hi : Z) : option (nat + texn) :=
  match os with
  | [] => None
  | o :: r => match bds_of s o with
              | None => Some (inr AttributeError)
              | Some (l, h) => if (l =? lo) && (h =? hi) then Some (inl o) else search s r lo hi
              end
  end.
(** [Logistic.__new__]; transformations.py:187-199. *)
Definition new_bounded (c : nat) (lo hi : Z) (s : tst) : tst * (nat + texn) :=
  let w := filter (alive s) (weak s) in
  let s1 := mkTst (objs s) (alive s) (single s) w in
  match search s w lo hi with
  | Some r => (s1, r)
  | None => let (s2, o) := fresh_obj c s1 in (mkTst (objs s2) (alive s2) (single s2) (weak s2 ++ [o]), inl o)
  end.
(** Setting the attributes of an instance. *)
Definition set_bds (o : nat) (b : option (Z * Z)) (s : tst) : tst :=
  mkTst (map (fun e => if (fst e =? o)%nat then mkT (tcls (snd e)) b else snd e) (combine (seq 0 (length (objs s))) (objs s))) (alive s) (single s) (weak s).
(** [isinstance(o, c)]. *)
Definition isinstance (s : tst) (o c : nat) : bool :=
  match cls_of s o with Some c' => existsb (Nat.eqb c) (mro c') | None => false end.
Definition drop (o : nat) (s : tst) : tst :=
  mkTst (objs s) (fun x => if (x =? o)%nat then false else alive s x) (single s) (weak s).
(** [c(lower, upper)] or [c()]: [__new__], then [__init__] (transformations.py:200-203) if the object is
    an instance of [c]. When [__init__] raises, an object made for this call dies with the exception,
    or lives on ([kept]) as long as the traceback of the exception does. *)
Definition construct (c : nat) (args : option (Z * Z)) (kept : bool) (s : tst) : tst * (nat + texn) :=
  if bounded c then
    let '(lo, hi) := match args with Some b => b | None => (dflt, dflt) end in
    match new_bounded c lo hi s with
    | (s1, inr e) => (s1, inr e)
    | (s1, inl o) =>
      let failed (e : texn) := (if kept then s1 else if (length (objs s) <=? o)%nat then drop o s1 else s1, inr e) in
      if isinstance s1 o c then
        match args with
        | None => failed TypeError
        | Some (lo, hi) => if lo <? hi then (set_bds o (Some (fl lo, fl hi)) s1, inl o) else failed AssertionError
        end
      else (s1, inl o)
    end
  else new_single c (match args with Some _ => true | None => false end) s.
(** [copy.deepcopy(o)], and unpickling of what was pickled from [o]: [cls.__new__(cls)] without arguments,
    then the attributes are set ([object.__reduce_ex__], protocol 2 and later). *)
Definition duplicate (o : nat) (s : tst) : tst * (nat + texn) :=
  match nth_error (objs s) o with
  | None => (s, inr TypeError)
  | Some t =>
    if bounded (tcls t) then
      match new_bounded (tcls t) dflt dflt s with
      | (s1, inl o') => (match bds t with Some b => set_bds o' (Some b) s1 | None => s1 end, inl o')
      | (s1, inr e) => (s1, inr e)
      end
    else new_single (tcls t) false s
  end.

(** What a program can do: construct, copy, and let go of an object. Classes refer to their
    [_instance], so such objects never die. *)
Inductive tcall : Type := Construct (c : nat) (args : option (Z * Z)) (kept : bool) | Duplicate (o : nat) | Die (o : nat).
Definition tstep (s : tst) (k : tcall) : tst :=
  match k with
  | Construct c args kept => fst (construct c args kept s)
  | Duplicate o => fst (duplicate o s)
  | Die o => match cls_of s o with Some c => if bounded c then drop o s else s | None => s end
  end.
Definition thistory (ks : list tcall) (s : tst) : tst := fold_left tstep ks s.
End Instances.
