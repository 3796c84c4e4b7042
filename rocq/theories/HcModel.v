(** Model of Cachers of bound methods as attributes of objects in hierarchies, as in the example
    /repo/paramz/examples/ridge_regression.py:118: making and calling them (/repo/paramz/caching.py:42-84,
    149-192), switching caching off and on in a hierarchy (core/parameter_core.py:416-424, 373-393), copying
    (core/pickleable.py:73-128, caching.py:225-226) and pickling (pickleable.py:46-68, caching.py:228-229).

    Simplifications: an object gets its children when it is made; arguments are numbers or observable
    objects that do not change (invalidation is in CachingModel.v), named by numbers; limits are positive;
    what a method of an object gives depends on one attribute of the object, [data]; methods change
    nothing; a copy does nothing with caches in its parameters_changed. *)
From Coq Require Import List Bool Arith ZArith.
Import ListNotations.

(** Cacher: [operation] (object and method), [limit], [cacher_enabled], the arguments and results in the order of
    [order]; caching.py:58-62, 206-223. *)
Record cacher : Type := mkC { c_obj : nat; c_meth : nat; c_lim : nat; c_on : bool; c_res : list (nat * Z) }.
(** An object: [data], [parameters], [_parent_], the FunctionCache [cache] (its [caching_enabled] and the cachers
    by method), attributes that are Cachers; parameter_core.py:318-323, caching.py:241-244. *)
Record objr : Type := mkO { data : Z; kids : list nat; par : option nat; f_on : bool; f_cur : list (nat * nat); attrs : list (nat * nat) }.
(** All objects (parameter_core.py:303-323) and Cachers (caching.py:42-75), in the order in which they were made. *)
Record state : Type := mkS { no : nat; obj : nat -> objr; nc : nat; cch : nat -> cacher }.
(** Errors: no such attribute (of Python); PickleError, caching.py:229. *)
Inductive err : Type := AttributeError | PickleError.
(** Calls; caching.py:43, 77, 82, 149, 246, 252, parameter_core.py:416, 421, pickleable.py:73, 46. *)
Inductive call : Type :=
  | New (d : Z) (ks : list nat)                    (* Parameterized() with [data], link_parameters(ks) *)
  | Attach (o k t m lim : nat) (en : bool)         (* o.k = Cacher(t.m, lim, cacher_enabled=en) *)
  | Invoke (o k x : nat)                           (* o.k(x) *)
  | SetData (o : nat) (d : Z)                      (* o.data = d *)
  | TreeOff (o : nat)                              (* o.disable_caching() *)
  | TreeOn (o : nat)                               (* o.enable_caching() *)
  | One (o k : nat) (b : bool)                     (* o.k.enable_cacher() or o.k.disable_cacher() *)
  | Copy (o : nat)                                 (* o.copy() *)
  | Pickle (o : nat).                              (* o.pickle(f) *)

(** Lookup in a dictionary: the FunctionCache (caching.py:241), attributes of an object, results of a Cacher (caching.py:174, 192). *)
Fixpoint get {A : Type} (k : nat) (l : list (nat * A)) : option A :=
  match l with [] => None | (j, a) :: r => if Nat.eqb j k then Some a else get k r end.
(** Assignment in a dictionary; caching.py:71. *)
Fixpoint put {A : Type} (k : nat) (a : A) (l : list (nat * A)) : list (nat * A) :=
  match l with [] => [(k, a)] | (j, b) :: r => if Nat.eqb j k then (k, a) :: r else (j, b) :: put k a r end.
(** Assignment to attributes of an object or Cacher of Python, the others stay; e.g. caching.py:58-62, parameter_core.py:318-323. *)
Definition upd {A : Type} (f : nat -> A) (x : nat) (a : A) : nat -> A := fun y => if Nat.eqb y x then a else f y.
(** Assignments to objects, see [upd]. *)
Definition set_obj (s : state) (x : nat) (a : objr) : state := mkS (no s) (upd (obj s) x a) (nc s) (cch s).
(** Assignments to Cachers, see [upd]. *)
Definition set_cch (s : state) (c : nat) (a : cacher) : state := mkS (no s) (obj s) (nc s) (upd (cch s) c a).
(** [self.attribute = value]; ridge_regression.py:118. *)
Definition set_attr (a : objr) (k c : nat) : objr := mkO (data a) (kids a) (par a) (f_on a) (f_cur a) (put k c (attrs a)).
(** [cache[self.operation] = self]; caching.py:71. *)
Definition enter (a : objr) (m c : nat) : objr := mkO (data a) (kids a) (par a) (f_on a) (put m c (f_cur a)) (attrs a).

(** [Cacher(t.m, lim, cacher_enabled=en)]; caching.py:58-75: the new Cacher has the next number. *)
Definition make (s : state) (t m lim : nat) (en : bool) : state :=
  mkS (no s) (upd (obj s) t (enter (obj s t) m (nc s))) (S (nc s)) (upd (cch s) (nc s) (mkC t m lim (en && f_on (obj s t)) [])).
(** [disable_cacher]: off, and [reset]; caching.py:77-80. *)
Definition off1 (c : cacher) : cacher := mkC (c_obj c) (c_meth c) (c_lim c) false [].
(** [enable_cacher]; caching.py:82-84. *)
Definition on1 (c : cacher) : cacher := mkC (c_obj c) (c_meth c) (c_lim c) true (c_res c).
(** [FunctionCache.disable_caching] and [enable_caching]: the switch of the object and all Cachers in the
    dictionary; caching.py:246-256. *)
Definition switch (b : bool) (s : state) (x : nat) : state :=
  let a := obj s x in
  let s1 := set_obj s x (mkO (data a) (kids a) (par a) b (f_cur a) (attrs a)) in
  fold_left (fun s e => set_cch s (snd e) ((if b then on1 else off1) (cch s (snd e)))) (f_cur a) s1.
(** [traverse]: the object, then its children in order; parameter_core.py:373-393. *)
Fixpoint traverse (fuel : nat) (s : state) (o : nat) : list nat :=
  match fuel with O => [] | S n => o :: flat_map (traverse n s) (kids (obj s o)) end.
(** All of the hierarchy, parameter_core.py:373-393: children have smaller numbers. *)
Definition hierarchy (s : state) (o : nat) : list nat := traverse (S o) s o.

(** Copying the Cachers among the attributes: [Cacher.__deepcopy__], caching.py:225-226; the new Cacher has the
    [operation] of the old one, so that it is entered in the cache of the object of the old one. *)
Fixpoint copy_attrs (s : state) (l : list (nat * nat)) : state * list (nat * nat) :=
  match l with
  | [] => (s, [])
  | (k, c) :: r =>
      let a := cch s c in
      let n := nc s in
      let (s2, r') := copy_attrs (make s (c_obj a) (c_meth a) (c_lim a) true) r in (s2, (k, n) :: r')
  end.
(** Copying a list of objects one after the other; copy.deepcopy of [parameters], pickleable.py:101. *)
Fixpoint copy_list (cp : state -> nat -> state * nat) (s : state) (l : list nat) : state * list nat :=
  match l with [] => (s, []) | o :: r => let (s1, o') := cp s o in let (s2, r') := copy_list cp s1 r in (s2, o' :: r') end.
(** Setting the parent; parameterized.py:150, 248. *)
Definition set_par (p : nat) (f : nat -> objr) (ks : list nat) : nat -> objr :=
  fold_left (fun f k => upd f k (mkO (data (f k)) (kids (f k)) (Some p) (f_on (f k)) (f_cur (f k)) (attrs (f k)))) ks f.
(** [__deepcopy__] of an object: the children, then the Cachers; the FunctionCache is new
    (pickleable.py:97-102, 111, 126). *)
Fixpoint copy_tree (fuel : nat) (s : state) (o : nat) : state * nat :=
  match fuel with
  | O => (s, o)
  | S n =>
      let (s1, ks) := copy_list (copy_tree n) s (kids (obj s o)) in
      let (s2, ats) := copy_attrs s1 (attrs (obj s o)) in
      let new := no s2 in
      (mkS (S new) (upd (set_par new (obj s2) ks) new (mkO (data (obj s o)) ks None true [] ats)) (nc s2) (cch s2), new)
  end.
(** The root of a hierarchy: pickling an object pickles its parent; pickleable.py:105-112. *)
Fixpoint root (fuel : nat) (s : state) (o : nat) : nat :=
  match fuel with O => o | S n => match par (obj s o) with Some p => root n s p | None => o end end.

(** Result of a call: state, number of the new object, value (caching.py:192), whether the method was executed (caching.py:156, 179), error. *)
Record out : Type := mkR { st : state; ref : option nat; val : option Z; ran : bool; exn : option err }.
(** One call; [F m d x] is what method [m] gives for an object with data [d] and argument [x]. The
    lines are given with each case. *)
Definition exec (F : nat -> Z -> nat -> Z) (k : call) (s : state) : out :=
  match k with
  | New d ks => (* parameter_core.py:316-323, parameterized.py:150 *)
      mkR (mkS (S (no s)) (upd (set_par (no s) (obj s) ks) (no s) (mkO d ks None true [] [])) (nc s) (cch s)) (Some (no s)) None false None
  | Attach o j t m lim en => (* caching.py:43-75 *)
      let s1 := make s t m lim en in mkR (set_obj s1 o (set_attr (obj s1 o) j (nc s))) None None false None
  | Invoke o j x => (* caching.py:149-192 *)
      match get j (attrs (obj s o)) with
      | None => mkR s None None false (Some AttributeError)
      | Some c =>
          let a := cch s c in
          let v := F (c_meth a) (data (obj s (c_obj a))) x in
          if c_on a then
            match get x (c_res a) with
            | Some w => mkR s None (Some w) false None
            | None =>
                let r := if Nat.eqb (length (c_res a)) (c_lim a) then tl (c_res a) else c_res a in
                mkR (set_cch s c (mkC (c_obj a) (c_meth a) (c_lim a) true (r ++ [(x, v)]))) None (Some v) true None
            end
          else mkR s None (Some v) true None
      end
  | SetData o d =>
      let a := obj s o in mkR (set_obj s o (mkO d (kids a) (par a) (f_on a) (f_cur a) (attrs a))) None None false None
  | TreeOff o => mkR (fold_left (switch false) (hierarchy s o) s) None None false None  (* parameter_core.py:421-424 *)
  | TreeOn o => mkR (fold_left (switch true) (hierarchy s o) s) None None false None    (* parameter_core.py:416-419 *)
  | One o j b => (* caching.py:77-84 *)
      match get j (attrs (obj s o)) with
      | None => mkR s None None false (Some AttributeError)
      | Some c => mkR (set_cch s c ((if b then on1 else off1) (cch s c))) None None false None
      end
  | Copy o => let (s', o') := copy_tree (S o) s o in mkR s' (Some o') None false None   (* pickleable.py:73-102 *)
  | Pickle o => (* pickleable.py:46-68, caching.py:228-229 *)
      if existsb (fun x => match attrs (obj s x) with [] => false | _ => true end) (hierarchy s (root (no s) s o))
      then mkR s None None false (Some PickleError) else mkR s None None false None
  end.
(** Before the first call: no objects and no Cachers (caching.py, parameter_core.py). *)
Definition start : state := mkS 0 (fun _ => mkO 0 [] None true [] []) 0 (fun _ => mkC 0 0 1 true []).
