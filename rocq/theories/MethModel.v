(** Model of cached methods: classes Cache_this and FunctionCache, and Cacher for bound methods,
    /repo/paramz/caching.py:63-71, 225-226, 241-287, on top of the cachers of CachingModel.

    Every object can have a [cache] (a FunctionCache: a dictionary from functions and bound methods
    to cachers); a method decorated with [Cache_this] looks up, or makes, the cacher of the object
    it is called on. The bodies of the methods are programs that use the contents of their
    arguments and may call cached methods on their arguments.
    Simplifications: bodies do not change objects; methods are numbers; a cacher that was replaced
    in its dictionary is forgotten; the parts of a cacher's world that belong to the cacher (its
    registrations, its counter of executions) are kept with the cacher. *)
From Coq Require Import List ZArith NArith Bool.
From Verif Require Import CachingModel.
Import ListNotations.

(** A parameter of a function: its name and the object that is its default value, if any. *)
Definition param : Type := (nat * option nat)%type.

(** The declaration of a decorated method: parameters (self first), and the arguments of
    [Cache_this]; caching.py:267-271. *)
Record mdef : Type := mkM { params : list param; mlim : Z; mig : list nat; mfo : list nat }.

(** [kw[x]] for the keyword arguments of a call, caching.py:274, 286. *)
Fixpoint kwget (kw : list (nat * nat)) (x : nat) : option nat :=
  match kw with [] => None | (y, o) :: r => if Nat.eqb x y then Some o else kwget r x end.
(** What the function made by [decorate] (package decorator, called in caching.py:286) does with its
    arguments: it binds them to the parameters and passes all of them by position; [None] is
    TypeError. Functions with [*args], [**kwargs] or keyword-only parameters are not modelled. *)
Fixpoint bind (ps : list param) (args : list nat) (kw : list (nat * nat)) : option (list nat) :=
  match ps, args with
  | [], [] => Some []
  | [], _ => None
  | (x, _) :: ps', a :: args' =>
      match kwget kw x with Some _ => None | None => option_map (cons a) (bind ps' args' kw) end
  | (x, d) :: ps', [] =>
      match kwget kw x, d with
      | Some o, _ => option_map (cons o) (bind ps' [] kw)
      | None, Some o => option_map (cons o) (bind ps' [] kw)
      | None, None => None
      end
  end.
(** Keyword arguments that are not parameters: TypeError; binding of the arguments of the decorated
    function, caching.py:286. *)
Definition known (ps : list param) (kw : list (nat * nat)) : bool :=
  forallb (fun e => existsb (Nat.eqb (fst e)) (map fst ps)) kw.
Definition bound_args (ps : list param) (args : list nat) (kw : list (nat * nat)) : option (list nat) :=
  if known ps kw then bind ps args kw else None.

Section Meth.
Variables C V E : Type.
(** KeyError and the like as exceptions, TypeError, RecursionError. *)
Variable wrap : ierr -> E.
Variables typeerr recerr : E.

(** The body of a method: it ends, or calls the cached method [m] with the arguments at the given
    positions among its own ones and goes on with the outcome. *)
Inductive prog : Type :=
| Done (r : V + E)
| Use (m : nat) (ps : list nat) (k : V + E -> prog).

Variable def : nat -> mdef.
Variable body : nat -> list C -> prog.

(** A Cacher (caching.py:42-75) with its registrations, per observer list, and its count of executions (ghost). *)
Record entry : Type := mkEnt { ec : cacher V; eregs : nat -> nat; eruns : nat }.
(** FunctionCache, caching.py:241-244: the keys are functions [(false, m)] and bound methods
    [(true, m)]. *)
Definition dkey : Type := (bool * nat)%type.
Record fcache : Type := mkF { fon : bool; ents : list (dkey * entry) }.
(** The objects, and their [cache] attributes (caching.py:65-66, 276-277). The fields [regs] and [runs] of [sw] are not used. *)
Record sys : Type := mkSys { sw : world C; caches : nat -> option fcache }.

(** Access to the dictionary, caching.py:241 (a subclass of dict), 71, 279-282. *)
Definition key_is (a b : dkey) : bool := Bool.eqb (fst a) (fst b) && Nat.eqb (snd a) (snd b).
Fixpoint dget (l : list (dkey * entry)) (k : dkey) : option entry :=
  match l with [] => None | (k', e) :: r => if key_is k k' then Some e else dget r k end.
Fixpoint dset (l : list (dkey * entry)) (k : dkey) (e : entry) : list (dkey * entry) :=
  match l with
  | [] => [(k, e)]
  | (k', e') :: r => if key_is k k' then (k, e) :: r else (k', e') :: dset r k e
  end.

(** The world as one cacher (caching.py:42-239) sees it, and back; [blank_entry] is a cacher just made,
    caching.py:43-75. *)
Definition view (w : world C) (e : entry) : world C :=
  mkW (content w) (kindof w) (isnone w) (addr w) (live w) (upd w) (olist w) (eregs e) (eruns e).
Definition entry_of (w : world C) (c : cacher V) : entry := mkEnt c (regs w) (runs w).
Definition blank_entry (c : cacher V) : entry := mkEnt c (fun _ => 0) 0.

(** [obj.cache = ...], [obj.cache[k]], [obj.cache[k] = ...]; caching.py:66, 71, 277-282. *)
Definition set_cache (s : sys) (o : nat) (f : option fcache) : sys := mkSys (sw s) (upd1 (caches s) o f).
Definition get_entry (s : sys) (o : nat) (k : dkey) : option entry :=
  match caches s o with Some f => dget (ents f) k | None => None end.
Definition set_entry (s : sys) (o : nat) (k : dkey) (e : entry) : sys :=
  match caches s o with Some f => set_cache s o (Some (mkF (fon f) (dset (ents f) k e))) | None => s end.

(** [if not hasattr(obj, 'cache'): obj.cache = FunctionCache()]; caching.py:65-66, 276-277. *)
Definition ensure_cache (s : sys) (o : nat) : sys :=
  match caches s o with Some _ => s | None => set_cache s o (Some (mkF true [])) end.
(** Looking up the cacher of a method, making it if there is none; caching.py:278-282. *)
Definition ensure_entry (s : sys) (o : nat) (m : nat) : sys :=
  match get_entry s o (false, m), caches s o with
  | None, Some f =>
      set_entry s o (false, m)
        (blank_entry (new_cacher (mlim (def m)) (mig (def m)) (mfo (def m)) (fon f)))
  | _, _ => s
  end.

(** What the caller of a cacher gets: the value or the exception, caching.py:149-192. *)
Definition outcome (r : result V E) : V + E :=
  match r with Ret v => inl v | Exc e => inr e | Internal e => inr (wrap e) end.

(** Counting an execution (ghost) of [self.operation( *args, **kw)], caching.py:156, 163, 172, 179. *)
Definition count_run (s : sys) (o : nat) (k : dkey) : sys :=
  match get_entry s o k with
  | Some e => set_entry s o k (mkEnt (ec e) (eregs e) (S (eruns e)))
  | None => s
  end.
(** [cacher( *args)] for the cacher [k] of object [o], when executing the operation is [run];
    [Cacher.__call__], caching.py:149-192. *)
Definition through (s : sys) (o : nat) (k : dkey) (args : list nat) (run : sys -> (V + E) * sys)
  : (V + E) * sys :=
  match get_entry s o k with
  | None => (inr (wrap KeyErr), s)
  | Some e =>
      match begin_call (view (sw s) e) (ec e) args [] with
      | Bypass => let (r, s2) := run s in (r, count_run s2 o k)
      | Hit v => (inl v, s)
      | Broken => (inr (wrap KeyErr), s)
      | Compute p =>
          let (r, s2) := run s in
          match get_entry s2 o k with
          | None => (inr (wrap KeyErr), s2)
          | Some e2 =>
              let '(x, w', c') := end_call (tick (view (sw s2) e2)) (ec e2) p r in
              (outcome x, set_entry s2 o k (entry_of w' c'))
          end
      end
  end.

(** Running the body of a method ([self.operation], caching.py:61, 179); [callm] calls cached methods. *)
Fixpoint run_prog (callm : sys -> nat -> list nat -> (V + E) * sys) (args : list nat) (p : prog) (s : sys)
  : (V + E) * sys :=
  match p with
  | Done r => (r, s)
  | Use m ps k =>
      let (r, s') := callm s m (map (fun i => nth i args 0) ps) in run_prog callm args (k r) s'
  end.

(** The function [g] of [Cache_this.__call__], caching.py:274-283, given its arguments by position;
    [fuel] bounds the depth of calls. *)
Fixpoint callm (fuel : nat) (s : sys) (m : nat) (args : list nat) : (V + E) * sys :=
  match fuel with
  | O => (inr recerr, s)
  | S n =>
      match args with
      | [] => (inr typeerr, s)
      | o :: _ =>
          let s1 := ensure_entry (ensure_cache s o) o m in
          through s1 o (false, m) args
            (fun s2 => run_prog (callm n) args (body m (map (content (sw s2)) args)) s2)
      end
  end.
(** A call of the decorated method, caching.py:274-287. *)
Definition method_call (s : sys) (m : nat) (args : list nat) (kw : list (nat * nat)) : (V + E) * sys :=
  match bound_args (params (def m)) args kw with
  | None => (inr typeerr, s)
  | Some a => callm (S m) s m a
  end.

(** [Cacher(o.m, lim, ig, fo, en)], caching.py:43-75. *)
Definition bind_cacher (s : sys) (o m : nat) (lim : Z) (ig fo : list nat) (en : bool) : sys :=
  let s1 := ensure_cache s o in
  match caches s1 o with
  | Some f => set_entry s1 o (true, m) (blank_entry (new_cacher lim ig fo (en && fon f)))
  | None => s1
  end.
(** Calling it, caching.py:149-192: the operation is the (undecorated) bound method. *)
Definition bound_call (s : sys) (o m : nat) (args : list nat) : (V + E) * sys :=
  through s o (true, m) args
    (fun s2 => run_prog (callm m) (o :: args) (body m (map (content (sw s2)) (o :: args))) s2).

(** Applying a function to all cachers of an object ([for c in self.values()], caching.py:249, 255,
    260), or of all objects. *)
Definition on_ents (f : entry -> entry) (l : list (dkey * entry)) : list (dkey * entry) :=
  map (fun x => (fst x, f (snd x))) l.
Definition on_object (s : sys) (o : nat) (b : option bool) (f : entry -> entry) : sys :=
  match caches s o with
  | Some c => set_cache s o (Some (mkF (match b with Some b => b | None => fon c end) (on_ents f (ents c))))
  | None => s
  end.
Definition on_all (w : world C) (s : sys) (f : entry -> entry) : sys :=
  mkSys w (fun o => option_map (fun c => mkF (fon c) (on_ents f (ents c))) (caches s o)).

(** [reset], [disable_cacher], [enable_cacher] of a cacher; caching.py:77-84, 206-223. *)
Definition e_reset (w : world C) (e : entry) : entry :=
  let (w', c') := reset (view w e) (ec e) in entry_of w' c'.
Definition e_off (w : world C) (e : entry) : entry :=
  let (w', c') := reset (view w e) (set_enabled (ec e) false) in entry_of w' c'.
Definition e_on (e : entry) : entry := mkEnt (set_enabled (ec e) true) (eregs e) (eruns e).
(** [Cacher.__deepcopy__], caching.py:225-226. *)
Definition e_copy (e : entry) : entry :=
  blank_entry (new_cacher (limit (ec e)) (ignore (ec e)) (force (ec e)) true).

(** What can happen. [SCopy o o' a true] is [copy] of a Parameterizable object, whose caches are not
    copied (/repo/paramz/core/pickleable.py:111, 126); [SCopy o o' a false] is [copy.deepcopy] of
    another object that has no cachers for bound methods: its FunctionCache is copied as a
    dictionary with an attribute. [SNew ... p]: [p] says whether the new object gets its cache at
    once (/repo/paramz/core/parameter_core.py:323). *)
Inductive sevent : Type :=
| SCall (m : nat) (args : list nat) (kw : list (nat * nat))
| SBind (o m : nat) (lim : Z) (ig fo : list nat) (en : bool)
| SBound (o m : nat) (args : list nat)
| SChange (l : list (nat * C)) (notes : list (nat * nat))
| SNew (o : nat) (k : kind) (none : bool) (x : C) (a : N) (p : bool)
| SCopy (o o' : nat) (a : N) (p : bool)
| SDie (o : nat)
| SSetUpd (o : nat) (b : bool)
| SReset (o : nat)                  (* o.cache.reset(), caching.py:258-261 *)
| SDisable (o : nat)                (* o.cache.disable_caching(), caching.py:246-250 *)
| SEnable (o : nat)                 (* o.cache.enable_caching(), caching.py:252-256 *)
| SOne (o : nat) (k : dkey) (b : option bool).
    (* o.cache[k].reset(), .disable_cacher() or .enable_cacher() *)

(** A new object, its death, and its switch for updates, as in CachingModel.step
    (/repo/paramz/core/observable.py:40-47). *)
Definition with_new (w : world C) (o : nat) (k : kind) (none : bool) (x : C) (a : N) : world C :=
  mkW (upd1 (content w) o x) (upd1 (kindof w) o k) (upd1 (isnone w) o none)
      (upd1 (addr w) o a) (upd1 (live w) o true) (upd1 (upd w) o true) (olist w) (regs w) (runs w).
Definition with_dead (w : world C) (o : nat) : world C :=
  mkW (content w) (kindof w) (isnone w) (addr w) (upd1 (live w) o false) (upd w) (olist w) (regs w) (runs w).
Definition with_upd (w : world C) (o : nat) (b : bool) : world C :=
  mkW (content w) (kindof w) (isnone w) (addr w) (live w) (upd1 (upd w) o b) (olist w) (regs w) (runs w).

(** The notifications of a change reach all cachers; caching.py:194-204 and
    /repo/paramz/core/observable.py:75-97. *)
Definition e_deliver (w : world C) (notes : list (nat * nat)) (e : entry) : entry :=
  mkEnt (fold_left (deliver (view w e)) notes (ec e)) (eregs e) (eruns e).

(** One event; the lines are given with [sevent] and the functions used. *)
Definition sstep (s : sys) (ev : sevent) : option (V + E) * sys :=
  match ev with
  | SCall m args kw => let (r, s') := method_call s m args kw in (Some r, s')
  | SBind o m lim ig fo en => (None, bind_cacher s o m lim ig fo en)
  | SBound o m args => let (r, s') := bound_call s o m args in (Some r, s')
  | SChange l notes =>
      let w' := set_content (sw s) (assign (content (sw s)) l) in
      (None, on_all w' s (e_deliver w' notes))
  | SNew o k none x a p =>
      (None, mkSys (with_new (sw s) o k none x a)
                   (upd1 (caches s) o (if p then Some (mkF true []) else None)))
  | SCopy o o' a p =>
      (None, mkSys (with_new (sw s) o' (kindof (sw s) o) (isnone (sw s) o) (content (sw s) o) a)
                   (upd1 (caches s) o'
                      (if p then Some (mkF true [])
                       else option_map (fun f => mkF (fon f) (on_ents e_copy (ents f))) (caches s o))))
  | SDie o => (None, mkSys (with_dead (sw s) o) (upd1 (caches s) o None))
  | SSetUpd o b => (None, mkSys (with_upd (sw s) o b) (caches s))
  | SReset o => (None, on_object s o None (e_reset (sw s)))
  | SDisable o => (None, on_object s o (Some false) (e_off (sw s)))
  | SEnable o => (None, on_object s o (Some true) e_on)
  | SOne o k b =>
      (None, match get_entry s o k with
             | None => s       (* KeyError *)
             | Some e => set_entry s o k (match b with
                                          | None => e_reset (sw s) e
                                          | Some false => e_off (sw s) e
                                          | Some true => e_on e
                                          end)
             end)
  end.

(** A history of events (caching.py:42-287) and the outcomes of its calls. *)
Fixpoint shistory (s : sys) (l : list sevent) : list (V + E) * sys :=
  match l with
  | [] => ([], s)
  | e :: r =>
      let (x, s1) := sstep s e in
      let (xs, s2) := shistory s1 r in
      (match x with Some y => y :: xs | None => xs end, s2)
  end.

(** No objects yet (before any caching.py:65-66, 276-277). *)
Definition new_sys (x : C) (ol : nat -> nat) : sys := mkSys (new_world x ol) (fun _ => None).
End Meth.

Arguments Done {V E}. Arguments Use {V E}.
Arguments mkEnt {V}. Arguments ec {V}. Arguments eregs {V}. Arguments eruns {V}.
Arguments mkF {V}. Arguments fon {V}. Arguments ents {V}.
Arguments mkSys {C V}. Arguments sw {C V}. Arguments caches {C V}.
Arguments dget {V}. Arguments dset {V}. Arguments view {C V}. Arguments entry_of {C V}. Arguments blank_entry {V}.
Arguments set_cache {C V}. Arguments get_entry {C V}. Arguments set_entry {C V}.
Arguments ensure_cache {C V}. Arguments ensure_entry {C V}. Arguments outcome {V E}.
Arguments count_run {C V}. Arguments through {C V E}. Arguments run_prog {C V E}. Arguments callm {C V E}. Arguments method_call {C V E}.
Arguments bind_cacher {C V}. Arguments bound_call {C V E}.
Arguments on_ents {V}. Arguments on_object {C V}. Arguments on_all {C V}.
Arguments e_reset {C V}. Arguments e_off {C V}. Arguments e_on {V}. Arguments e_copy {V}. Arguments e_deliver {C V}.
Arguments SCall {C}. Arguments SBind {C}. Arguments SBound {C}. Arguments SChange {C}. Arguments SNew {C}.
Arguments SCopy {C}. Arguments SDie {C}. Arguments SSetUpd {C}. Arguments SReset {C}. Arguments SDisable {C}.
Arguments SEnable {C}. Arguments SOne {C}.
Arguments with_new {C}. Arguments with_dead {C}. Arguments with_upd {C}.
Arguments sstep {C V E}. Arguments shistory {C V E}. Arguments new_sys {C V}.
