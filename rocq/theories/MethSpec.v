(** Vocabulary for the properties of cached methods. *)
From Coq Require Import List ZArith NArith Bool.
From Verif Require Import CachingModel CachingSpec MethModel.
Import ListNotations.

(** How arguments are bound to the parameters of a function: the value of the parameter at position
    [i] is the argument at position [i]; when there are fewer arguments, the keyword argument of that
    name, or else the default. *)
Definition binds (ps : list param) (args : list nat) (kw : list (nat * nat)) (a : list nat) : Prop :=
  length a = length ps /\ length args <= length ps /\
  (forall x o, In (x, o) kw -> In x (map fst ps)) /\
  forall i x d, nth_error ps i = Some (x, d) ->
    match nth_error args i with
    | Some o => nth_error a i = Some o /\ ~ In x (map fst kw)
    | None => exists o, nth_error a i = Some o /\
                (In (x, o) kw \/ ~ In x (map fst kw) /\ d = Some o)
    end.

Section Spec.
Variables C V E : Type.
Variable wrap : ierr -> E.
Variables typeerr recerr : E.
Variable def : nat -> mdef.
Variable body : nat -> list C -> prog V E.
Notation sys := (sys C V).
Notation sevent := (sevent C).

Definition arity (m : nat) : nat := length (params (def m)).

(** What the methods compute when nothing is cached: a function of the contents of the arguments. *)
Definition at_positions (xs : list C) (ps : list nat) : list C :=
  flat_map (fun i => match nth_error xs i with Some x => [x] | None => [] end) ps.
Fixpoint computes (call : nat -> list C -> V + E) (xs : list C) (p : prog V E) : V + E :=
  match p with
  | Done r => r
  | Use m ps k => computes call xs (k (call m (at_positions xs ps)))
  end.
Fixpoint uncached (depth : nat) (m : nat) (xs : list C) : V + E :=
  match depth with
  | O => inr recerr
  | S n => computes (uncached n) xs (body m xs)
  end.
Definition plain (m : nat) (xs : list C) : V + E := uncached (S m) m xs.

(** A body calls only methods declared before its own one, with the right number of arguments, which
    are taken from its own arguments. *)
Inductive sound (n m : nat) : prog V E -> Prop :=
| sound_done : forall r, sound n m (Done r)
| sound_use : forall m' ps k, m' < m -> length ps = arity m' -> Forall (fun i => i < n) ps ->
    (forall r, sound n m (k r)) -> sound n m (Use m' ps k).

(** The methods of the program: each has a parameter self, a positive limit, and does not depend on
    the arguments it ignores. *)
Definition good_methods : Prop := forall m,
  1 <= arity m /\ (1 <= mlim (def m))%Z /\
  respects_ignore (fun xs (_ : list (nat * C)) => plain m xs) (mig (def m)) /\
  forall xs, length xs = arity m -> sound (arity m) m (body m xs).

(** The method does not look at its object. *)
Definition selfless (m : nat) : Prop := forall x y xs, plain m (x :: xs) = plain m (y :: xs).

(** What may happen, as for single cachers (CachingSpec.legal_event):
    - arguments are alive; - only observables with updates on, and uncacheable objects, change;
    - new objects get addresses no live object has; - an object dies only when no other object's
    cache holds it; - only methods that do not look at their object are cached as bound methods;
    - objects with such cachers are copied only as parameterized objects. *)
Definition slegal_event (s : sys) (ev : sevent) : Prop :=
  let w := sw s in
  match ev with
  | SCall m args kw =>
      forall a, bound_args (params (def m)) args kw = Some a -> Forall (fun o => live w o = true) a
  | SBind o m lim ig fo en =>
      live w o = true /\ (1 <= lim)%Z /\ selfless m /\
      forall x, respects_ignore (fun xs (_ : list (nat * C)) => plain m (x :: xs)) ig
  | SBound o m args =>
      get_entry s o (true, m) <> None /\ S (length args) = arity m /\
      Forall (fun o => live w o = true) (o :: args)
  | SChange l notes =>
      Forall (fun x => live w (fst x) = true /\
                       (kindof w (fst x) = KOther \/
                        kindof w (fst x) = KObs /\ upd w (fst x) = true /\
                        exists wh, In (fst x, wh) notes)) l /\
      Forall (fun n => live w (fst n) = true /\ live w (snd n) = true) notes
  | SNew o k none x a p => live w o = false /\ forall o', live w o' = true -> addr w o' <> a
  | SCopy o o' a p =>
      live w o = true /\ live w o' = false /\ (forall o1, live w o1 = true -> addr w o1 <> a) /\
      (p = false -> forall m, get_entry s o (true, m) = None)
  | SDie o =>
      live w o = true /\ forall o' k e, o' <> o -> get_entry s o' k = Some e -> ~ held (ec e) o
  | SSetUpd _ _ | SReset _ | SDisable _ | SEnable _ | SOne _ _ _ => True
  end.
Fixpoint slegal (s : sys) (l : list sevent) : Prop :=
  match l with
  | [] => True
  | e :: r => slegal_event s e /\ slegal (snd (sstep wrap typeerr recerr def body s e)) r
  end.

(** What the calls of a history give when nothing is cached. *)
Fixpoint sideal (f : nat -> C) (l : list sevent) : list (V + E) :=
  match l with
  | [] => []
  | SCall m args kw :: r =>
      match bound_args (params (def m)) args kw with
      | Some a => plain m (map f a)
      | None => inr typeerr
      end :: sideal f r
  | SBound o m args :: r => plain m (f o :: map f args) :: sideal f r
  | SChange ch _ :: r => sideal (assign f ch) r
  | SNew o _ _ x _ _ :: r => sideal (upd1 f o x) r
  | SCopy o o' _ _ :: r => sideal (upd1 f o' (f o)) r
  | _ :: r => sideal f r
  end.

(** States reached by legal histories. *)
Definition arises (l : list sevent) (s : sys) : Prop :=
  exists x ol, (forall a b : nat, ol a = ol b -> a = b) /\ slegal (new_sys x ol) l /\
    s = snd (shistory wrap typeerr recerr def body (new_sys x ol) l).

(** Whether caching is switched on for an object, from the history alone: on for new objects and
    copies (and, for definiteness, dead objects), then as the last switch says. *)
Definition switch (o : nat) (b : bool) (ev : sevent) : bool :=
  match ev with
  | SNew o' _ _ _ _ _ => if Nat.eqb o o' then true else b
  | SCopy _ o' _ _ => if Nat.eqb o o' then true else b
  | SDie o' => if Nat.eqb o o' then true else b
  | SDisable o' => if Nat.eqb o o' then false else b
  | SEnable o' => if Nat.eqb o o' then true else b
  | _ => b
  end.
Definition switched (l : list sevent) (o : nat) : bool := fold_left (switch o) l true.
(** The program uses the switches of objects only: no switches of single cachers, no cachers that
    start switched off, no copies of caches; and switches only objects that have a cache. *)
Definition by_object (s : sys) (ev : sevent) : Prop :=
  match ev with
  | SOne _ _ (Some _) => False
  | SBind _ _ _ _ _ en => en = true
  | SCopy _ _ _ p => p = true
  | SDisable o => caches s o <> None
  | _ => True
  end.
Fixpoint all_by_object (s : sys) (l : list sevent) : Prop :=
  match l with
  | [] => True
  | e :: r => by_object s e /\ all_by_object (snd (sstep wrap typeerr recerr def body s e)) r
  end.

(** How often the method was executed for the object. *)
Definition executions (s : sys) (o m : nat) : nat :=
  match get_entry s o (false, m) with Some e => eruns e | None => 0 end.
End Spec.

Arguments at_positions {C}. Arguments computes {C V E}. Arguments uncached {C V E}. Arguments plain {C V E}.
Arguments sound {V E}. Arguments good_methods {C V E}. Arguments selfless {C V E}.
Arguments slegal_event {C V E}. Arguments slegal {C V E}. Arguments sideal {C V E}. Arguments arises {C V E}.
Arguments switch {C}. Arguments switched {C}. Arguments by_object {C V}. Arguments all_by_object {C V E}.
Arguments executions {C V}.
