(** Vocabulary for the properties of cachers. *)
From Coq Require Import List ZArith NArith Bool Permutation Sorted.
From Verif Require Import CachingModel.
Import ListNotations.

(** The arguments whose positions are not ignored, in order. *)
Definition kept {A : Type} (ig : list nat) (l : list A) : list A :=
  map snd (filter (fun e => negb (existsb (Nat.eqb (fst e)) ig)) (combine (seq 0 (length l)) l)).

Section Spec.
Variables C V E : Type.
Variable F : list C -> list (nat * C) -> V + E.
Notation world := (world C).
Notation cacher := (cacher V).
Notation event := (event C).

(** The order in which the keyword arguments are given does not matter to the operation. *)
Definition by_name : Prop := forall xs kx ky, Permutation kx ky -> F xs kx = F xs ky.
(** The operation depends on the contents of the non-ignored arguments only; positions count the
    positional arguments first and then the keyword arguments in the order of their names. *)
Definition respects_ignore (ig : list nat) : Prop :=
  by_name /\
  forall xs ys kx ky, length xs = length ys -> map fst kx = map fst ky ->
  StronglySorted le (map fst kx) ->
  kept ig (xs ++ map snd kx) = kept ig (ys ++ map snd ky) ->
  F xs kx = F ys ky.

(** All calls of a history use one call signature: the number of positional arguments and the
    keyword names, in whatever order they are given. *)
Definition signature : Type := (nat * list nat)%type.
Definition has_sig (sg : signature) (args : list nat) (kw : list (nat * nat)) : Prop :=
  length args = fst sg /\ Permutation (map fst kw) (snd sg).

(** The argument lists for which a result is retained. *)
Definition retains (c : cacher) (ins : list nat) : Prop := exists k, c_in c k = Some ins.
Definition held (c : cacher) (o : nat) : Prop := exists ins, retains c ins /\ In o ins.

(** What may happen to a program's objects:
    - arguments of a call are alive;
    - only observables with updates on, and uncacheable objects, change; a changed observable
      notifies its observers;
    - a new object gets an address no live object has;
    - an object dies only when the cacher does not hold it. *)
Definition legal_event (sg : signature) (w : world) (c : cacher) (e : event) : Prop :=
  match e with
  | ECall args kw =>
      has_sig sg args kw /\ Forall (fun o => live w o = true) (args ++ map snd kw)
  | EChange l notes =>
      Forall (fun x => live w (fst x) = true /\
                       (kindof w (fst x) = KOther \/
                        kindof w (fst x) = KObs /\ upd w (fst x) = true /\
                        exists wh, In (fst x, wh) notes)) l /\
      Forall (fun n => live w (fst n) = true /\ live w (snd n) = true) notes
  | EReset | EDisable | EEnable | ESetUpd _ _ => True
  | ENew o k none x a =>
      live w o = false /\ forall o', live w o' = true -> addr w o' <> a
  | EDie o => live w o = true /\ ~ held c o
  end.

Fixpoint legal (sg : signature) (w : world) (c : cacher) (l : list event) : Prop :=
  match l with
  | [] => True
  | e :: r =>
      legal_event sg w c e /\
      legal sg (snd (fst (step F w c e))) (snd (step F w c e)) r
  end.

(** What the calls of a history give when the operation is called directly: this looks at object
    contents only, no cacher is involved. *)
Fixpoint ideal (f : nat -> C) (l : list event) : list (result V E) :=
  match l with
  | [] => []
  | ECall args kw :: r =>
      to_result (F (map f args) (map (fun x => (fst x, f (snd x))) kw)) :: ideal f r
  | EChange ch _ :: r => ideal (assign f ch) r
  | ENew o _ _ x _ :: r => ideal (upd1 f o x) r
  | _ :: r => ideal f r
  end.

(** A state reached by a legal history from a new cacher in a world without objects; no two
    objects share an observer list (no numpy slices among the arguments). *)
Definition reached (sg : signature) (w : world) (c : cacher) : Prop :=
  exists lim ig fo en x ol l,
    (1 <= lim)%Z /\ respects_ignore ig /\ (forall a b : nat, ol a = ol b -> a = b) /\
    legal sg (new_world x ol) (new_cacher lim ig fo en) l /\
    snd (history F (new_world x ol) (new_cacher lim ig fo en) l) = c /\
    snd (fst (history F (new_world x ol) (new_cacher lim ig fo en) l)) = w.

(** Number of registrations of the cacher with an object. *)
Definition registered_with (w : world) (o : nat) : nat := regs w (olist w o).

Definition no_reset (e : event) : Prop :=
  match e with EReset | EDisable => False | _ => True end.
(** The event brings no notification from or about an object of [ins]. *)
Definition leaves_alone (ins : list nat) (e : event) : Prop :=
  match e with
  | EChange l notes => (forall x, In x l -> ~ In (fst x) ins) /\
                         forall n, In n notes -> ~ In (fst n) ins /\ ~ In (snd n) ins
  | _ => True
  end.

(** First-in first-out retention, described without the cacher's tables: the queue of argument
    lists whose results are retained, oldest first. [en] is whether caching is switched on. *)
Definition cacheable (w : world) (fo : list nat) (kw : list (nat * nat)) (ins : list nat) : bool :=
  negb (existsb (fun x => existsb (Nat.eqb (fst x)) fo && negb (isnone w (snd x))) kw) &&
  forallb (fun o => match kindof w o with KOther => false | _ => true end) ins.
Definition ins_dec : forall a b : list nat, {a = b} + {a <> b} := list_eq_dec Nat.eq_dec.
Definition push (lim : Z) (q : list (list nat)) (ins : list nat) : list (list nat) :=
  if Z.eqb (Z.of_nat (length q)) lim then tl q ++ [ins] else q ++ [ins].
Definition queue_call (lim : Z) (ig fo : list nat) (w : world) (en : bool) (q : list (list nat))
    (args : list nat) (kw : list (nat * nat)) : list (list nat) :=
  let ins := combine_inputs ig args kw in
  if en && cacheable w fo kw ins then
    match operate F w args kw with
    | inr _ => []
    | inl _ => if in_dec ins_dec ins q then q else push lim q ins
    end
  else q.
Definition queue_step (lim : Z) (ig fo : list nat) (w : world) (eq : bool * list (list nat)) (e : event)
  : bool * list (list nat) :=
  let (en, q) := eq in
  match e with
  | ECall args kw => (en, queue_call lim ig fo w en q args kw)
  | EReset => (en, [])
  | EDisable => (false, [])
  | EEnable => (true, q)
  | _ => (en, q)
  end.
(** The worlds of a history (contents, kinds...) come from the program; registrations and the run
    counter do not matter for the queue. *)
Fixpoint queue (lim : Z) (ig fo : list nat) (w : world) (c : cacher) (eq : bool * list (list nat))
    (l : list event) : bool * list (list nat) :=
  match l with
  | [] => eq
  | e :: r => let s := step F w c e in
      queue lim ig fo (snd (fst s)) (snd s) (queue_step lim ig fo w eq e) r
  end.

(** Number of calls in a history. *)
Definition calls (l : list event) : nat :=
  length (filter (fun e => match e with ECall _ _ => true | _ => false end) l).
End Spec.

Arguments by_name {C V E}. Arguments respects_ignore {C V E}. Arguments retains {V}. Arguments held {V}.
Arguments legal_event {C V}. Arguments legal {C V E}. Arguments ideal {C V E}.
Arguments reached {C V E}. Arguments registered_with {C}. Arguments no_reset {C}.
Arguments leaves_alone {C}.
Arguments cacheable {C}. Arguments queue_call {C V E}. Arguments queue_step {C V E}. Arguments queue {C V E}.
Arguments calls {C}.
