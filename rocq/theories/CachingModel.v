(** Model of class Cacher, /repo/paramz/caching.py:42-239.

    The world of objects: contents, addresses ([id]), liveness, and for each observer list the
    number of registrations of this cacher's callback (an ObsAr and its slices share one observer
    list, /repo/paramz/core/observable_array.py:69-73).
    The cached operation is a parameter [F]: what it returns or raises, given the contents of its
    positional arguments and of its keyword arguments (sorted by name).
    Simplifications: dictionaries that are never iterated are partial functions; keyword names are
    numbers; [runs] (ghost) counts executions of the operation. *)
From Coq Require Import List ZArith NArith Bool Ascii.
Import ListNotations.

(** Cache identifiers: strings. *)
Definition key := list ascii.
Definition key_dec : forall a b : key, {a = b} + {a <> b} := list_eq_dec ascii_dec.
Definition key_eqb (a b : key) : bool := if key_dec a b then true else false.

(** [hex(n)]; caching.py:86-88. *)
Definition hexdigit (d : N) : ascii :=
  if N.ltb d 10 then ascii_of_N (48 + d) else ascii_of_N (87 + d).
Fixpoint hexdigits (fuel : nat) (n : N) : list ascii :=
  match fuel with
  | O => [hexdigit n]
  | S f => if N.ltb n 16 then [hexdigit n] else hexdigits f (N.div n 16) ++ [hexdigit (N.modulo n 16)]
  end.
Definition hex (n : N) : key := "0"%char :: "x"%char :: hexdigits (N.size_nat n) n.

(** [prepare_cache_id]: concatenation of the identifiers; caching.py:96-99. *)
Definition prepare_cache_id (addrs : list N) : key := concat (map hex addrs).

(** What matters about a Python object used as an argument; caching.py:141, 169. *)
Inductive kind : Type := KObs     (* an Observable *)
                       | KPlain   (* None, a Number or a str *)
                       | KOther.  (* anything else: not cacheable *)

Section Cacher.
Variables C V E : Type.
(** The operation: contents of args, contents of sorted keyword args -> value or exception. *)
Variable F : list C -> list (nat * C) -> V + E.

Record world : Type := mkW {
  content : nat -> C;
  kindof : nat -> kind;
  isnone : nat -> bool;      (* the object is None *)
  addr : nat -> N;
  live : nat -> bool;
  upd : nat -> bool;         (* _update_on *)
  olist : nat -> nat;        (* identity of the observer list of an object *)
  regs : nat -> nat;         (* registrations of (self, self.on_cache_changed) per observer list *)
  runs : nat }.

Record cacher : Type := mkC {
  limit : Z;
  ignore : list nat;         (* ignore_args *)
  force : list nat;          (* force_kwargs *)
  enabled : bool;
  order : list key;
  c_in : key -> option (list nat);
  c_out : key -> option V;
  c_chg : key -> option bool;
  c_ids : list (key * (nat * list key)) }.

Definition mset {A} (m : key -> option A) (k : key) (v : option A) : key -> option A :=
  fun x => if key_eqb x k then v else m x.

(** Setters. *)
Definition set_regs (w : world) (r : nat -> nat) : world :=
  mkW (content w) (kindof w) (isnone w) (addr w) (live w) (upd w) (olist w) r (runs w).
Definition set_content (w : world) (c : nat -> C) : world :=
  mkW c (kindof w) (isnone w) (addr w) (live w) (upd w) (olist w) (regs w) (runs w).
Definition tick (w : world) : world :=
  mkW (content w) (kindof w) (isnone w) (addr w) (live w) (upd w) (olist w) (regs w) (S (runs w)).
Definition set_ids (c : cacher) (i : list (key * (nat * list key))) : cacher :=
  mkC (limit c) (ignore c) (force c) (enabled c) (order c) (c_in c) (c_out c) (c_chg c) i.
Definition set_chg (c : cacher) (m : key -> option bool) : cacher :=
  mkC (limit c) (ignore c) (force c) (enabled c) (order c) (c_in c) (c_out c) m (c_ids c).
Definition set_enabled (c : cacher) (b : bool) : cacher :=
  mkC (limit c) (ignore c) (force c) b (order c) (c_in c) (c_out c) (c_chg c) (c_ids c).

(** The id table [cached_input_ids] (iterated by reset, hence an association list). *)
Fixpoint iget (l : list (key * (nat * list key))) (k : key) : option (nat * list key) :=
  match l with
  | [] => None
  | (k', v) :: r => if key_eqb k k' then Some v else iget r k
  end.
Fixpoint iset (l : list (key * (nat * list key))) (k : key) (v : nat * list key) :=
  match l with
  | [] => [(k, v)]
  | (k', v') :: r => if key_eqb k k' then (k, v) :: r else (k', v') :: iset r k v
  end.
Fixpoint idel (l : list (key * (nat * list key))) (k : key) :=
  match l with
  | [] => []
  | (k', v') :: r => if key_eqb k k' then r else (k', v') :: idel r k
  end.

(** [a.add_observer(self, self.on_cache_changed)] and [remove_observer] (which removes every
    matching registration, ObserversProps.C10_remove_exact); caching.py:113, 146, 210. *)
Definition add_obs (w : world) (o : nat) : world :=
  set_regs w (fun l => if Nat.eqb l (olist w o) then S (regs w l) else regs w l).
Definition rem_obs (w : world) (o : nat) : world :=
  set_regs w (fun l => if Nat.eqb l (olist w o) then 0%nat else regs w l).

(** [self.id(a)]; caching.py:86-88. *)
Definition oid_key (w : world) (o : nat) : key := hex (addr w o).

(** [combine_inputs]; caching.py:90-94. *)
Fixpoint kw_insert {A} (x : nat * A) (l : list (nat * A)) : list (nat * A) :=
  match l with
  | [] => [x]
  | y :: r => if Nat.leb (fst x) (fst y) then x :: l else y :: kw_insert x r
  end.
Definition kw_sort {A} (l : list (nat * A)) : list (nat * A) := fold_right kw_insert [] l.
Fixpoint drop_ignored {A} (ig : list nat) (i : nat) (l : list A) : list A :=
  match l with
  | [] => []
  | a :: r => if existsb (Nat.eqb i) ig then drop_ignored ig (S i) r
              else a :: drop_ignored ig (S i) r
  end.
Definition combine_inputs (ig : list nat) (args : list nat) (kw : list (nat * nat)) : list nat :=
  drop_ignored ig 0 (args ++ map snd (kw_sort kw)).

(** [self.operation( *args, **kw)] on the present contents. *)
Definition operate (w : world) (args : list nat) (kw : list (nat * nat)) : V + E :=
  F (map (content w) args) (map (fun x => (fst x, content w (snd x))) kw).

(** [list.remove(x)]: first occurrence, ValueError if absent. *)
Fixpoint list_remove1 (k : key) (l : list key) : option (list key) :=
  match l with
  | [] => None
  | x :: r => if key_eqb k x then Some r else option_map (cons x) (list_remove1 k r)
  end.

(** The loop of [ensure_cache_length] over the inputs of the dropped entry; caching.py:107-117.
    [None] is ValueError from [list.remove]. *)
Fixpoint release (cid : key) (ins : list nat) (w : world) (ids : list (key * (nat * list key)))
  : option (world * list (key * (nat * list key))) :=
  match ins with
  | [] => Some (w, ids)
  | o :: r =>
      let k := oid_key w o in
      match iget ids k with
      | None => release cid r w ids
      | Some (ref, cids) =>
          if Nat.eqb (length cids) 1 && live w ref
          then release cid r (rem_obs w ref) (idel ids k)
          else match list_remove1 cid cids with
               | Some cids' => release cid r w (iset ids k (ref, cids'))
               | None => None
               end
      end
  end.

(** Errors raised by the cacher itself: IndexError (popleft of an empty deque), KeyError. *)
Inductive ierr : Type := IndexErr | KeyErr | ValueErr.

(** [ensure_cache_length]; caching.py:101-132. *)
Definition ensure_cache_length (w : world) (c : cacher) : (world * cacher) + (ierr * cacher) :=
  if Z.eqb (Z.of_nat (length (order c))) (limit c) then
    match order c with
    | [] => inr (IndexErr, c)
    | cid :: rest =>
        let c1 := mkC (limit c) (ignore c) (force c) (enabled c) rest
                      (c_in c) (c_out c) (c_chg c) (c_ids c) in
        match c_in c cid with
        | None => inr (KeyErr, c1)
        | Some ins =>
            match release cid ins w (c_ids c) with
            | None => inr (ValueErr, c1)
            | Some (w', ids') =>
                inl (w', mkC (limit c) (ignore c) (force c) (enabled c) rest
                             (mset (c_in c) cid None) (mset (c_out c) cid None)
                             (mset (c_chg c) cid None) ids')
            end
        end
    end
  else inl (w, c).

(** The loop of [add_to_cache]; caching.py:140-147. *)
Fixpoint acquire (cid : key) (ins : list nat) (w : world) (ids : list (key * (nat * list key)))
  : world * list (key * (nat * list key)) :=
  match ins with
  | [] => (w, ids)
  | o :: r =>
      match kindof w o with
      | KPlain => acquire cid r w ids
      | _ =>
          let k := oid_key w o in
          let (ref, cids) := match iget ids k with Some v => v | None => (o, []) end in
          let cids' := cids ++ [cid] in
          let w' := if Nat.eqb (length cids') 1 then add_obs w o else w in
          acquire cid r w' (iset ids k (ref, cids'))
      end
  end.

(** [add_to_cache]; caching.py:134-147. *)
Definition add_to_cache (w : world) (c : cacher) (cid : key) (ins : list nat) (out : V)
  : world * cacher :=
  let (w', ids') := acquire cid ins w (c_ids c) in
  (w', mkC (limit c) (ignore c) (force c) (enabled c) (order c ++ [cid])
           (mset (c_in c) cid (Some ins)) (mset (c_out c) cid (Some out))
           (mset (c_chg c) cid (Some false)) ids').

(** [reset]; caching.py:206-223. *)
Definition reset (w : world) (c : cacher) : world * cacher :=
  (fold_left (fun w e => if live w (fst (snd e)) then rem_obs w (fst (snd e)) else w) (c_ids c) w,
   mkC (limit c) (ignore c) (force c) (enabled c) []
       (fun _ => None) (fun _ => None) (fun _ => None) []).

(** A call in progress (between the start and the end of the operation). *)
Record pending : Type := mkP { p_cid : key; p_ins : list nat; p_changed : bool }.

Inductive begun : Type :=
| Bypass                 (* call the operation without caching *)
| Hit (v : V)
| Broken                 (* KeyError on cached_outputs *)
| Compute (p : pending).

(** First half of [__call__], up to the execution of the operation; caching.py:149-176, 192. *)
Definition begin_call (w : world) (c : cacher) (args : list nat) (kw : list (nat * nat)) : begun :=
  if negb (enabled c) then Bypass
  else if existsb (fun x => existsb (Nat.eqb (fst x)) (force c) && negb (isnone w (snd x))) kw
  then Bypass
  else
    let ins := combine_inputs (ignore c) args kw in
    let cid := prepare_cache_id (map (addr w) ins) in
    if existsb (fun o => match kindof w o with KOther => true | _ => false end) ins then Bypass
    else match c_chg c cid with
         | None => Compute (mkP cid ins false)
         | Some true => Compute (mkP cid ins true)
         | Some false => match c_out c cid with Some v => Hit v | None => Broken end
         end.

(** Results seen by the caller. *)
Inductive result : Type := Ret (v : V) | Exc (e : E) | Internal (e : ierr).
Definition to_result (r : V + E) : result := match r with inl v => Ret v | inr e => Exc e end.

(** Second half of [__call__]; caching.py:178-192. *)
Definition end_call (w : world) (c : cacher) (p : pending) (r : V + E)
  : result * world * cacher :=
  match r with
  | inr e => let (w', c') := reset w c in (Exc e, w', c')
  | inl v =>
      if p_changed p then
        (Ret v, w, mkC (limit c) (ignore c) (force c) (enabled c) (order c) (c_in c)
                       (mset (c_out c) (p_cid p) (Some v)) (mset (c_chg c) (p_cid p) (Some false))
                       (c_ids c))
      else
        match ensure_cache_length w c with
        | inr (e, c') => (Internal e, w, c')
        | inl (w1, c1) =>
            let (w2, c2) := add_to_cache w1 c1 (p_cid p) (p_ins p) v in (Ret v, w2, c2)
        end
  end.

(** [__call__] when nothing else uses the cacher during the operation; caching.py:149-192. *)
Definition call (w : world) (c : cacher) (args : list nat) (kw : list (nat * nat))
  : result * world * cacher :=
  match begin_call w c args kw with
  | Bypass => (to_result (operate w args kw), tick w, c)
  | Hit v => (Ret v, w, c)
  | Broken => (Internal KeyErr, w, c)
  | Compute p => end_call (tick w) c p (operate w args kw)
  end.

(** [on_cache_changed]; caching.py:194-204. *)
Definition mark (c : cacher) (k : key) : cacher :=
  set_chg c (match iget (c_ids c) k with
             | Some (_, cids) => fold_left (fun m cid => mset m cid (Some true)) cids (c_chg c)
             | None => c_chg c
             end).
Definition on_cache_changed (w : world) (c : cacher) (direct which : nat) : cacher :=
  mark (mark c (oid_key w direct)) (oid_key w which).

(** [direct.notify_observers(which)] as far as this cacher is concerned: nothing if updates are
    off, otherwise one callback per registration; /repo/paramz/core/observable.py:75-97. *)
Definition deliver (w : world) (c : cacher) (n : nat * nat) : cacher :=
  if upd w (fst n)
  then Nat.iter (regs w (olist w (fst n))) (fun c => on_cache_changed w c (fst n) (snd n)) c
  else c.

(** What can happen between calls. [EChange] gives new contents to some objects and then delivers
    the listed notifications (direct, which). *)
Inductive event : Type :=
| ECall (args : list nat) (kw : list (nat * nat))
| EChange (l : list (nat * C)) (notes : list (nat * nat))
| EReset
| EDisable                                   (* disable_cacher, caching.py:77-80 *)
| EEnable                                    (* enable_cacher, caching.py:82-84 *)
| ENew (o : nat) (k : kind) (none : bool) (x : C) (a : N)
| EDie (o : nat)
| ESetUpd (o : nat) (b : bool).

Definition assign (f : nat -> C) (l : list (nat * C)) : nat -> C :=
  fold_left (fun f e => fun o => if Nat.eqb o (fst e) then snd e else f o) l f.

Definition upd1 {A} (f : nat -> A) (o : nat) (x : A) : nat -> A :=
  fun y => if Nat.eqb y o then x else f y.

Definition step (w : world) (c : cacher) (e : event) : option result * world * cacher :=
  match e with
  | ECall args kw => let '(r, w', c') := call w c args kw in (Some r, w', c')
  | EChange l notes =>
      let w' := set_content w (assign (content w) l) in
      (None, w', fold_left (deliver w') notes c)
  | EReset => let (w', c') := reset w c in (None, w', c')
  | EDisable => let (w', c') := reset w (set_enabled c false) in (None, w', c')
  | EEnable => (None, w, set_enabled c true)
  | ENew o k none x a =>
      (None, mkW (upd1 (content w) o x) (upd1 (kindof w) o k) (upd1 (isnone w) o none)
                 (upd1 (addr w) o a) (upd1 (live w) o true) (upd1 (upd w) o true)
                 (olist w) (regs w) (runs w), c)
  | EDie o =>
      (None, mkW (content w) (kindof w) (isnone w) (addr w) (upd1 (live w) o false) (upd w)
                 (olist w) (regs w) (runs w), c)
  | ESetUpd o b =>
      (None, mkW (content w) (kindof w) (isnone w) (addr w) (live w) (upd1 (upd w) o b)
                 (olist w) (regs w) (runs w), c)
  end.

(** A history and the results of its calls, in order. *)
Fixpoint history (w : world) (c : cacher) (l : list event) : list result * world * cacher :=
  match l with
  | [] => ([], w, c)
  | e :: r =>
      let '(x, w1, c1) := step w c e in
      let '(xs, w2, c2) := history w1 c1 r in
      (match x with Some y => y :: xs | None => xs end, w2, c2)
  end.

(** A new cacher, caching.py:43-75 (unbound operation). *)
Definition new_cacher (lim : Z) (ig fo : list nat) (en : bool) : cacher :=
  mkC lim ig fo en [] (fun _ => None) (fun _ => None) (fun _ => None) [].

(** No objects yet; [ol] assigns observer lists to objects. *)
Definition new_world (x : C) (ol : nat -> nat) : world :=
  mkW (fun _ => x) (fun _ => KPlain) (fun _ => false) (fun _ => 0%N) (fun _ => false)
      (fun _ => true) ol (fun _ => 0) 0.

(** Overlapping calls (the operation uses the cacher itself, or several threads): the first and
    second halves of [__call__] as separate steps, labelled by a call number; the operation reads
    its arguments when the call starts. *)
Inductive oevent : Type :=
| OBegin (t : nat) (args : list nat) (kw : list (nat * nat))
| OEnd (t : nat)
| OOther (e : event).

Definition oworld : Type := (world * cacher * list (nat * (pending * (V + E))))%type.

Fixpoint take_pending (t : nat) (l : list (nat * (pending * (V + E))))
  : option ((pending * (V + E)) * list (nat * (pending * (V + E)))) :=
  match l with
  | [] => None
  | (t', p) :: r =>
      if Nat.eqb t t' then Some (p, r)
      else option_map (fun q => (fst q, (t', p) :: snd q)) (take_pending t r)
  end.

Definition ostep (s : oworld) (e : oevent) : option result * oworld :=
  let '(w, c, pend) := s in
  match e with
  | OBegin t args kw =>
      match begin_call w c args kw with
      | Bypass => (Some (to_result (operate w args kw)), (tick w, c, pend))
      | Hit v => (Some (Ret v), (w, c, pend))
      | Broken => (Some (Internal KeyErr), (w, c, pend))
      | Compute p => (None, (tick w, c, (t, (p, operate w args kw)) :: pend))
      end
  | OEnd t =>
      match take_pending t pend with
      | None => (None, s)
      | Some ((p, r), pend') => let '(x, w', c') := end_call w c p r in (Some x, (w', c', pend'))
      end
  | OOther e => let '(x, w', c') := step w c e in (x, (w', c', pend))
  end.

Fixpoint ohistory (s : oworld) (l : list oevent) : list result * oworld :=
  match l with
  | [] => ([], s)
  | e :: r =>
      let (x, s1) := ostep s e in
      let (xs, s2) := ohistory s1 r in
      (match x with Some y => y :: xs | None => xs end, s2)
  end.

End Cacher.

Arguments content {C}. Arguments kindof {C}. Arguments isnone {C}. Arguments addr {C}.
Arguments live {C}. Arguments upd {C}. Arguments olist {C}. Arguments regs {C}. Arguments runs {C}.
Arguments mkW {C}.
Arguments limit {V}. Arguments ignore {V}. Arguments force {V}. Arguments enabled {V}.
Arguments order {V}. Arguments c_in {V}. Arguments c_out {V}. Arguments c_chg {V}.
Arguments c_ids {V}. Arguments mkC {V}.
Arguments set_regs {C}. Arguments set_content {C}. Arguments tick {C}.
Arguments set_ids {V}. Arguments set_chg {V}. Arguments set_enabled {V}.
Arguments add_obs {C}. Arguments rem_obs {C}. Arguments oid_key {C}.
Arguments operate {C V E}. Arguments release {C}. Arguments ensure_cache_length {C V}.
Arguments acquire {C}. Arguments add_to_cache {C V}. Arguments reset {C V}.
Arguments Bypass {V}. Arguments Hit {V}. Arguments Broken {V}. Arguments Compute {V}.
Arguments begin_call {C V}. Arguments Ret {V E}. Arguments Exc {V E}. Arguments Internal {V E}.
Arguments to_result {V E}. Arguments end_call {C V E}. Arguments call {C V E}.
Arguments mark {V}. Arguments on_cache_changed {C V}. Arguments deliver {C V}.
Arguments ECall {C}. Arguments EChange {C}. Arguments EReset {C}. Arguments EDisable {C}.
Arguments EEnable {C}. Arguments ENew {C}. Arguments EDie {C}. Arguments ESetUpd {C}.
Arguments assign {C}. Arguments step {C V E}. Arguments history {C V E}.
Arguments new_cacher {V}. Arguments new_world {C}.
Arguments OBegin {C}. Arguments OEnd {C}. Arguments OOther {C}.
Arguments take_pending {V E}. Arguments ostep {C V E}. Arguments ohistory {C V E}.
