(** Properties C78-C82, C128: observable arrays. *)
From Coq Require Import List Arith Bool.
From Verif Require Import ArrModel ArrSpec ArrProofs ArrProofs2 ArrProofs3 ArrProofs4 ArrEx.
Import ListNotations.

(** C78: whatever a program does by the rules, what an observer saw last is what the array holds. *)
Theorem C78_up_to_date : forall V (junk : nat -> nat -> V) s s2 c a, reach junk s -> a < next s -> watches s c a ->
  hist (by_rules c a) s s2 -> up_to_date s2 (read s a) (length (log s)) c a /\ watches s2 c a.
Proof. exact @watched. Qed.
Print Assumptions C78_up_to_date.
(** Making an ObsAr of a plain array and registering is such a start, if no ObsAr uses its memory; an
    array whose elements are not next to each other in memory is copied, so that this does not matter. *)
Theorem C78_start : forall V (junk : nat -> nat -> V) s x c, reach junk s -> x < next s -> obs (arrs s x) = false ->
  (block s x -> forall y, y < next s -> obs (arrs s y) = true -> ~ overlap s y x) ->
  let s1 := fst (exec (Observe (next s) c) (fst (exec (Wrap x) s))) in
  watches s1 c (next s) /\ read s1 (next s) = read s x /\ log s1 = log s.
Proof. exact @start_any. Qed.
Print Assumptions C78_start.
Example C78_example : reach junk0 start /\ watches start 7 1 /\ hist (by_rules 7 1) start after /\
  read start 1 = [1; 2; 3; 4] /\ read after 1 = [12; 26; 31; 10] /\ length (log after) = 7 /\
  last_seen (log after) 7 (arrs after 1) = Some [12; 26; 31; 10].
Proof. exact (conj start_reach (conj start_watches (conj rules_hist after_reads))). Qed.

(** C79 (any change of an observed array, however made, is announced): not if it is made through
    [a.values] or the array that was given to ObsAr ... *)
Theorem C79_values_refuted : exists l, l = [Values 1; Put 2 [0] [9]] /\ stale l.
Proof. exact (ex_intro _ _ (conj eq_refl stale_values)). Qed.
Print Assumptions C79_values_refuted.
Theorem C79_given_array_refuted : exists l, l = [Put 0 [0] [9]] /\ stale l.
Proof. exact (ex_intro _ _ (conj eq_refl stale_given)). Qed.
Print Assumptions C79_given_array_refuted.
(** ... [a += 1; a[0] = 9] ... *)
Theorem C79_rebound_refuted : exists g l, l = [Iop 1 g; Put 2 [0] [9]] /\ stale l.
Proof. exact (ex_intro _ _ (ex_intro _ _ (conj eq_refl stale_iop))). Qed.
Print Assumptions C79_rebound_refuted.
(** ... [a.fill(0)] ... *)
Theorem C79_methods_refuted : exists l, l = [Raw 1 [0; 0; 0; 0]] /\ stale l.
Proof. exact (ex_intro _ _ (conj eq_refl stale_raw)). Qed.
Print Assumptions C79_methods_refuted.
(** ... [a.set_updates(False); b = a[0:2]; a.set_updates(True); b[0] = 9] ... *)
Theorem C79_slice_while_off_refuted : exists l, l = [Updates 1 false; Slice 1 [0; 1]; Updates 1 true; Put 2 [0] [9]] /\ stale l.
Proof. exact (ex_intro _ _ (conj eq_refl stale_updates)). Qed.
Print Assumptions C79_slice_while_off_refuted.
(** ... [ObsAr(a); a[0] = 9]. *)
Theorem C79_rewrapped_refuted : exists l, l = [Wrap 1; Put 1 [0] [9]] /\ stale l.
Proof. exact (ex_intro _ _ (conj eq_refl stale_wrap)). Qed.
Print Assumptions C79_rewrapped_refuted.
(** And [a.set_updates(False)] does not silence slices that exist. *)
Theorem C79_silence_refuted : exists s, s = play start [Slice 1 [0; 1]; Updates 1 false; Put 2 [0] [9]] /\
  on (arrs s 1) = false /\ map who (log s) = [7] /\ read s 1 = [9; 2; 3; 4].
Proof. exact loud_slice. Qed.
Print Assumptions C79_silence_refuted.

(** C80: assignment and in-place operators change exactly the elements they name; assignment and
    [a op= v] call every observer once, afterwards ... *)
Theorem C80_assignment : forall V (junk : nat -> nat -> V) s x sel vs, reach junk s -> x < next s -> obs (arrs s x) = true -> NoDup sel ->
  (forall k, In k sel -> k < length (read s x)) -> length sel = length vs ->
  let s' := fst (exec (Put x sel vs) s) in
  snd (exec (Put x sel vs) s) = None /\ changed s s' x sel (fun k v => nth k vs v) /\
  exists new, told s s' new /\ tells s (callers s x) x (mem s') new.
Proof. exact @put_effect. Qed.
Print Assumptions C80_assignment.
Theorem C80_operator : forall V (junk : nat -> nat -> V) s x g, reach junk s -> x < next s -> obs (arrs s x) = true ->
  let s' := fst (exec (Iop x g) s) in
  changed s s' x (seq 0 (length (read s x))) g /\ read s' (next s) = read s' x /\ obs (arrs s' (next s)) = false /\
  exists new, told s s' new /\ tells s (callers s x) x (mem s') new.
Proof. exact @iop_effect. Qed.
Print Assumptions C80_operator.
(** ... [a[sel] op= v] calls every observer twice: for slices both times afterwards, for index arrays
    the first time before anything has changed. *)
Theorem C80_slice_operator : forall V (junk : nat -> nat -> V) s x sel g, reach junk s -> x < next s -> obs (arrs s x) = true -> NoDup sel ->
  (forall k, In k sel -> k < length (read s x)) ->
  let s' := fst (exec (Aug x sel g) s) in
  snd (exec (Aug x sel g) s) = None /\ changed s s' x sel g /\
  exists new1 new2, told s s' (new1 ++ new2) /\ tells s (callers s x) (next s) (mem s') new1 /\ tells s (callers s x) x (mem s') new2.
Proof. exact @aug_effect. Qed.
Print Assumptions C80_slice_operator.
Theorem C80_index_operator : forall V (junk : nat -> nat -> V) s x sel g, reach junk s -> x < next s -> obs (arrs s x) = true -> NoDup sel ->
  (forall k, In k sel -> k < length (read s x)) ->
  let s' := fst (exec (AugPick x sel g) s) in
  snd (exec (AugPick x sel g) s) = None /\ changed s s' x sel g /\
  exists new1 new2, told s s' (new1 ++ new2) /\ tells s (callers s x) (next s) (mem s) new1 /\ tells s (callers s x) x (mem s') new2.
Proof. exact @augpick_effect. Qed.
Print Assumptions C80_index_operator.
Example C80_example : reach junk0 start /\ 1 < next start /\ obs (arrs start 1) = true /\ callers start 1 = [7] /\
  read (fst (exec (Put 1 [3; 1] [40; 20]) start)) 1 = [1; 20; 3; 40] /\
  read (fst (exec (Iop 1 (fun k v => 10 * k + v)) start)) 1 = [1; 12; 23; 34] /\
  read (fst (exec (Aug 1 [3; 1] (fun k v => 10 * k + v)) start)) 1 = [1; 12; 3; 4] /\
  read (fst (exec (AugPick 1 [3; 1] (fun k v => 10 * k + v)) start)) 1 = [1; 12; 3; 4].
Proof. split; [exact start_reach|]. vm_compute. repeat split. repeat constructor. Qed.

(** C81: a copy equals its original, has no observers, and whatever is done with it and with arrays
    made from it changes no other array and calls no observer on behalf of another array ... *)
Theorem C81_copy : forall V (junk : nat -> nat -> V) s x s2, reach junk s -> x < next s ->
  let s1 := fst (exec (Copy x) s) in
  hist (on_new (next s)) s1 s2 ->
  read s1 (next s) = read s x /\ (obs (arrs s x) = true -> lists s1 (olist (arrs s1 (next s))) = []) /\
  (forall y, y < next s -> read s2 y = read s y /\ arrs s2 y = arrs s y /\
     (obs (arrs s y) = true -> lists s2 (olist (arrs s y)) = lists s (olist (arrs s y)))) /\
  exists new, told s s2 new /\ Forall (fun n => next s <= from n) new.
Proof. exact @copy_apart. Qed.
Print Assumptions C81_copy.
Example C81_example : reach junk0 start /\ hist (on_new 2) (fst (exec (Copy 1) start)) (play (fst (exec (Copy 1) start)) copied) /\
  read (play (fst (exec (Copy 1) start)) copied) 2 = [6; 7; 4; 5] /\ read (play (fst (exec (Copy 1) start)) copied) 1 = [1; 2; 3; 4] /\
  map who (log (play (fst (exec (Copy 1) start)) copied)) = [9; 9; 9].
Proof. split; [exact start_reach|]. split; [exact (play_hist _ _ _ copied_ok)|]. vm_compute. repeat split. Qed.
(** ... what an index array selects is a copy too. *)
Theorem C81_index_array : forall V (junk : nat -> nat -> V) s x sel s2, reach junk s -> x < next s -> (forall k, In k sel -> k < length (read s x)) ->
  hist (on_new (next s)) (fst (exec (Pick x sel) s)) s2 ->
  read (fst (exec (Pick x sel) s)) (next s) = map (fun k => nth k (read s x) (mem s 0 0)) sel /\
  (forall y, y < next s -> read s2 y = read s y).
Proof. exact @pick_apart. Qed.
Print Assumptions C81_index_array.
(** But it calls the observers of the array it was taken from, which did not change. *)
Theorem C81_index_array_refuted : exists s, s = play start [Pick 1 [0; 1]; Put 2 [0] [9]] /\
  map who (log s) = [7] /\ read s 1 = read start 1.
Proof. exact (ex_intro _ _ (conj eq_refl (conj eq_refl eq_refl))). Qed.
Print Assumptions C81_index_array_refuted.

(** C82: a slice shows the elements it was taken from for ever, through all later changes ... *)
Theorem C82_slice : forall V (junk : nat -> nat -> V) s x sel s2 d, reach junk s -> x < next s -> NoDup sel -> (forall k, In k sel -> k < length (read s x)) ->
  hist (fun _ _ => True) (fst (exec (Slice x sel) s)) s2 -> read s2 (next s) = map (fun k => nth k (read s2 x) d) sel.
Proof. exact @slice_view. Qed.
Print Assumptions C82_slice.
(** ... and [a.values], the result of [a op= v], and ObsAr of a contiguous array show the whole array. *)
Theorem C82_whole : forall V (junk : nat -> nat -> V) s x k s2, reach junk s -> x < next s ->
  (k = Values x /\ obs (arrs s x) = true) \/ (exists g, k = Iop x g /\ obs (arrs s x) = true) \/
    (k = Wrap x /\ obs (arrs s x) = false /\ block s x) ->
  hist (fun _ _ => True) (fst (exec k s)) s2 -> read s2 (next s) = read s2 x.
Proof. exact @same_memory_block. Qed.
Print Assumptions C82_whole.
(** ... ObsAr of any other array is a copy: it holds the same, and what is done with it changes no other
    array. *)
Theorem C82_scattered : forall V (junk : nat -> nat -> V) s x s2, reach junk s -> x < next s -> obs (arrs s x) = false -> ~ block s x ->
  hist (on_new (next s)) (fst (exec (Wrap x) s)) s2 ->
  read (fst (exec (Wrap x) s)) (next s) = read s x /\ forall y, y < next s -> read s2 y = read s y.
Proof. exact @wrap_apart. Qed.
Print Assumptions C82_scattered.
Example C82_scattered_example : reach junk0 scattered /\ obs (arrs scattered 2) = false /\ ~ block scattered 2 /\
  read (play scattered [Wrap 2; Put 3 [1] [9]]) 3 = [1; 9] /\ read (play scattered [Wrap 2; Put 3 [1] [9]]) 2 = [1; 3].
Proof. split; [exact scattered_reach|]. split; [reflexivity|]. split; [exact scattered_not|]. vm_compute. split; reflexivity. Qed.
Example C82_example : reach junk0 start /\ hist (fun _ _ => True) start (play start [Slice 1 [2; 0]; Put 0 [0] [9]; Values 1; Put 3 [2] [8]]) /\
  read (play start [Slice 1 [2; 0]; Put 0 [0] [9]; Values 1; Put 3 [2] [8]]) 2 = [8; 9].
Proof.
  split; [exact start_reach|]. split; [|reflexivity]. apply play_hist.
  repeat (split; [ok1; exact Logic.I|]). exact Logic.I.
Qed.

(** C128: a statement about an array is refused exactly if it makes no sense - an index outside the
    array, not one value for every element, an attribute plain arrays do not have -, with the error that
    says so, and then changes nothing and calls nobody. *)
Theorem C128_refused : forall V (s : @state V) c e, legal s c ->
  (snd (exec c s) = Some e <-> refused s c e) /\ (refused s c e -> fst (exec c s) = s).
Proof. exact @refused_all. Qed.
Print Assumptions C128_refused.
Example C128_example : reach junk0 start /\ snd (exec (Put 1 [0; 4] [5; 6]) start) = Some IndexError /\
  snd (exec (Put 1 [0; 3] [5]) start) = Some ValueError /\ snd (exec (AugPick 1 [4] (fun _ v => v)) start) = Some IndexError /\
  snd (exec (Observe 0 3) start) = Some AttributeError /\ snd (exec (Aug 1 [3; 0] (fun _ v => v + 1)) start) = None.
Proof. split; [exact start_reach|]. vm_compute. repeat split. Qed.
