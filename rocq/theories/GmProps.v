(** Property theorems about gradients (C90 to C94). *)
From Coq Require Import List ZArith Bool Arith.
From Verif Require Import NpModel IndexOpsModel IndexOpsSpec PzModel PzSpec PzOpt PzCheck PzEx GmModel GmSpec GmProofs GmFinal GmCopy GmEx.
Import ListNotations.
Open Scope Z_scope.

Notation greachable V tinit tf tfinv tgrad junk junk' := (@greach V tinit tf tfinv tgrad glegal junk junk').

(** ** C90 *)
(** An element of the hierarchy has one gradient, whichever object it is read through. *)
Theorem C90_one_gradient : forall V tinit tf tfinv tgrad junk junk' q x y j k, greachable V tinit tf tfinv tgrad junk junk' q ->
  (x < next (st (base q)))%nat -> (y < next (st (base q)))%nat -> ready (st (base q)) x -> ready (st (base q)) y -> same_elem (st (base q)) y j x k ->
  gradient q y j = gradient q x k /\ exists d, gradient q x k = Some d.
Proof. exact @one_gradient_final. Qed.
Print Assumptions C90_one_gradient.
Example C90_example : ex_greach gx /\ ready (st (base gx)) 4 /\ ready (st (base gx)) 2 /\ ready (st (base gx)) 1 /\
  same_elem (st (base gx)) 1 0 4 2 /\ same_elem (st (base gx)) 2 2 4 2 /\
  gradient gx 1 0 = Some 200 /\ gradient gx 2 2 = Some 200 /\ map (gradient gx 4) [0;1;2;3;4] = [Some 100; Some 101; Some 200; Some 300; Some 301].
Proof. exact ex_one_gradient. Qed.
(** Gradients stored in an object, by [x.gradient = v] or by editing [x.gradient], become the gradients of these
    elements everywhere; no value and no other gradient changes. [x.gradient = v] of a Parameterized needs an element. *)
Theorem C90_set_partial : forall V tinit tf tfinv tgrad junk junk' q x f, greachable V tinit tf tfinv tgrad junk junk' q ->
  (x < next (st (base q)))%nat -> ready (st (base q)) x -> is_leaf (st (base q)) x = true \/ 0 < size (st (base q)) x ->
  exists q', gexec tinit tf tfinv tgrad (SetGradient x f) q = (q', None) /\ base q' = base q /\ gchanged q q' x f.
Proof. exact @set_final. Qed.
Print Assumptions C90_set_partial.
Theorem C90_edit : forall V tinit tf tfinv tgrad junk junk' q x f, greachable V tinit tf tfinv tgrad junk junk' q ->
  (x < next (st (base q)))%nat -> ready (st (base q)) x ->
  exists q', gexec tinit tf tfinv tgrad (EditGradient x f) q = (q', None) /\ base q' = base q /\ gchanged q q' x f.
Proof. exact @edit_final. Qed.
Print Assumptions C90_edit.
(** ([gchanged] speaks of other gradients if the memory of different Params is apart. It is:) *)
Theorem C90_apart : forall V tinit tf tfinv tgrad junk junk' q, @greach V tinit tf tfinv tgrad gcareful junk junk' q -> gapart q.
Proof. exact @gapart_final. Qed.
Print Assumptions C90_apart.
Example C90_set_example : ex_greach gx /\ ex_gcareful gx /\ (2 < next (st (base gx)))%nat /\ ready (st (base gx)) 2 /\ 0 < size (st (base gx)) 2 /\
  (let q' := fst (ex_run (SetGradient 2%nat (fun j d => d + j)) gx) in
   map (gradient q' 4) [0;1;2;3;4] = [Some 100; Some 102; Some 202; Some 300; Some 301] /\ gradient q' 1 0 = Some 202 /\ value (base q') 1 0 = value (base gx) 1 0).
Proof. exact ex_set. Qed.
(** [m.gradient = 0] on a model without parameters raises, where [m.gradient[...] = 0] does not. *)
Theorem C90_set_refuted : exists q x f q', ex_gcareful q /\ ready (st (base q)) x /\ size (st (base q)) x = 0 /\
  ex_run (SetGradient x f) q = (q', Some AttributeError) /\ snd (ex_run (EditGradient x f) q) = None.
Proof. exact empty_refuted. Qed.
Print Assumptions C90_set_refuted.

(** ** C91 *)
(** Linking and unlinking keep the gradients of all Params. As for values (C36), at some depth they do not. *)
Theorem C91_link_partial : forall V tinit tf tfinv tgrad junk junk' q self param index q', greachable V tinit tf tfinv tgrad junk junk' q ->
  legal_link (base q) self param index -> groomy q self param ->
  (exists n, depth (st (base q)) self n /\ (n <= 1)%nat) -> ready (st (base q)) param ->
  (forall pp, par (st (base q)) param = Some pp -> (exists n, depth (st (base q)) pp n /\ (n <= 2)%nat) /\ forall r, top (st (base q)) r pp -> inited (st (base q)) r = Some true) ->
  gexec tinit tf tfinv tgrad (Call (Link self param index)) q = (q', None) ->
  forall y j, (y < next (st (base q)))%nat -> is_leaf (st (base q)) y = true -> 0 <= j < size (st (base q)) y -> gradient q' y j = gradient q y j.
Proof. exact @link_final. Qed.
Print Assumptions C91_link_partial.
Example C91_link_example : ex_greach gx /\ legal_link (base gx) 2 5 None /\ groomy gx 2 5 /\ (exists n, depth (st (base gx)) 2 n /\ (n <= 1)%nat) /\ ready (st (base gx)) 5 /\
  (forall pp, par (st (base gx)) 5 = Some pp -> (exists n, depth (st (base gx)) pp n /\ (n <= 2)%nat) /\ forall r, top (st (base gx)) r pp -> inited (st (base gx)) r = Some true) /\
  (let q' := fst (ex_run (Call (Link 2 5 None)) gx) in map (gradient q' 4) [0;1;2;3;4;5] = [Some 100; Some 101; Some 200; Some 55; Some 300; Some 301]).
Proof. exact ex_glink. Qed.
Theorem C91_unlink_partial : forall V tinit tf tfinv tgrad junk junk' q self param q', greachable V tinit tf tfinv tgrad junk junk' q ->
  (self < next (st (base q)))%nat -> In param (kids (st (base q)) self) ->
  (forall r, top (st (base q)) r self -> in_init (st (base q)) r = false /\ inited (st (base q)) r = Some true) ->
  (exists n, depth (st (base q)) self n /\ (n <= 2)%nat) -> gexec tinit tf tfinv tgrad (Call (Unlink self param)) q = (q', None) ->
  forall y j, (y < next (st (base q)))%nat -> is_leaf (st (base q)) y = true -> 0 <= j < size (st (base q)) y -> gradient q' y j = gradient q y j.
Proof. exact @unlink_final. Qed.
Print Assumptions C91_unlink_partial.
Example C91_unlink_example : ex_greach gx /\ In 1%nat (kids (st (base gx)) 2) /\ (exists n, depth (st (base gx)) 2 n /\ (n <= 2)%nat) /\
  (forall r, top (st (base gx)) r 2 -> in_init (st (base gx)) r = false /\ inited (st (base gx)) r = Some true) /\
  (let q' := fst (ex_run (Call (Unlink 2 1)) gx) in map (gradient q' 4) [0;1;2;3] = [Some 100; Some 101; Some 300; Some 301] /\ gradient q' 1 0 = Some 200).
Proof. exact ex_gunlink. Qed.
Theorem C91_deep_refuted : exists q q', ex_gcareful q /\ legal_link (base q) 1 4 None /\ groomy q 1 4 /\ depth (st (base q)) 1 2 /\ ready (st (base q)) 4 /\
  ex_run (Call (Link 1 4 None)) q = (q', None) /\ gradient q 0 0 = Some 9 /\ gradient q' 0 0 = Some (ex_gjunk 0 0).
Proof. exact gdeep_refuted. Qed.
Print Assumptions C91_deep_refuted.
(** Copying an object, or the whole model, keeps the gradients of all objects there are; the copy has its own. *)
Theorem C91_copy : forall V tinit tf tfinv tgrad junk junk' q x q' e, greachable V tinit tf tfinv tgrad junk junk' q -> legal (base q) (Copy x) ->
  gexec tinit tf tfinv tgrad (Call (Copy x)) q = (q', e) ->
  e = None /\ forall y j, (y < next (st (base q)))%nat -> ready (st (base q)) y -> 0 <= j < size (st (base q)) y -> gradient q' y j = gradient q y j.
Proof. exact @copy_gradients. Qed.
Print Assumptions C91_copy.
Example C91_copy_example : ex_greach gx /\ legal (base gx) (Copy 4) /\
  (let q' := fst (ex_run (Call (Copy 4)) gx) in map (gradient q' 4) [0;1;2;3;4] = [Some 100; Some 101; Some 200; Some 300; Some 301] /\
   exists c, (next (st (base gx)) <= c)%nat /\ (c < next (st (base q')))%nat /\ map (gradient q' c) [0;1;2;3;4] = [Some 55; Some 55; Some 55; Some 55; Some 55]).
Proof. exact ex_gcopy. Qed.

(** ** C92 *)
(** The optimizer gets, for every free element of the model in order, its gradient by the rule for its
    transformation at its value. *)
Theorem C92_take : forall V tinit tf tfinv tgrad junk junk' q x ks, greachable V tinit tf tfinv tgrad junk junk' q ->
  (x < next (st (base q)))%nat -> ready (st (base q)) x -> par (st (base q)) x = None -> free (base q) x ks ->
  exists q' r, take_gradient tgrad x q = Ok (q', r) /\ base q' = base q /\ length (look q' r) = length ks /\
    (forall i k, nth_error ks i = Some k -> exists d w, gradient q x k = Some d /\ nth_error (look q' r) i = Some w /\ chain_rule tgrad (base q) x k d w) /\
    (exists F, (forall k d, 0 <= k < size (st (base q)) x -> chain_rule tgrad (base q) x k d (F k d)) /\ gchanged q q' x F).
Proof. exact @take_final. Qed.
Print Assumptions C92_take.
Example C92_example : ex_greach gx /\ ready (st (base gx)) 4 /\ par (st (base gx)) 4 = None /\ free (base gx) 4 [0;1;3] /\
  has (base gx) 4 (Tr 7) 0 /\ value (base gx) 4 0 = Some 1 /\
  snd (ex_taken 4 gx) = [100 * 11; 101; 300] /\ map (gradient (fst (ex_taken 4 gx)) 0) [0;1] = [Some (100 * 11); Some 101].
Proof. exact ex_take. Qed.
(** When every Param below [x] has been given its gradient, in whatever order, the optimizer gets these. *)
Theorem C92_stored : forall V tinit tf tfinv tgrad junk junk' q x ys gs ks, greachable V tinit tf tfinv tgrad junk junk' q ->
  (x < next (st (base q)))%nat -> ready (st (base q)) x -> par (st (base q)) x = None -> free (base q) x ks ->
  (forall y, In y ys -> part (st (base q)) x y /\ is_leaf (st (base q)) y = true) ->
  (forall y, part (st (base q)) x y -> is_leaf (st (base q)) y = true -> 0 < size (st (base q)) y -> In y ys) ->
  exists q1 q2 r, store_all tinit tf tfinv tgrad ys gs q = (q1, None) /\ take_gradient tgrad x q1 = Ok (q2, r) /\ base q2 = base q /\
    length (look q2 r) = length ks /\
    forall i k y j, nth_error ks i = Some k -> is_leaf (st (base q)) y = true -> same_elem (st (base q)) y j x k ->
      exists w, nth_error (look q2 r) i = Some w /\ chain_rule tgrad (base q) x k (gs y j) w.
Proof. exact @stored_final. Qed.
Print Assumptions C92_stored.
Example C92_stored_example : ex_greach gbare /\ (4 < next (st (base gbare)))%nat /\ ready (st (base gbare)) 4 /\ par (st (base gbare)) 4 = None /\ free (base gbare) 4 [0;1;3] /\
  (forall y, In y [0;1;3]%nat -> part (st (base gbare)) 4 y /\ is_leaf (st (base gbare)) y = true) /\
  (forall y, part (st (base gbare)) 4 y -> is_leaf (st (base gbare)) y = true -> 0 < size (st (base gbare)) y -> In y [0;1;3]%nat).
Proof. exact ex_stored. Qed.

(** ** C93 *)
(** "You can find the gradient for the parameters in self.gradient at all times": once the optimizer has taken
    it, [self.gradient] holds the transformed gradient; taken again, it is transformed once more. *)
Theorem C93_at_all_times_refuted : exists q x k, ex_gcareful q /\ (x < next (st (base q)))%nat /\ ready (st (base q)) x /\ par (st (base q)) x = None /\
  gradient q x k = Some 100 /\ (exists q' r, take_gradient ex_grad x q = Ok (q', r) /\ gradient q' x k = Some 1100) /\
  (exists q1 r1 q2 r2, take_gradient ex_grad x q = Ok (q1, r1) /\ take_gradient ex_grad x q1 = Ok (q2, r2) /\ base q2 = base q /\
    nth_error (look q1 r1) 0 = Some 1100 /\ nth_error (look q2 r2) 0 = Some 12100).
Proof. exact all_times_refuted. Qed.
Print Assumptions C93_at_all_times_refuted.
(** What is true: every taking applies the rule once more to what is there. *)
Theorem C93_again : forall V tinit tf tfinv tgrad junk junk' q x q1 r1 q2 r2 k, greachable V tinit tf tfinv tgrad junk junk' q ->
  (x < next (st (base q)))%nat -> ready (st (base q)) x -> par (st (base q)) x = None ->
  take_gradient tgrad x q = Ok (q1, r1) -> take_gradient tgrad x q1 = Ok (q2, r2) -> 0 <= k < size (st (base q)) x ->
  exists d d1 d2, gradient q x k = Some d /\ gradient q1 x k = Some d1 /\ gradient q2 x k = Some d2 /\
    chain_rule tgrad (base q) x k d d1 /\ chain_rule tgrad (base q) x k d1 d2.
Proof. exact @again_final. Qed.
Print Assumptions C93_again.
Example C93_example : exists q1 r1 q2 r2, ex_greach gx /\ ready (st (base gx)) 4 /\ par (st (base gx)) 4 = None /\
  take_gradient ex_grad 4 gx = Ok (q1, r1) /\ take_gradient ex_grad 4 q1 = Ok (q2, r2) /\ 0 <= 0 < size (st (base gx)) 4 /\ gradient q2 4 0 = Some (100 * 11 * 11).
Proof. exact again_ex. Qed.

(** ** C94 *)
(** What the optimizer was given does not change any more, if an element is fixed. *)
Theorem C94_snapshot_partial : forall V tinit tf tfinv tgrad junk junk' q x q1 r, greachable V tinit tf tfinv tgrad junk junk' q ->
  (x < next (st (base q)))%nat -> ready (st (base q)) x -> par (st (base q)) x = None ->
  (exists j, has (base q) x Fixed j) -> take_gradient tgrad x q = Ok (q1, r) -> forall q2, look q2 r = look q1 r.
Proof. exact @fresh_final. Qed.
Print Assumptions C94_snapshot_partial.
Example C94_snapshot_example : ex_greach gx /\ ready (st (base gx)) 4 /\ par (st (base gx)) 4 = None /\ (exists j, has (base gx) 4 Fixed j) /\
  exists q1 r, take_gradient ex_grad 4 gx = Ok (q1, r) /\ look q1 r = [1100; 101; 300].
Proof. exact ex_fresh. Qed.
(** If nothing is fixed it changes with the next gradients that are stored. *)
Theorem C94_snapshot_refuted : exists q x q1 r c q2, ex_gcareful q /\ (x < next (st (base q)))%nat /\ ready (st (base q)) x /\ par (st (base q)) x = None /\
  take_gradient ex_grad x q = Ok (q1, r) /\ look q1 r = [40] /\ glegal q1 c /\ ex_run c q1 = (q2, None) /\ look q2 r = [41].
Proof. exact alias_refuted. Qed.
Print Assumptions C94_snapshot_refuted.
(** Exactly: it goes on being the gradient of the model, whatever is stored, edited or taken, until something is
    linked, unlinked or copied. *)
Theorem C94_alias : forall V tinit tf tfinv tgrad junk junk' q x q1 r q2, greachable V tinit tf tfinv tgrad junk junk' q ->
  (x < next (st (base q)))%nat -> ready (st (base q)) x -> par (st (base q)) x = None ->
  (forall j, ~ has (base q) x Fixed j) -> 0 < size (st (base q)) x -> take_gradient tgrad x q = Ok (q1, r) ->
  ghist tinit tf tfinv tgrad (fun q c => glegal q c /\ still c) q1 q2 ->
  Z.of_nat (length (look q2 r)) = size (st (base q)) x /\ forall k, 0 <= k < size (st (base q)) x -> nth_error (look q2 r) (Z.to_nat k) = gradient q2 x k.
Proof. exact @alias_final. Qed.
Print Assumptions C94_alias.
Example C94_alias_example : ex_greach gfree /\ ready (st (base gfree)) 6 /\ par (st (base gfree)) 6 = None /\ (forall j, ~ has (base gfree) 6 Fixed j) /\ 0 < size (st (base gfree)) 6 /\
  ghist ex_init ex_f ex_finv ex_grad (fun q c => glegal q c /\ still c) gfree
    (gplay [TakeGradient 6; SetGradient 5%nat (fun _ _ => 41); Call (NewParam [1]); Call (Assign 5%nat (fun _ v => v + 1)); EditGradient 6%nat (fun _ d => d * 2)] gfree).
Proof. exact ex_alias. Qed.
