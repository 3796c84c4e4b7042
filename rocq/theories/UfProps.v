(** Properties C139 and C140: [unfixed_param_array], and [optimizer_array] below the top. The states of the examples are in UfEx. *)
From Coq Require Import List ZArith Bool.
From Verif Require Import NpModel IndexOpsModel IndexOpsSpec PzModel PzSpec PzFinal PzEx UfModel UfSpec UfProofs UfEx.
Import ListNotations.
Open Scope Z_scope.

Notation reachable V tinit tf tfinv junk := (reach (V := V) tinit tf tfinv legal junk).

(** C139: [unfixed_param_array] of an initialised Parameterized with elements, at any level, has the values
    of the free elements, in order, and no others. Missing for the full statement: Params, and objects
    without elements, for which it is false. *)
Theorem C139_content_partial : forall V tinit tf tfinv junk s x ks, reachable V tinit tf tfinv junk s -> (x < next (st s))%nat ->
  kind (st s) x = KNode -> ready (st s) x -> 0 < size (st s) x -> free s x ks ->
  exists u, unfixed_param_array x s = Ok u /\ holds s u x ks.
Proof. exact @content_final. Qed.
Print Assumptions C139_content_partial.
(** Without fixed elements writing an element of it writes that element of the hierarchy, as everyone sees it,
    and no [parameters_changed] runs. *)
Theorem C139_live_partial : forall V tinit tf tfinv junk s x u k v, reachable V tinit tf tfinv junk s -> (x < next (st s))%nat ->
  kind (st s) x = KNode -> ready (st s) x -> 0 < size (st s) x -> (forall j, ~ has s x Fixed j) -> 0 <= k < size (st s) x -> unfixed_param_array x s = Ok u ->
  exists s', poke u k v s = (s', None) /\ changed s s' x (fun j w => if j =? k then v else w) /\ trace (nt s') = trace (nt s).
Proof. exact @live_final. Qed.
Print Assumptions C139_live_partial.
(** With one fixed element it writes nothing. *)
Theorem C139_own_partial : forall V tinit tf tfinv junk s x u k v, reachable V tinit tf tfinv junk s -> (x < next (st s))%nat ->
  kind (st s) x = KNode -> ready (st s) x -> 0 < size (st s) x -> (exists j, has s x Fixed j) -> unfixed_param_array x s = Ok u ->
  fst (poke u k v s) = s.
Proof. exact @own_final. Qed.
Print Assumptions C139_own_partial.
Example C139_example : ex_reach uf_fixed /\ kind (st uf_fixed) 4 = KNode /\ ready (st uf_fixed) 4 /\ size (st uf_fixed) 4 = 5 /\ free uf_fixed 4 [0;1;4] /\
  has uf_fixed 4 Fixed 2 /\ unfixed_param_array 4 uf_fixed = Ok (Own [1;2;5]) /\ fix_ uf_fixed 2%nat = None /\ fresh (nt uf_fixed) 2 = false /\
  free uf_fixed 2 [0;1] /\ has uf_fixed 2 Fixed 2 /\ par (st uf_fixed) 2 = Some 4%nat /\ kind (st uf_fixed) 2 = KNode /\ ready (st uf_fixed) 2.
Proof. exact uf_case. Qed.
Example C139_live_example : ex_reach uf_free /\ kind (st uf_free) 2 = KNode /\ ready (st uf_free) 2 /\ size (st uf_free) 2 = 3 /\ (forall j, ~ has uf_free 2 Fixed j) /\
  exists a, unfixed_param_array 2 uf_free = Ok (Itself a) /\ value (fst (poke (Itself a) 2 9 uf_free)) 1 0 = Some 9.
Proof. exact uf_live. Qed.
(** A Param gives nothing, or raises. *)
Theorem C139_param : forall V tinit tf tfinv junk s x, reachable V tinit tf tfinv junk s -> (x < next (st s))%nat -> is_leaf (st s) x = true ->
  (exists j, has s x Fixed j) /\ unfixed_param_array x s = Er TypeError \/ (forall j, ~ has s x Fixed j) /\ unfixed_param_array x s = Ok Nothing.
Proof. exact @leaf_final. Qed.
Print Assumptions C139_param.
Example C139_param_example : ex_reach uf_fixed /\ is_leaf (st uf_fixed) 0 = true /\ is_leaf (st uf_fixed) 1 = true /\ has uf_fixed 1 Fixed 0 /\ ~ has uf_fixed 0 Fixed 0.
Proof. exact leaf_case. Qed.
Theorem C139_param_refuted : exists s, ex_reach s /\ free s 0 [0;1] /\ value s 0 0 = Some 1 /\ forall u, unfixed_param_array 0 s = Ok u -> ~ holds s u 0 [0;1].
Proof. exact param_refuted. Qed.
Print Assumptions C139_param_refuted.
(** An object that lost its last parameter still gives the value it had. *)
Theorem C139_emptied_refuted : exists s u, ex_reach s /\ kind (st s) 1 = KNode /\ ready (st s) 1 /\ free s 1 [] /\
  unfixed_param_array 1 s = Ok u /\ entry s u 0 = Some 1 /\ ~ holds s u 1 [].
Proof. exact emptied_refuted. Qed.
Print Assumptions C139_emptied_refuted.

(** C140: [optimizer_array] of a part of a hierarchy. What holds: for a Parameterized that keeps neither a mask
    nor a copy from an earlier reading. *)
Theorem C140_unread_partial : forall V tinit tf tfinv junk s x ks, reachable V tinit tf tfinv junk s -> (x < next (st s))%nat ->
  kind (st s) x = KNode -> ready (st s) x -> fix_ s x = None -> free s x ks -> fresh (nt s) x = false ->
  exists l s', get_optimizer_array tfinv x s = Ok (l, s') /\ get_spec tfinv s x ks l.
Proof. exact @part_final. Qed.
Print Assumptions C140_unread_partial.
Example C140_example : ex_reach uf_fixed /\ kind (st uf_fixed) 2 = KNode /\ ready (st uf_fixed) 2 /\ fix_ uf_fixed 2%nat = None /\ free uf_fixed 2 [0;1] /\
  fresh (nt uf_fixed) 2 = false /\ has uf_fixed 2 Fixed 2 /\ par (st uf_fixed) 2 = Some 4%nat.
Proof. exact unread_case. Qed.
(** Read, and then fixed further: what was fixed since is still handed out. [unfixed_param_array] is right. *)
Theorem C140_stale_refuted : exists s l s', ex_reach s /\ kind (st s) 2 = KNode /\ ready (st s) 2 /\ free s 2 [1] /\ unfixed_param_array 2 s = Ok (Own [2]) /\
  get_optimizer_array ex_finv 2 s = Ok (l, s') /\ length l = 2%nat /\ ~ get_spec ex_finv s 2 [1] l.
Proof. exact stale_refuted. Qed.
Print Assumptions C140_stale_refuted.
(** Setting what was read from a partly fixed Param back changes its free element to the value of the fixed one. *)
Theorem C140_round_refuted : exists s l s1 s2, ex_reach s /\ is_leaf (st s) 3 = true /\ free s 3 [1] /\ get_optimizer_array ex_finv 3 s = Ok (l, s1) /\
  set_optimizer_array ex_f 3 l s1 = (s2, None) /\ value s 3 1 = Some 5 /\ value s2 3 1 = Some 4.
Proof. exact round_refuted. Qed.
Print Assumptions C140_round_refuted.
