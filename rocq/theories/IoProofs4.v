(** Index operations beside the constraints: what is exposed. *)
From Coq Require Import List Bool Arith Lia.
From Verif Require Import IoModel IoSpec IoProofs IoProofs2 IoProofs3.
Import ListNotations.

Lemma kept_has : forall s t, kept s t -> (forall y k, leaf_has t y k <-> leaf_has s y k) /\ (forall m k, node_has t m k <-> node_has s m k).
Proof.
  intros s t (_ & _ & _ & _ & _ & A & B & _). split; intros; [rewrite !has_key, A | rewrite !nhas_key, B]; reflexivity.
Qed.
Lemma others_ne : forall x l, ~ In x (others x l).
Proof. intros x l H. apply in_others in H. apply (proj2 H). reflexivity. Qed.
Lemma link_effect : forall s m x, reach fitting s -> legal s (Link m x) -> fitting s (Link m x) -> ~ linked s m x ->
  let o := exec (Link m x) s in let s' := st o in
  exn o = None /\ ch (node s' m) = ch (node s m) ++ [x] /\
  (forall n, n <> m -> ch (node s' n) = filter (fun y => negb (Nat.eqb y x)) (ch (node s n))) /\
  (forall y k, leaf_has s' y k <-> leaf_has s y k) /\ (forall n k, node_has s' n k <-> node_has s n k) /\
  (forall y k i p, i < lsize (leaf s y) -> marked s' y k i p = marked s y k i p).
Proof.
  intros s m x R [M X] F N. pose proof (inv_reach s R) as V. destruct (link_ok s m x V X M (fit_keys s m x F) N) as (A & B & C & D & E). cbv zeta in *.
  destruct (kept_has _ _ C) as [K1 K2]. split; [exact A|]. split; [exact D|]. split; [exact E|]. split; [exact K1|]. split; [exact K2|].
  destruct C as (_ & _ & _ & _ & _ & _ & _ & C). exact C.
Qed.
Lemma unlink_effect : forall s m x, reach fitting s -> linked s m x ->
  let o := exec (Unlink m x) s in let s' := st o in
  exn o = None /\ ch (node s' m) = filter (fun y => negb (Nat.eqb y x)) (ch (node s m)) /\
  (forall n, n <> m -> ch (node s' n) = ch (node s n)) /\
  (forall y k, leaf_has s' y k <-> leaf_has s y k) /\ (forall n k, node_has s' n k <-> node_has s n k) /\
  (forall y k i p, i < lsize (leaf s y) -> marked s' y k i p = marked s y k i p).
Proof.
  intros s m x R N. pose proof (inv_reach s R) as V. apply (i_par s V) in N. destruct (unlink_ok s m x V N) as (A & B & C & D & E & F). cbv zeta in *. cbn [exec].
  destruct (kept_has _ _ C) as [K1 K2]. split; [exact A|]. split; [exact E|]. split; [intros n Q; rewrite F by exact Q; reflexivity|]. split; [exact K1|]. split; [exact K2|].
  destruct C as (_ & _ & _ & _ & _ & _ & _ & C). exact C.
Qed.
Lemma node_marked_getd : forall s m k j p, node_marked s m k j p = getd k (nops (node s m)) j p.
Proof. intros. unfold node_marked, getd. rewrite entry_get. destruct (get k (nops (node s m))); reflexivity. Qed.
Lemma agree_effect : forall s, reach fitting s ->
  (forall m x, linked s m x -> (forall k, leaf_has s x k <-> node_has s m k) /\
     forall k i p, i < lsize (leaf s x) -> node_marked s m k (place s m x i) p = marked s x k i p) /\
  (forall m k j p, node_marked s m k j p = true -> j < elements s (ch (node s m))) /\
  (forall m n x, linked s m x -> linked s n x -> m = n).
Proof.
  intros s R. pose proof (inv_reach s R) as V. split; [|split].
  - intros m x N. apply (i_par s V) in N. split.
    + intros k. rewrite has_key, nhas_key, (proj2 (i_view s V x m N) k). reflexivity.
    + intros k i p I0. rewrite node_marked_getd, (marked_inv s V x m k i p N). unfold place. rewrite <- offset_until. reflexivity.
  - intros m k j p H. rewrite node_marked_getd in H. exact (i_in s V m k j p H).
  - intros m n x A B. apply (i_par s V) in A, B. congruence.
Qed.
Lemma apart : forall s l x y i a, NoDup l -> In x l -> In y l -> i < lsize (leaf s x) -> a < lsize (leaf s y) ->
  offset s l y + a = offset s l x + i -> y = x /\ a = i.
Proof.
  intros s l x y i a D X Y I0 A E. destruct (Nat.eq_dec y x) as [N|N]; [subst y; split; [reflexivity | lia]|].
  exfalso. destruct (offset_others s l x y D X Y N) as [[B _]|[B _]]; lia.
Qed.
Lemma mark_effect : forall s x k i p, reach fitting s -> legal s (Mark x k i p) ->
  let o := exec (Mark x k i p) s in
  (leaf_has s x k -> exn o = None /\
     forall y j a q, a < lsize (leaf s y) ->
       marked (st o) y j a q = marked s y j a q || (Nat.eqb y x && Nat.eqb j k && Nat.eqb a i && Nat.eqb q p)) /\
  (~ leaf_has s x k -> exn o = Some KeyError /\ st o = s).
Proof.
  intros s x k i p R [X B]. pose proof (inv_reach s R) as V. cbv zeta. cbn [exec]. split.
  - intros H. rewrite has_key in H. apply haskey_get in H. destruct (get k (lops (leaf s x))) as [c|] eqn:Q; [clear H | contradiction].
    destruct (lpar (leaf s x)) as [m|] eqn:P.
    + pose proof (proj1 (i_view s V x m P) k c (get_in _ _ _ _ Q)) as C. subst c.
      assert (HN : haskey k (nops (node s m)) = true) by (rewrite <- (proj2 (i_view s V x m P)); unfold haskey; rewrite Q; reflexivity).
      destruct (get k (nops (node s m))) as [F|] eqn:QF; [|unfold haskey in HN; rewrite QF in HN; discriminate].
      cbn [st exn]. split; [reflexivity|]. intros y j a q A. set (off := offset s (ch (node s m)) x). set (t := set_node _ _ _).
      assert (NTm : node t m = mkN (ch (node s m)) (set k (add1 F (off + i) p) (nops (node s m)))) by (unfold t; cbn; apply upd_eq).
      destruct (lpar (leaf s y)) as [n|] eqn:Py.
      * destruct (Nat.eq_dec n m) as [E|E].
        -- subst n. unfold marked. change (leaf t y) with (leaf s y). rewrite !entry_get, Py. destruct (i_view s V y m Py) as [VY KY].
           assert (LY : In y (ch (node s m))) by (apply (i_par s V); exact Py). assert (LX : In x (ch (node s m))) by (apply (i_par s V); exact P).
           destruct (get j (lops (leaf s y))) as [c|] eqn:QJ.
           ++ rewrite (VY j c (get_in _ _ _ _ QJ)). rewrite !entry_get, NTm. cbn [nops]. rewrite get_set.
              destruct (Nat.eqb_spec j k) as [J|J].
              ** subst j. unfold haskey. rewrite QF. unfold add1. destruct (F (offset s (ch (node s m)) y + a) q); [reflexivity|]. cbn [orb].
                 destruct (Nat.eqb_spec (offset s (ch (node s m)) y + a) (off + i)) as [E|E]; cbn [andb].
                 --- destruct (apart s (ch (node s m)) x y i a (i_dup s V m) LX LY B A E) as [-> ->]. rewrite !Nat.eqb_refl. reflexivity.
                 --- destruct (Nat.eqb_spec y x) as [Y|Y]; [|reflexivity]. destruct (Nat.eqb_spec a i) as [Z|Z]; [|reflexivity]. exfalso. apply E. subst y a. reflexivity.
              ** rewrite andb_false_r. cbn [andb]. rewrite orb_false_r. reflexivity.
           ++ assert (J : Nat.eqb y x && Nat.eqb j k = false).
              { destruct (Nat.eqb_spec y x) as [Y|Y]; [|reflexivity]. destruct (Nat.eqb_spec j k) as [J|J]; [|reflexivity]. subst y j. congruence. }
              rewrite J. reflexivity.
        -- assert (Y : y <> x) by (intros Y; subst y; congruence). destruct (Nat.eqb_spec y x); [contradiction|]. cbn [andb]. rewrite orb_false_r.
           apply marked_same; [reflexivity|]. intros n' Pn. rewrite Py in Pn. inversion Pn; subst n'. unfold t. cbn. apply upd_neq. exact E.
      * assert (Y : y <> x) by (intros Y; subst y; congruence). destruct (Nat.eqb_spec y x); [contradiction|]. cbn [andb]. rewrite orb_false_r.
        apply marked_same; [reflexivity|]. intros n' Pn. congruence.
    + destruct (i_own s V x P k c (get_in _ _ _ _ Q)) as [f [-> _]]. cbn [st exn]. split; [reflexivity|]. intros y j a q A.
      destruct (Nat.eq_dec y x) as [Y|Y].
      * subst y. rewrite Nat.eqb_refl. cbn [andb]. unfold marked. cbn [set_leaf leaf]. rewrite upd_eq. cbn [lops lpar]. rewrite !entry_get, get_set.
        rewrite P. destruct (Nat.eqb_spec j k) as [J|J]; [|cbn [andb]; rewrite orb_false_r; reflexivity]. subst j. unfold haskey. rewrite Q. reflexivity.
      * destruct (Nat.eqb_spec y x); [contradiction|]. cbn [andb]. rewrite orb_false_r. apply marked_same; [cbn; apply upd_neq; exact Y | reflexivity].
  - intros H. rewrite has_key in H. unfold haskey in H. destruct (get k (lops (leaf s x))); [exfalso; apply H; reflexivity | split; reflexivity].
Qed.

(** When linking fails. *)
Lemma link_free_iff : forall s m x, Inv s -> x < nl s -> m < nn s -> lpar (leaf s x) = None ->
  (exn (link_free s m x) = None \/ exn (link_free s m x) = Some KeyError) /\
  (exn (link_free s m x) = None -> forall k, haskey k (lops (leaf s x)) = haskey k (nops (node s m))) /\
  (forall k, haskey k (nops (node s m)) = true -> haskey k (lops (leaf s x)) = false ->
     leaf (st (link_free s m x)) = leaf s /\ forall n, ch (node (st (link_free s m x)) n) = ch (node s n)).
Proof.
  intros s m x V X M P. unfold link_free. destruct (node s m) as [c F] eqn:NM. cbn [nops].
  assert (RO : forall k, haskey k (lops (leaf s x)) = false -> rel_of s x k = None).
  { intros k H. unfold rel_of, haskey in *. destruct (get k (lops (leaf s x))); [discriminate | reflexivity]. }
  assert (RS : forall k, haskey k (lops (leaf s x)) = true -> rel_of s x k <> None).
  { intros k H. unfold rel_of. apply haskey_get in H. destruct (get k (lops (leaf s x))) as [d|] eqn:Q; [|contradiction].
    destruct (i_own s V x P k d (get_in _ _ _ _ Q)) as [f [-> _]]. discriminate. }
  assert (MF : forall k, haskey k F = true -> haskey k (lops (leaf s x)) = false -> snd (merge (rel_of s x) (total s c) (lsize (leaf s x)) F) = false).
  { intros k A B. exact (merge_fails _ _ _ _ k A (RO k B)). }
  destruct (merge (rel_of s x) (total s c) (lsize (leaf s x)) F) as [F' ok] eqn:MG. cbn [snd] in MF. destruct ok.
  - assert (SUB : forall k, haskey k F = true -> haskey k (lops (leaf s x)) = true).
    { intros k A. destruct (haskey k (lops (leaf s x))) eqn:B; [reflexivity|]. specialize (MF k A B). discriminate. }
    destruct (merge_ok (rel_of s x) (total s c) (lsize (leaf s x)) F) as [F'' [E G]]; [intros k A; apply RS, SUB, A|].
    rewrite MG in E. inversion E; subst F''. clear E.
    set (s1 := set_node _ _ _). destruct (notify s1 m (c ++ [x])) as [t b] eqn:NT. cbn [exn st].
    split; [destruct b; auto|]. split.
    + intros H k. destruct b; [|discriminate]. destruct (haskey k F) eqn:A; [apply SUB; exact A|].
      destruct (haskey k (lops (leaf s x))) eqn:B; [|reflexivity]. exfalso.
      assert (Q : snd (notify s1 m (c ++ [x])) = false).
      { apply (notify_fails (c ++ [x]) s1 m x k); [apply in_or_app; right; left; reflexivity | unfold s1; cbn; rewrite upd_eq; exact B|].
        unfold s1. cbn. rewrite upd_eq. cbn. unfold haskey. rewrite G. unfold haskey in A. destruct (get k F); [discriminate | reflexivity]. }
      rewrite NT in Q. discriminate.
    + intros k A B. rewrite (SUB k A) in B. discriminate.
  - cbn [exn st]. split; [right; reflexivity|]. split; [discriminate|]. intros k _ _. split; [reflexivity|]. intros n. cbn.
    unfold upd. destruct (Nat.eqb_spec n m) as [E|E]; [subst n; rewrite NM|]; reflexivity.
Qed.
Lemma link_iff : forall s m x, reach fitting s -> legal s (Link m x) -> (forall n, ~ linked s n x) ->
  let o := exec (Link m x) s in
  (exn o = None <-> forall k, leaf_has s x k <-> node_has s m k) /\
  (exn o = None \/ exn o = Some KeyError) /\
  (forall k, node_has s m k -> ~ leaf_has s x k -> forall n y, linked (st o) n y <-> linked s n y).
Proof.
  intros s m x R [M X] N. pose proof (inv_reach s R) as V.
  assert (P : lpar (leaf s x) = None) by (destruct (lpar (leaf s x)) as [n|] eqn:P; [exfalso; apply (N n); apply (i_par s V); exact P | reflexivity]).
  cbn [exec]. assert (EX : existsb (Nat.eqb x) (ch (node s m)) = false).
  { destruct (existsb (Nat.eqb x) (ch (node s m))) eqn:E; [|reflexivity]. apply existsb_exists in E. destruct E as [y [Y E]]. apply Nat.eqb_eq in E. subst y. exfalso. exact (N m Y). }
  rewrite EX, P. destruct (link_free_iff s m x V X M P) as [A [B C]]. cbv zeta. split; [split|split].
  - intros H k. rewrite has_key, nhas_key, (B H k). reflexivity.
  - intros H. exact (proj1 (link_free_ok s m x V X M P (fit_keys s m x H))).
  - exact A.
  - intros k H1 H2 n y. rewrite nhas_key in H1. rewrite has_key in H2. apply not_true_is_false in H2. destruct (C k H1 H2) as [_ C2]. unfold linked. rewrite C2. reflexivity.
Qed.

(** Attributes. *)
Lemma props_reach : forall s, reach fitting s -> forall y k, leaf_has s y k -> In k (props s).
Proof.
  intros s R. induction R as [|s c R IH G F]; intros y k H; [exfalso; apply H; reflexivity|].
  pose proof (inv_reach s R) as V. rewrite has_key in H.
  destruct c as [n| |[x|m] j f|[x|m] j|x j i p|m x|m x|x j v|x j]; cbn [legal fitting] in G, F.
  - cbn [exec st] in *. cbn [leaf props] in *. destruct (Nat.eq_dec y (nl s)) as [E|E].
    + subst y. rewrite upd_eq in H. unfold haskey in H. cbn in H. destruct k; [left; reflexivity | discriminate].
    + rewrite upd_neq in H by exact E. right. apply (IH y). apply has_key. exact H.
  - cbn [exec st] in *. cbn [leaf props] in *. right. apply (IH y). apply has_key. exact H.
  - cbn [exec] in *. destruct (haskey j (lops (leaf s x))) eqn:Q; cbn [st] in *; [apply (IH y); apply has_key; exact H|]. cbn [leaf props] in *.
    destruct (Nat.eq_dec y x) as [E|E]; [subst y; rewrite upd_eq in H | rewrite upd_neq in H by exact E; right; apply (IH y); apply has_key; exact H].
    unfold haskey in H. cbn [lops] in H. rewrite get_app1 in H. destruct (get k (lops (leaf s x))) eqn:G1; [right; apply (IH x); apply has_key; unfold haskey; rewrite G1; reflexivity|].
    destruct (Nat.eqb_spec j k) as [J|J]; [left; exact J | discriminate].
  - cbn [exec] in *. destruct (haskey j (nops (node s m))) eqn:Q; cbn [st] in *; [apply (IH y); apply has_key; exact H|]. right. apply (IH y). apply has_key. exact H.
  - cbn [exec] in *. destruct (haskey j (lops (leaf s x))) eqn:Q; cbn [st] in *; [|apply (IH y); apply has_key; exact H]. cbn [set_leaf leaf props] in *.
    destruct (Nat.eq_dec y x) as [E|E]; [subst y; rewrite upd_eq in H | rewrite upd_neq in H by exact E; apply (IH y); apply has_key; exact H].
    unfold haskey in H. cbn [lops] in H. rewrite get_del in H. destruct (Nat.eqb k j); [discriminate|]. apply (IH x). apply has_key. exact H.
  - cbn [exec] in *. destruct (haskey j (nops (node s m))) eqn:Q; cbn [st] in *; apply (IH y); apply has_key; exact H.
  - cbn [exec] in *. destruct (get j (lops (leaf s x))) as [[f|off]|] eqn:Q; cbn [st] in *; [| |apply (IH y); apply has_key; exact H].
    + cbn [set_leaf leaf props] in *. destruct (Nat.eq_dec y x) as [E|E]; [subst y; rewrite upd_eq in H | rewrite upd_neq in H by exact E; apply (IH y); apply has_key; exact H].
      cbn [lops] in H. rewrite haskey_set in H. apply (IH x). apply has_key. exact H.
    + destruct (lpar (leaf s x)) as [m|]; [destruct (get j (nops (node s m)))|]; cbn [st] in *; apply (IH y); apply has_key; exact H.
  - destruct G as [M X]. destruct (in_dec Nat.eq_dec x (ch (node s m))) as [Q|Q].
    + cbn [exec] in *. assert (EX : existsb (Nat.eqb x) (ch (node s m)) = true) by (apply existsb_exists; exists x; split; [exact Q | apply Nat.eqb_refl]).
      rewrite EX in *. cbn [st] in *. apply (IH y). apply has_key. exact H.
    + destruct (link_ok s m x V X M (fit_keys s m x F) Q) as (_ & _ & K & _). destruct K as (_ & _ & KP & _ & _ & KL & _). rewrite KP. apply (IH y). apply has_key. rewrite <- KL. exact H.
  - cbn [exec] in *. destruct (in_dec Nat.eq_dec x (ch (node s m))) as [Q|Q].
    + apply (i_par s V) in Q. destruct (unlink_ok s m x V Q) as (_ & _ & K & _). destruct K as (_ & _ & KP & _ & _ & KL & _). rewrite KP. apply (IH y). apply has_key. rewrite <- KL. exact H.
    + assert (E : st (unlink s m x) = s).
      { unfold unlink. destruct (node s m) as [c0 F0] eqn:NM. cbn [ch] in Q. destruct (existsb (Nat.eqb x) c0) eqn:EX; [|reflexivity].
        apply existsb_exists in EX. destruct EX as [z [Z E]]. apply Nat.eqb_eq in E. subst z. contradiction. }
      rewrite E in *. apply (IH y). apply has_key. exact H.
  - apply (IH y). apply has_key. exact H.
  - cbn [exec] in *. destruct (existsb (Nat.eqb j) (props s)); [destruct (haskey j (lops (leaf s x))) | destruct (attr s x j)]; cbn [st] in *; apply (IH y); apply has_key; exact H.
Qed.
Lemma in_existsb : forall k l, existsb (Nat.eqb k) l = true <-> In k l.
Proof. intros. rewrite existsb_exists. split; [intros [y [Y E]]; apply Nat.eqb_eq in E; subst; exact Y | intros H; exists k; split; [exact H | apply Nat.eqb_refl]]. Qed.
Definition getter (s : state) (y j : nat) : option nat * option err := (val (exec (GetAttr y j) s), exn (exec (GetAttr y j) s)).
Lemma getter_eq : forall s y j, getter s y j =
  if existsb (Nat.eqb j) (props s) then (None, if haskey j (lops (leaf s y)) then None else Some KeyError)
  else match attr s y j with Some v => (Some v, None) | None => (None, Some AttributeError) end.
Proof. intros. unfold getter. cbn [exec]. destruct (existsb (Nat.eqb j) (props s)); [destruct (haskey j (lops (leaf s y))) | destruct (attr s y j)]; reflexivity. Qed.
Lemma attr_effect : forall s o k f, reach fitting s -> legal s (AddOp o k f) -> exn (exec (AddOp o k f) s) = None ->
  let s' := st (exec (AddOp o k f) s) in
  forall y, o <> L y ->
    (forall j, j <> k \/ leaf_has s y k ->
       val (exec (GetAttr y j) s') = val (exec (GetAttr y j) s) /\ exn (exec (GetAttr y j) s') = exn (exec (GetAttr y j) s)) /\
    (~ leaf_has s y k -> exn (exec (GetAttr y k) s') = Some KeyError /\ exn (exec (GetAttr y k) (st (exec (RemoveOp o k) s'))) = Some KeyError).
Proof.
  intros s o k f R G E s' y N.
  assert (PR : props s' = k :: props s /\ attr s' = attr s /\ leaf s' y = leaf s y).
  { unfold s'. destruct o as [x|m]; cbn [exec] in *; [destruct (haskey k (lops (leaf s x))) | destruct (haskey k (nops (node s m)))]; try discriminate E; cbn; repeat split.
    apply upd_neq. intros Q. apply N. subst. reflexivity. }
  destruct PR as [P1 [P2 P3]]. split.
  - intros j J. assert (Q : getter s' y j = getter s y j).
    { rewrite !getter_eq, P1, P2, P3. cbn [existsb]. destruct (Nat.eqb_spec j k) as [F|F]; [|reflexivity]. subst j. destruct J as [J|J]; [contradiction|]. cbn [orb].
      assert (I0 : existsb (Nat.eqb k) (props s) = true) by (apply in_existsb; exact (props_reach s R y k J)). rewrite I0. reflexivity. }
    exact (conj (f_equal fst Q) (f_equal snd Q)).
  - intros H. rewrite has_key in H. apply not_true_is_false in H. split.
    + assert (Q : getter s' y k = (None, Some KeyError)) by (rewrite getter_eq, P1, P3; cbn [existsb]; rewrite Nat.eqb_refl, H; reflexivity).
      exact (f_equal snd Q).
    + set (t := st (exec (RemoveOp o k) s')).
      assert (T : props t = props s' /\ leaf t y = leaf s' y).
      { unfold t. destruct o as [x|m]; cbn [exec]; [destruct (haskey k (lops (leaf s' x))) | destruct (haskey k (nops (node s' m)))]; cbn [st]; split; try reflexivity.
        cbn. apply upd_neq. intros Q. apply N. subst. reflexivity. }
      destruct T as [T1 T2]. assert (Q : getter t y k = (None, Some KeyError)) by (rewrite getter_eq, T1, T2, P1, P3; cbn [existsb]; rewrite Nat.eqb_refl, H; reflexivity).
      exact (f_equal snd Q).
Qed.
