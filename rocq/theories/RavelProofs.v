(** Proofs about flat indices. *)
From Coq Require Import List Arith Bool Lia FinFun.
From Verif Require Import PzModel RavelModel RavelSpec.
Import ListNotations.

(** ** C order *)
Lemma flat_map_nth : forall (A B : Type) (f : A -> list B) L l i x j, (forall y, In y l -> length (f y) = L) -> nth_error l i = Some x -> j < L ->
  nth_error (flat_map f l) (L * i + j) = nth_error (f x) j.
Proof.
  intros A B f L l. induction l as [|a l IH]; intros [|i] x j Hl Hx Hj; try discriminate.
  - injection Hx as ->. rewrite Nat.mul_0_r. cbn [plus flat_map]. rewrite nth_error_app1; auto. rewrite Hl; auto. left; auto.
  - cbn [nth_error] in Hx. cbn [flat_map]. assert (E : length (f a) = L) by (apply Hl; left; auto). rewrite nth_error_app2 by (rewrite E; nia). rewrite E.
    replace (L * S i + j - L) with (L * i + j) by nia. apply IH; auto. intros y Hy; apply Hl; right; auto.
Qed.
Lemma coords_len : forall d, length (coords d) = elements d.
Proof.
  induction d as [|n d IH]; auto. cbn [coords elements fold_right]. fold (elements d). rewrite <- (seq_length n 0) at 2. generalize (seq 0 n) as l.
  induction l as [|a l IHl]; auto. cbn [flat_map length]. rewrite app_length, map_length, IH, IHl. lia.
Qed.
Lemma coords_valid : forall d c, In c (coords d) <-> valid d c.
Proof.
  induction d as [|n d IH]; intros c; cbn [coords].
  - split; [intros [<-|[]]; constructor | intros H; inversion H; left; auto].
  - rewrite in_flat_map. split.
    + intros (i & Hi & Hc). apply in_map_iff in Hc as (c' & <- & Hc). apply in_seq in Hi. constructor; [lia | apply IH; auto].
    + intros H. inversion H as [|i m c' d' H1 H2]; subst. exists i. split; [apply in_seq; lia|]. apply in_map, IH. auto.
Qed.

(** ** Strides *)
Lemma cumprod_app : forall l acc x, cumprod acc (l ++ [x]) = cumprod acc l ++ [acc * elements l * x].
Proof.
  induction l as [|a l IH]; intros acc x; cbn [app cumprod].
  - cbn. rewrite Nat.mul_1_r. auto.
  - rewrite IH. cbn [app]. f_equal. f_equal. f_equal. cbn [elements fold_right]. fold (elements l). nia.
Qed.
Lemma elements_app : forall a b, elements (a ++ b) = elements a * elements b.
Proof. induction a as [|x a IH]; intros b; cbn [app elements fold_right]; [fold (elements b); lia|]. fold (elements (a ++ b)). fold (elements a). rewrite IH. nia. Qed.
Lemma elements_rev : forall l, elements (rev l) = elements l.
Proof. induction l as [|a l IH]; auto. cbn [rev]. rewrite elements_app, IH. cbn. fold (elements l). lia. Qed.
Lemma strides_one : forall n, strides [n] = [1].
Proof. reflexivity. Qed.
Lemma strides_cons : forall n m d, strides (n :: m :: d) = elements (m :: d) :: strides (m :: d).
Proof.
  intros n m d. unfold strides. cbn [tl rev]. change (1 :: rev d ++ [m]) with ((1 :: rev d) ++ [m]). rewrite cumprod_app, rev_app_distr. cbn [rev app]. f_equal.
  cbn [elements fold_right]. fold (elements (rev d)). fold (elements d). rewrite elements_rev. lia.
Qed.
Lemma dot_cons : forall w ws x xs, dot (w :: ws) (x :: xs) = w * x + dot ws xs.
Proof. reflexivity. Qed.
Lemma dot_flat : forall n d i c, length c = length d -> dot (strides (n :: d)) (i :: c) = elements d * i + (match d with [] => 0 | _ => dot (strides d) c end).
Proof.
  intros n [|m d] i c Hc.
  - rewrite strides_one. destruct c; [|discriminate]. cbn. lia.
  - rewrite strides_cons. apply dot_cons.
Qed.
Lemma valid_len : forall d c, valid d c -> length c = length d.
Proof. intros d c H. induction H; cbn; auto. Qed.
(** The position of an element. *)
Lemma dot_lt : forall d c, d <> [] -> valid d c -> dot (strides d) c < elements d.
Proof.
  induction d as [|n d IH]; intros c Hd H; [congruence|]. inversion H as [|i m c' d' H1 H2]; subst. rewrite dot_flat by (apply valid_len; auto).
  cbn [elements fold_right]. fold (elements d). destruct d as [|m d]; [cbn; lia|]. specialize (IH c' ltac:(discriminate) H2). nia.
Qed.
Lemma dot_nth : forall d c, d <> [] -> valid d c -> nth_error (coords d) (dot (strides d) c) = Some c.
Proof.
  induction d as [|n d IH]; intros c Hd H; [congruence|]. inversion H as [|i m c' d' H1 H2]; subst. rewrite dot_flat by (apply valid_len; auto). cbn [coords].
  set (j := match d with [] => 0 | _ => dot (strides d) c' end).
  assert (Hj : j < elements d /\ nth_error (coords d) j = Some c').
  { unfold j. destruct d as [|m d]; [inversion H2; subst; cbn; auto|]. split; [apply dot_lt; auto; discriminate | apply IH; auto; discriminate]. }
  destruct Hj as [Hj1 Hj2]. rewrite (flat_map_nth _ _ _ (elements d) _ i i j); auto.
  - rewrite nth_error_map, Hj2. auto.
  - intros y _. rewrite map_length. apply coords_len.
  - rewrite (nth_error_nth' _ 0) by (rewrite seq_length; auto). rewrite seq_nth; auto.
Qed.
Lemma dot_inj : forall d c c', d <> [] -> valid d c -> valid d c' -> dot (strides d) c = dot (strides d) c' -> c = c'.
Proof. intros d c c' Hd H H' E. pose proof (dot_nth d c Hd H) as A. pose proof (dot_nth d c' Hd H') as B. rewrite E in A. congruence. Qed.
Lemma dot_onto : forall d k, d <> [] -> k < elements d -> exists c, valid d c /\ dot (strides d) c = k.
Proof.
  induction d as [|n d IH]; intros k Hd Hk; [congruence|]. cbn [elements fold_right] in Hk. fold (elements d) in Hk.
  assert (He : elements d <> 0) by nia. pose proof (Nat.div_mod k (elements d) He) as E. pose proof (Nat.mod_upper_bound k _ He) as Hm.
  assert (Hq : k / elements d < n) by (apply Nat.div_lt_upper_bound; lia).
  assert (exists c, valid d c /\ (match d with [] => 0 | _ => dot (strides d) c end) = k mod elements d) as (c & Hc & Ec).
  { destruct d as [|m d]; [exists []; split; [constructor|]; change (elements []) with 1; rewrite Nat.mod_1_r; auto|]. apply IH; auto. discriminate. }
  exists (k / elements d :: c). split; [constructor; auto|]. rewrite dot_flat by (apply valid_len; auto). lia.
Qed.
Lemma dot_earlier : forall d c c', valid d c -> valid d c' -> earlier c c' -> dot (strides d) c < dot (strides d) c'.
Proof.
  intros d c c' H H' (p & i & j & r & r' & -> & -> & L). revert d H H'. induction p as [|x p IH]; intros d H H'; cbn [app] in *;
  inversion H as [|? n ? d' H1 H2]; subst; inversion H' as [|? ? ? ? H1' H2']; subst.
  - rewrite !dot_flat by (apply valid_len; auto). destruct d' as [|m d']; [cbn; lia|].
    pose proof (dot_lt (m :: d') r ltac:(discriminate) H2). nia.
  - rewrite !dot_flat by (apply valid_len; auto). destruct d' as [|m d']; [inversion H2; destruct p; discriminate|]. specialize (IH _ H2 H2'). lia.
Qed.

(** ** Rows *)
Lemma coords_last : forall o k, coords (o ++ [k]) = flat_map (fun c => map (fun d => c ++ [d]) (seq 0 k)) (coords o).
Proof.
  induction o as [|n o IH]; intros k; cbn [app coords].
  - cbn [flat_map map]. rewrite app_nil_r. induction (seq 0 k) as [|i l IHl]; cbn in *; congruence.
  - rewrite IH. induction (seq 0 n) as [|i l IHl]; auto. cbn [flat_map]. rewrite flat_map_app, <- IHl. f_equal.
    clear. induction (coords o) as [|c l IH]; auto. cbn [flat_map map]. rewrite map_app, IH. f_equal. rewrite map_map. auto.
Qed.
Lemma rows_concat : forall (A : Type) k (ls : list (list A)) f, 0 < k -> (forall l, In l ls -> length l = k) -> length (concat ls) <= f -> rows_of f k (concat ls) = ls.
Proof.
  intros A k ls. induction ls as [|l ls IH]; intros f Hk Hl Hf; cbn [concat] in *; [destruct f; auto|].
  assert (E : length l = k) by (apply Hl; left; auto). rewrite app_length in Hf. destruct f as [|f]; [lia|].
  cbn [rows_of]. destruct (l ++ concat ls) as [|a r] eqn:Er; [destruct l; [cbn in E; lia | discriminate]|]. rewrite <- Er.
  rewrite firstn_app, firstn_all2 by lia. rewrite skipn_app, skipn_all2 by lia. rewrite E, Nat.sub_diag. cbn [firstn skipn app]. rewrite app_nil_r. f_equal.
  apply IH; auto; [intros; apply Hl; right; auto | lia].
Qed.
Lemma nth_seq_map : forall l k, length l = k -> map (fun d => nth d l 0) (seq 0 k) = l.
Proof.
  intros l k <-. induction l as [|a l IH]; auto. cbn [length seq map nth]. f_equal. rewrite <- seq_shift, map_map. exact IH.
Qed.
Lemma rows_ok : forall (a : nd nat) k o (src : list nat -> list nat), 0 < k -> shape a = k :: o ->
  (forall d c, d < k -> In c (coords o) -> at_ a (d :: c) = nth d (src c) 0) -> (forall c, In c (coords o) -> length (src c) = k) ->
  reshape_rows k (roll_last a) = map src (coords o).
Proof.
  intros a k o src Hk Es Ha Hs. unfold reshape_rows.
  assert (E : flat (roll_last a) = concat (map src (coords o))).
  { unfold flat, roll_last. cbn [shape at_]. rewrite Es. cbn [tl firstn]. rewrite coords_last.
    assert (Q : forall l, (forall c, In c l -> In c (coords o)) ->
      map (fun c => at_ a (last c 0 :: removelast c)) (flat_map (fun c => map (fun d => c ++ [d]) (seq 0 k)) l) = concat (map src l)); [|apply Q; auto].
    induction l as [|c l IH]; intros Hl; auto. cbn [flat_map map concat]. rewrite map_app, IH by (intros; apply Hl; right; auto). f_equal.
    rewrite map_map. rewrite <- (nth_seq_map (src c) k) by (apply Hs, Hl; left; auto). apply map_ext_in. intros d Hd. apply in_seq in Hd.
    rewrite last_last, removelast_last. apply Ha; [lia | apply Hl; left; auto]. }
  rewrite E. apply rows_concat; auto. intros l Hl. apply in_map_iff in Hl as (c & <- & Hc). auto.
Qed.

(** ** Indexing *)
Lemma complete_len : forall ix d t, complete ix d = Ok t -> length t = length d.
Proof.
  induction ix as [|i ix IH]; intros [|n d] t H; cbn in H; try discriminate; try (injection H as <-; cbn; rewrite ?map_length; auto; fail).
  destruct (in_axis i n); [|discriminate]. destruct (complete ix d) eqn:E; cbn in H; [|discriminate]. injection H as <-. cbn. f_equal. eapply IH; eauto.
Qed.
Lemma source_len : forall t b c, length (source t b c) = length t.
Proof. induction t as [|[l|i|l] t IH]; intros b c; cbn [source length]; auto. Qed.
(** The items fit the axes. *)
Lemma complete_fits : forall ix d t, complete ix d = Ok t -> Forall2 (fun i n => in_axis i n = true) t d.
Proof.
  induction ix as [|i ix IH]; intros d t H; cbn in H.
  - injection H as <-. clear. induction d as [|n d IH]; cbn; constructor; auto. cbn. apply forallb_forall. intros k Hk. apply in_seq in Hk. apply Nat.ltb_lt. lia.
  - destruct d as [|n d]; [discriminate|]. destruct (in_axis i n) eqn:E; [|discriminate]. destruct (complete ix d) eqn:E2; cbn in H; [|discriminate]. injection H as <-. constructor; auto.
Qed.
Definition arrays_are (t : list item) (n : nat) : Prop := forall l, In (Arr l) t -> length l = n \/ length l = 1.
Lemma in_axis_nth : forall l n k, forallb (fun k => k <? n) l = true -> k < length l -> nth k l 0 < n.
Proof. intros l n k H Hk. rewrite forallb_forall in H. apply Nat.ltb_lt, H, nth_In. auto. Qed.
Lemma source_valid : forall t d b c n, Forall2 (fun i n => in_axis i n = true) t d -> arrays_are t n -> (b < n \/ forall l, ~ In (Arr l) t) -> valid (sl_dims t) c ->
  valid d (source t b c).
Proof.
  intros t d b c n H. revert c. induction H as [|i m t d H1 H2 IH]; intros c Ha Hb Hc; cbn [source]; [constructor|].
  assert (Ha' : arrays_are t n) by (intros l Hl; apply Ha; right; auto).
  assert (Hb' : b < n \/ forall l, ~ In (Arr l) t) by (destruct Hb as [|Hb]; [left; auto | right; intros l Hl; apply (Hb l); right; auto]).
  destruct i as [l|i|l]; cbn [in_axis] in H1.
  - cbn [sl_dims flat_map app] in Hc. inversion Hc as [|k ? c' ? Q1 Q2]; subst. constructor; [cbn [hd]; apply in_axis_nth; auto | apply IH; auto].
  - constructor; [apply Nat.ltb_lt; auto | apply IH; auto].
  - constructor; [|apply IH; auto]. apply in_axis_nth; auto. destruct (Nat.eqb_spec (length l) 1) as [E|E]; [lia|].
    destruct (Ha l) as [Q|Q]; [left; auto | | lia]. destruct Hb as [Hb|Hb]; [lia|]. exfalso. apply (Hb l). left; auto.
Qed.
Lemma arrays_in : forall t n, In n (flat_map arr_len t) <-> exists l, In (Arr l) t /\ length l = n.
Proof.
  intros t n. rewrite in_flat_map. split.
  - intros ([l|i|l] & H & E); cbn in E; try tauto. destruct E as [E|[]]. exists l. auto.
  - intros (l & H & E). exists (Arr l). split; auto. left. auto.
Qed.
Lemma broadcast_none : forall t, broadcast t = Ok None -> forall l, ~ In (Arr l) t.
Proof.
  intros t H l Hl. assert (Q : In (length l) (flat_map arr_len t)) by (apply arrays_in; eauto). unfold broadcast in H.
  destruct (flat_map arr_len t) as [|a r]; [destruct Q|]. destruct (filter _ (a :: r)) as [|x y]; [discriminate|]. destruct (forallb _ y); discriminate.
Qed.
Lemma broadcast_some : forall t n, broadcast t = Ok (Some n) -> arrays_are t n.
Proof.
  intros t n H l Hl. assert (Q : In (length l) (flat_map arr_len t)) by (apply arrays_in; eauto). unfold broadcast in H.
  destruct (flat_map arr_len t) as [|a r]; [destruct Q|].
  assert (G : length l <> 1 -> In (length l) (filter (fun n => negb (n =? 1)) (a :: r))) by (intros Hne; apply filter_In; split; auto; apply negb_true_iff, Nat.eqb_neq; auto).
  destruct (Nat.eq_dec (length l) 1) as [E|E]; [right; auto|]. left. specialize (G E). destruct (filter _ (a :: r)) as [|x y]; [destruct G|].
  destruct (forallb _ y) eqn:Ey; [|discriminate]. injection H as <-. destruct G as [G|G]; auto. rewrite forallb_forall in Ey. apply Nat.eqb_eq. apply Ey. auto.
Qed.
(** The axes of the slices are those before and those after the arrays. *)
Lemma split_sl : forall t, sl_dims t = sl_dims (before t) ++ sl_dims (from_adv t).
Proof. induction t as [|[l|i|l] t IH]; auto. cbn [sl_dims flat_map before from_adv app] in *. f_equal. exact IH. Qed.
Lemma after_sl : forall t, sl_dims (after_adv t) = sl_dims t.
Proof. induction t as [|[l|i|l] t IH]; auto. Qed.
Lemma before_len : forall t, length (sl_dims (before t)) = length (before t).
Proof. induction t as [|[l|i|l] t IH]; auto. cbn [sl_dims flat_map before app length] in *. f_equal. exact IH. Qed.
Lemma valid_app : forall d1 d2 c, valid (d1 ++ d2) c <-> valid d1 (firstn (length d1) c) /\ valid d2 (skipn (length d1) c).
Proof.
  induction d1 as [|n d1 IH]; intros d2 c; cbn [app length firstn skipn].
  - split; [intros; split; auto; constructor | tauto].
  - destruct c as [|x c]; [split; [intros H | intros [H _]]; inversion H|]. cbn [firstn skipn]. split.
    + intros H. inversion H; subst. apply IH in H5 as [A B]. split; auto. constructor; auto.
    + intros [A B]. inversion A; subst. constructor; auto. apply IH. auto.
Qed.
Lemma adv_split : forall t n c, valid (sl_dims (before t) ++ n :: sl_dims (after_adv (from_adv t))) c ->
  let k := length (before t) in nth k c 0 < n /\ valid (sl_dims t) (firstn k c ++ skipn (S k) c).
Proof.
  intros t n c H k. apply valid_app in H as [A B]. rewrite before_len in *. fold k in A, B. inversion B as [|x ? c' ? B1 B2 E1 E2]; subst.
  assert (Ek : length (firstn k c) = k) by (rewrite (valid_len _ _ A); apply before_len).
  assert (Hn : nth k c 0 = x).
  { rewrite <- (firstn_skipn k c). rewrite app_nth2 by lia. rewrite Ek, Nat.sub_diag, <- E1. auto. }
  assert (Hs : skipn (S k) c = c').
  { rewrite <- (firstn_skipn k c). rewrite skipn_app, skipn_all2 by lia. rewrite Ek, <- E1. replace (S k - k) with 1 by lia. auto. }
  rewrite Hn, Hs. split; auto. rewrite split_sl, <- (after_sl (from_adv t)). apply valid_app. rewrite before_len. fold k. 
  rewrite firstn_app, Ek, Nat.sub_diag, firstn_all2 by lia. rewrite skipn_app, skipn_all2 by lia. rewrite Ek, Nat.sub_diag. cbn [firstn skipn app]. rewrite app_nil_r. auto.
Qed.

Lemma complete_app : forall ix d t, complete ix d = Ok t -> exists r, t = ix ++ r /\ forall i, In i r -> exists l, i = Sl l.
Proof.
  induction ix as [|i ix IH]; intros d t H; cbn in H.
  - injection H as <-. eexists. split; [reflexivity|]. intros i Hi. apply in_map_iff in Hi as (n & <- & _). eauto.
  - destruct d as [|n d]; [discriminate|]. destruct (in_axis i n); [|discriminate]. destruct (complete ix d) eqn:E; cbn in H; [|discriminate]. injection H as <-.
    destruct (IH _ _ E) as (r & -> & Hr). exists r. auto.
Qed.
Lemma from_adv_app : forall a t, (forall i, In i a -> exists l, i = Sl l) -> from_adv (a ++ t) = from_adv t.
Proof. induction a as [|i a IH]; intros t H; auto. destruct (H i) as [l ->]; [left; auto|]. cbn [app from_adv]. apply IH. intros; apply H; right; auto. Qed.
Lemma after_adv_app : forall b t, (forall i, In i b -> forall l, i <> Sl l) -> (forall i, In i t -> exists l, i = Sl l) -> after_adv (b ++ t) = t.
Proof.
  induction b as [|i b IH]; intros t H Ht; cbn [app].
  - destruct t as [|i t]; auto. destruct (Ht i) as [l ->]; [left; auto|]. auto.
  - destruct i as [l|i|l]; [exfalso; apply (H (Sl l) (or_introl eq_refl) l); auto | |]; cbn [after_adv]; apply IH; auto; intros; apply H; right; auto.
Qed.
Lemma all_sl : forall t, (forall i, In i t -> exists l, i = Sl l) -> forallb is_sl t = true.
Proof. intros t H. apply forallb_forall. intros i Hi. destruct (H i Hi) as [l ->]. auto. Qed.
Lemma side_adjacent : forall ix d t n, complete ix d = Ok t -> side_by_side ix -> broadcast t = Ok (Some n) -> adjacent t = true.
Proof.
  intros ix d t n H S Hb. destruct (complete_app _ _ _ H) as (r & -> & Hr). destruct S as [S|(a & b & c & -> & Hs & Hn)].
  - exfalso. assert (Q : flat_map arr_len (ix ++ r) = []).
    { destruct (flat_map arr_len (ix ++ r)) as [|m l] eqn:E; auto. exfalso. assert (Q : In m (flat_map arr_len (ix ++ r))) by (rewrite E; left; auto).
      apply arrays_in in Q as (l' & Q & _). apply in_app_or in Q as [Q|Q]; [exact (S l' Q)|]. destruct (Hr _ Q) as [? ?]; discriminate. }
    unfold broadcast in Hb. rewrite Q in Hb. discriminate.
  - unfold adjacent. rewrite <- !app_assoc, from_adv_app by (intros; apply Hs; auto).
    assert (Hc : forall i, In i (c ++ r) -> exists l, i = Sl l) by (intros i Hi; apply in_app_or in Hi as [Hi|Hi]; [apply Hs|]; auto).
    destruct b as [|i b]; cbn [app].
    + rewrite <- (app_nil_r (c ++ r)), from_adv_app by auto. reflexivity.
    + replace (from_adv (i :: b ++ c ++ r)) with (i :: b ++ c ++ r) by (destruct i as [l|i|l]; auto; exfalso; apply (Hn (Sl l) (or_introl eq_refl) l); auto).
      change (i :: b ++ c ++ r) with ((i :: b) ++ c ++ r). rewrite after_adv_app by auto. apply all_sl; auto.
Qed.
Lemma map_nth_seq : forall k d, d < k -> nth d (seq 0 k) 0 = d.
Proof. intros k d H. rewrite seq_nth; auto. Qed.
Lemma complete_all : forall ix d, complete (Sl (seq 0 (length d)) :: ix) (length d :: d) = rbind (complete ix d) (fun t => Ok (Sl (seq 0 (length d)) :: t)).
Proof.
  intros ix d. cbn [complete in_axis]. replace (forallb _ _) with true; auto. symmetry. apply forallb_forall. intros k Hk. apply in_seq in Hk. apply Nat.ltb_lt. lia.
Qed.
(** What indexing selects, and what [_indices] gives. *)
Lemma take_src : forall ix d t, d <> [] -> complete ix d = Ok t -> side_by_side ix -> forall b, broadcast t = Ok b ->
  exists o src, (forall (A : Type) (a : nd A), shape a = d -> take ix a = Ok (mkNd o (fun c => at_ a (src c)))) /\
    (forall c, In c (coords o) -> valid d (src c)) /\ indices d ix = Ok (map src (coords o)).
Proof.
  intros ix d t Hd Hc Sd b Hb. pose proof (complete_fits _ _ _ Hc) as Hf. pose proof (complete_len _ _ _ Hc) as Hl.
  assert (Hk : 0 < length d) by (destruct d; [congruence | cbn; lia]).
  assert (E : forall o at', take (Sl (seq 0 (length d)) :: ix) (np_indices d) = Ok (mkNd (length d :: o) at') -> forall src,
    (forall k c, k < length d -> In c (coords o) -> at' (k :: c) = nth k (src c) 0) -> (forall c, In c (coords o) -> valid d (src c)) -> indices d ix = Ok (map src (coords o))).
  { intros o at' Et src Ha Hs. unfold indices. rewrite Et. cbn [rbind]. f_equal. apply rows_ok; auto. intros c Hi. apply valid_len, Hs. auto. }
  destruct b as [n|].
  - pose proof (side_adjacent _ _ _ _ Hc Sd Hb) as Ad. pose proof (broadcast_some _ _ Hb) as Har.
    exists (sl_dims (before t) ++ n :: sl_dims (after_adv (from_adv t))), (fun c => source t (nth (length (before t)) c 0) (firstn (length (before t)) c ++ skipn (S (length (before t))) c)).
    assert (V : forall c, In c (coords (sl_dims (before t) ++ n :: sl_dims (after_adv (from_adv t)))) ->
      valid d (source t (nth (length (before t)) c 0) (firstn (length (before t)) c ++ skipn (S (length (before t))) c))).
    { intros c Hi. apply coords_valid in Hi. apply adv_split in Hi as [A B]. eapply source_valid; eauto. }
    split; [|split; auto].
    + intros A a Ea. unfold take. rewrite Ea, Hc. cbn [rbind]. rewrite Hb. cbn [rbind]. rewrite Ad. reflexivity.
    + eapply E; [|  |exact V].
      * unfold take. cbn [np_indices shape]. rewrite complete_all, Hc. cbn [rbind]. change (broadcast (Sl (seq 0 (length d)) :: t)) with (broadcast t). rewrite Hb. cbn [rbind].
        change (adjacent (Sl (seq 0 (length d)) :: t)) with (adjacent t). rewrite Ad. cbn [before from_adv sl_dims flat_map app length]. rewrite seq_length. reflexivity.
      * intros k c Hkk Hi. cbn [np_indices at_ nth firstn skipn app source hd tl]. rewrite map_nth_seq by auto. reflexivity.
  - pose proof (broadcast_none _ Hb) as Har.
    exists (sl_dims t), (source t 0).
    assert (V : forall c, In c (coords (sl_dims t)) -> valid d (source t 0 c)).
    { intros c Hi. apply coords_valid in Hi. apply (source_valid t d 0 c 0); auto. intros l Hl'. exfalso. apply (Har l); auto. }
    split; [|split; auto].
    + intros A a Ea. unfold take. rewrite Ea, Hc. cbn [rbind]. rewrite Hb. reflexivity.
    + eapply E; [|  |exact V].
      * unfold take. cbn [np_indices shape]. rewrite complete_all, Hc. cbn [rbind]. change (broadcast (Sl (seq 0 (length d)) :: t)) with (broadcast t). rewrite Hb. cbn [rbind].
        cbn [sl_dims flat_map app]. rewrite seq_length. reflexivity.
      * intros k c Hkk Hi. cbn [np_indices at_ source hd tl]. rewrite map_nth_seq by auto. reflexivity.
Qed.

(** ** The properties *)
Lemma index_final : forall (A : Type) (a b : nd A) ix, shape a <> [] -> side_by_side ix -> take ix a = Ok b -> flat b <> [] ->
  exists ks, raveled_index (shape a) ix = Ok ks /\ picks (flat a) ks (flat b).
Proof.
  intros A a b ix Hd S Hb Hne. destruct (complete ix (shape a)) as [t|e] eqn:Ec; [|unfold take in Hb; rewrite Ec in Hb; discriminate].
  destruct (broadcast t) as [n|e] eqn:En; [|unfold take in Hb; rewrite Ec in Hb; cbn [rbind] in Hb; rewrite En in Hb; discriminate].
  destruct (take_src ix (shape a) t Hd Ec S n En) as (o & src & T & V & Ei). rewrite (T A a eq_refl) in Hb. injection Hb as <-. unfold flat in Hne. cbn [shape at_] in Hne.
  exists (map (dot (strides (shape a))) (map src (coords o))). split.
  - unfold raveled_index. rewrite Ei. cbn [rbind]. destruct (coords o) as [|c l]; [exfalso; apply Hne; auto|]. reflexivity.
  - unfold flat at 2. cbn [shape at_]. unfold picks. rewrite map_map. revert V. generalize (coords o) as l. induction l as [|c l IH]; intros V; cbn [map]; constructor.
    + unfold flat. rewrite nth_error_map, dot_nth; auto. apply V. left; auto.
    + apply IH. intros; apply V; right; auto.
Qed.
Lemma index_empty : forall (A : Type) (a b : nd A) ix, shape a <> [] -> side_by_side ix -> take ix a = Ok b -> flat b = [] -> raveled_index (shape a) ix = Er ValueError.
Proof.
  intros A a b ix Hd S Hb Hne. destruct (complete ix (shape a)) as [t|e] eqn:Ec; [|unfold take in Hb; rewrite Ec in Hb; discriminate].
  destruct (broadcast t) as [n|e] eqn:En; [|unfold take in Hb; rewrite Ec in Hb; cbn [rbind] in Hb; rewrite En in Hb; discriminate].
  destruct (take_src ix (shape a) t Hd Ec S n En) as (o & src & T & V & Ei). rewrite (T A a eq_refl) in Hb. injection Hb as <-. unfold flat in Hne. cbn [shape at_] in Hne.
  unfold raveled_index. rewrite Ei. cbn [rbind]. apply map_eq_nil in Hne. rewrite Hne. reflexivity.
Qed.
Lemma index_error : forall (A : Type) (a : nd A) ix e, take ix a = Er e -> raveled_index (shape a) ix = Er e.
Proof.
  intros A a ix e H. unfold raveled_index, indices, take. cbn [np_indices shape]. rewrite complete_all. unfold take in H. destruct (complete ix (shape a)) as [t|]; cbn [rbind] in *; [|congruence].
  change (broadcast (Sl (seq 0 (length (shape a))) :: t)) with (broadcast t). destruct (broadcast t) as [[n|]|]; cbn [rbind] in *; [destruct (adjacent t)| |]; congruence.
Qed.
Lemma coords_nodup : forall d, NoDup (coords d).
Proof.
  induction d as [|n d IH]; cbn [coords]; [repeat constructor; auto|]. pose proof (seq_NoDup n 0) as H. induction (seq 0 n) as [|i l IHl]; cbn [flat_map]; [constructor|].
  inversion H as [|? ? H1 H2]; subst. assert (G : forall (l1 l2 : list (list nat)), NoDup l1 -> NoDup l2 -> (forall c, In c l1 -> ~ In c l2) -> NoDup (l1 ++ l2)).
  { induction l1 as [|c l1 IH1]; intros l2 N1 N2 D; auto. cbn. inversion N1; subst. constructor; [|apply IH1; auto; intros; apply D; right; auto].
    rewrite in_app_iff. intros [Q|Q]; [auto|]. apply (D c); [left|]; auto. }
  apply G; auto.
  - apply FinFun.Injective_map_NoDup; auto. intros x y E. injection E; auto.
  - intros c Hc Hc'. apply in_map_iff in Hc as (x & <- & _). apply in_flat_map in Hc' as (j & Hj & Hc'). apply in_map_iff in Hc' as (y & E & _). injection E as -> _. auto.
Qed.
Lemma picks_self : forall (A : Type) (l : list A) ks, NoDup l -> picks l ks l -> ks = seq 0 (length l).
Proof.
  intros A l ks Nd P. assert (G : forall r o ks, picks l ks r -> (forall i v, nth_error r i = Some v -> nth_error l (o + i) = Some v) -> ks = seq o (length r)).
  { induction r as [|v r IH]; intros o ks' P' H; inversion P' as [|k ? kr ? P1 P2]; subst; auto. cbn [length seq]. f_equal.
    - assert (Q : nth_error l o = Some v) by (rewrite <- (Nat.add_0_r o); apply H; auto).
      eapply NoDup_nth_error; eauto; [apply nth_error_Some; congruence | congruence].
    - apply IH; auto. intros i w Hi. replace (S o + i) with (o + S i) by lia. apply H. auto. }
  apply (G l 0); auto.
Qed.
Lemma whole_final : forall d, d <> [] -> elements d <> 0 -> raveled_index d (whole d) = Ok (seq 0 (elements d)).
Proof.
  intros d Hd He. set (a := mkNd d (fun c => c)).
  assert (T : exists b, take (whole d) a = Ok b /\ flat b = coords d).
  { destruct d as [|n d]; [congruence|]. unfold take, whole, a. cbn [shape complete in_axis].
    replace (forallb (fun k => k <? n) (seq 0 n)) with true by (symmetry; apply forallb_forall; intros k Hk; apply in_seq in Hk; apply Nat.ltb_lt; lia). cbn [rbind].
    assert (G : forall d, broadcast (map (fun n => Sl (seq 0 n)) d) = Ok None).
    { intros d'. unfold broadcast. replace (flat_map _ _) with (@nil nat); auto. induction d'; auto. }
    change (Sl (seq 0 n) :: map (fun n => Sl (seq 0 n)) d) with (map (fun n => Sl (seq 0 n)) (n :: d)). rewrite G. cbn [rbind]. eexists. split; [reflexivity|].
    unfold flat. cbn [shape at_].
    assert (Sd : forall d, sl_dims (map (fun n => Sl (seq 0 n)) d) = d) by (induction d0 as [|m d0 IH]; auto; cbn [map sl_dims flat_map app]; rewrite seq_length; f_equal; exact IH).
    rewrite Sd. rewrite <- (map_id (coords (n :: d))) at 2. apply map_ext_in. intros c Hc. apply coords_valid in Hc. revert c Hc. clear. induction (n :: d) as [|m r IH]; intros c Hc; inversion Hc; subst; auto.
    cbn [map source hd tl]. rewrite map_nth_seq by auto. f_equal. auto. }
  destruct T as (b & Tb & Fb).
  assert (S : side_by_side (whole d)) by (left; intros l Hl; destruct d; cbn in Hl; [destruct Hl | destruct Hl as [Hl|[]]; discriminate]).
  destruct (index_final _ a b (whole d) Hd S Tb) as (ks & Ek & P). { rewrite Fb. intros Q. apply He. rewrite <- coords_len, Q. auto. }
  unfold a in Ek. cbn [shape] in Ek. rewrite Ek. f_equal. rewrite Fb in P. unfold flat, a in P. cbn [shape at_] in P. rewrite map_id in P.
  rewrite <- coords_len. apply picks_self; auto. apply coords_nodup.
Qed.

(** ** Examples and witnesses *)
Definition rx : nd (list nat) := mkNd [2;3;4] (fun c => c).
Lemma rx_index : shape rx <> [] /\ side_by_side [Sl [1;0]; Arr [0;2]; At 3] /\
  take [Sl [1;0]; Arr [0;2]; At 3] rx = Ok (mkNd [2;2] (fun c => source [Sl [1;0]; Arr [0;2]; At 3] (nth 1 c 0) (firstn 1 c ++ skipn 2 c))) /\
  raveled_index [2;3;4] [Sl [1;0]; Arr [0;2]; At 3] = Ok [15;23;3;11].
Proof.
  split; [discriminate|]. split; [right; exists [Sl [1;0]], [Arr [0;2]; At 3], []; split; [auto|]; split; [intros i [[<-|[]]|[]]; eauto | intros i [<-|[<-|[]]] l; discriminate]|].
  split; reflexivity.
Qed.
Lemma separated_refuted : exists (a b : nd (list nat)) ix ks, shape a = [2;3;4] /\ take ix a = Ok b /\ flat b = [[1;0;3];[1;2;3];[1;0;1];[1;2;1]] /\
  raveled_index (shape a) ix = Ok ks /\ ~ picks (flat a) ks (flat b) /\ exists k, In k ks /\ elements (shape a) <= k.
Proof.
  exists rx. eexists. exists [At 1; Sl [0;2]; Arr [3;1]], [17;12;35;25]. split; [reflexivity|]. split; [reflexivity|]. split; [reflexivity|]. split; [reflexivity|]. split.
  - intros P. inversion P as [|? ? ? ? P1 P2]; subst. vm_compute in P1. discriminate.
  - exists 35. split; [cbn; auto|]. apply Nat.leb_le. reflexivity.
Qed.
Lemma rx_positions : valid [2;3;4] [1;2;1] /\ dot (strides [2;3;4]) [1;2;1] = 21 /\ dot (strides [2;3;4]) [1;0;3] = 15 /\ earlier [1;0;3] [1;2;1].
Proof. split; [repeat constructor|]. split; [reflexivity|]. split; [reflexivity|]. exists [1], 0, 2, [3], [1]. repeat split. lia. Qed.
Lemma rx_empty : exists b, side_by_side [Sl []] /\ take [Sl []] rx = Ok b /\ flat b = [].
Proof. eexists. split; [left; intros l [H|[]]; discriminate|]. split; reflexivity. Qed.
