(** Proofs about observable arrays. *)
From Coq Require Import List Arith Bool Lia.
From Verif Require Import ArrModel ArrSpec.
Import ListNotations.

Lemma upd_same : forall A (f : nat -> A) x v, upd f x v x = v.
Proof. intros. unfold upd. rewrite Nat.eqb_refl. reflexivity. Qed.
Lemma upd_other : forall A (f : nat -> A) x v y, y <> x -> upd f x v y = f y.
Proof. intros A f x v y H. unfold upd. apply Nat.eqb_neq in H. rewrite H. reflexivity. Qed.

Section P.
Context {V : Type}.
Implicit Types s : @state V.

(** ** Memory *)
Lemma write_other : forall ps vs (m : nat -> nat -> V) b b' q, (b' = b -> ~ In q ps) -> write m b ps vs b' q = m b' q.
Proof.
  unfold write. induction ps as [|p ps IH]; intros vs m b b' q H; [reflexivity|]. destruct vs as [|v vs]; [reflexivity|].
  cbn [combine fold_left fst snd]. rewrite IH by (intros E Hi; apply (H E); right; exact Hi).
  unfold upd at 1. destruct (Nat.eqb_spec b' b) as [E|E]; [|reflexivity]. subst b'.
  apply upd_other. intros ->. apply (H eq_refl). left. reflexivity.
Qed.
Lemma write_at : forall ps vs (m : nat -> nat -> V) b k q v, NoDup ps -> nth_error ps k = Some q -> nth_error vs k = Some v ->
  write m b ps vs b q = v.
Proof.
  induction ps as [|p ps IH]; intros vs m b k q v Hn Hp Hv; [destruct k; discriminate|].
  inversion Hn as [|? ? Hi Hn']; subst. destruct vs as [|w vs]; [destruct k; discriminate|].
  change (write (upd m b (upd (m b) p w)) b ps vs b q = v). destruct k as [|k]; simpl in Hp, Hv.
  - injection Hp as ->. injection Hv as ->. rewrite write_other by (intros _; exact Hi). rewrite !upd_same. reflexivity.
  - eapply IH; eauto.
Qed.

Lemma bounds_in : forall s x sel, in_bounds s x sel = true -> forall k, In k sel -> k < length (pos (arrs s x)).
Proof. intros s x sel H k Hk. unfold in_bounds in H. rewrite forallb_forall in H. apply Nat.ltb_lt. apply H. exact Hk. Qed.
Lemma chosen_in : forall s x sel q, in_bounds s x sel = true -> In q (chosen (arrs s x) sel) -> In q (pos (arrs s x)).
Proof.
  intros s x sel q H Hq. unfold chosen in Hq. apply in_map_iff in Hq as [k [<- Hk]].
  apply nth_In. eapply bounds_in; eauto.
Qed.
Lemma chosen_nodup : forall s x sel, in_bounds s x sel = true -> NoDup (pos (arrs s x)) -> NoDup sel -> NoDup (chosen (arrs s x) sel).
Proof.
  intros s x sel H Hp Hs. pose proof (bounds_in _ _ _ H) as Hb. clear H. unfold chosen.
  induction sel as [|k sel IH]; [constructor|]. inversion Hs as [|? ? Hi Hs']; subst. simpl. constructor.
  - intros Hin. apply in_map_iff in Hin as [j [Ej Hj]].
    assert (j = k) by (eapply (NoDup_nth (pos (arrs s x)) 0); eauto; [apply Hb; right; exact Hj | apply Hb; left; reflexivity]).
    subst j. contradiction.
  - apply IH; auto. intros j Hj. apply Hb. right. exact Hj.
Qed.

(** ** What always holds *)
Definition wf s : Prop := forall y, y < next s ->
  buf (arrs s y) < nbuf s /\ (obs (arrs s y) = true -> olist (arrs s y) < nlist s) /\ NoDup (pos (arrs s y)).

Lemma wf_notify : forall s x, wf s -> wf (notify s x).
Proof. intros s x H. unfold notify. destruct (on _); exact H. Qed.
Lemma wf_mem : forall s m, wf s -> wf (with_mem s m).
Proof. intros s m H. exact H. Qed.
Lemma wf_new : forall s a, wf s -> buf a < nbuf s -> (obs a = true -> olist a < nlist s) -> NoDup (pos a) -> wf (new_arr s a).
Proof.
  intros s a H H1 H2 H3 y Hy. cbn in *. unfold upd. destruct (Nat.eqb_spec y (next s)) as [->|Hn]; [auto|]. apply H. lia.
Qed.
Lemma wf_copy : forall s o l u vs, wf s -> (o = true -> l < nlist s) -> wf (new_copy s o l u vs).
Proof.
  intros s o l u vs H H2 y Hy. cbn in *. unfold upd. destruct (Nat.eqb_spec y (next s)) as [->|Hn].
  - cbn. split; [lia|]. split; [exact H2 | apply seq_NoDup].
  - destruct (H y ltac:(lia)) as [A [B C]]. auto.
Qed.
Lemma wf_list : forall s, wf s -> wf (new_list s).
Proof.
  intros s H y Hy. cbn in *. destruct (H y Hy) as [A [B C]]. split; [exact A|]. split; [|exact C]. intros O. specialize (B O). lia.
Qed.
Lemma wf_set : forall s x a, wf s -> buf a < nbuf s -> (obs a = true -> olist a < nlist s) -> NoDup (pos a) -> wf (set_arr s x a).
Proof.
  intros s x a H H1 H2 H3 y Hy. cbn in *. unfold upd. destruct (Nat.eqb_spec y x) as [->|Hn]; [auto|]. apply H. exact Hy.
Qed.
Lemma wf_slice : forall s x sel, wf s -> x < next s -> NoDup sel -> wf (fst (getslice s x sel)).
Proof.
  intros s x sel H Hx Hn. unfold getslice. destruct (in_bounds s x sel) eqn:B; [|exact H].
  destruct (H x Hx) as [A1 [A2 A3]]. apply wf_new; auto. cbn. eapply chosen_nodup; eauto.
Qed.
Lemma wf_pick : forall s x sel, wf s -> x < next s -> wf (fst (getpick s x sel)).
Proof.
  intros s x sel H Hx. unfold getpick. destruct (in_bounds s x sel) eqn:B; [|exact H].
  destruct (H x Hx) as [A1 [A2 A3]]. apply wf_copy; auto.
Qed.
Lemma wf_setitem : forall s x sel vs, wf s -> wf (fst (setitem s x sel vs)).
Proof.
  intros s x sel vs H. unfold setitem. destruct (in_bounds s x sel); [|exact H]. destruct (Nat.eqb _ _); [|exact H]. cbn.
  destruct (obs _); [apply wf_notify|]; exact H.
Qed.
Lemma wf_iop : forall s x g, wf s -> x < next s -> wf (iop s x g).
Proof.
  intros s x g H Hx. unfold iop. destruct (obs (arrs s x)) eqn:O; [|exact H]. destruct (H x Hx) as [A1 [A2 A3]].
  apply wf_new; [apply wf_notify; exact H | | discriminate | exact A3].
  unfold notify. destruct (on _); exact A1.
Qed.
Lemma next_slice : forall s x sel s1, getslice s x sel = (s1, None) -> next s1 = S (next s).
Proof. intros s x sel s1. unfold getslice. destruct (in_bounds _ _ _); intros H; inversion H. reflexivity. Qed.
Lemma next_pick : forall s x sel s1, getpick s x sel = (s1, None) -> next s1 = S (next s).
Proof. intros s x sel s1. unfold getpick. destruct (in_bounds _ _ _); intros H; inversion H. reflexivity. Qed.
Lemma wf_augment : forall s1 e x sel g t, wf s1 -> (e = None -> t < next s1) -> wf (fst (augment (s1, e) x sel g t)).
Proof.
  intros s1 [e|] x sel g t H Ht; [exact H|]. cbn [augment]. apply wf_setitem. apply wf_iop; auto.
Qed.
Lemma wf_exec : forall s c, wf s -> legal s c -> wf (fst (exec c s)).
Proof.
  intros s c H [Hl Hd]. destruct c as [vs|x|x sel|x sel|x|x sel vs|x g|x sel g|x sel g|x vs|x|x b|x c|x c]; cbn [target] in Hl; cbn [exec].
  - apply wf_copy; [exact H | discriminate].
  - destruct (H x Hl) as [A1 [A2 A3]]. destruct (obs _) eqn:O; cbn [fst].
    + apply wf_set; [apply wf_list; exact H | exact A1 | cbn; lia | exact A3].
    + destruct (contiguous _); cbn [fst].
      * apply wf_new; [apply wf_list; exact H | exact A1 | cbn; lia | exact A3].
      * apply wf_copy; [apply wf_list; exact H | cbn; lia].
  - apply wf_slice; auto.
  - apply wf_pick; auto.
  - destruct (H x Hl) as [A1 [A2 A3]]. destruct (obs _); [|exact H]. apply wf_new; [exact H | exact A1 | discriminate | exact A3].
  - apply wf_setitem; auto.
  - apply wf_iop; auto.
  - pose proof (wf_slice s x sel H Hl Hd) as W. destruct (getslice s x sel) as [s1 e] eqn:G. apply wf_augment; [exact W|].
    intros ->. apply next_slice in G. lia.
  - pose proof (wf_pick s x sel H Hl) as W. destruct (getpick s x sel) as [s1 e] eqn:G. apply wf_augment; [exact W|].
    intros ->. apply next_pick in G. lia.
  - destruct (Nat.eqb _ _); exact H.
  - destruct (obs _); [|apply wf_copy; [exact H | discriminate]]. apply wf_copy; [apply wf_list; exact H | cbn; lia].
  - destruct (H x Hl) as [A1 [A2 A3]]. destruct (obs _) eqn:O; [|exact H]. apply wf_set; [exact H | exact A1 | intros _; apply A2; reflexivity | exact A3].
  - destruct (obs _); exact H.
  - destruct (obs _); exact H.
Qed.
Lemma wf_hist : forall ok s s2, wf s -> hist ok s s2 -> wf s2.
Proof. intros ok s s2 H Hh. induction Hh; [exact H|]. apply wf_exec; auto. Qed.
Lemma wf_reach : forall junk s, reach junk s -> wf s.
Proof. intros junk s H. eapply wf_hist; [|exact H]. intros y Hy. cbn in Hy. lia. Qed.

(** ** Observers are up to date *)
Section Watch.
Variables (c a : nat) (before : list V) (old : nat).

Lemma last_app : forall l1 l2 (x : arr), last_seen (l1 ++ l2) c x =
  match last_seen l2 c x with Some v => Some v | None => @last_seen V l1 c x end.
Proof.
  induction l1 as [|n l1 IH]; intros l2 x; simpl; [destruct (last_seen l2 c x); reflexivity|].
  rewrite IH. destruct (last_seen l2 c x); reflexivity.
Qed.
Lemma last_notes : forall (m : nat -> nat -> V) x l (b : arr), last_seen (map (fun d => mkNote d x m) l) c b =
  if existsb (Nat.eqb c) l then Some (map (m (buf b)) (pos b)) else None.
Proof.
  induction l as [|d l IH]; intros b; simpl; [reflexivity|]. rewrite IH. rewrite (Nat.eqb_sym d c).
  destruct (existsb (Nat.eqb c) l); [rewrite orb_true_r; reflexivity|]. rewrite orb_false_r. reflexivity.
Qed.
Definition fresh s : Prop := old <= length (log s) /\ up_to_date s before old c a.

Lemma skipn_more : forall A n (l l' : list A), n <= length l -> skipn n (l ++ l') = skipn n l ++ l'.
Proof. intros A n l l' H. rewrite skipn_app. replace (n - length l) with 0 by lia. reflexivity. Qed.
Lemma fresh_notify : forall s x, old <= length (log s) ->
  fresh s \/ (on (arrs s x) = true /\ In c (lists s (olist (arrs s x)))) -> fresh (notify s x).
Proof.
  intros s x Ho H. unfold notify. destruct (on (arrs s x)) eqn:O.
  - split; [cbn; rewrite app_length; lia|]. unfold up_to_date. cbn [log arrs]. rewrite skipn_more by exact Ho.
    rewrite last_app, last_notes. destruct (existsb (Nat.eqb c) _) eqn:E; [reflexivity|].
    destruct H as [[_ H]|[_ H]]; [exact H|]. exfalso.
    assert (existsb (Nat.eqb c) (lists s (olist (arrs s x))) = true); [|congruence].
    apply existsb_exists. exists c. split; [exact H | apply Nat.eqb_refl].
  - destruct H as [H|[H _]]; [exact H | discriminate].
Qed.

Definition good s : Prop := wf s /\ a < next s /\ watches s c a /\ fresh s.

(** Writing through an ObsAr on the memory of [a], or anywhere else. *)
Lemma read_frame : forall s ps vs b, (b = buf (arrs s a) -> forall q, In q ps -> ~ In q (pos (arrs s a))) ->
  map (write (mem s) b ps vs (buf (arrs s a))) (pos (arrs s a)) = read s a.
Proof.
  intros s ps vs b H. unfold read. apply map_ext_in. intros q Hq. apply write_other. intros E Hi. exact (H (eq_sym E) q Hi Hq).
Qed.
Lemma fresh_write : forall s b ps vs, fresh s -> (b = buf (arrs s a) -> forall q, In q ps -> ~ In q (pos (arrs s a))) ->
  fresh (with_mem s (write (mem s) b ps vs)).
Proof.
  intros s b ps vs [Ho H] Hd. split; [exact Ho|]. unfold up_to_date, read. cbn [with_mem mem arrs log].
  rewrite read_frame by exact Hd. exact H.
Qed.
Lemma in_dec2 : forall (l1 l2 : list nat), (exists p, In p l1 /\ In p l2) \/ (forall p, In p l1 -> ~ In p l2).
Proof.
  intros l1 l2. induction l1 as [|x l1 IH]; [right; intros p []|].
  destruct (in_dec Nat.eq_dec x l2) as [Hi|Hi]; [left; exists x; split; [left; reflexivity | exact Hi]|].
  destruct IH as [[p [H1 H2]]|IH]; [left; exists p; split; [right; exact H1 | exact H2]|].
  right. intros p [<-|Hp]; [exact Hi | exact (IH p Hp)].
Qed.
Lemma overlap_dec : forall s x, overlap s x a \/ (buf (arrs s x) = buf (arrs s a) -> forall q, In q (pos (arrs s x)) -> ~ In q (pos (arrs s a))).
Proof.
  intros s x. destruct (Nat.eq_dec (buf (arrs s x)) (buf (arrs s a))) as [E|E]; [|right; intros; contradiction].
  destruct (in_dec2 (pos (arrs s x)) (pos (arrs s a))) as [H|H]; [left; split; auto|]. right. intros _. exact H.
Qed.
Lemma watches_arrs : forall s s', arrs s' = arrs s -> next s' = next s -> lists s' = lists s -> watches s c a -> watches s' c a.
Proof.
  intros s s' E1 E2 E3 [H1 [H2 [H3 H4]]]. unfold watches, overlap in *. rewrite E1, E2, E3. auto.
Qed.
Lemma good_write : forall s x ps vs, good s -> x < next s -> (overlap s x a -> obs (arrs s x) = true) ->
  (forall q, In q ps -> In q (pos (arrs s x))) ->
  good (let s1 := with_mem s (write (mem s) (buf (arrs s x)) ps vs) in if obs (arrs s x) then notify s1 x else s1).
Proof.
  intros s x ps vs (W & Ha & Hw & Hf) Hx Ho Hps. cbv zeta.
  set (s1 := with_mem s _).
  assert (W1 : watches s1 c a) by exact Hw.
  destruct (overlap_dec s x) as [Hov|Hno].
  - pose proof (Ho Hov) as Hobs. rewrite Hobs. pose proof Hw as (A1 & A2 & A3 & A4).
    destruct (A4 x Hx Hobs Hov) as [B1 B2].
    assert (E : on (arrs s1 x) = true) by exact B2.
    split; [apply wf_notify; exact W|]. split; [unfold notify; rewrite E; exact Ha|].
    split; [eapply watches_arrs; [ | | |exact W1]; unfold notify; rewrite E; reflexivity|].
    apply fresh_notify; [exact (proj1 Hf)|]. right. split; [exact E|].
    change (In c (lists s (olist (arrs s x)))). rewrite B1. exact A3.
  - assert (F1 : fresh s1) by (apply fresh_write; [exact Hf | intros E q Hq; apply Hno; auto]).
    destruct (obs (arrs s x)).
    + split; [apply wf_notify; exact W|].
      split; [unfold notify; destruct (on _); exact Ha|].
      split; [eapply watches_arrs; [ | | |exact W1]; unfold notify; destruct (on _); reflexivity|].
      apply fresh_notify; [exact (proj1 Hf)|]. left. exact F1.
    + split; [exact W|]. split; [exact Ha|]. split; [exact W1 | exact F1].
Qed.
Lemma fresh_arrs : forall s s', fresh s -> arrs s' a = arrs s a -> log s' = log s ->
  (forall q, In q (pos (arrs s a)) -> mem s' (buf (arrs s a)) q = mem s (buf (arrs s a)) q) -> fresh s'.
Proof.
  intros s s' [H1 H2] Ea El Em. unfold fresh, up_to_date, read in *. rewrite Ea, El. split; [exact H1|]. rewrite <- H2.
  apply map_ext_in. exact Em.
Qed.
(** A new handle that is plain, or a view of one that exists. *)
Lemma good_new : forall s n, good s -> wf (new_arr s n) ->
  (obs n = true -> buf n = buf (arrs s a) -> (exists p, In p (pos n) /\ In p (pos (arrs s a))) ->
   olist n = olist (arrs s a) /\ on n = true) -> good (new_arr s n).
Proof.
  intros s n (W & Ha & (A1 & A2 & A3 & A4) & Hf) W' Hn.
  assert (Ea : arrs (new_arr s n) a = arrs s a) by (cbn; apply upd_other; lia).
  split; [exact W'|]. split; [cbn; lia|]. split.
  - unfold watches, overlap. rewrite Ea. split; [exact A1|]. split; [exact A2|]. split; [exact A3|].
    intros y Hy Hob [Hb Hp]. cbn [new_arr next arrs] in *. unfold upd in *. destruct (Nat.eqb_spec y (next s)) as [->|Hne].
    + apply Hn; auto.
    + apply A4; [lia | exact Hob | split; auto].
  - eapply fresh_arrs; [exact Hf | exact Ea | reflexivity | reflexivity].
Qed.
Lemma good_copy : forall s o l u vs, good s -> (o = true -> l < nlist s) -> good (new_copy s o l u vs).
Proof.
  intros s o l u vs (W & Ha & (A1 & A2 & A3 & A4) & Hf) Hl.
  assert (Ea : arrs (new_copy s o l u vs) a = arrs s a) by (cbn; apply upd_other; lia).
  pose proof (proj1 (W a Ha)) as Hb.
  split; [apply wf_copy; auto|]. split; [cbn; lia|]. split.
  - unfold watches, overlap. rewrite Ea. split; [exact A1|]. split; [exact A2|]. split; [exact A3|].
    intros y Hy Hob [Hbu Hp]. cbn [new_copy new_arr next arrs] in *. unfold upd in *.
    destruct (Nat.eqb_spec y (next s)) as [->|Hne]; [cbn in Hbu; lia|]. apply A4; [lia | exact Hob | split; auto].
  - eapply fresh_arrs; [exact Hf | exact Ea | reflexivity|]. intros q _. cbn. apply write_other. intros E. lia.
Qed.
Lemma good_list : forall s, good s -> good (new_list s).
Proof.
  intros s (W & Ha & (A1 & A2 & A3 & A4) & Hf). split; [apply wf_list; exact W|]. split; [exact Ha|]. split; [|exact Hf].
  split; [exact A1|]. split; [exact A2|]. split; [|exact A4]. cbn. rewrite upd_other; [exact A3|].
  destruct (W a Ha) as [_ [B _]]. specialize (B A1). lia.
Qed.
(** Changing observers and flag of another array. *)
Lemma good_set : forall s x l u, good s -> x < next s -> x <> a -> ~ overlap s x a -> (obs (arrs s x) = true -> l < nlist s) ->
  good (set_arr s x (mkA (obs (arrs s x)) (buf (arrs s x)) (pos (arrs s x)) l u)).
Proof.
  intros s x l u (W & Ha & (A1 & A2 & A3 & A4) & Hf) Hx Hne Hno Hl. destruct (W x Hx) as [B1 [B2 B3]].
  assert (Ea : arrs (set_arr s x (mkA (obs (arrs s x)) (buf (arrs s x)) (pos (arrs s x)) l u)) a = arrs s a)
    by (cbn; apply upd_other; auto).
  split; [apply wf_set; auto|]. split; [exact Ha|]. split.
  - unfold watches, overlap. rewrite Ea. split; [exact A1|]. split; [exact A2|]. split; [exact A3|].
    intros y Hy Hob Hov. cbn [set_arr next arrs] in *. unfold upd in *. destruct (Nat.eqb_spec y x) as [->|Hyx].
    + exfalso. apply Hno. exact Hov.
    + apply A4; auto.
  - eapply fresh_arrs; [exact Hf | exact Ea | reflexivity | reflexivity].
Qed.
Lemma good_setitem : forall s x sel vs, good s -> x < next s -> (overlap s x a -> obs (arrs s x) = true) ->
  good (fst (setitem s x sel vs)).
Proof.
  intros s x sel vs H Hx Ho. unfold setitem. destruct (in_bounds s x sel) eqn:B; [|exact H].
  destruct (Nat.eqb _ _); [|exact H]. cbn [negb fst]. apply good_write; auto. intros q Hq. eapply chosen_in; eauto.
Qed.
Lemma good_iop : forall s x g, good s -> x < next s -> (overlap s x a -> obs (arrs s x) = true) -> good (iop s x g).
Proof.
  intros s x g H Hx Ho.
  pose proof (good_write s x (pos (arrs s x)) (map (fun e => g (fst e) (snd e)) (combine (seq 0 (length (pos (arrs s x)))) (read s x))) H Hx Ho ltac:(auto)) as G.
  pose proof (wf_iop s x g (proj1 H) Hx) as W.
  unfold iop in *. cbv zeta in *. destruct (obs (arrs s x)); [|exact G]. apply good_new; [exact G | exact W | discriminate].
Qed.
Lemma good_slice : forall s x sel, good s -> x < next s -> NoDup sel -> good (fst (getslice s x sel)).
Proof.
  intros s x sel H Hx Hd. pose proof (wf_slice s x sel (proj1 H) Hx Hd) as W. unfold getslice in *.
  destruct (in_bounds s x sel) eqn:B; [|exact H]. cbn [fst] in *. apply good_new; [exact H | exact W |].
  cbn [obs buf pos olist on]. intros Hob Hb [p [Hp1 Hp2]]. destruct H as (_ & _ & (A1 & A2 & A3 & A4) & _).
  apply A4; auto. split; [exact Hb|]. exists p. split; [|exact Hp2]. eapply chosen_in; eauto.
Qed.
Lemma good_pick : forall s x sel, good s -> x < next s -> good (fst (getpick s x sel)).
Proof.
  intros s x sel H Hx. unfold getpick. destruct (in_bounds s x sel) eqn:B; [|exact H]. cbn [fst].
  apply good_copy; [exact H|]. apply (proj1 H x Hx).
Qed.
Lemma iop_arrs : forall s x g y, y < next s -> arrs (iop s x g) y = arrs s y /\ y < next (iop s x g).
Proof.
  intros s x g y Hy. unfold iop, notify. destruct (obs (arrs s x)); [|split; [reflexivity | exact Hy]].
  destruct (on _); cbn; (split; [apply upd_other; lia | lia]).
Qed.
Lemma good_augment : forall s s1 x sel g, good s1 -> x < next s -> a < next s -> next s1 = S (next s) ->
  (forall y, y < next s -> arrs s1 y = arrs s y) -> (overlap s x a -> obs (arrs s x) = true) ->
  (overlap s1 (next s) a -> obs (arrs s1 (next s)) = true) ->
  good (fst (augment (s1, None) x sel g (next s))).
Proof.
  intros s s1 x sel g G Hx Ha Hn Hy Ho Ht. cbn [augment].
  assert (G2 : good (iop s1 (next s) g)) by (apply good_iop; auto; lia).
  destruct (iop_arrs s1 (next s) g x ltac:(lia)) as [E1 E2]. destruct (iop_arrs s1 (next s) g a ltac:(lia)) as [E3 _].
  apply good_setitem; [exact G2 | exact E2|]. unfold overlap. rewrite E1, E3, !Hy by assumption. exact Ho.
Qed.
Lemma slice_arrs : forall s x sel s1, getslice s x sel = (s1, None) -> forall y, y < next s -> arrs s1 y = arrs s y.
Proof.
  intros s x sel s1. unfold getslice. destruct (in_bounds _ _ _); intros H y Hy; inversion H. cbn. apply upd_other. lia.
Qed.
Lemma pick_arrs : forall s x sel s1, getpick s x sel = (s1, None) -> forall y, y < next s -> arrs s1 y = arrs s y.
Proof.
  intros s x sel s1. unfold getpick. destruct (in_bounds _ _ _); intros H y Hy; inversion H. cbn. apply upd_other. lia.
Qed.
Lemma good_exec : forall s k, good s -> legal s k -> by_rules c a s k -> good (fst (exec k s)).
Proof.
  intros s k H [Hl Hd] Hr. pose proof H as (W & Ha & (A1 & A2 & A3 & A4) & Hf).
  destruct k as [vs|x|x sel|x sel|x|x sel vs|x g|x sel g|x sel g|x vs|x|x b|x d|x d]; cbn [target] in Hl; cbn [exec]; cbn [by_rules] in Hr.
  - apply good_copy; [exact H | discriminate].
  - destruct Hr as [Hne Hno]. destruct (obs (arrs s x)) eqn:O; cbn [fst].
    + pose proof (good_set (new_list s) x (nlist s) true (good_list s H) Hl Hne Hno ltac:(cbn; lia)) as G.
      cbn [new_list arrs] in G. rewrite O in G. exact G.
    + destruct (W x Hl) as [B1 [B2 B3]]. destruct (contiguous _); cbn [fst].
      * apply good_new; [apply good_list; exact H | apply wf_new; [apply wf_list; exact W | exact B1 | cbn; lia | exact B3] |].
        cbn [obs buf pos olist on]. intros _ E1 E2. exfalso. apply Hno. split; [exact E1 | exact E2].
      * apply good_copy; [apply good_list; exact H | cbn; lia].
  - apply good_slice; auto.
  - apply good_pick; auto.
  - destruct (W x Hl) as [B1 [B2 B3]]. destruct (obs (arrs s x)); [|exact H]. apply good_new; [exact H | | discriminate].
    apply wf_new; [exact W | exact B1 | discriminate | exact B3].
  - apply good_setitem; auto.
  - apply good_iop; auto.
  - pose proof (good_slice s x sel H Hl Hd) as G. destruct (getslice s x sel) as [s1 [e|]] eqn:Eg; [exact G|].
    apply (good_augment s); auto; [eapply next_slice; eauto | eapply slice_arrs; eauto|].
    unfold getslice in Eg. destruct (in_bounds s x sel) eqn:B; [|discriminate]. injection Eg as <-.
    unfold overlap. cbn [new_arr arrs]. rewrite upd_same, (upd_other _ _ _ _ a) by lia. cbn [obs buf pos].
    intros [E [p [P1 P2]]]. apply Hr. split; [exact E|]. exists p. split; [eapply chosen_in; eauto | exact P2].
  - pose proof (good_pick s x sel H Hl) as G. destruct (getpick s x sel) as [s1 [e|]] eqn:Eg; [exact G|].
    apply (good_augment s); auto; [eapply next_pick; eauto | eapply pick_arrs; eauto|].
    unfold getpick in Eg. destruct (in_bounds s x sel) eqn:B; [|discriminate]. injection Eg as <-.
    unfold overlap. cbn [new_copy new_arr arrs]. rewrite upd_same, (upd_other _ _ _ _ a) by lia. cbn [obs buf pos].
    intros [E _]. destruct (W a Ha) as [B1 _]. lia.
  - destruct (Nat.eqb _ _); [|exact H]. cbn [fst]. split; [exact W|]. split; [exact Ha|]. split; [repeat (split; auto)|].
    apply fresh_write; [exact Hf|]. intros E q Hq Hq2. apply Hr. split; [exact E | exists q; auto].
  - destruct (obs (arrs s x)); apply good_copy; [apply good_list; exact H | cbn; lia | exact H | discriminate].
  - destruct Hr as [Hne Hno]. destruct (obs (arrs s x)) eqn:O; [|exact H]. cbn [fst]. rewrite <- O at 1. apply good_set; auto. apply (W x Hl).
  - destruct (obs (arrs s x)) eqn:O; [|exact H]. cbn [fst]. split; [exact W|]. split; [exact Ha|]. split; [|exact Hf].
    split; [exact A1|]. split; [exact A2|]. split; [|exact A4]. cbn. unfold upd.
    destruct (Nat.eqb_spec (olist (arrs s a)) (olist (arrs s x))) as [E|E]; [|exact A3].
    apply in_or_app. left. rewrite <- E. exact A3.
  - destruct (obs (arrs s x)) eqn:O; [|exact H]. cbn [fst]. split; [exact W|]. split; [exact Ha|]. split; [|exact Hf].
    split; [exact A1|]. split; [exact A2|]. split; [|exact A4]. cbn. unfold upd.
    destruct (Nat.eqb_spec (olist (arrs s a)) (olist (arrs s x))) as [E|E]; [|exact A3].
    apply filter_In. rewrite <- E. split; [exact A3|]. apply negb_true_iff, Nat.eqb_neq. intros ->. apply Hr; auto.
Qed.
End Watch.

Lemma watched : forall junk s s2 c a, reach junk s -> a < next s -> watches s c a -> hist (by_rules c a) s s2 ->
  up_to_date s2 (read s a) (length (log s)) c a /\ watches s2 c a.
Proof.
  intros junk s s2 c a Hr Ha Hw Hh.
  assert (G : good c a (read s a) (length (log s)) s).
  { split; [eapply wf_reach; eauto|]. split; [exact Ha|]. split; [exact Hw|]. split; [lia|].
    unfold up_to_date. rewrite skipn_all. reflexivity. }
  assert (G2 : good c a (read s a) (length (log s)) s2).
  { clear - G Hh. induction Hh; [exact G|]. apply good_exec; auto. }
  destruct G2 as (_ & _ & W2 & _ & U). auto.
Qed.
End P.
