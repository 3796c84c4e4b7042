(** Proofs about SvModel.v. *)
From Coq Require Import List Bool NArith ZArith Lia ListDec.
From Verif Require Import SvModel SvSpec.
Import ListNotations.

Section Ind.
  Variable P : tree -> Prop.
  Hypothesis HP : forall n vs, P (Par n vs).
  Hypothesis HG : forall n ks, Forall P ks -> P (Grp n ks).
  Fixpoint tree_rect2 (t : tree) : P t :=
    match t with
    | Par n vs => HP n vs
    | Grp n ks => HG n ks ((fix go (l : list tree) : Forall P l := match l with [] => Forall_nil P | k :: r => Forall_cons k (tree_rect2 k) (go r) end) ks)
    end.
End Ind.

Lemma str_eqb_eq : forall a b, str_eqb a b = true <-> a = b.
Proof.
  induction a as [|x a IH]; intros [|y b]; cbn; try (split; congruence). rewrite andb_true_iff, N.eqb_eq, IH.
  split; [intros [-> ->]; reflexivity | intros E; injection E as E1 E2; auto].
Qed.
Lemma str_dec : forall a b : str, {a = b} + {a <> b}.
Proof. intros a b. destruct (str_eqb a b) eqn:E; [left; apply str_eqb_eq; exact E | right; intros H; apply str_eqb_eq in H; congruence]. Qed.

(** Paths with values. *)
Fixpoint pairs (t : tree) : list (list str * list Z) :=
  match t with Par n vs => [([n], vs)] | Grp n ks => map (fun e => (n :: fst e, snd e)) (flat_map pairs ks) end.
Definition pairs0 (t : tree) : list (list str * list Z) :=
  match t with Par n vs => [([n], vs)] | Grp _ ks => flat_map pairs ks end.
Lemma flat_map_map_eq : forall A B C (f : A -> list B) (g : B -> C) (h : A -> list C) l, Forall (fun a => map g (f a) = h a) l -> map g (flat_map f l) = flat_map h l.
Proof. intros A B C f g h l F. induction F as [|a l E F IH]; cbn; [reflexivity|]. rewrite map_app, E, IH. reflexivity. Qed.
Lemma pairs_full : forall t, map fst (pairs t) = full t.
Proof.
  induction t as [n vs|n ks F] using tree_rect2; cbn; [reflexivity|]. rewrite map_map. cbn. rewrite <- (flat_map_map_eq _ _ _ pairs fst full ks F). rewrite map_map. reflexivity.
Qed.
Lemma pairs_gather : forall t, map snd (pairs t) = gather t.
Proof.
  induction t as [n vs|n ks F] using tree_rect2; cbn; [reflexivity|]. rewrite map_map. cbn. rewrite <- (flat_map_map_eq _ _ _ pairs snd gather ks F). reflexivity.
Qed.
Lemma pairs0_paths : forall t, map fst (pairs0 t) = paths t.
Proof. intros [n vs|n ks]; cbn; [reflexivity|]. apply flat_map_map_eq. apply Forall_forall. intros k _. apply pairs_full. Qed.
Lemma pairs0_gather : forall t, map snd (pairs0 t) = gather t.
Proof. intros [n vs|n ks]; cbn; [reflexivity|]. apply flat_map_map_eq. apply Forall_forall. intros k _. apply pairs_gather. Qed.
Lemma below_in : forall t p vs, below t p vs -> In (p, vs) (pairs t).
Proof.
  induction t as [n vs|n ks F] using tree_rect2; intros p ws B; inversion B; subst; cbn; [left; reflexivity|].
  apply in_map_iff. exists (p0, ws). split; [reflexivity|]. apply in_flat_map. exists k. split; [assumption|]. rewrite Forall_forall in F. apply F; assumption.
Qed.
Lemma at_in : forall t p vs, param_at t p vs -> In (p, vs) (pairs0 t).
Proof.
  intros t p vs A. inversion A; subst; cbn; [left; reflexivity|]. apply in_flat_map. exists k. split; [assumption | apply below_in; assumption].
Qed.

(** Names. *)
Lemma tidy_kids : forall n ks, tidy (Grp n ks) -> ~ In 46%N n /\ forall k, In k ks -> tidy k.
Proof.
  intros n ks [H1 H2]. split; [exact H1|]. induction ks as [|a r IH]; intros k Hk; [destruct Hk|]. destruct H2 as [H2 H3]. destruct Hk as [E|Hk]; [subst k; exact H2 | apply IH; assumption].
Qed.
Lemma replace_same : forall n, ~ In 46%N n -> replace_dots n = n.
Proof.
  induction n as [|c n IH]; cbn; intros H; [reflexivity|]. unfold dot. destruct (N.eqb_spec c 46) as [E|E]; [exfalso; apply H; left; exact E|]. f_equal. apply IH. intros Hi. apply H. right. exact Hi.
Qed.
Lemma full_ne : forall t p, In p (full t) -> p <> [].
Proof. intros [n vs|n ks] p; cbn; [intros [E|[]]; subst p; discriminate|]. intros H. apply in_map_iff in H. destruct H as [q [E _]]. subst p. discriminate. Qed.
Lemma map_flat_map : forall A B C (f : A -> list B) (g : B -> C) l, map g (flat_map f l) = flat_map (fun a => map g (f a)) l.
Proof. intros A B C f g l. induction l as [|a l IH]; cbn; [reflexivity|]. rewrite map_app, IH. reflexivity. Qed.
Lemma flat_map_ext_in : forall A B (f g : A -> list B) l, (forall a, In a l -> f a = g a) -> flat_map f l = flat_map g l.
Proof. intros A B f g l H. induction l as [|a l IH]; cbn; [reflexivity|]. rewrite H by (left; reflexivity). f_equal. apply IH. intros b Hb. apply H. right. exact Hb. Qed.
Lemma names_full : forall t, tidy t -> map replace_dots (parameter_names true t) = map underscored (full t).
Proof.
  induction t as [n vs|n ks F] using tree_rect2; intros T; cbn [parameter_names full].
  - cbn. f_equal. apply replace_same. exact T.
  - apply tidy_kids in T. destruct T as [T1 T2]. rewrite !map_map.
    assert (G : map replace_dots (flat_map (parameter_names true) ks) = map underscored (flat_map full ks)).
    { rewrite !map_flat_map. apply flat_map_ext_in. intros k Hk. rewrite Forall_forall in F. apply F; [exact Hk | apply T2; exact Hk]. }
    assert (E1 : map (fun x => replace_dots (n ++ dot :: x)) (flat_map (parameter_names true) ks) = map (fun y => n ++ 95%N :: y) (map replace_dots (flat_map (parameter_names true) ks))).
    { rewrite map_map. apply map_ext. intros x. unfold replace_dots. rewrite map_app. cbn. f_equal. apply (replace_same n T1). }
    rewrite E1, G, map_map. apply map_ext_in. intros p Hp. apply in_flat_map in Hp. destruct Hp as [k [_ Hp]]. apply full_ne in Hp. destruct p as [|m r]; [congruence | reflexivity].
Qed.
Lemma names_paths : forall t, tidy t -> map replace_dots (parameter_names false t) = map underscored (paths t).
Proof.
  intros [n vs|n ks] T; cbn [parameter_names paths].
  - cbn. f_equal. apply replace_same. exact T.
  - apply tidy_kids in T. destruct T as [T1 T2]. rewrite !map_flat_map. apply flat_map_ext_in. intros k Hk. apply names_full. apply T2. exact Hk.
Qed.
Lemma zip_pairs : forall (l : list (list str * list Z)) (ns : list str), length ns = length l -> map replace_dots ns = map underscored (map fst l) ->
  map (fun e => (replace_dots (snd e), fst e)) (zip (map snd l) ns) = map (fun e => (underscored (fst e), snd e)) l.
Proof.
  induction l as [|[p vs] l IH]; intros [|n ns] L E; cbn [map fst snd zip length] in *; try discriminate; [reflexivity|]. injection E as E1 E2. rewrite E1. f_equal. apply IH; [lia | exact E2].
Qed.

(** The loop. *)
Lemma create_spec : forall f n vs, (In n (map fst f) -> create f n vs = None) /\ (~ In n (map fst f) -> create f n vs = Some (f ++ [(n, vs)])).
Proof.
  intros f n vs. unfold create. destruct (existsb (fun e => str_eqb (fst e) n) f) eqn:X.
  - split; [reflexivity|]. intros H. exfalso. apply H. apply existsb_exists in X. destruct X as [e [He Ee]]. apply str_eqb_eq in Ee. subst n. apply in_map. exact He.
  - split; [|reflexivity]. intros H. exfalso. apply in_map_iff in H. destruct H as [e [Ee He]].
    assert (Y : existsb (fun e => str_eqb (fst e) n) f = true); [|congruence]. apply existsb_exists. exists e. split; [exact He | apply str_eqb_eq; exact Ee].
Qed.
Lemma write_spec : forall l f, NoDup (map fst f) ->
  let g := map (fun e => (replace_dots (snd e), fst e)) l in
  (NoDup (map fst (f ++ g)) -> write f l = (f ++ g, true)) /\ (~ NoDup (map fst (f ++ g)) -> snd (write f l) = false).
Proof.
  induction l as [|[vs n] l IH]; intros f ND; cbv zeta; cbn [map write].
  - rewrite app_nil_r. split; [reflexivity | intros H; contradiction].
  - destruct (create_spec f (replace_dots n) vs) as [C1 C2]. cbn [fst snd].
    destruct (in_dec str_dec (replace_dots n) (map fst f)) as [Hi|Hn].
    + rewrite (C1 Hi). split; [|reflexivity]. intros H. exfalso. rewrite map_app in H. cbn in H. apply NoDup_remove_2 in H. apply H. apply in_or_app. left. exact Hi.
    + rewrite (C2 Hn). assert (ND1 : NoDup (map fst (f ++ [(replace_dots n, vs)]))).
      { rewrite map_app. cbn. apply NoDup_Add with (a := replace_dots n) (l := map fst f); [|split; assumption]. rewrite <- (app_nil_r (map fst f)) at 1. apply Add_app. }
      specialize (IH _ ND1). cbv zeta in IH. rewrite <- app_assoc in IH. exact IH.
Qed.
Lemma dataset_in : forall f n vs, NoDup (map fst f) -> In (n, vs) f -> dataset f n = Some vs.
Proof.
  induction f as [|[m ws] f IH]; intros n vs ND H; [destruct H|]. cbn in ND |- *. inversion ND; subst. destruct H as [E|H].
  - injection E as E1 E2. subst. assert (str_eqb n n = true) by (apply str_eqb_eq; reflexivity). rewrite H. reflexivity.
  - destruct (str_eqb m n) eqn:E; [|apply IH; assumption]. apply str_eqb_eq in E. subst m. exfalso. apply H2. apply in_map_iff. exists (n, vs). split; [reflexivity | exact H].
Qed.
Lemma NoDup_snoc : forall (a : str) l, NoDup (l ++ [a]) <-> NoDup l /\ ~ In a l.
Proof.
  intros a l. split.
  - intros H. split; [apply NoDup_remove_1 in H; rewrite app_nil_r in H; exact H | apply NoDup_remove_2 in H; rewrite app_nil_r in H; exact H].
  - intros H. apply NoDup_Add with (a := a) (l := l); [|exact H]. rewrite <- (app_nil_r l) at 1. apply Add_app.
Qed.
Lemma save_spec : forall t b, tidy t ->
  (NoDup (keys t) -> save t b = (map (fun e => (underscored (fst e), snd e)) (pairs0 t) ++ [(whole_name, param_array t)], None)) /\
  (~ NoDup (keys t) -> snd (save t b) = Some TypeError).
Proof.
  intros t b T. unfold save.
  set (l := zip (gather t) (parameter_names false t)).
  assert (G : map (fun e => (replace_dots (snd e), fst e)) l = map (fun e => (underscored (fst e), snd e)) (pairs0 t)).
  { unfold l. rewrite <- pairs0_gather. assert (E : map replace_dots (parameter_names false t) = map underscored (map fst (pairs0 t))) by (rewrite pairs0_paths; apply names_paths; exact T).
    apply zip_pairs; [|exact E]. apply (f_equal (@length _)) in E. rewrite !map_length in E. exact E. }
  destruct (write_spec l [] (NoDup_nil _)) as [W1 W2]. cbn [app] in W1, W2. rewrite G in W1, W2.
  assert (K : map fst (map (fun e : list str * list Z => (underscored (fst e), snd e)) (pairs0 t)) = map underscored (paths t)).
  { rewrite map_map. cbn. rewrite <- pairs0_paths, map_map. reflexivity. }
  rewrite K in W1, W2. unfold keys. rewrite NoDup_snoc. split.
  - intros [N1 N2]. rewrite (W1 N1). destruct (create_spec (map (fun e => (underscored (fst e), snd e)) (pairs0 t)) whole_name (param_array t)) as [_ C]. rewrite C; [reflexivity|].
    rewrite K. exact N2.
  - intros H. destruct (write [] l) as [f [|]] eqn:E; [|reflexivity]. destruct (create_spec f whole_name (param_array t)) as [C1 C2].
    assert (N1 : NoDup (map underscored (paths t))).
    { destruct (ListDec.NoDup_dec str_dec (map underscored (paths t))) as [D|D]; [exact D|]. specialize (W2 D). discriminate. }
    specialize (W1 N1). injection W1 as W1. subst f. rewrite C1; [reflexivity|]. rewrite K.
    destruct (in_dec str_dec whole_name (map underscored (paths t))) as [D|D]; [exact D|]. exfalso. apply H. split; assumption.
Qed.
Lemma when_ok : forall t b, tidy t -> (snd (save t b) = None <-> NoDup (keys t)) /\ (snd (save t b) = None \/ snd (save t b) = Some TypeError).
Proof.
  intros t b T. destruct (save_spec t b T) as [A B]. destruct (ListDec.NoDup_dec str_dec (keys t)) as [D|D].
  - rewrite (A D). cbn. split; [split; auto | left; reflexivity].
  - rewrite (B D). split; [split; [discriminate | contradiction] | right; reflexivity].
Qed.
Lemma content_ok : forall t b, tidy t -> snd (save t b) = None ->
  let f := fst (save t b) in
  map fst f = keys t /\ (forall p vs, param_at t p vs -> dataset f (underscored p) = Some vs) /\ dataset f whole_name = Some (param_array t).
Proof.
  intros t b T E. apply (when_ok t b T) in E. destruct (save_spec t b T) as [A _]. cbv zeta. rewrite (A E). cbn [fst].
  set (f := map _ (pairs0 t) ++ _).
  assert (K : map fst f = keys t).
  { unfold f, keys. rewrite map_app. cbn [map fst]. f_equal. rewrite map_map. cbn. rewrite <- pairs0_paths, map_map. reflexivity. }
  split; [exact K|]. split.
  - intros p vs H. apply dataset_in; [rewrite K; exact E|]. unfold f. apply in_or_app. left. apply in_map_iff. exists (p, vs). split; [reflexivity | apply at_in; exact H].
  - apply dataset_in; [rewrite K; exact E|]. unfold f. apply in_or_app. right. left. reflexivity.
Qed.

(** Loading. *)
Lemma fill_ok : forall t t0 r, same_form t0 t -> fill t0 (param_array t ++ r) = (t, r).
Proof.
  induction t as [n vs|n ks F] using tree_rect2; intros t0 r S0; inversion S0 as [n' a b L|n' ks0 ls F2]; subst.
  - unfold param_array. cbn. rewrite app_nil_r. rewrite L, firstn_app, Nat.sub_diag, firstn_all, skipn_app, Nat.sub_diag, skipn_all. cbn. rewrite app_nil_r. reflexivity.
  - cbn [fill].
    set (go := fix go (ks : list tree) (vs : list Z) : list tree * list Z :=
        match ks with [] => ([], vs) | k :: ks1 => let (k', r) := fill k vs in let (l, r') := go ks1 r in (k' :: l, r') end).
    assert (G : forall ks0 ks, Forall2 same_form ks0 ks -> Forall (fun t => forall t0 r, same_form t0 t -> fill t0 (param_array t ++ r) = (t, r)) ks ->
                forall r, go ks0 (concat (flat_map gather ks) ++ r) = (ks, r)).
    { clear. intros ks0 ks F2. induction F2 as [|k0 k ks0 ks S0 F2 IH]; intros F r; cbn; [reflexivity|]. inversion F as [|x y F1 F3]; subst.
      rewrite concat_app, <- app_assoc. change (concat (gather k)) with (param_array k). rewrite (F1 _ _ S0). rewrite (IH F3). reflexivity. }
    unfold param_array. cbn [gather]. rewrite (G _ _ F2 F). reflexivity.
Qed.
Lemma restore_ok : forall t t0 b a, tidy t -> snd (save t b) = None -> same_form t0 t -> dataset (fst (save t b)) whole_name = Some a -> fst (fill t0 a) = t.
Proof.
  intros t t0 b a T E S0 D. destruct (content_ok t b T E) as [_ [_ D']]. rewrite D' in D. injection D as D. subst a.
  assert (G := fill_ok t t0 [] S0). rewrite app_nil_r in G. rewrite G. reflexivity.
Qed.
