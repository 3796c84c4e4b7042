(** Proofs about methods that set parameters. *)
From Coq Require Import List Bool Arith Lia.
From Verif Require Import ReModel ReSpec.
Import ListNotations.

Section Proofs.
Context {V : Type}.
Variable h : shape.
Variable body : nat -> list (@stmt V).
Notation exec := (exec h body).
Notation run := (run h body).
Notation do_stmt := (do_stmt h).
Implicit Types w : @world V.

Lemma fold_keeps : forall (A : Type) (P : world -> Prop) (f : A -> world -> option world) l w w',
  (forall a u u', In a l -> P u -> f a u = Some u' -> P u') -> P w -> fold f l w = Some w' -> P w'.
Proof.
  intros A P f l. induction l as [|a l IH]; intros w w' H Hw E; cbn [fold] in E; [inversion E; subst; auto|].
  destruct (f a w) as [u|] eqn:F; [|discriminate]. apply (IH u w'); auto; [intros b u1 u2 Hb; apply H; right; auto | eapply H; eauto; left; auto].
Qed.
Lemma fold_some : forall (A : Type) (P : world -> Prop) (f : A -> world -> option world) l w,
  (forall a u, In a l -> P u -> exists u', f a u = Some u' /\ P u') -> P w -> exists w', fold f l w = Some w' /\ P w'.
Proof.
  intros A P f l. induction l as [|a l IH]; intros w H Hw; cbn [fold]; [eauto|]. destruct (H a w (or_introl eq_refl) Hw) as (u & E & Hu). rewrite E.
  apply IH; auto. intros b u1 Hb; apply H; right; auto.
Qed.
Lemma fold_mono : forall (A : Type) (f g : A -> world -> option world) l w w', (forall a u u', In a l -> f a u = Some u' -> g a u = Some u') -> fold f l w = Some w' -> fold g l w = Some w'.
Proof.
  intros A f g l. induction l as [|a l IH]; intros w w' H E; cbn [fold] in *; auto. destruct (f a w) as [u|] eqn:F; [|discriminate].
  rewrite (H _ _ _ (or_introl eq_refl) F). apply IH; auto. intros b u1 u2 Hb; apply H; right; auto.
Qed.
Lemma fold_in : forall (A : Type) (P : world -> Prop) (f : A -> world -> option world) a l w, In a l ->
  (forall b u u', In b l -> P u -> f b u = Some u' -> P u') -> P w -> (forall u, P u -> f a u = None) -> fold f l w = None.
Proof.
  intros A P f a l. induction l as [|b l IH]; intros w Hi H Hw Hn; [destruct Hi|]. cbn [fold]. destruct (f b w) as [u|] eqn:F; auto. destruct Hi as [->|Hi].
  - rewrite Hn in F; auto; discriminate.
  - apply IH; auto; [intros c u1 u2 Hc; apply H; right; auto | eapply H; eauto; left; auto].
Qed.

Lemma do_stmt_mono : forall (c d : act -> world -> option world) x s w w', (forall a u u', c a u = Some u' -> d a u = Some u') -> do_stmt c x s w = Some w' -> do_stmt d x s w = Some w'.
Proof. intros c d x [|g|b] w w' H E; cbn [ReModel.do_stmt] in *; auto. destruct (g w) as [[q v]|]; auto. Qed.
Lemma run_mono : forall (c d : act -> world -> option world) l w w', (forall a u u', c a u = Some u' -> d a u = Some u') -> run c l w = Some w' -> run d l w = Some w'.
Proof.
  intros c d l w w' H E. unfold ReModel.run in *. eapply fold_mono; [|exact E]. intros x u u' _ E'. cbn beta in *. destruct (on u); auto. eapply fold_mono; [|exact E']. intros s u1 u2 _. apply do_stmt_mono; auto.
Qed.
Lemma exec_mono : forall f a w w', exec f a w = Some w' -> exec (S f) a w = Some w'.
Proof.
  induction f as [|f IH]; intros a w w' E; [discriminate|]. cbn [ReModel.exec] in E |- *. destruct a as [p v|x b]; eapply run_mono; eauto.
Qed.
Lemma exec_more : forall f f' a w w', f <= f' -> exec f a w = Some w' -> exec f' a w = Some w'.
Proof. intros f f' a w w' L E. induction L; auto. apply exec_mono; auto. Qed.
Lemma ends_by : forall f a w w', exec f a w = Some w' -> ends h body a w w'.
Proof. intros f a w w' E. exists f. intros f' L. eapply exec_more; eauto. Qed.

(** ** Ending *)
Definition goes (a : @act V) : list nat := match a with AWrite p _ => above h p | ASwitch x _ => around h x end.
Definition bound (rank : nat -> nat) (n : nat) (a : act) : Prop := forall y, In y (goes a) -> rank y < n.
Lemma exec_ends : forall rank, (forall x y, leads h body x y -> rank y < rank x) -> forall n a w, bound rank n a -> exists w', exec (S n) a w = Some w'.
Proof.
  intros rank Hr. induction n as [|n IH]; intros a w B.
  - assert (N : goes a = []).
    { destruct (goes a) as [|y l] eqn:E; auto. assert (Q : rank y < 0) by (apply B; rewrite E; left; auto). lia. }
    destruct a; cbn [ReModel.exec goes] in *; rewrite N; cbn; eauto.
  - assert (R : forall l u, (forall y, In y l -> rank y < S n) -> exists u', run (exec (S n)) l u = Some u').
    { intros l u Hl. unfold ReModel.run. destruct (fold_some _ (fun _ => True) (fun x w => if on w then fold (do_stmt (exec (S n)) x) (body x) w else Some w) l u) as (u' & E & _); eauto.
      intros x u1 Hx _. destruct (on u1); [|eauto]. apply fold_some; auto. intros s u2 Hs _. destruct s as [|g|b]; cbn [ReModel.do_stmt]; [eauto| |].
      - destruct (g u2) as [[q v]|] eqn:G; [|eauto]. destruct (IH (AWrite q v) u2) as (u3 & E3); eauto.
        intros y Hy. enough (rank y < rank x) by (specialize (Hl x Hx); lia). apply Hr. left. exists q. split; auto. exists g, u2, v. auto.
      - destruct (IH (ASwitch x b) u2) as (u3 & E3); eauto.
        intros y Hy. enough (rank y < rank x) by (specialize (Hl x Hx); lia). apply Hr. right. exists b. auto. }
    destruct a as [p v|x b]; cbn [ReModel.exec]; apply R; exact B.
Qed.
Lemma max_rank : forall (rank : nat -> nat) l, exists n, forall y, In y l -> rank y < n.
Proof. intros rank l. induction l as [|x l [n IH]]; [exists 0; intros ? []|]. exists (S (rank x + n)). intros y [->|Hy]; [lia | specialize (IH y Hy); lia]. Qed.
Lemma ends_final : forall a w, ranked h body -> exists w', ends h body a w w'.
Proof.
  intros a w [rank Hr]. destruct (max_rank rank (goes a)) as [n Hn].
  destruct (exec_ends rank Hr n a w Hn) as [w' E]. exists w'. eapply ends_by; eauto.
Qed.

Lemma progress_ends : forall m : @world V -> nat, (forall x w, (forall b, ~ In (Switch b) (body x)) /\ m (derive h x w) <= m w /\ forall g q v, In (Write g) (body x) -> g w = Some (q, v) -> m (put q v w) < m w) ->
  forall n p v w, m (put p v w) <= n -> exists w', exec (S n) (AWrite p v) w = Some w' /\ m w' <= m (put p v w).
Proof.
  intros m Hm. assert (R : forall n (c : act -> world -> option world), (forall q v u, m (put q v u) < n -> exists u', c (AWrite q v) u = Some u' /\ m u' <= m (put q v u)) ->
    forall l k w, k <= n -> m w <= k -> exists w', run c l w = Some w' /\ m w' <= k).
  { intros n c Hc l k w Hk Hw. unfold ReModel.run. apply (fold_some _ (fun u => m u <= k)); auto. intros x u _ Hu. destruct (on u); [|eauto].
    apply (fold_some _ (fun u => m u <= k)); auto. intros s u1 Hs H1. destruct (Hm x u1) as (Ns & Hd & Hg). destruct s as [|g|b]; cbn [ReModel.do_stmt].
    - eexists. split; [reflexivity | lia].
    - destruct (g u1) as [[q v]|] eqn:G; [|eauto]. specialize (Hg g q v Hs G). destruct (Hc q v u1) as (u2 & E & H2); [lia|]. exists u2. split; auto. lia.
    - destruct (Ns b Hs). }
  induction n as [|n IH]; intros p v w L; cbn [ReModel.exec].
  - apply (R 0); auto. intros; lia.
  - apply (R (S n)); auto. intros q u z Hz. apply IH. lia.
Qed.
Lemma progress_final : forall p v w, progressing h body -> exists w', ends h body (AWrite p v) w w'.
Proof. intros p v w [m Hm]. destruct (progress_ends m Hm _ p v w (le_n _)) as (w' & E & _). exists w'. eapply ends_by; eauto. Qed.

(** ** Up to date *)
Lemma put_keeps : forall p v w x, sound h -> ~ In x (above h p) -> up_to_date h w x -> up_to_date h (put p v w) x.
Proof.
  intros p v w x S N U. unfold up_to_date in *. cbn [put val stored]. rewrite U. apply map_ext_in. intros q Hq. destruct (Nat.eqb_spec q p); auto. subst. apply S in Hq. contradiction.
Qed.
Lemma derive_keeps : forall y w x, up_to_date h w x -> up_to_date h (derive h y w) x.
Proof. intros y w x U. unfold up_to_date in *. cbn [derive val stored]. destruct (Nat.eqb_spec x y); subst; auto. Qed.
Lemma derive_makes : forall x w, up_to_date h (derive h x w) x.
Proof. intros x w. unfold up_to_date. cbn [derive val stored]. rewrite Nat.eqb_refl. reflexivity. Qed.
Definition good (P : nat -> Prop) w : Prop := on w = true /\ forall x, P x -> up_to_date h w x.
Lemma body_good : forall (c : act -> world -> option world), deriving body ->
  (forall q v P u u', good P u -> c (AWrite q v) u = Some u' -> good P u') ->
  forall x P w w', good P w -> fold (do_stmt c x) (body x) w = Some w' -> good (fun y => P y \/ y = x) w'.
Proof.
  intros c Dv Hc x P w w' G E. destruct (Dv x) as [D Ns].
  assert (K : forall l u u' Q, (forall b, ~ In (Switch b) l) -> good Q u -> fold (do_stmt c x) l u = Some u' -> good Q u').
  { intros l u u' Q N Gu. apply fold_keeps; auto. intros s u1 u2 Hs [O U] Es. destruct s as [|g|b]; cbn [ReModel.do_stmt] in Es.
    - inversion Es; subst. split; auto. intros y Hy. apply derive_keeps; auto.
    - destruct (g u1) as [[q v]|]; [|inversion Es; subst; split; auto]. apply (Hc q v Q u1 u2); [split; auto | auto].
    - destruct (N b Hs). }
  apply in_split in D as (l1 & l2 & Eb). rewrite Eb in E.
  assert (F : forall l u, fold (do_stmt c x) (l1 ++ l) u = match fold (do_stmt c x) l1 u with Some u' => fold (do_stmt c x) l u' | None => None end).
  { clear. induction l1 as [|s l1 IH]; intros l u; cbn [app fold]; auto. destruct (do_stmt c x s u); auto. }
  rewrite F in E. destruct (fold (do_stmt c x) l1 w) as [u|] eqn:E1; [|discriminate]. cbn [fold ReModel.do_stmt] in E.
  assert (Gu : good P u).
  { refine (K l1 w u P _ G E1). intros b Hb. apply (Ns b). rewrite Eb. apply in_or_app. auto. }
  refine (K l2 (derive h x u) w' (fun y => P y \/ y = x) _ _ E).
  - intros b Hb. apply (Ns b). rewrite Eb. apply in_or_app. right. right. auto.
  - destruct Gu as [O U]. split; auto. intros y [Hy| ->]; [apply derive_keeps; auto | apply derive_makes].
Qed.
Lemma run_good : forall (c : act -> world -> option world), deriving body ->
  (forall q v P u u', good P u -> c (AWrite q v) u = Some u' -> good P u') ->
  forall l P w w', good P w -> run c l w = Some w' -> good (fun y => P y \/ In y l) w'.
Proof.
  intros c Dv Hc l. unfold ReModel.run. induction l as [|x l IH]; intros P w w' G E; cbn [fold] in E.
  - inversion E; subst. destruct G as [O U]. split; auto. intros y [Hy|[]]; auto.
  - rewrite (proj1 G) in E. destruct (fold (do_stmt c x) (body x) w) as [u|] eqn:E1; [|discriminate].
    pose proof (body_good c Dv Hc x P w u G E1) as Gu. specialize (IH _ _ _ Gu E). destruct IH as [O U]. split; auto. intros y [Hy|[->|Hy]]; apply U; auto.
Qed.
Lemma exec_good : deriving body -> sound h -> forall f p v P w w', good P w -> exec f (AWrite p v) w = Some w' -> good (fun y => P y \/ In y (above h p)) w'.
Proof.
  intros Dv Sd. induction f as [|f IH]; intros p v P w w' G E; [discriminate|]. cbn [ReModel.exec] in E.
  assert (G1 : good (fun y => P y /\ ~ In y (above h p)) (put p v w)).
  { destruct G as [O U]. split; auto. intros y [Hy N]. apply put_keeps; auto. }
  assert (Hc : forall q u Q u1 u2, good Q u1 -> exec f (AWrite q u) u1 = Some u2 -> good Q u2).
  { intros q u Q u1 u2 Gu Eu. destruct (IH q u Q u1 u2 Gu Eu) as [O U]. split; auto. }
  destruct (run_good (exec f) Dv Hc _ _ _ _ G1 E) as [O U]. split; auto. intros y Hy. apply U. destruct (in_dec Nat.eq_dec y (above h p)); auto. destruct Hy as [Hy|Hy]; auto.
Qed.

Lemma date_final : forall p v w w', deriving body -> sound h -> on w = true -> ends h body (AWrite p v) w w' ->
  on w' = true /\ forall x, up_to_date h w x \/ In x (above h p) -> up_to_date h w' x.
Proof. intros p v w w' Dv Sd O [f E]. apply (exec_good Dv Sd f p v (up_to_date h w) w w'); [split; auto | auto]. Qed.

(** ** What was written stays *)
Lemma exec_stays : forall rank, (forall x y, leads h body x y -> rank y < rank x) -> forall p n, (exists a, In a (above h p) /\ n <= rank a) ->
  forall f a w w', bound rank (S n) a -> match a with AWrite q _ => q <> p | ASwitch _ _ => True end -> exec f a w = Some w' -> val w' p = val w p.
Proof.
  intros rank Hr p n (a0 & Ha0 & Hn). induction f as [|f IH]; intros a w w' B Np E; [discriminate|].
  assert (R : forall l u u', (forall y, In y l -> rank y < S n) -> run (exec f) l u = Some u' -> val u' p = val u p).
  { intros l u u' Hl Er. revert Er. unfold ReModel.run. apply (fold_keeps _ (fun z => val z p = val u p)); auto. intros x u1 u2 Hx Q E1. destruct (on u1); [|inversion E1; subst; auto].
    revert E1. apply (fold_keeps _ (fun z => val z p = val u p)); auto. intros s u3 u4 Hs Q3 Es. destruct s as [|g|b]; cbn [ReModel.do_stmt] in Es.
    - inversion Es; subst. exact Q3.
    - destruct (g u3) as [[q v]|] eqn:G; [|inversion Es; subst; auto]. rewrite <- Q3. eapply IH; [| |exact Es].
      + intros y Hy. enough (rank y < rank x) by (specialize (Hl x Hx); lia). apply Hr. left. exists q. split; auto. exists g, u3, v. auto.
      + intros ->. enough (rank a0 < rank x) by (specialize (Hl x Hx); lia). apply Hr. left. exists p. split; auto. exists g, u3, v. auto.
    - rewrite <- Q3. apply (IH (ASwitch x b) u3 u4); [|exact Logic.I|exact Es].
      intros y Hy. enough (rank y < rank x) by (specialize (Hl x Hx); lia). apply Hr. right. exists b. auto. }
  destruct a as [q v|x b]; cbn [ReModel.exec] in E; apply R in E; auto. rewrite E. cbn [put val]. destruct (Nat.eqb_spec p q); auto. subst. contradiction.
Qed.
Lemma top_rank : forall (rank : nat -> nat) l, l <> [] -> exists a, In a l /\ forall y, In y l -> rank y <= rank a.
Proof.
  intros rank l. induction l as [|x l IH]; intros N; [contradiction|]. destruct l as [|z l]; [exists x; split; [left; auto | intros y [->|[]]; auto]|].
  destruct IH as (a & Ha & M); [discriminate|]. destruct (le_lt_dec (rank x) (rank a)).
  - exists a. split; [right; auto|]. intros y [->|Hy]; auto.
  - exists x. split; [left; auto|]. intros y [->|Hy]; auto. specialize (M y Hy). lia.
Qed.
Lemma stays_final : forall p v w w', ranked h body -> ends h body (AWrite p v) w w' -> val w' p = v.
Proof.
  intros p v w w' [rank Hr] [f E]. specialize (E (S f) (Nat.le_succ_diag_r f)). cbn [ReModel.exec] in E.
  assert (P0 : val (put p v w) p = v) by (cbn [put val]; rewrite Nat.eqb_refl; auto).
  destruct (above h p) as [|z l] eqn:Ea; [inversion E; subst; auto|]. destruct (top_rank rank (above h p)) as (a & Ha & M); [rewrite Ea; discriminate|].
  rewrite <- Ea in E. rewrite <- P0. revert E. unfold ReModel.run. apply (fold_keeps _ (fun u => val u p = val (put p v w) p)); auto.
  intros x u1 u2 Hx Q E1. destruct (on u1); [|inversion E1; subst; auto]. rewrite <- Q. clear Q. revert E1. apply (fold_keeps _ (fun u => val u p = val u1 p)); auto.
  intros s u3 u4 Hs Q3 Es. rewrite <- Q3. destruct s as [|g|b]; cbn [ReModel.do_stmt] in Es.
  - inversion Es; subst. auto.
  - destruct (g u3) as [[q u]|] eqn:G; [|inversion Es; subst; auto]. eapply (exec_stays rank Hr p (rank a)); [exists a; auto| | |exact Es].
    + intros y Hy. enough (rank y < rank x) by (specialize (M x Hx); lia). apply Hr. left. exists q. split; auto. exists g, u3, u. auto.
    + intros ->. enough (rank a < rank x) by (specialize (M x Hx); lia). apply Hr. left. exists p. split; auto. exists g, u3, u. auto.
  - apply (exec_stays rank Hr p (rank a) (ex_intro _ a (conj Ha (le_n _))) f (ASwitch x b) u3 u4); [|exact Logic.I|exact Es].
    intros y Hy. enough (rank y < rank x) by (specialize (M x Hx); lia). apply Hr. right. exists b. auto.
Qed.

(** ** Never ending *)
Lemma restless_none : forall bad : nat -> bool, restless h body bad ->
  forall f, (forall a w, (match a with AWrite _ _ => on w = true | ASwitch _ b => b = true end) ->
               (exists y, In y (goes a) /\ bad y = true) -> exec f a w = None) /\
            (forall a w w', (match a with AWrite _ _ => on w = true | ASwitch _ b => b = true end) -> exec f a w = Some w' -> on w' = true).
Proof.
  intros bad [Hb Hg]. induction f as [|f [IH1 IH2]]; [split; [auto | intros; discriminate]|].
  assert (ST : forall x s u u', s <> Switch false -> on u = true -> do_stmt (exec f) x s u = Some u' -> on u' = true).
  { intros x s u u' N O E. destruct s as [|g|b]; cbn [ReModel.do_stmt] in E.
    - inversion E; subst; auto.
    - destruct (g u) as [[q v]|]; [|inversion E; subst; auto]. apply (IH2 (AWrite q v) u u'); auto.
    - destruct b; [|contradiction]. apply (IH2 (ASwitch x true) u u'); auto. }
  assert (NB : forall x u, bad x = true -> on u = true -> fold (do_stmt (exec f) x) (body x) u = None).
  { intros x u Bx O. destruct (Hb x Bx) as [(Hs & y & Hy & By)|(Nf & g & Hs & Hw)].
    - apply (fold_in _ (fun _ => True) _ (Switch true)); auto. intros z _. cbn [ReModel.do_stmt]. apply IH1; auto. exists y. auto.
    - apply (fold_in _ (fun z => on z = true) _ (Write g)); auto.
      + intros s u1 u2 Hi O1. apply ST; auto. intros ->. contradiction.
      + intros z Oz. cbn [ReModel.do_stmt]. destruct (Hw z) as (q & v & -> & y & Hy & By). apply IH1; auto. exists y. auto. }
  assert (RN : forall x u u', on u = true -> (if on u then fold (do_stmt (exec f) x) (body x) u else Some u) = Some u' -> on u' = true).
  { intros x u u' O E. rewrite O in E. destruct (bad x) eqn:Bx; [rewrite NB in E by auto; discriminate|]. revert E. apply (fold_keeps _ (fun z => on z = true)); auto.
    intros s u1 u2 Hs. apply ST. intros ->. apply (Hg x Bx). auto. }
  assert (R : forall l u, on u = true -> (forall u', run (exec f) l u = Some u' -> on u' = true) /\ ((exists y, In y l /\ bad y = true) -> run (exec f) l u = None)).
  { intros l u O. unfold ReModel.run. split.
    - intros u'. apply (fold_keeps _ (fun z => on z = true)); auto. intros x u1 u2 _. apply RN.
    - intros (y & Hy & By). apply (fold_in _ (fun z => on z = true) _ y); auto; [intros x u1 u2 _; apply RN|]. intros z Oz. rewrite Oz. apply NB; auto. }
  split.
  - intros [p v|x b] w O Hy; cbn [ReModel.exec goes] in *; apply R; auto.
  - intros [p v|x b] w w' O E; cbn [ReModel.exec] in *; [apply (proj1 (R (above h p) (put p v w) O) w' E) | apply (proj1 (R (around h x) (switch b w) O) w' E)].
Qed.
Lemma never_final : forall bad a w, restless h body bad -> (match a with AWrite p _ => on w = true /\ (exists y, In y (above h p) /\ bad y = true) | ASwitch x b => b = true /\ exists y, In y (around h x) /\ bad y = true end) ->
  never h body a w.
Proof. intros bad a w R H f. apply (proj1 (restless_none bad R f)); destruct a; destruct H; auto. Qed.
End Proofs.
