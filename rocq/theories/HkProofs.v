(** Proofs about observers of a hierarchy, part 1: what a notification calls, given the registrations. *)
From Coq Require Import List ZArith Bool Lia Arith Sorted.
From Verif Require Import NpModel NpProofs IndexOpsModel IndexOpsSpec PzModel PzSpec PzTree PzStruct PzLink PzWalk PzMem PzIo PzInv PzConn PzFix PzLinkMem PzPres PzTraverse PzNotify PzOrder HkModel HkSpec.
From Verif Require ObserversModel ObserversProofs.
Import ListNotations.
Open Scope Z_scope.

Notation pleb := ObserversModel.prio_leb.
Notation pgtb := ObserversModel.prio_gtb.

Lemma higher_gtb : forall p r, pgtb p r = true <-> higher p r.
Proof.
  intros [|a] [|b]; cbn; try (split; [discriminate | intros []]); [tauto|]. rewrite Z.ltb_lt. tauto.
Qed.
Lemma leb_not_higher : forall p r, pleb p r = true <-> ~ higher p r.
Proof. intros p r. unfold ObserversModel.prio_leb. rewrite negb_true_iff, <- higher_gtb. destruct (pgtb p r); split; intros; try congruence; try (exfalso; auto). Qed.
Lemma not_higher_trans : forall a b c, ~ higher a b -> ~ higher b c -> ~ higher a c.
Proof. intros [|a] [|b] [|c]; cbn; try tauto; try lia. Qed.
Lemma higher_asym : forall a b, higher a b -> ~ higher b a.
Proof. intros [|a] [|b]; cbn; auto. lia. Qed.
Lemma higher_total : forall a b, ~ higher a b -> higher b a \/ a = b.
Proof. intros [|a] [|b]; cbn; auto. intros H. destruct (Z.eq_dec a b) as [->|E]; auto. left; lia. Qed.

Lemma filter_none' : forall (A : Type) (f : A -> bool) l, (forall a, In a l -> f a = false) -> filter f l = [].
Proof. intros A f l. induction l as [|a l IH]; intros H; auto. cbn [filter]. rewrite (H a) by (left; auto). apply IH. intros; apply H; right; auto. Qed.

(** ** Lists of registrations *)
(** In the order of calls, nothing after something of lower priority. *)
Definition desc (l : list reg) : Prop := StronglySorted (fun a b => ~ higher (fst b) (fst a)) l.
(** The object's own update is at its place. *)
Definition own_at (l : list reg) : Prop :=
  exists a b : list reg, l = a ++ (Fin (-100), Own) :: b /\ (forall e : reg, In e a -> snd e <> Own /\ higher (fst e) (Fin (-100))) /\
    forall e : reg, In e b -> snd e <> Own /\ ~ higher (fst e) (Fin (-100)).
Definition no_own (l : list reg) : Prop := forall e, In e l -> snd e <> Own.

Lemma insert_In : forall e l x, In x (insert e l) <-> x = e \/ In x l.
Proof.
  intros e l x. induction l as [|a l IH]; cbn [insert]; [cbn; intuition|]. destruct (pgtb (fst e) (fst a)); cbn [In]; [intuition|].
  rewrite IH. intuition.
Qed.
Lemma insert_desc : forall e l, desc l -> desc (insert e l).
Proof.
  intros e l H. induction H as [|a l H IH F]; cbn [insert]; [repeat constructor|].
  destruct (pgtb (fst e) (fst a)) eqn:G.
  - constructor; [constructor; auto|]. apply higher_gtb in G. rewrite Forall_forall in *.
    intros x [<-|Hx]; [apply higher_asym; auto|]. intros Q. apply (F x Hx). specialize (F x Hx).
    destruct (fst x), (fst e), (fst a); cbn in *; try tauto; lia.
  - constructor; auto. rewrite Forall_forall in *. intros x Hx. apply insert_In in Hx as [->|Hx]; auto.
    intros Q. apply higher_gtb in Q. congruence.
Qed.
Lemma filter_desc : forall f l, desc l -> desc (filter f l).
Proof.
  intros f l H. induction H as [|a l H IH F]; cbn [filter]; [constructor|]. destruct (f a); auto. constructor; auto.
  rewrite Forall_forall in *. intros x Hx. apply filter_In in Hx as [Hx _]. auto.
Qed.
Lemma insert_app : forall e a b, (forall x, In x a -> ~ higher (fst e) (fst x)) -> insert e (a ++ b) = a ++ insert e b.
Proof.
  intros e a b. induction a as [|x a IH]; intros H; auto. cbn [app insert].
  destruct (pgtb (fst e) (fst x)) eqn:G; [exfalso; apply (H x); [left; auto | apply higher_gtb; auto]|]. f_equal. apply IH. intros; apply H; right; auto.
Qed.
Lemma insert_own : forall e l, snd e <> Own -> own_at l -> own_at (insert e l).
Proof.
  intros e l N (a & b & -> & A & B). destruct (pgtb (fst e) (Fin (-100))) eqn:G.
  - apply higher_gtb in G. exists (insert e a), b. split; [|split; auto].
    + clear A. induction a as [|x a IH]; cbn [app insert fst]; [rewrite (proj2 (higher_gtb _ _) G); auto|].
      destruct (pgtb (fst e) (fst x)); auto. cbn [app]. f_equal. apply IH.
    + intros x Hx. apply insert_In in Hx as [->|Hx]; auto.
  - assert (G' : ~ higher (fst e) (Fin (-100))) by (intros Q; apply higher_gtb in Q; congruence).
    exists a, (insert e b). rewrite insert_app. 2: { intros x Hx Q. destruct (A x Hx) as [_ A']. destruct (fst e), (fst x); cbn in *; try tauto; lia. }
    cbn [insert fst]. rewrite G. split; auto. split; auto. intros x Hx. apply insert_In in Hx as [->|Hx]; auto.
Qed.
Lemma filter_own : forall f l, f (Fin (-100), Own) = true -> own_at l -> own_at (filter f l).
Proof.
  intros f l Hf (a & b & -> & A & B). exists (filter f a), (filter f b). rewrite filter_app. cbn [filter]. rewrite Hf. split; auto.
  split; intros e He; apply filter_In in He as [He _]; auto.
Qed.
Lemma insert_no_own : forall e l, snd e <> Own -> no_own l -> no_own (insert e l).
Proof. intros e l N H x Hx. apply insert_In in Hx as [->|Hx]; auto. Qed.
Lemma filter_no_own : forall f l, no_own l -> no_own (filter f l).
Proof. intros f l H x Hx. apply filter_In in Hx as [Hx _]. auto. Qed.

Lemma filter_insert : forall f e l, filter f (insert e l) = if f e then filter f (insert e l) else filter f l.
Proof.
  intros f e l. destruct (f e) eqn:E; auto. induction l as [|a l IH]; cbn [insert]; [cbn; rewrite E; auto|].
  destruct (pgtb (fst e) (fst a)); cbn [filter]; [rewrite E; auto|]. rewrite IH. auto.
Qed.
Lemma insert_bottom : forall t l, insert (NegInf, t) l = l ++ [(NegInf, t)].
Proof. intros t l. induction l as [|a l IH]; cbn [insert]; auto. cbn. rewrite IH. auto. Qed.

(** What is called with [min_priority = -inf]. *)
Lemma called_true : forall l, called true l = l.
Proof. induction l as [|a l IH]; cbn [called]; auto. cbn. rewrite IH. auto. Qed.
Lemma finite_leb : forall p, pleb p NegInf = match p with NegInf => true | Fin _ => false end.
Proof. intros [|z]; auto. Qed.
Lemma called_false : forall l, desc l -> called false l = filter is_finite l.
Proof.
  intros l H. induction H as [|a l H IH F]; auto. cbn [called filter negb andb]. unfold is_finite at 1. rewrite finite_leb. destruct (fst a) eqn:E; [|rewrite IH; auto].
  symmetry. clear IH. induction l as [|b l IHl]; auto. cbn [filter]. inversion F as [|? ? F1 F2]; subst. unfold is_finite at 1.
  destruct (fst b); [apply IHl; auto; inversion H; auto|]. exfalso. apply F1. cbn. auto.
Qed.

(** ** Notifications *)
Section Events.
Variable t : struct.
Variable upd : oid -> bool.
Variable rg : oid -> list reg.
Hypothesis W : swf t.
Hypothesis Hdesc : forall y, (y < next t)%nat -> desc (rg y).
Hypothesis Hup : forall y, (y < next t)%nat -> filter is_up (rg y) = match par t y with Some p => [(NegInf, Up p)] | None => [] end.
Hypothesis Hown : forall y, (y < next t)%nat -> if is_leaf t y then no_own (rg y) else own_at (rg y).

Lemma par_lt : forall y q, par t y = Some q -> (q < next t)%nat.
Proof.
  intros y q H. destruct (Nat.lt_ge_cases q (next t)) as [L|L]; auto. apply (PzTree.wf_par t W) in H.
  destruct (PzTree.wf_new t W q L) as [K _]. rewrite K in H. destruct H.
Qed.
Lemma up_lt : forall x l, up t x l -> (x < next t)%nat -> forall y, In y l -> (y < next t)%nat.
Proof.
  intros x l H. induction H as [x Hp|x p l Hp Hu IH]; intros Hx y Hy; [destruct Hy as [<-|[]]; auto|].
  destruct Hy as [<-|Hy]; auto. apply IH; auto. eapply par_lt; eauto.
Qed.

(** Where an event comes from. *)
Definition src : Type := oid * reg.
Definition event_of (a : src) : event := match snd (snd a) with User o => Heard (fst a) o | _ => Ran (fst a) end.
Definition from (y : oid) (l : list reg) : list src := map (fun e => (y, e)) (filter (fun e => negb (is_up e)) l).
(** The calls at [y], [rest] taking the place of the call of the parent. *)
Fixpoint along (y : oid) (l : list reg) (rest : list src) : list src :=
  match l with [] => [] | e :: r => (if is_up e then rest else [(y, e)]) ++ along y r rest end.
Fixpoint climb (l : list oid) : list src :=
  match l with [] => [] | y :: r => if upd y then along y (rg y) (climb r) else [] end.
Definition self (y : oid) : list src := if upd y then from y (filter is_finite (rg y)) else [].

Lemma up_reg : forall y p q, (y < next t)%nat -> In (p, Up q) (rg y) -> p = NegInf /\ par t y = Some q.
Proof.
  intros y p q Hy H. assert (Q : In (p, Up q) (filter is_up (rg y))) by (apply filter_In; auto).
  rewrite (Hup y Hy) in Q. destruct (par t y); [|destruct Q]. destruct Q as [Q|[]]. inversion Q. auto.
Qed.

Lemma rfold_collect : forall (h : reg -> res (list event)) (g : reg -> list event) l acc, (forall e, In e l -> h e = Ok (g e)) ->
  rfold (fun e ev => rbind (h e) (fun ev' => Ok (ev ++ ev'))) l acc = Ok (acc ++ concat (map g l)).
Proof.
  intros h g l. induction l as [|e l IH]; intros acc H; cbn [rfold map concat]; [rewrite app_nil_r; auto|].
  rewrite (H e) by (left; auto). cbn [rbind]. rewrite IH by (intros; apply H; right; auto). rewrite app_assoc. auto.
Qed.
Lemma along_events : forall y l rest, map event_of (along y l rest) =
  concat (map (fun e => match snd e with Own => [Ran y] | User o => [Heard y o] | Up _ => map event_of rest end) l).
Proof.
  intros y l rest. induction l as [|[p g] l IH]; auto. cbn [along map concat]. rewrite map_app, IH. f_equal. unfold is_up. cbn [snd]. destruct g; auto.
Qed.
Lemma from_events : forall y l, (forall e, In e l -> is_up e = false) -> map event_of (from y l) =
  concat (map (fun e => match snd e with Own => [Ran y] | User o => [Heard y o] | Up _ => [] end) l).
Proof.
  intros y l. induction l as [|[p g] l IH]; intros H; auto. unfold from in *. cbn [filter map concat]. rewrite (H (p, g)) by (left; auto). cbn [negb map].
  rewrite IH by (intros; apply H; right; auto). specialize (H (p, g) (or_introl eq_refl)). unfold is_up in H. cbn [snd] in *. destruct g; auto; discriminate.
Qed.
Lemma finite_not_up : forall y e, (y < next t)%nat -> In e (filter is_finite (rg y)) -> is_up e = false.
Proof.
  intros y [p g] Hy H. apply filter_In in H as [H F]. unfold is_up. destruct g as [|q|o]; auto. cbn [snd]. destruct (up_reg y p q Hy H) as [-> _]. discriminate.
Qed.

Lemma hnotify_up : forall x l, up t x l -> (x < next t)%nat -> forall f, (length l <= f)%nat -> hnotify upd rg f x true = Ok (map event_of (climb l)).
Proof.
  intros x l H. induction H as [x Hp|x p l Hp Hu IH]; intros Hx f Hl; (destruct f as [|f]; [cbn in Hl; lia|]); cbn [hnotify climb]; (destruct (upd x); auto); rewrite called_true.
  - rewrite along_events. apply (rfold_collect _ (fun e => match snd e with Own => [Ran x] | User o => [Heard x o] | Up _ => map event_of (climb []) end)).
    intros [p g] He. cbn [snd]. destruct g as [|q|o]; auto. destruct (up_reg x p q Hx He) as [_ Q]. congruence.
  - rewrite along_events. apply (rfold_collect _ (fun e => match snd e with Own => [Ran x] | User o => [Heard x o] | Up _ => map event_of (climb l) end)).
    intros [p' g] He. cbn [snd]. destruct g as [|q|o]; auto. destruct (up_reg x p' q Hx He) as [_ Q]. rewrite Hp in Q. inversion Q; subst q.
    apply IH; [|cbn in Hl; lia]. eapply par_lt; eauto.
Qed.
Lemma hnotify_self : forall x f, (x < next t)%nat -> (0 < f)%nat -> hnotify upd rg f x false = Ok (map event_of (self x)).
Proof.
  intros x f Hx Hf. destruct f as [|f]; [lia|]. cbn [hnotify]. unfold self. destruct (upd x); auto. rewrite called_false by auto.
  rewrite from_events by (intros; eapply finite_not_up; eauto).
  apply (rfold_collect _ (fun e => match snd e with Own => [Ran x] | User o => [Heard x o] | Up _ => [] end)).
  intros [p g] He. cbn [snd]. destruct g as [|q|o]; auto. apply finite_not_up in He; auto. discriminate.
Qed.

Lemma htrigger_trees : forall (i : iost) fx, (forall y, (y < next t)%nat -> is_fixed (fuel t) t i y = Ok (fx y)) ->
  forall f tr, krep t tr -> (height tr <= f)%nat -> (root tr < next t)%nat ->
  htrigger_params upd rg f t i (root tr) false = Ok (map event_of (concat (map self (post fx tr)))) /\
  forall u, up t (root tr) u -> htrigger_params upd rg f t i (root tr) true = Ok (map event_of (concat (map self (inner fx tr)) ++ climb u)).
Proof.
  intros i fx Hfx. induction f as [|f IH]; intros [x ts] K Hh Hx; [cbn in Hh; lia|].
  assert (Hc : forall c, In c ts -> krep t c /\ (height c <= f)%nat /\ (root c < next t)%nat).
  { intros c Hc. split; [eapply krep_child; eauto|]. split.
    - cbn in Hh. assert (height c <= fold_right Nat.max 0 (map height ts))%nat; [|lia].
      clear - Hc. induction ts as [|d l IHl]; [contradiction|]. cbn. destruct Hc as [->|Hc]; [lia | specialize (IHl Hc); lia].
    - assert (Hk : In (root c) (kids t x)) by (rewrite (krep_kids _ _ _ K); apply in_map; auto).
      apply In_nth_error in Hk as [q Hq]. exact (below_lt t x (root c) _ _ W (below_one t x q _ Hq) Hx). }
  set (g := fun p ev => rbind (is_fixed (fuel t) t i p) (fun b : bool => if b then Ok ev else rbind (htrigger_params upd rg f t i p false) (fun ev' => Ok (ev ++ ev')))).
  assert (G : forall l ev, incl l ts -> rfold g (map root l) ev =
     Ok (ev ++ map event_of (concat (map self (concat (map (fun c => if fx (root c) then [] else post fx c) l)))))).
  { induction l as [|c l IHl]; intros ev Hin; [cbn; rewrite app_nil_r; auto|].
    cbn [map rfold concat]. destruct (Hc c) as (Kc & Hhc & Hxc); [apply Hin; left; auto|]. unfold g at 1. rewrite (Hfx _ Hxc). cbn [rbind].
    rewrite map_app, concat_app, map_app.
    destruct (fx (root c)).
    - cbn [map concat app rbind]. apply IHl. intros d Hd; apply Hin; right; auto.
    - destruct (IH c Kc Hhc Hxc) as [-> _]. cbn [rbind]. rewrite IHl by (intros d Hd; apply Hin; right; auto). rewrite app_assoc. auto. }
  cbn [htrigger_params root]. rewrite (krep_kids _ _ _ K). fold g. rewrite (G ts [] (incl_refl _)). cbn [rbind app]. split.
  - rewrite hnotify_self by (auto; unfold fuel; lia). cbn [rbind post]. rewrite map_app, concat_app, map_app. cbn [map concat]. rewrite app_nil_r. auto.
  - intros u Hu. rewrite (hnotify_up x u Hu Hx) by (apply up_length with (x := x); auto). cbn [rbind inner]. rewrite map_app. auto.
Qed.

(** ** The order of the calls *)
Definition in_order (a b : src) : Prop :=
  (fst a = fst b -> ~ higher (fst (snd b)) (fst (snd a)) /\ (snd (snd b) = Own -> higher (fst (snd a)) (Fin (-100))) /\
     (snd (snd a) = Own -> ~ higher (fst (snd b)) (Fin (-100)))) /\
  (above t (fst a) (fst b) -> fst a <> fst b -> fst (snd b) = NegInf).

Lemma sorted_app : forall (A : Type) (R : A -> A -> Prop) l l', StronglySorted R l -> StronglySorted R l' -> (forall a b, In a l -> In b l' -> R a b) ->
  StronglySorted R (l ++ l').
Proof.
  intros A R l l' H H' C. induction H as [|a l H IH F]; auto. cbn [app]. constructor.
  - apply IH. intros; apply C; auto. right; auto.
  - rewrite Forall_forall in *. intros b Hb. apply in_app_or in Hb as [Hb|Hb]; auto. apply C; auto. left; auto.
Qed.
Lemma sorted_sub : forall (A : Type) (R : A -> A -> Prop) l l', StronglySorted R (l ++ l') -> StronglySorted R l /\ StronglySorted R l' /\ forall a b, In a l -> In b l' -> R a b.
Proof.
  intros A R l l' H. induction l as [|a l IH]; [split; [constructor|]; split; auto; intros a b []|].
  cbn [app] in H. inversion H as [|? ? H1 H2]; subst. destruct (IH H1) as (A1 & A2 & A3). rewrite Forall_forall in H2. split; [|split; auto].
  - constructor; auto. apply Forall_forall. intros x Hx. apply H2, in_or_app. auto.
  - intros x b [<-|Hx] Hb; auto. apply H2, in_or_app. auto.
Qed.

(** The registrations of one object are in order among themselves. *)
Definition reg_order (a b : reg) : Prop :=
  ~ higher (fst b) (fst a) /\ (snd b = Own -> higher (fst a) (Fin (-100))) /\ (snd a = Own -> ~ higher (fst b) (Fin (-100))).
Lemma regs_order : forall y, (y < next t)%nat -> StronglySorted reg_order (rg y).
Proof.
  intros y Hy. pose proof (Hown y Hy) as O. pose proof (Hdesc y Hy) as D. destruct (is_leaf t y).
  - revert O D. induction (rg y) as [|e l IH]; intros N D; [constructor|]. inversion D as [|? ? D1 D2]; subst.
    constructor; [apply IH; auto; intros x Hx; apply N; right; auto|]. rewrite Forall_forall in *. intros x Hx. split; auto.
    split; intros Q; exfalso; [apply (N x); auto; right; auto | apply (N e); auto; left; auto].
  - destruct O as (a & b & E & A & B). rewrite E in *.
    assert (G : forall l, desc l -> (forall e, In e l -> snd e <> Own) -> StronglySorted reg_order l).
    { induction l as [|e l IH]; intros Dl N; [constructor|]. inversion Dl as [|? ? D1 D2]; subst.
      constructor; [apply IH; auto; intros x Hx; apply N; right; auto|]. rewrite Forall_forall in *. intros x Hx. split; auto.
      split; intros Q; exfalso; [apply (N x); auto; right; auto | apply (N e); auto; left; auto]. }
    unfold desc in D. apply sorted_sub in D as (D1 & D2 & D3). inversion D2 as [|? ? D4 D5]; subst.
    apply sorted_app; [apply G; [auto | intros e He; apply (proj1 (A e He))] | constructor; [apply G; [auto | intros e He; apply (proj1 (B e He))]|] |].
    + rewrite Forall_forall in *. intros x Hx. split; [auto|]. split; intros Q; [exfalso; exact (proj1 (B x Hx) Q) | exact (proj2 (B x Hx))].
    + intros x z Hx Hz. split; [apply D3; auto|]. split; intros Q; [exact (proj2 (A x Hx)) | exfalso; exact (proj1 (A x Hx) Q)].
Qed.

Lemma along_In : forall y l rest a, In a (along y l rest) -> (exists e, a = (y, e) /\ In e l /\ is_up e = false) \/ In a rest.
Proof.
  intros y l rest a. induction l as [|e l IH]; cbn [along]; [intros []|]. intros H. apply in_app_or in H as [H|H].
  - destruct (is_up e) eqn:E; auto. destruct H as [<-|[]]. left. exists e. split; auto. split; auto. left; auto.
  - apply IH in H as [(e' & -> & H1 & H2)|H]; auto. left. exists e'. split; auto. split; auto. right; auto.
Qed.
Lemma climb_In : forall l a, In a (climb l) -> In (fst a) l /\ In (snd a) (rg (fst a)) /\ is_up (snd a) = false.
Proof.
  induction l as [|y l IH]; intros a H; cbn [climb] in H; [destruct H|]. destruct (upd y); [|destruct H].
  apply along_In in H as [(e & -> & H1 & H2)|H]; [split; [left; auto | auto]|]. apply IH in H as (H1 & H2). split; [right; auto | auto].
Qed.
Lemma self_In : forall y a, In a (self y) -> fst a = y /\ In (snd a) (rg y) /\ fst (snd a) <> NegInf.
Proof.
  intros y a H. unfold self in H. destruct (upd y); [|destruct H]. unfold from in H. apply in_map_iff in H as (e & <- & H). apply filter_In in H as [H _].
  apply filter_In in H as [H F]. split; auto. split; auto. cbn [snd]. unfold is_finite in F. destruct (fst e); [discriminate|]. congruence.
Qed.
Lemma sorted_map : forall (A B : Type) (R : A -> A -> Prop) (S : B -> B -> Prop) (f : A -> B) l, (forall a b, R a b -> S (f a) (f b)) -> StronglySorted R l -> StronglySorted S (map f l).
Proof.
  intros A B R S f l H L. induction L as [|a l L IH F]; cbn; constructor; auto. rewrite Forall_forall in *. intros b Hb. apply in_map_iff in Hb as (x & <- & Hx). auto.
Qed.
Lemma sorted_filter : forall (A : Type) (R : A -> A -> Prop) f l, StronglySorted R l -> StronglySorted R (filter f l).
Proof.
  intros A R f l L. induction L as [|a l L IH F]; cbn [filter]; [constructor|]. destruct (f a); auto. constructor; auto. rewrite Forall_forall in *.
  intros b Hb. apply filter_In in Hb as [Hb _]. auto.
Qed.
Lemma reg_in_order : forall y a b, reg_order a b -> in_order (y, a) (y, b).
Proof. intros y a b H. split; auto. intros _ Q. cbn in Q. congruence. Qed.
Lemma self_order : forall y, (y < next t)%nat -> StronglySorted in_order (self y).
Proof.
  intros y Hy. unfold self, from. destruct (upd y); [|constructor]. apply (sorted_map _ _ reg_order); [apply reg_in_order|]. apply sorted_filter, sorted_filter, regs_order; auto.
Qed.
Lemma climb_order : forall x l, up t x l -> (x < next t)%nat -> StronglySorted in_order (climb l).
Proof.
  intros x l H. induction H as [x Hp|x p l Hp Hu IH]; intros Hx; cbn [climb]; (destruct (upd x); [|constructor]).
  - pose proof (regs_order x Hx) as O. induction O as [|e r O IHr F]; cbn [along]; [constructor|]. apply sorted_app; auto.
    + destruct (is_up e); repeat constructor.
    + intros a b Ha Hb. destruct (is_up e); [destruct Ha|]. destruct Ha as [<-|[]]. apply along_In in Hb as [(e' & -> & H1 & _)|[]].
      apply reg_in_order. rewrite Forall_forall in F. auto.
  - specialize (IH (par_lt _ _ Hp)).
    assert (Hl : forall y, In y l -> x <> y /\ ~ above t x y /\ above t y x).
    { intros y Hy. assert (A : above t y p) by (apply (up_above t p l y W Hu); auto).
      assert (Hk : In x (kids t p)) by (apply (PzTree.wf_par t W); auto).
      assert (A' : above t y x) by (eapply above_trans; [exact A | apply above_kid; auto]).
      assert (N : x <> y) by (intros <-; exact (no_self_kid t x p W A Hk)).
      split; auto. split; auto. intros Q. apply N. eapply above_antisym; eauto. }
    pose proof (Hup x Hx) as U. rewrite Hp in U. pose proof (regs_order x Hx) as O.
    assert (Hin : forall e, In e (rg x) -> In e (rg x)) by auto. revert U O Hin. generalize (rg x) at 1 2 3 5. intros r.
    (* before the parent's entry nothing is above; after it everything has the lowest priority *)
    induction r as [|e r IHr]; intros U O Hin; [discriminate|]. cbn [along filter] in *. inversion O as [|? ? O1 O2]; subst. rewrite Forall_forall in O2.
    destruct (is_up e) eqn:E.
    + inversion U as [[Ee Un]]. subst e.
      assert (Z : forall e', In e' r -> fst e' = NegInf /\ is_up e' = false).
      { intros e' He'. destruct (O2 e' He') as (Q & _). cbn [fst] in Q. split; [destruct (fst e'); auto; exfalso; apply Q; cbn; auto|].
        destruct (is_up e') eqn:E'; auto. exfalso. assert (In e' (filter is_up r)) by (apply filter_In; auto). rewrite Un in *. contradiction. }
      assert (Ea : along x r (climb l) = map (fun e => (x, e)) r).
      { clear - Z. induction r as [|a r IHr]; auto. cbn [along map]. rewrite (proj2 (Z a (or_introl eq_refl))). cbn [app]. f_equal. apply IHr. intros; apply Z; right; auto. }
      rewrite Ea. apply sorted_app; auto; [apply (sorted_map _ _ reg_order); auto; apply reg_in_order|].
      intros a b Ha Hb. apply climb_In in Ha as (Ha & _). apply in_map_iff in Hb as (e' & <- & He'). destruct (Z e' He') as [Z1 _].
      destruct (Hl _ Ha) as (N & _ & _). split; [intros Q; cbn in Q; congruence | intros _ _; exact Z1].
    + apply sorted_app; [repeat constructor | apply IHr; auto; intros; apply Hin; right; auto|].
      intros a b [<-|[]] Hb. apply along_In in Hb as [(e' & -> & H1 & _)|Hb]; [apply reg_in_order; auto|].
      apply climb_In in Hb as (Hb & _). destruct (Hl _ Hb) as (N & N' & _). split; [intros Q; cbn in Q; congruence|]. intros Q. cbn [fst] in Q. contradiction.
Qed.

(** ** How often *)
Definition srcs_at (y : oid) (o : nat) (l : list src) : nat := length (filter (fun a : src => Nat.eqb (fst a) y && is_reg o (snd a)) l).
Lemma srcs_app : forall y o a b, srcs_at y o (a ++ b) = (srcs_at y o a + srcs_at y o b)%nat.
Proof. intros. unfold srcs_at. rewrite filter_app, app_length. auto. Qed.
Lemma srcs_none : forall y o l, (forall a, In a l -> fst a <> y) -> srcs_at y o l = 0%nat.
Proof.
  intros y o l H. unfold srcs_at. induction l as [|a l IH]; auto. cbn [filter]. destruct (Nat.eqb_spec (fst a) y) as [E|E]; [exfalso; apply (H a); auto; left; auto|].
  cbn [andb]. apply IH. intros; apply H; right; auto.
Qed.
Lemma srcs_along : forall y o l rest, (forall a, In a rest -> fst a <> y) -> srcs_at y o (along y l rest) = length (filter (is_reg o) l).
Proof.
  intros y o l rest H. induction l as [|e l IH]; auto. cbn [along filter]. rewrite srcs_app, IH. destruct (is_up e) eqn:E.
  - rewrite srcs_none by auto. unfold is_up in E. unfold is_reg at 2. destruct (snd e); try discriminate. auto.
  - unfold srcs_at. cbn [filter fst snd]. rewrite Nat.eqb_refl. cbn [andb]. destruct (is_reg o e); auto.
Qed.
Lemma srcs_along_other : forall x y o l rest, x <> y -> length (filter is_up l) = 1%nat -> srcs_at y o (along x l rest) = srcs_at y o rest.
Proof.
  intros x y o l rest N. assert (G : srcs_at y o (along x l rest) = (length (filter is_up l) * srcs_at y o rest)%nat).
  { induction l as [|e l IH]; auto. cbn [along filter]. rewrite srcs_app, IH. destruct (is_up e); cbn [length]; [lia|].
    rewrite srcs_none; auto. intros a [<-|[]]. auto. }
  intros E. rewrite G, E. lia.
Qed.
Lemma climb_count : forall x l, up t x l -> (x < next t)%nat -> (forall y, In y l -> upd y = true) -> forall y o, In y l -> srcs_at y o (climb l) = length (filter (is_reg o) (rg y)).
Proof.
  intros x l H. induction H as [x Hp|x p l Hp Hu IH]; intros Hx On y o Hy; cbn [climb]; rewrite On by (left; auto).
  - destruct Hy as [<-|[]]. apply srcs_along. intros a [].
  - assert (Hn : ~ In x l). { pose proof (up_nodup t x (x :: l) W (up_step _ _ _ _ Hp Hu)) as N. inversion N; auto. }
    destruct Hy as [<-|Hy].
    + apply srcs_along. intros a Ha E. apply climb_In in Ha as (Ha & _). congruence.
    + rewrite srcs_along_other; [apply IH; auto; [eapply par_lt; eauto | intros; apply On; right; auto] | congruence |].
      rewrite (Hup x Hx), Hp. auto.
Qed.
Lemma self_count : forall y o, (y < next t)%nat -> upd y = true -> srcs_at y o (self y) = length (filter (fun e => is_reg o e && is_finite e) (rg y)).
Proof.
  intros y o Hy U. unfold self, from. rewrite U. unfold srcs_at. induction (rg y) as [|e l IH]; auto. cbn [filter].
  destruct (is_finite e) eqn:F; [|rewrite andb_false_r; auto]. rewrite andb_true_r. cbn [filter]. destruct (is_up e) eqn:E; cbn [negb].
  - unfold is_up in E. unfold is_reg at 2. destruct (snd e); try discriminate. auto.
  - cbn [map filter fst snd]. rewrite Nat.eqb_refl. cbn [andb]. destruct (is_reg o e); cbn [length]; rewrite IH; auto.
Qed.
Lemma selfs_count : forall L y o, NoDup L -> (forall z, In z L -> (z < next t)%nat /\ upd z = true) ->
  srcs_at y o (concat (map self L)) = if omem y L then length (filter (fun e => is_reg o e && is_finite e) (rg y)) else 0%nat.
Proof.
  induction L as [|z L IH]; intros y o Nd H; auto. cbn [map concat]. rewrite srcs_app. inversion Nd; subst. rewrite IH; auto; [|intros; apply H; right; auto].
  cbn [omem existsb]. destruct (Nat.eqb_spec y z) as [->|N].
  - destruct (H z) as [H1' H2']; [left; auto|]. rewrite self_count by auto. cbn [orb]. fold (omem z L). destruct (omem z L) eqn:E; [apply omem_In in E; contradiction | lia].
  - rewrite srcs_none; [auto|]. intros a Ha. apply self_In in Ha as [-> _]. auto.
Qed.
Lemma times_srcs : forall y o l, (forall a, In a l -> is_up (snd a) = false) -> times y o (map event_of l) = srcs_at y o l.
Proof.
  intros y o l H. unfold times, srcs_at. induction l as [|a l IH]; auto. cbn [map filter]. specialize (IH (fun x Hx => H x (or_intror Hx))).
  unfold event_of at 1, is_heard at 1, is_reg at 1. destruct (snd (snd a)) eqn:E; cbn [fst snd].
  - rewrite andb_false_r. exact IH.
  - rewrite andb_false_r. exact IH.
  - destruct (Nat.eqb (fst a) y && Nat.eqb o0 o); cbn [length]; rewrite IH; auto.
Qed.

(** ** The updates among the calls *)
Definition owns (l : list src) : list oid := map fst (filter (fun a : src => match snd (snd a) with Own => true | _ => false end) l).
Lemma runs_owns : forall l, (forall a, In a l -> is_up (snd a) = false) -> runs (map event_of l) = owns l.
Proof.
  intros l H. induction l as [|a l IH]; auto. cbn [map runs]. unfold owns. cbn [filter map]. specialize (IH (fun x Hx => H x (or_intror Hx))).
  specialize (H a (or_introl eq_refl)). unfold event_of, is_up in *. destruct (snd (snd a)); try discriminate; cbn [runs map]; [f_equal|]; exact IH.
Qed.
Lemma owns_app : forall a b, owns (a ++ b) = owns a ++ owns b.
Proof. intros. unfold owns. rewrite filter_app, map_app. auto. Qed.
Lemma owns_along : forall x l rest, (forall e, In e l -> snd e <> Own) ->
  owns (along x l rest) = concat (map (fun _ => owns rest) (filter is_up l)).
Proof.
  intros x l rest. induction l as [|e l IH]; intros H; auto. cbn [along filter]. rewrite owns_app, IH by (intros; apply H; right; auto).
  destruct (is_up e) eqn:E; cbn [map concat]; auto. unfold owns at 1. cbn [filter snd]. specialize (H e (or_introl eq_refl)). destruct (snd e); auto; congruence.
Qed.
Lemma along_app : forall x a b rest, along x (a ++ b) rest = along x a rest ++ along x b rest.
Proof. intros x a b rest. induction a as [|e a IH]; auto. cbn [app along]. rewrite IH, app_assoc. auto. Qed.
Lemma owns_climb : forall x l, up t x l -> (x < next t)%nat -> owns (climb l) = filter (fun y => negb (is_leaf t y)) (takewhile upd l).
Proof.
  assert (G : forall x rest, (x < next t)%nat -> owns (along x (rg x) rest) = (if is_leaf t x then [] else [x]) ++ match par t x with Some _ => owns rest | None => [] end).
  { intros x rest Hx. pose proof (Hup x Hx) as U. pose proof (Hown x Hx) as O. destruct (is_leaf t x).
    - rewrite owns_along by exact O. rewrite U. destruct (par t x); cbn; rewrite ?app_nil_r; auto.
    - destruct O as (a & b & E & A & B). rewrite E in *. rewrite filter_app in U. change (filter is_up ((Fin (-100), Own) :: b)) with (filter is_up b) in U.
      assert (Ua : filter is_up a = []).
      { apply filter_none'. intros e He. destruct (is_up e) eqn:Q; auto. exfalso. destruct (A e He) as [_ A'].
        assert (Q' : In e (filter is_up (rg x))) by (rewrite E; apply filter_In; split; auto; apply in_or_app; auto). rewrite (Hup x Hx) in Q'. destruct (par t x); [|destruct Q'].
        destruct Q' as [<-|[]]. exact A'. }
      rewrite Ua in U. cbn [app] in U. rewrite along_app. cbn [along is_up snd app]. rewrite owns_app. rewrite owns_along by (intros; apply A; auto). rewrite Ua. cbn [map concat app].
      change ((x, (Fin (-100), Own)) :: along x b rest) with ([(x, (Fin (-100), Own))] ++ along x b rest). rewrite owns_app. rewrite (owns_along x b) by (intros; apply B; auto).
      rewrite U. destruct (par t x); cbn; rewrite ?app_nil_r; auto. }
  intros x l H. induction H as [x Hp|x p l Hp Hu IH]; intros Hx; cbn [climb takewhile]; (destruct (upd x); [|reflexivity]); rewrite G by auto; rewrite Hp; cbn [filter].
  - destruct (is_leaf t x); auto.
  - rewrite IH by (eapply par_lt; eauto). destruct (is_leaf t x); auto.
Qed.
Lemma owns_self : forall x, (x < next t)%nat -> owns (self x) = if upd x && negb (is_leaf t x) then [x] else [].
Proof.
  intros x Hx. unfold self. destruct (upd x); auto. cbn [andb]. pose proof (Hown x Hx) as O. unfold owns, from.
  assert (G : forall l, no_own l -> filter (fun a : src => match snd (snd a) with Own => true | _ => false end) (map (fun e => (x, e)) (filter (fun e => negb (is_up e)) (filter is_finite l))) = []).
  { intros l N. apply filter_none'. intros a Ha. apply in_map_iff in Ha as (e & <- & He). apply filter_In in He as [He _]. apply filter_In in He as [He _].
    specialize (N e He). cbn [snd]. destruct (snd e); auto; congruence. }
  destruct (is_leaf t x); [rewrite G; auto|]. destruct O as (a & b & -> & A & B). rewrite !filter_app, map_app, filter_app, map_app. cbn [filter is_finite fst is_up snd negb map].
  rewrite G by (intros e He; apply A; auto). rewrite G by (intros e He; apply B; auto). auto.
Qed.
Lemma owns_selfs : forall L, (forall z, In z L -> (z < next t)%nat) -> owns (concat (map self L)) = filter (fun y => upd y && negb (is_leaf t y)) L.
Proof.
  induction L as [|z L IH]; intros H; auto. cbn [map concat filter]. rewrite owns_app, owns_self, IH by (intros; apply H; cbn; auto).
  destruct (upd z && negb (is_leaf t z)); auto.
Qed.
End Events.
