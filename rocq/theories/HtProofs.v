(** Proofs about the HTML. *)
From Coq Require Import String List ZArith NArith Bool Arith Lia.
From Verif Require NamesModel NamesSpec NamesProofs.
From Verif Require Import NpModel NpProofs IndexOpsModel IndexOpsSpec IndexOpsProofs PzModel PzSpec PzTree PzStruct PzLink PzWalk PzMem PzIo PzInv PzConn PzFix PzLinkMem PzPres PzUnlink PzTraverse PzNotify PzNew PzCmd PzInit PzCons PzVal PzOpt PzRandom PzHist PzOrder PzGrad PzKeep PzFinal.
From Verif Require Import RavelModel RavelSpec RavelProofs ConcatModel ConcatSpec ConcatProofs ConcatFinal FlatModel FlatSpec FlatProofs FlatLabels FlatFinal FlatFind PrModel PrSpec PrProofs PrFinal PrParts PrLast HtModel HtSpec.
Import ListNotations.
Local Open Scope list_scope.
Local Open Scope Z_scope.

(** ** Reading *)
Lemma plain_nil : plain [].
Proof. intros a []. Qed.
Lemma plain_app : forall a b, plain a -> plain b -> plain (a ++ b).
Proof. intros a b A B c Hc. apply in_app_or in Hc as [Hc|Hc]; auto. Qed.
Definition okc (a : N) : bool := negb (N.eqb a 60) && negb (N.eqb a 62) && negb (N.eqb a 38).
Lemma okc_ok : forall a, okc a = true -> a <> 60%N /\ a <> 62%N /\ a <> 38%N.
Proof. intros a H. unfold okc in H. apply andb_prop in H as [H H3]. apply andb_prop in H as [H1 H2]. split; [|split]; intros ->; discriminate. Qed.
Lemma plainb : forall l, forallb okc l = true -> plain l.
Proof. intros l H a Ha. rewrite forallb_forall in H. apply okc_ok; auto. Qed.
Lemma plain_blank : forall l, blank l -> plain l.
Proof. intros l H a Ha. rewrite (H a Ha). split; [|split]; discriminate. Qed.
Lemma plain_join : forall sep l, plain sep -> (forall a, In a l -> plain a) -> plain (join sep l).
Proof.
  intros sep l Hs. induction l as [|a [|b l] IH]; intros H; [apply plain_nil | apply H; left; auto|].
  change (join sep (a :: b :: l)) with (a ++ sep ++ join sep (b :: l)). apply plain_app; [apply H; left; auto|]. apply plain_app; auto. apply IH. intros; apply H; right; auto.
Qed.
Lemma tags_app : forall a ga b gb, tags a ga -> tags b gb -> tags (a ++ b) (ga ++ gb).
Proof.
  intros a ga b gb A B. induction A as [l Hl|l g r gs Hl Hg A IH].
  - destruct B as [l' Hl'|l' g r gs Hl' Hg B]; cbn [app]; [constructor; apply plain_app; auto|]. rewrite app_assoc. constructor; auto. apply plain_app; auto.
  - replace ((l ++ [60%N] ++ g ++ [62%N] ++ r) ++ b) with (l ++ [60%N] ++ g ++ [62%N] ++ r ++ b) by (rewrite <- !app_assoc; reflexivity). apply (tags_more l g (r ++ b)); auto.
Qed.
Lemma tags_plain : forall a, plain a -> tags a [].
Proof. intros; constructor; auto. Qed.
(** A reader, from the end. *)
Definition step (a : N) (q : option (option str * list str)) : option (option str * list str) :=
  match q with
  | Some (None, gs) => if N.eqb a 62 then Some (Some [], gs) else if okc a then q else None
  | Some (Some g, gs) => if N.eqb a 60 then Some (None, g :: gs) else if okc a then Some (Some (a :: g), gs) else None
  | None => None
  end.
Definition rd (l : str) := fold_right step (Some (None, [])) l.
Lemma rd_gen : forall l q, rd l = Some q ->
  match q with (None, gs) => tags l gs | (Some g, gs) => exists r, l = g ++ [62%N] ++ r /\ plain g /\ tags r gs end.
Proof.
  induction l as [|a l IH]; intros q E; [injection E as <-; constructor; apply plain_nil|]. cbn [rd fold_right] in E. fold (rd l) in E.
  destruct (rd l) as [[[g|] gs]|]; [| |discriminate]; cbn [step] in E; specialize (IH _ eq_refl); cbn beta iota in IH.
  - destruct IH as (r & -> & Hg & Ht). destruct (N.eqb_spec a 60) as [->|].
    + injection E as <-. apply (tags_more [] g r gs); auto. apply plain_nil.
    + destruct (okc a) eqn:Ea; [|discriminate]. injection E as <-. exists r. split; auto. split; auto. intros b [<-|Hb]; auto. apply okc_ok; auto.
  - destruct (N.eqb_spec a 62) as [->|].
    + injection E as <-. exists l. split; auto. split; auto. apply plain_nil.
    + destruct (okc a) eqn:Ea; [|discriminate]. injection E as <-. apply (tags_app [a] []); auto. constructor. intros b [<-|[]]. apply okc_ok; auto.
Qed.
Lemma rd_ok : forall l gs, rd l = Some (None, gs) -> tags l gs.
Proof. intros l gs E. apply (rd_gen _ _ E). Qed.
(** Tags are read in one way only. *)
Lemma tags_rd : forall l gs, tags l gs -> rd l = Some (None, gs).
Proof.
  assert (P : forall l r gs, plain l -> rd r = Some (None, gs) -> rd (l ++ r) = Some (None, gs)).
  { intros l r gs Hl E. induction l as [|a l IH]; cbn [app]; auto. cbn [rd fold_right]. fold (rd (l ++ r)). rewrite IH by (intros b Hb; apply Hl; right; auto). cbn [step].
    destruct (Hl a (or_introl eq_refl)) as (H1 & H2 & H3). apply N.eqb_neq in H1, H2, H3. unfold okc. rewrite H1, H2, H3. auto. }
  assert (G : forall g r gs, plain g -> rd r = Some (None, gs) -> rd (g ++ [62%N] ++ r) = Some (Some g, gs)).
  { intros g r gs Hl E. induction g as [|a l IH]; cbn [app rd fold_right]; fold (rd r). { rewrite E. auto. }
    change (fold_right step (Some (None, [])) (l ++ 62%N :: r)) with (rd (l ++ [62%N] ++ r)). rewrite IH by (intros b Hb; apply Hl; right; auto). cbn [step].
    destruct (Hl a (or_introl eq_refl)) as (H1 & H2 & H3). apply N.eqb_neq in H1, H2, H3. unfold okc. rewrite H1, H2, H3. auto. }
  intros l gs T. induction T as [l Hl|l g r gs Hl Hg T IH]; [rewrite <- (app_nil_r l); apply P; auto|]. apply P; auto. cbn [app rd fold_right].
  change (fold_right step (Some (None, [])) (g ++ 62%N :: r)) with (rd (g ++ [62%N] ++ r)). rewrite (G g r gs); auto.
Qed.

(** ** Closing *)
Fixpoint startsb (n g : str) : bool := match n, g with [], _ => true | a :: n', b :: g' => N.eqb a b && startsb n' g' | _ :: _, [] => false end.
Fixpoint sameb (n g : str) : bool := match n, g with [], [] => true | a :: n', b :: g' => N.eqb a b && sameb n' g' | _, _ => false end.
Lemma startsb_ok : forall n g, startsb n g = true <-> exists a, g = n ++ a.
Proof.
  induction n as [|a n IH]; intros g; cbn [startsb]; [split; auto; intros _; exists g; auto|]. destruct g as [|b g].
  - split; [discriminate|]. intros [c E]. discriminate.
  - rewrite andb_true_iff, IH, N.eqb_eq. split; [intros [-> [c ->]]; exists c; auto|]. intros [c E]. injection E as -> ->. split; eauto.
Qed.
Lemma sameb_ok : forall n g, sameb n g = true <-> g = n.
Proof. induction n as [|a n IH]; intros [|b g]; cbn [sameb]; try (split; congruence). rewrite andb_true_iff, IH, N.eqb_eq. split; [intros [-> ->]; auto | intros E; injection E as -> ->; auto]. Qed.
Definition opensb (n g : str) : bool := sameb n g || startsb (n ++ lit " ") g.
Lemma opensb_ok : forall n g, opensb n g = true <-> opens n g.
Proof.
  intros n g. unfold opensb, opens. rewrite orb_true_iff, sameb_ok, startsb_ok. split; (intros [H|[a H]]; [left; auto | right; exists a; rewrite H, <- ?app_assoc; auto]).
Qed.
Definition count (n : str) (l : list str) : nat := length (filter (opensb n) l).
Lemma count_app : forall n a b, count n (a ++ b) = (count n a + count n b)%nat.
Proof. intros. unfold count. rewrite filter_app, app_length. auto. Qed.
Lemma kept_filter : forall (A : Type) (P : A -> Prop) (f : A -> bool), (forall a, f a = true <-> P a) -> forall l, kept_of P l (filter f l).
Proof. intros A P f H. induction l as [|a l IH]; cbn [filter]; [constructor|]. destruct (f a) eqn:E; constructor; auto; [apply H; auto|]. intros Q. apply H in Q. congruence. Qed.
Lemma times_count : forall n l, times (opens n) l (count n l).
Proof. intros n l. exists (filter (opensb n) l). split; auto. apply kept_filter. apply opensb_ok. Qed.
Definition ends (l : list str) : nat := length (filter (sameb (lit "/table")) l).
Lemma known_table : forall n g, In n elements_known -> opens n g -> (count (lit "table") [g] + ends [lit "/" ++ n] = ends [lit "/" ++ n] + ends [lit "/" ++ n] /\ count (lit "table") [lit "/" ++ n] = 0 /\ ends [g] = 0)%nat.
Proof. intros n g K O. cbn in K. destruct K as [<-|[<-|[<-|[<-|[<-|[<-|[<-|[]]]]]]]]; (destruct O as [->|[a ->]]; vm_compute; auto). Qed.
Lemma closed_count : forall l, closed l -> count (lit "table") l = ends l.
Proof.
  intros l C. induction C as [| |a b A IHa B IHb|n g l K O C IH]; auto.
  - rewrite count_app, IHa, IHb. unfold ends. rewrite filter_app, app_length. auto.
  - destruct (known_table n g K O) as (E1 & E2 & E3). change (g :: l ++ [lit "/" ++ n]) with ([g] ++ l ++ [lit "/" ++ n]). rewrite !count_app. unfold ends in *. rewrite !filter_app, !app_length. lia.
Qed.
(** Closing of lists without variables. *)
Lemma one : forall n g l r, In n elements_known -> opens n g -> closed l -> closed r -> closed (g :: l ++ (lit "/" ++ n) :: r).
Proof. intros n g l r K O C R. change (g :: l ++ (lit "/" ++ n) :: r) with ((g :: l) ++ [lit "/" ++ n] ++ r). rewrite app_assoc. apply closed_app; auto. apply closed_elem; auto. Qed.

