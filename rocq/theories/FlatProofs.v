(** Proofs about names in a hierarchy. *)
From Coq Require Import String List ZArith NArith Bool Arith Lia FinFun.
From Verif Require NamesModel NamesSpec NamesProofs NamesHalt.
From Verif Require Import NpModel NpProofs IndexOpsModel PzModel PzSpec PzTree PzStruct PzLink PzIo PzInv PzPres PzTraverse.
From Verif Require Import RavelModel RavelSpec RavelProofs ConcatModel ConcatProofs FlatModel FlatSpec.
Import ListNotations.
Local Open Scope list_scope.
Local Open Scope Z_scope.

(** ** Full names *)
Lemma uppers_up : forall t f x l, up t x (x :: l) -> (length l < f)%nat -> uppers f t x = l.
Proof.
  intros t. induction f as [|f IH]; intros x l U Hf; [lia|]. cbn [uppers]. inversion U as [? E|? p l' E U']; subst.
  - rewrite E. auto.
  - rewrite E. destruct l as [|p' l]; [inversion U'|]. assert (p' = p) as -> by (inversion U'; auto). f_equal. apply IH; auto. cbn in Hf. lia.
Qed.
Lemma up_head : forall t x l, up t x l -> exists r, l = x :: r.
Proof. intros t x l U. inversion U; subst; eauto. Qed.
Lemma uppers_step : forall t x, swf t -> uppers (fuel t) t x = match par t x with Some p => p :: uppers (fuel t) t p | None => [] end.
Proof.
  intros t x W. destruct (wf_up _ W x) as [l U]. pose proof (up_length _ _ _ W U) as L. destruct (up_head _ _ _ U) as [r ->].
  rewrite (uppers_up _ _ _ _ U) by (cbn in L; lia). inversion U as [? E|? p l' E U']; subst; rewrite E; auto.
  pose proof (up_length _ _ _ W U') as L'. destruct (up_head _ _ _ U') as [r' ->]. rewrite (uppers_up _ _ _ _ U') by (cbn in L'; lia). auto.
Qed.
Lemma hname_step : forall t nm x, swf t -> hname t nm x =
  match par t x with
  | Some p => match hname t nm p, NamesModel.adjust (nm x) with Got a, Some b => Got (a ++ lit "." ++ b) | _, _ => Err NameError end
  | None => match NamesModel.adjust (nm x) with Some b => Got b | None => Err NameError end
  end.
Proof.
  intros t nm x W. unfold hname at 1. rewrite uppers_step by auto. destruct (par t x) as [p|]; cbn [map NamesModel.hierarchy_name]; auto.
  unfold hname. destruct (NamesModel.hierarchy_name true (nm p) (map nm (uppers (fuel t) t p))), (NamesModel.adjust (nm x)); auto.
Qed.
Lemma hname_full : forall t nm x h, swf t -> (hname t nm x = Got h <-> full_name t nm x h).
Proof.
  intros t nm x h W. split.
  - destruct (wf_up _ W x) as [l U]. revert h. induction U as [x E|x p l E U IH]; intros h H; rewrite hname_step, E in H by auto.
    + destruct (NamesModel.adjust (nm x)) as [b|] eqn:Ea; [|discriminate]. injection H as <-. constructor; auto.
    + destruct (hname t nm p) as [a|]; [|discriminate]. destruct (NamesModel.adjust (nm x)) as [b|] eqn:Ea; [|discriminate]. injection H as <-.
      apply full_kid with p; auto. apply (wf_par _ W); auto.
  - intros H. induction H as [x b E F|x y a b Hk H IH F]; rewrite hname_step by auto.
    + rewrite E. unfold form in F. rewrite F. auto.
    + apply (wf_par _ W) in Hk. rewrite Hk, IH. unfold form in F. rewrite F. auto.
Qed.
Lemma full_fun : forall t nm x h h', swf t -> full_name t nm x h -> full_name t nm x h' -> h = h'.
Proof. intros t nm x h h' W H H'. apply hname_full in H, H'; auto. congruence. Qed.
Lemma together_up : forall t x p y, swf t -> In y (kids t p) -> together t x y -> together t x p.
Proof.
  intros t x p y W Hk (r & H1 & H2). destruct (Nat.eq_dec r y) as [->|Ne].
  - exists p. apply In_nth_error in Hk as [i Hi]. split.
    + apply (above_trans _ _ y); auto. exists (sum_sizes t (firstn i (kids t p)) + 0), 1%nat. eapply below_kid; eauto. constructor.
    + exists 0, 0%nat. constructor.
  - exists r. split; auto. destruct H2 as (o & n & B). destruct (below_par _ (wf_par _ W) _ _ _ _ B Ne) as (p' & o' & n' & E & B' & _).
    apply (wf_par _ W) in Hk. assert (p' = p) as -> by congruence. exists o', n'. auto.
Qed.
Lemma named_full : forall t nm x, swf t -> named t nm x -> forall y, together t x y -> exists h, full_name t nm y h.
Proof.
  intros t nm x W N y T. destruct (wf_up _ W y) as [l U]. revert T. induction U as [y E|y p l E U IH]; intros T; destruct (N y T) as [b F].
  - exists b. constructor; auto.
  - apply (wf_par _ W) in E. destruct IH as [a A]; [apply (together_up t x p y); auto|]. exists (a ++ lit "." ++ b). apply full_kid with p; auto.
Qed.
(** The top of a hierarchy: what follows its name. *)
Lemma path_full : forall t nm r y a, swf t -> par t r = None -> forall h, form nm r h -> path_name t nm r y a -> full_name t nm y (h ++ lit "." ++ a).
Proof.
  intros t nm r y a W E h F H. induction H as [y b Hk Fy|y z a b H IH Hk Fz].
  - apply full_kid with r; auto. constructor; auto.
  - replace (h ++ lit "." ++ a ++ lit "." ++ b) with ((h ++ lit "." ++ a) ++ lit "." ++ b) by (rewrite <- !app_assoc; auto). apply full_kid with y; auto.
Qed.
Lemma full_path : forall t nm r y h, swf t -> par t r = None -> part t r y -> r <> y -> full_name t nm y h ->
  exists b a, form nm r b /\ path_name t nm r y a /\ h = b ++ lit "." ++ a.
Proof.
  intros t nm r y h W E P Ne H. revert P Ne. induction H as [y b Ey F|x y a b Hk H IH F]; intros (o & n & B) Ne.
  - destruct (below_par _ (wf_par _ W) _ _ _ _ B Ne) as (p & _ & _ & Ep & _). congruence.
  - destruct (below_par _ (wf_par _ W) _ _ _ _ B Ne) as (p & o' & n' & Ep & B' & _). pose proof Hk as Hk'. apply (wf_par _ W) in Hk'. assert (p = x) as -> by congruence.
    destruct (Nat.eq_dec r x) as [->|Nx].
    + inversion H as [? ? Ex Fx|]; subst.
      * exists a, b. split; auto. split; auto. constructor; auto.
      * match goal with K : In x (kids t _) |- _ => apply (wf_par _ W) in K end. congruence.
    + destruct IH as (c & d & Fc & Pd & ->); auto; [exists o', n'; auto|]. exists c, (d ++ lit "." ++ b). split; auto. split; [apply path_step with x; auto|].
      rewrite <- !app_assoc. auto.
Qed.
(** ** Characters *)
Definition plain (s : str) : Prop := forall a, In a s -> a <> 46%N /\ a <> 91%N.
Lemma form_plain : forall nm x b, form nm x b -> plain b.
Proof.
  intros nm x b H. apply NamesProofs.adjust_shape in H as (c & (a & r & -> & Ha & Hr) & E).
  assert (P : forall z, In z (a :: r) -> z <> 46%N /\ z <> 91%N).
  { intros z [<-|Hz]; [unfold NamesSpec.letter in Ha; lia|]. rewrite Forall_forall in Hr. specialize (Hr z Hz). unfold NamesSpec.letter, NamesSpec.digit in Hr. lia. }
  intros z Hz. destruct E as [->| ->]; auto. apply in_app_or in Hz as [Hz|[<-|[]]]; auto. lia.
Qed.
Lemma after_dot_plain : forall b a, plain b -> after_dot (b ++ lit "." ++ a) = a.
Proof.
  intros b a H. induction b as [|c b IH]; auto. cbn [app after_dot]. destruct (N.eqb_spec c 46) as [E|_]; [destruct (H c (or_introl eq_refl)); contradiction|].
  apply IH. intros z Hz. apply H. right; auto.
Qed.
Lemma split_at : forall (k : N) a a' r r', (forall c, In c a -> c <> k) -> (forall c, In c a' -> c <> k) -> a ++ k :: r = a' ++ k :: r' -> a = a' /\ r = r'.
Proof.
  intros k a. induction a as [|c a IH]; intros [|c' a'] r r' H H' E; cbn in E.
  - injection E as E. auto.
  - injection E as E1 E2. subst c'. exfalso. apply (H' k); auto. left; auto.
  - injection E as E1 E2. subst c. exfalso. apply (H k); auto. left; auto.
  - injection E as E1 E2. subst c'. destruct (IH a' r r') as [-> ->]; auto; intros; [apply H | apply H']; right; auto.
Qed.
Lemma split_last : forall (k : N) a a' b b', (forall c, In c b -> c <> k) -> (forall c, In c b' -> c <> k) -> a ++ k :: b = a' ++ k :: b' -> a = a' /\ b = b'.
Proof.
  intros k a a' b b' H H' E. assert (R : rev b ++ k :: rev a = rev b' ++ k :: rev a').
  { apply (f_equal (@rev N)) in E. rewrite !rev_app_distr in E. cbn [rev] in E. rewrite <- !app_assoc in E. exact E. }
  apply split_at in R as [R1 R2]; [|intros c Hc; apply H, in_rev; auto | intros c Hc; apply H', in_rev; auto].
  split; [rewrite <- (rev_involutive a), R2 | rewrite <- (rev_involutive b), R1]; apply rev_involutive.
Qed.
Lemma full_no_bracket : forall t nm x h, full_name t nm x h -> forall c, In c h -> c <> 91%N.
Proof.
  intros t nm x h H. induction H as [x b E F|x y a b Hk H IH F]; intros c Hc.
  - apply (form_plain _ _ _ F); auto.
  - apply in_app_or in Hc as [Hc|Hc]; auto. cbn in Hc. destruct Hc as [<-|Hc]; [discriminate|]. apply (form_plain _ _ _ F); auto.
Qed.
(** An object below another has a longer full name. *)
Lemma full_prefix : forall t nm x y o n, swf t -> below t x y o n -> x <> y -> forall a h, full_name t nm x a -> full_name t nm y h -> exists r, h = a ++ lit "." ++ r.
Proof.
  intros t nm x y o n W. revert y o. induction n as [m IH] using lt_wf_ind. intros y o B Ne a h Ha Hh.
  destruct (below_par _ (wf_par _ W) _ _ _ _ B Ne) as (p & o' & n' & Ep & B' & ->).
  inversion Hh as [? ? E F|p' ? a' b Hk Hp F]; subst; [congruence|]. apply (wf_par _ W) in Hk. assert (p' = p) as -> by congruence.
  destruct (Nat.eq_dec x p) as [->|Nx].
  - exists b. f_equal. apply (full_fun t nm p); auto.
  - destruct (IH n' ltac:(lia) p o' B' Nx a a' Ha Hp) as [r ->]. exists (r ++ lit "." ++ b). rewrite <- !app_assoc. auto.
Qed.
(** Different objects below an object have different full names. *)
Lemma full_inj : forall t nm r y z h, swf t -> told_apart t nm r -> part t r y -> part t r z -> full_name t nm y h -> full_name t nm z h -> y = z.
Proof.
  intros t nm r y z h W Ta Py Pz Hy. revert z Py Pz.
  assert (Self : forall u v a, part t u v -> full_name t nm u a -> full_name t nm v a -> u = v).
  { intros u v a (o & n & B) Hu Hv. destruct (Nat.eq_dec u v) as [|Ne]; auto. destruct (full_prefix t nm u v o n W B Ne a a Hu Hv) as [q E].
    exfalso. apply (f_equal (@length N)) in E. rewrite !app_length in E. cbn in E. lia. }
  assert (Up : forall u v, In v (kids t u) -> part t r v -> r = v \/ part t r u).
  { intros u v Hu (o & n & B). destruct (Nat.eq_dec r v) as [->|Ne]; auto. right.
    destruct (below_par _ (wf_par _ W) _ _ _ _ B Ne) as (p & o' & n' & Ep & B' & _). apply (wf_par _ W) in Hu. assert (p = u) as -> by congruence. exists o', n'; auto. }
  assert (Tp : forall w, par t w = None -> part t r w -> r = w).
  { intros w Ew (o & n & B). destruct (Nat.eq_dec r w) as [|Ne]; auto. destruct (below_par _ (wf_par _ W) _ _ _ _ B Ne) as (p & _ & _ & Ep & _). congruence. }
  induction Hy as [y b E F|x y a b Hk Hx IH F]; intros z Py Pz Hz.
  - assert (r = y) as <- by auto. apply (Self r z b); auto. constructor; auto.
  - inversion Hz as [? ? Ez Fz|x' ? a' b' Hk' Hx' Fz Ey Ez]; subst.
    + assert (r = z) as <- by auto. symmetry. apply (Self r y (a ++ lit "." ++ b)); auto. apply full_kid with x; auto.
    + destruct (Up x y Hk Py) as [->|Px]; [apply (Self y z (a ++ lit "." ++ b)); auto; apply full_kid with x; auto|].
      destruct (Up x' z Hk' Pz) as [->|Px']; [symmetry; apply (Self z y (a ++ lit "." ++ b)); auto; apply full_kid with x; auto|].
      change (a' ++ lit "." ++ b') with (a' ++ 46%N :: b') in Ez. change (a ++ lit "." ++ b) with (a ++ 46%N :: b) in Ez.
      apply split_last in Ez as [-> ->]; [|intros c Hc; apply (form_plain _ _ _ Fz); auto | intros c Hc; apply (form_plain _ _ _ F); auto].
      assert (x = x') as <- by (apply IH; auto). apply (Ta x y z b); auto.
Qed.
