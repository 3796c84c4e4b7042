(** Concrete methods that set parameters. *)
From Coq Require Import List Bool Arith Lia.
From Verif Require Import ReModel ReSpec ReProofs.
Import ListNotations.

(** A root 10 with Param 2 and two parts, 5 with Param 0 and 6 with Param 1. *)
Definition ex_shape : shape := mkS
  (fun p => match p with 0 => [5; 10] | 1 => [6; 10] | 2 => [10] | _ => [] end)
  (fun x => match x with 5 => [5; 10] | 6 => [6; 10] | 10 => [5; 6; 10] | _ => [x] end)
  (fun x => match x with 5 => [0] | 6 => [1] | 10 => [0; 1; 2] | _ => [] end).
Lemma ex_sound : sound ex_shape.
Proof.
  intros p x. cbn [ex_shape above below]. split; intros H.
  - destruct p as [|[|[|p]]]; cbn in H; repeat (destruct H as [<-|H]); try contradiction; cbn; auto.
  - do 11 (destruct x as [|x]; [cbn in H; repeat (destruct H as [<-|H]); try contradiction; cbn; auto|]). destruct H.
Qed.
Definition ex_world : @world nat := mkW (fun p => p + 1) (fun x => map (fun p => p + 1) (below ex_shape x)) true.
(** 5 sets Param 1 to the double of its own. *)
Definition ex_body (x : nat) : list (@stmt nat) := match x with 5 => [Derive; Write (fun w => Some (1, 2 * val w 0))] | _ => [Derive] end.
Lemma ex_ranked : ranked ex_shape ex_body.
Proof.
  exists (fun x => if Nat.eqb x 5 then 1 else 0). intros x y [(q & (g & w & v & Hg & E) & Hy)|(b & Hb & _)].
  - destruct (Nat.eqb_spec x 5); subst.
    + cbn in Hg. destruct Hg as [?|[Q|[]]]; [discriminate|]. injection Q as <-. injection E as <- <-. cbn in Hy. destruct Hy as [<-|[<-|[]]]; cbn; lia.
    + assert (ex_body x = [Derive]) by (do 6 (destruct x as [|x]; [try reflexivity; contradiction|]); reflexivity). rewrite H in Hg. destruct Hg as [?|[]]; discriminate.
  - do 6 (destruct x as [|x]; [cbn in Hb; repeat (destruct Hb as [Hb|Hb]; try discriminate); contradiction|]). destruct Hb as [Hb|[]]; discriminate.
Qed.
Lemma ex_deriving : deriving ex_body.
Proof.
  intros x. split; [do 6 (destruct x as [|x]; [cbn; auto|]); cbn; auto|]. intros b Hb. do 6 (destruct x as [|x]; [cbn in Hb; repeat (destruct Hb as [Hb|Hb]; try discriminate); contradiction|]).
  destruct Hb as [Hb|[]]; discriminate.
Qed.
Lemma ex_ends : sound ex_shape /\ ranked ex_shape ex_body /\ deriving ex_body /\ on ex_world = true /\ (forall x, up_to_date ex_shape ex_world x) /\
  match exec ex_shape ex_body 5 (AWrite 0 7) ex_world with
  | Some w => ends ex_shape ex_body (AWrite 0 7) ex_world w /\ map (val w) [0; 1; 2] = [7; 14; 3] /\ stored w 10 = [7; 14; 3] /\ stored w 6 = [14]
  | None => False
  end.
Proof.
  split; [exact ex_sound|]. split; [exact ex_ranked|]. split; [exact ex_deriving|]. split; [reflexivity|]. split; [intros x; reflexivity|].
  destruct (exec ex_shape ex_body 5 (AWrite 0 7) ex_world) as [w|] eqn:E; [|vm_compute in E; discriminate]. split; [eapply ends_by; eauto|].
  vm_compute in E. injection E as <-. vm_compute. auto.
Qed.
(** The root keeps Param 0 at most 5. *)
Definition clamp (x : nat) : list (@stmt nat) := match x with 10 => [Write (fun w => if 5 <? val w 0 then Some (0, 5) else None); Derive] | _ => [Derive] end.
Lemma clamp_progressing : progressing ex_shape clamp.
Proof.
  exists (fun w => if 5 <? val w 0 then 1 else 0). intros x w. split; [|split; [cbn; auto|]].
  - intros b Hb. do 11 (destruct x as [|x]; [cbn in Hb; repeat (destruct Hb as [Hb|Hb]; try discriminate); contradiction|]). destruct Hb as [Hb|[]]; discriminate.
  - intros g q v Hg E. assert (Q : g = (fun w : world => if 5 <? val w 0 then Some (0, 5) else None)).
    { do 10 (destruct x as [|x]; [cbn in Hg; destruct Hg as [?|[]]; discriminate|]). destruct x as [|x]; cbn in Hg; [destruct Hg as [Q|[?|[]]]; [injection Q; auto | discriminate] | destruct Hg as [?|[]]; discriminate]. }
    subst g. cbn beta in E. destruct (5 <? val w 0) eqn:L; [|discriminate]. injection E as <- <-. cbn. lia.
Qed.
Lemma ex_clamp : progressing ex_shape clamp /\ match exec ex_shape clamp 5 (AWrite 0 7) ex_world with Some w => val w 0 = 5 /\ stored w 10 = [5; 2; 3] /\ stored w 5 = [5] | None => False end.
Proof. split; [exact clamp_progressing|]. vm_compute. auto. Qed.
(** 5 normalizes its own Param; with and without switching updates off meanwhile. *)
Definition own (x : nat) : list (@stmt nat) := match x with 5 => [Write (fun w => Some (0, 1)); Derive] | _ => [Derive] end.
Definition guarded (x : nat) : list (@stmt nat) := match x with 5 => [Switch false; Write (fun w => Some (0, 1)); Switch true; Derive] | _ => [Derive] end.
Definition is5 (x : nat) : bool := Nat.eqb x 5.
Lemma own_restless : restless ex_shape own is5.
Proof.
  split.
  - intros x Hx. apply Nat.eqb_eq in Hx as ->. right. split; [cbn; intros [?|[?|[]]]; discriminate|]. eexists. split; [left; reflexivity|]. intros w. exists 0, 1. split; auto. exists 5. cbn. auto.
  - intros x Hx. apply Nat.eqb_neq in Hx. do 6 (destruct x as [|x]; [try contradiction; cbn; intros [?|[]]; discriminate|]). cbn. intros [?|[]]; discriminate.
Qed.
Lemma guarded_restless : restless ex_shape guarded is5.
Proof.
  split.
  - intros x Hx. apply Nat.eqb_eq in Hx as ->. left. split; [cbn; auto|]. exists 5. cbn. auto.
  - intros x Hx. apply Nat.eqb_neq in Hx. do 6 (destruct x as [|x]; [try contradiction; cbn; intros [?|[]]; discriminate|]). cbn. intros [?|[]]; discriminate.
Qed.
Lemma ex_never : restless ex_shape own is5 /\ on ex_world = true /\ (exists y, In y (above ex_shape 0) /\ is5 y = true) /\ never ex_shape own (AWrite 0 7) ex_world /\
  restless ex_shape guarded is5 /\ never ex_shape guarded (AWrite 0 7) ex_world.
Proof.
  assert (A : exists y, In y (above ex_shape 0) /\ is5 y = true) by (exists 5; cbn; auto).
  split; [exact own_restless|]. split; [reflexivity|]. split; [exact A|]. split; [apply (never_final _ _ is5); [exact own_restless | split; auto]|].
  split; [exact guarded_restless|]. apply (never_final _ _ is5); [exact guarded_restless | split; auto].
Qed.
Lemma own_refuted : exists (h : shape) (body : nat -> list (@stmt nat)) p v w, sound h /\ (forall x, In Derive (body x)) /\ on w = true /\ (forall x, up_to_date h w x) /\
  (forall x q, may_write body x q -> In q (below h x)) /\ never h body (AWrite p v) w.
Proof.
  exists ex_shape, own, 0, 7, ex_world. split; [exact ex_sound|]. split; [intros x; do 6 (destruct x as [|x]; [cbn; auto|]); cbn; auto|]. split; [reflexivity|]. split; [intros x; reflexivity|].
  split; [|exact (proj1 (proj2 (proj2 (proj2 ex_never))))]. intros x q (g & w & v & Hg & E).
  do 5 (destruct x as [|x]; [cbn in Hg; destruct Hg as [?|[]]; discriminate|]). destruct x as [|x]; cbn in Hg; [|destruct Hg as [?|[]]; discriminate].
  destruct Hg as [Q|[?|[]]]; [|discriminate]. injection Q as <-. injection E as <- <-. cbn. auto.
Qed.
