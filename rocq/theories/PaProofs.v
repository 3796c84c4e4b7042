(** Restarts in parallel: proofs. *)
From Coq Require Import List ZArith Bool Arith Lia FinFun.
From Verif Require Import RunModel RunSpec RunProofs PaModel PaSpec.
Import ListNotations.

Lemma nth_error_ext : forall A (l l' : list A), (forall i, nth_error l i = nth_error l' i) -> l = l'.
Proof.
  intros A. induction l as [|a l IH]; intros [|b l'] H; auto; try (specialize (H 0); discriminate).
  pose proof (H 0) as H0. injection H0 as ->. f_equal. apply IH. intros i. apply (H (S i)).
Qed.
Lemma outcomes_spec : forall X start rnd run n (x : X) l, job_results start rnd run n x l -> job_outcomes start rnd run n x = l.
Proof.
  intros X start rnd run n x l [L H]. unfold job_outcomes. apply nth_error_ext. intros i. destruct (Nat.lt_ge_cases i n) as [Hi|Hi].
  - rewrite H by auto. rewrite nth_error_map. assert (E : nth_error (seq 0 n) i = Some i).
    { rewrite (nth_error_nth' _ 0) by (rewrite seq_length; auto). rewrite seq_nth by auto. auto. }
    rewrite E. cbn [option_map]. unfold job_start. destruct start; auto. destruct (Nat.ltb_spec i (n - 1)); destruct (Nat.eqb_spec (S i) n); auto; lia.
  - assert (nth_error l i = None) as -> by (apply nth_error_None; lia). apply nth_error_None. rewrite map_length, seq_length. auto.
Qed.
Lemma failed_first : forall X (l : list (outcome X)), failed l = [] <-> first_failure l = None.
Proof. intros X l. induction l as [|[e y|f y] l IH]; cbn; [tauto | split; discriminate | auto]. Qed.
Lemma failed_In : forall X (l : list (outcome X)) e, In e (failed l) <-> exists y, In (Fails e y) l.
Proof.
  intros X l e. induction l as [|[a y|f y] l IH]; cbn [failed In].
  - split; [contradiction | intros (y & [])].
  - rewrite IH. split; [intros [<-|(w & Hw)]; eauto | intros (w & [Hw|Hw]); [injection Hw as -> ->; auto | eauto]].
  - rewrite IH. split; [intros (w & Hw); eauto | intros (w & [Hw|Hw]); [discriminate | eauto]].
Qed.
Lemma ended_successes : forall X (l : list (outcome X)), ended l = successes l.
Proof. intros X l. induction l as [|[a y|f y] l IH]; cbn; congruence. Qed.
Lemma ended_length : forall X (l : list (outcome X)), failed l = [] -> length (ended l) = length l.
Proof. intros X l. induction l as [|[a y|f y] l IH]; cbn; auto; discriminate. Qed.

Lemma objects_other : forall X base l i (o : nat -> option (oobj X)) q, (forall k, i <= k < i + length l -> q <> base + k) ->
  job_objects None base i l o q = o q.
Proof.
  intros X base. induction l as [|[f x] l IH]; intros i o q H; cbn [job_objects]; auto. rewrite IH.
  - cbn [job_object]. destruct (Nat.eqb_spec q (base + i)); auto. exfalso. apply (H i); auto. cbn; lia.
  - intros k Hk. apply H. cbn. lia.
Qed.
Lemma objects_own : forall X base l i (o : nat -> option (oobj X)) k f x, nth_error l k = Some (f, x) -> job_objects None base i l o (base + (i + k)) = Some (mkO f x).
Proof.
  intros X base. induction l as [|[g y] l IH]; intros i o k f x E; [destruct k; discriminate|]. cbn [job_objects]. destruct k as [|k]; cbn [nth_error] in E.
  - injection E as -> ->. rewrite objects_other by (intros; lia). cbn [job_object]. rewrite Nat.add_0_r, Nat.eqb_refl. auto.
  - replace (i + S k) with (S i + k) by lia. apply IH. auto.
Qed.
Lemma collected_inv : forall X (s : rst X) n r, length r = n -> inv s (collected None n r s) r.
Proof.
  intros X s n r L. unfold collected. split; [reflexivity|]. cbn [nobj runs obj]. split; [lia|].
  exists (map (fun i => nobj s + i) (seq 0 n)). split; auto. split; [rewrite map_length, seq_length; auto|]. split.
  - intros j Hj. apply in_map_iff in Hj as (i & <- & Hi). apply in_seq in Hi. lia.
  - intros i. rewrite nth_error_map. destruct (Nat.lt_ge_cases i n) as [Hi|Hi].
    + rewrite (nth_error_nth' (seq 0 n) 0) by (rewrite seq_length; auto). rewrite seq_nth by auto. cbn [option_map].
      destruct (nth_error r i) as [[f x]|] eqn:E; [|apply nth_error_None in E; lia]. apply (objects_own X (nobj s) r 0 (obj s) i f x E).
    + assert (nth_error (seq 0 n) i = None) as -> by (apply nth_error_None; rewrite seq_length; auto). cbn [option_map].
      assert (nth_error r i = None) as -> by (apply nth_error_None; lia). exact I.
Qed.

Lemma parallel_best : forall X start rnd run heard verbose robust n (s s' : rst X) e l,
  job_results start rnd run n (params s) l -> first_failure l = None -> Forall (fun x => number (fst x)) (successes l) ->
  parallel true None start rnd run heard false verbose robust n s = (s', e) ->
  e = None /\ done s' = done s ++ successes l /\ length (runs s') = length (runs s) + n /\ (n = 0 -> params s' = params s) /\ (n <> 0 -> best (successes l) (params s')).
Proof.
  intros X start rnd run heard verbose robust n s s' e l J Fl Nu E. pose proof (outcomes_spec _ _ _ _ _ _ _ J) as Eo. pose proof (proj1 J) as Ln.
  unfold parallel in E. rewrite Eo in E. apply failed_first in Fl. rewrite Fl in E.
  pose proof (ended_length X l Fl) as Le. rewrite ended_successes in *. set (s1 := collected None n (successes l) s) in *.
  assert (H : inv s s1 (successes l)) by (apply collected_inv; lia).
  assert (Er : runs s1 = runs s ++ map (fun i => nobj s + i) (seq 0 n)) by reflexivity.
  pose proof (ending X s s1) as End. cbv zeta in E, End.
  match type of E with ?a = _ => set (res := a) in E end.
  assert (Q : exists s2 e2, (match skipn (length (runs s)) (runs s1) with
      | [] => (mkR (params s) (runs s1) (obj s1) (nobj s1) (done s1), None)
      | _ =>
          match argmin (map (fun o => match obj s1 o with Some b => f_opt b | None => FNone end) (skipn (length (runs s)) (runs s1))) with
          | None => (s1, Some TypeError)
          | Some i =>
              match obj s1 (nth i (skipn (length (runs s)) (runs s1)) 0) with
              | Some b => (mkR (x_opt b) (runs s1) (obj s1) (nobj s1) (done s1), None)
              | None => (s1, Some TypeError)
              end
          end
      end) = (s2, e2) /\ res = (s2, match e2 with None => None | Some _ => Some NoOrder end) /\ runs s2 = runs s1).
  { unfold res. destruct (skipn _ _); [do 2 eexists; repeat split; reflexivity|].
    destruct (argmin _); [|do 2 eexists; repeat split; reflexivity]. destruct (obj s1 _); do 2 eexists; repeat split; reflexivity. }
  destruct Q as (s2 & e2 & E2 & E3 & E4). destruct (End s2 (successes l) e2 H Nu E2) as (-> & D & P0 & P1). rewrite E3 in E. injection E as <- <-.
  split; auto. split; auto. split; [rewrite E4, Er, app_length, map_length, seq_length; auto|]. split.
  - intros ->. apply P0. destruct (successes l); [auto | cbn in Le; lia].
  - intros Hn. apply P1. intros Q. rewrite Q in Le. cbn in Le. lia.
Qed.
Lemma parallel_failure : forall X shared start rnd run heard verbose robust n (s s' : rst X) e l,
  job_results start rnd run n (params s) l -> first_failure l <> None ->
  parallel true shared start rnd run heard false verbose robust n s = (s', e) ->
  s' = s /\ exists x y, e = Some (JobError x) /\ In (Fails x y) l.
Proof.
  intros X shared start rnd run heard verbose robust n s s' e l J Fl E. pose proof (outcomes_spec _ _ _ _ _ _ _ J) as Eo.
  unfold parallel in E. rewrite Eo in E. destruct (failed l) as [|a fs] eqn:Ef; [exfalso; apply Fl, failed_first; auto|].
  injection E as <- <-. split; auto. set (x := nth (heard mod length (a :: fs)) (a :: fs) 0). assert (Hx : In x (failed l)).
  { rewrite Ef. apply nth_In. apply Nat.mod_upper_bound. discriminate. }
  apply failed_In in Hx as (y & Hy). exists x, y. auto.
Qed.
Lemma parallel_stopped : forall X free shared start rnd run heard verbose robust n (s s' : rst X) e,
  parallel free shared start rnd run heard true verbose robust n s = (s', e) -> s' = s /\ (robust = true -> e = None) /\ (robust = false -> n <> 0 -> e = Some NoJobs).
Proof.
  intros X free shared start rnd run heard verbose robust n s s' e E. unfold parallel in E. injection E as <- <-. split; auto. split; [intros ->; auto|].
  intros -> Hn. cbn [orb]. destruct (Nat.eqb_spec n 0); [contradiction|auto].
Qed.
Lemma parallel_nothing : forall X shared start rnd run heard verbose robust n (s s' : rst X) e, (forall o, nobj s <= o -> obj s o = None) ->
  parallel false shared start rnd run heard false verbose robust n s = (s', e) ->
  params s' = params s /\ done s' = done s /\ (n = 0 -> s' = s /\ e = None) /\
  (n <> 0 -> e = Some NoAttribute /\ exists l, runs s' = runs s ++ l /\ NoDup l /\ (forall o, In o l -> obj s' o = None /\ nobj s <= o < nobj s') /\
    (robust = true \/ verbose = false -> length l = n) /\ (robust = false -> verbose = true -> length l = 1)).
Proof.
  intros X shared start rnd run heard verbose robust n s s' e Hn E. unfold parallel in E. destruct n as [|n].
  { injection E as <- <-. split; auto. split; auto. split; auto. intros C. contradiction C; auto. }
  injection E as <- <-. split; auto. split; auto. split; [discriminate|]. intros _. split; auto. cbn [runs obj nobj].
  set (k := if verbose && negb robust then 1 else S n). assert (Hk : k <= S n) by (unfold k; destruct (verbose && negb robust); lia).
  exists (map (fun i => nobj s + i) (seq 0 k)). split; auto. split.
  { apply FinFun.Injective_map_NoDup; [intros a b; lia | apply seq_NoDup]. }
  split. { intros o Ho. apply in_map_iff in Ho as (i & <- & Hi). apply in_seq in Hi. split; [apply Hn|]; lia. }
  rewrite map_length, seq_length. unfold k. split; [intros [-> | ->]; [rewrite andb_false_r | ]; auto | intros -> ->; auto].
Qed.
