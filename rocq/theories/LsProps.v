(** C09-C15, C52-C55: the refinement. *)
From Coq Require Import List Arith Reals Bool Lia Lra.
From Verif Require Import Base RSum GaussModel GaussSpec LsModel LsSpec LsProof CtlProof LsStep LsRun LsRaw LsMore LsCases LsCases2.
Import ListNotations.
Local Open Scope R_scope.

(** * C09 *)

(** whatever the steps compute, as long as none raises, a refinement ends after
    the first number n of iterations for which 100 were made, or n >= 4 and the
    last three stagnated; with the final call this is n+1 calls, 5 to 101 *)
Theorem C09_refinement_ends :
  forall (St : Type) (setup : St -> St * outcome unit) (iterate : St -> St * outcome bool) (finish : St -> St * outcome unit),
  (forall s, exists b, snd (iterate s) = Ok b) -> (forall s, snd (finish s) = Ok tt) ->
  forall running c s, (running = false \/ c_iter c = 0%nat) -> snd (setup s) = Ok tt ->
  let s0 := fst (setup s) in
  exists n, (4 <= n <= 100)%nat /\ ends iterate s0 n /\ (forall m, (m < n)%nat -> ~ ends iterate s0 m) /\
  forall fuel, match refine setup iterate finish fuel running c s with
    | (running', c', s', Ok _) => (n < fuel)%nat /\ running' = false /\ c_iter c' = n /\ s' = fst (finish (after iterate s0 n))
    | (_, _, _, NoFuel) => (fuel <= n)%nat
    | _ => False
    end.
Proof. exact @refine_stops. Qed.
Print Assumptions C09_refinement_ends.

(** also when steps may raise, and also when continuing an interrupted
    refinement, at most 101 calls are made *)
Theorem C09_at_most_101_calls :
  forall (St : Type) (setup : St -> St * outcome unit) (iterate : St -> St * outcome bool) (finish : St -> St * outcome unit),
  (forall s, snd (setup s) <> NoFuel) -> (forall s, snd (iterate s) <> NoFuel) -> (forall s, snd (finish s) <> NoFuel) ->
  forall running c s fuel, (c_iter c <= 100)%nat -> (101 <= fuel)%nat ->
  snd (refine setup iterate finish fuel running c s) <> NoFuel.
Proof. exact @refine_terminates. Qed.
Print Assumptions C09_at_most_101_calls.

(** steps that stagnate from the seventh on: ten iterations are made, the state
    being the number of iterations *)
Example C09_case :
  let step := (fun n : nat => (S n, @Ok bool (8 <=? S n)%nat)) in
  ends step 0%nat 10 /\ (forall m, (m < 10)%nat -> ~ ends step 0%nat m) /\
  refine (fun n : nat => (n, Ok tt)) step (fun n : nat => (n, Ok tt)) 101 false (mkC 0 1) 0%nat = (false, mkC 10 3, 10%nat, Ok tt).
Proof.
  split; [|split].
  - right. repeat split; auto; lia.
  - intros m H [->|(A & B & C & D)]; [lia|]. do 10 (destruct m as [|m]; [cbn in *; lia || discriminate|]). lia.
  - reflexivity.
Qed.

(** * C10 *)

(** after any number of steps of a refinement, the next one leaves parameters and
    chi-squared as they are or lowers chi-squared; the reported value always is
    that of the reported parameters *)
Theorem C10_each_step_improves :
  forall toler running c st o n running1 c1 x1 running2 c2 x2 r, fresh running c ->
  ls_steps toler (S n) running c (st, o) = Some (running1, c1, x1) ->
  ls_step toler running1 c1 x1 = (running2, c2, x2, r) ->
  fixed_kept o (snd x2) /\
  (r = Ok false -> improves (snd x1) (snd x2) /\ chisq_is_own (snd x1) /\ chisq_is_own (snd x2)) /\
  (r = Ok true -> f_p (snd x2) = f_p (snd x1) /\ f_chisq (snd x2) = f_chisq (snd x1) /\ chisq_is_own (snd x2)).
Proof. exact steps_observed. Qed.
Print Assumptions C10_each_step_improves.

(** a complete refinement never ends worse than it started *)
Theorem C10_refinement_improves :
  forall toler fuel running c st o, fresh running c ->
  let '(running', c', x', r) := ls_refine toler fuel running c (st, o) in
  same_session o (snd x') /\ fixed_kept o (snd x') /\
  (r = Ok tt -> exists ds0, f_theory o (f_p o) = Ok ds0 /\ final_report o ds0 (snd x') /\ running' = false).
Proof. exact refine_fresh. Qed.
Print Assumptions C10_refinement_improves.

(** a new object whose refinement runs to the end *)
Example C10_case : forall toler a, fresh false c_new /\ snd (ls_refine toler 101 false c_new (None, flat a)) = Ok tt.
Proof.
  intros toler a. split. left; reflexivity. pose proof (flat_refine toler a false c_new None (or_introl eq_refl)) as H.
  destruct (ls_refine toler 101 false c_new (None, flat a)) as [[[r1 c1] x1] q1]. apply H.
Qed.
Example C10_case_steps : forall toler, exists s1 o1 s2 o2,
  ls_steps toler 1 false c_new (None, par) = Some (true, mkC 1 0, (Some s1, o1)) /\
  (0 <= toler -> ls_step toler true (mkC 1 0) (Some s1, o1) = (true, mkC 2 1, (Some s2, o2), Ok false)).
Proof.
  intros toler. destruct (par_first toler None) as (s1 & o1 & E1 & W1). destruct (Rle_dec 0 toler) as [TO|N].
  - destruct (par_next toler (mkC 1 0) s1 o1 (/ 100) TO ltac:(cbn; lia) eq_refl ltac:(lra) W1) as (s2 & o2 & E2 & W2).
    exists s1, o1, s2, o2. cbn [ls_steps]. rewrite E1. auto.
  - exists s1, o1, s1, o1. cbn [ls_steps]. rewrite E1. split; auto. intros; lra.
Qed.

(** * C11 *)

(** no refinement, whatever its outcome, moves a fixed parameter or one beyond
    the last *)
Theorem C11_fixed_not_moved :
  forall toler fuel running c st o, fresh running c -> forall l, ~ free o l ->
  f_p (snd (snd (fst (ls_refine toler fuel running c (st, o))))) l = f_p o l.
Proof.
  intros toler fuel running c st o F l NF. pose proof (refine_fresh toler fuel running c st o F) as H.
  destruct (ls_refine toler fuel running c (st, o)) as [[[r1 c1] x1] q1]. destruct H as (_ & H & _). apply H. exact NF.
Qed.
Print Assumptions C11_fixed_not_moved.

(** a free and a fixed parameter *)
Example C11_case : free (edit fix_2 summed) 1 /\ ~ free (edit fix_2 summed) 2 /\ (2 <= f_ma (edit fix_2 summed))%nat.
Proof. unfold free. split; [|split]; cbn; [split; [lia|reflexivity]|intros [_ H]; discriminate|lia]. Qed.

(** but a parameter fixed between two calls of refine_step is moved, from 0 to
    more than 0.99, by the second one *)
Theorem C11_fixed_between_steps_refuted :
  forall toler, exists w w',
  w_calls toler (mkW false None (fun _ => (c_new, two))) [WStep 0; WEdit 0 fix_1] = Some w /\
  w_calls toler w [WStep 0] = Some w' /\
  f_ia (snd (w_obj w 0)) 1%nat = false /\ f_p (snd (w_obj w 0)) 1%nat = 0 /\ 99 / 100 < f_p (snd (w_obj w' 0)) 1%nat.
Proof. exact fixed_moves. Qed.
Print Assumptions C11_fixed_between_steps_refuted.

(** * C12 *)

(** any sequence of edits and complete refinements on any number of objects
    leaves each object as if its own calls had been made alone *)
Theorem C12_complete_refinements_isolated :
  forall toler i ops w v, (forall op, In op ops -> no_step op) -> w_run w = false -> w_run v = false ->
  same_view (snd (w_obj w i)) (snd (w_obj v i)) ->
  forall w', w_calls toler w ops = Some w' ->
  exists v', w_calls toler v (filter (fun op => (wop_obj op =? i)%nat) ops) = Some v' /\
    same_view (snd (w_obj w' i)) (snd (w_obj v' i)) /\ w_run w' = false.
Proof. exact isolated. Qed.
Print Assumptions C12_complete_refinements_isolated.

(** two objects refined in turn *)
Example C12_case : forall toler, exists w', w_calls toler (two_worlds 2 1) [WRefine 0; WRefine 1; WRefine 0] = Some w'.
Proof.
  intros toler. unfold w_calls, w_call, two_worlds. cbn [w_obj w_run w_st Nat.eqb].
  pose proof (flat_refine toler 2 false c_new None (or_introl eq_refl)) as R.
  pose proof (refine_fresh toler 101 false c_new None (flat 2) (or_introl eq_refl)) as RF.
  destruct (ls_refine toler 101 false c_new (None, flat 2)) as [[[r1 c1] [st1 o1]] q1]. destruct R as (-> & -> & _ & _ & SN). cbn [fst] in SN. subst st1.
  cbn [w_obj w_put Nat.eqb w_run w_st].
  pose proof (flat_refine toler 1 false c_new None (or_introl eq_refl)) as R.
  destruct (ls_refine toler 101 false c_new (None, flat 1)) as [[[r2 c2] [st2 o2]] q2]. destruct R as (-> & -> & _ & _ & SN). cbn [fst] in SN. subst st2.
  cbn [w_obj w_put Nat.eqb w_run w_st]. destruct RF as ((Q1 & Q2 & Q3 & Q4) & _). cbn [snd] in Q1, Q2, Q3, Q4.
  assert (RG : regular o1). { eapply regular_session; [|apply (flat_regular 2)]. repeat split; auto. }
  pose proof (refine_verdict toler 101 false c1 None o1 (or_introl eq_refl) Q4 RG ltac:(lia)) as V.
  destruct (ls_refine toler 101 false c1 (None, o1)) as [[[r3 c3] [st3 o3]] q3].
  destruct V as (ds & TH & [(-> & _)|(-> & DP & _)]). eexists; reflexivity.
  exfalso. rewrite Q3 in TH. cbn in TH. inversion TH; subst. unfold dependent, free in DP. rewrite Q1, Q2 in DP.
  eapply (flat_independent 2); eauto.
Qed.

(** with refine_step in turn on two objects, the first one reports the
    chi-squared 2 of the second one, its own being 8 *)
Theorem C12_interleaved_steps_refuted :
  forall toler, exists w ds, w_calls toler (two_worlds 2 1) [WStep 0; WStep 1; WStep 0] = Some w /\
    f_theory (snd (w_obj w 0)) (f_p (snd (w_obj w 0))) = Ok ds /\ chisq_of ds = 8 /\ f_chisq (snd (w_obj w 0)) = 2.
Proof.
  intros toler. destruct (interleaved toler 2 1 ltac:(lra)) as (w & E & C & P & T). exists w, [flat_ds 2 0]. split; auto.
  rewrite T, C. cbn [f_theory flat blank]. rewrite P, flat_chisq. repeat split; auto; lra.
Qed.
Print Assumptions C12_interleaved_steps_refuted.

(** when object A was refined and the set-up of a refinement of B then failed,
    refining A again uses the released static arrays *)
Theorem C12_failed_other_object_refuted :
  forall toler a th, exists w0 w1 w2,
  w0 = mkW false None (fun i => (c_new, if (i =? 0)%nat then flat a else broken th)) /\
  w_call toler w0 (WRefine 0) = (w1, Ok tt) /\ w_call toler w1 (WRefine 1) = (w2, Err ErrConstraint) /\
  snd (w_call toler w2 (WRefine 0)) = UB.
Proof.
  intros toler a th. destruct (released toler a th) as (w1 & w2 & H). eexists _, w1, w2. split. reflexivity. exact H.
Qed.
Print Assumptions C12_failed_other_object_refuted.

(** * C13 *)

(** a refinement whose set-up or first iteration raised leaves nothing behind:
    after any edits, the next one has the result of a refinement of a new object
    with the same content *)
Theorem C13_first_failure_harmless :
  forall toler running c st o running' c' st' o' e, fresh running c ->
  ls_step toler running c (st, o) = (running', c', (st', o'), Err e) ->
  forall o1 o2, same_start o1 o2 ->
  let '(r1, k1, x1, q1) := ls_refine toler 101 running' c' (st', o1) in
  let '(r2, k2, x2, q2) := ls_refine toler 101 false c_new (None, o2) in
  r1 = r2 /\ k1 = k2 /\ q1 = q2 /\ same_view (snd x1) (snd x2) /\
  (q1 = Ok tt -> forall l n, (1 <= l <= f_ma o1)%nat -> (1 <= n <= f_ma o1)%nat -> f_covar (snd x2) l n = f_covar (snd x1) l n).
Proof.
  intros toler running c st o running' c' st' o' e F E o1 o2 SA.
  exact (refine_independent toler 101 running' c' false c_new st' o1 None o2 (first_failure_fresh _ _ _ _ _ _ _ _ _ _ F E ltac:(discriminate)) (or_introl eq_refl) SA ltac:(lia)).
Qed.
Print Assumptions C13_first_failure_harmless.

(** such a failure *)
Example C13_case : forall toler th, exists o', ls_step toler false c_new (None, broken th) = (true, mkC 0 0, (None, o'), Err ErrConstraint).
Proof. intros. eexists. reflexivity. Qed.

(** in general a refinement that starts fresh depends on the parameters, flags
    and model only *)
Theorem C13_fresh_start :
  forall toler fuel running c running2 c2 st o st2 o2,
  fresh running c -> fresh running2 c2 -> same_start o o2 -> (0 < fuel)%nat ->
  let '(r1, k1, x1, q1) := ls_refine toler fuel running c (st, o) in
  let '(r2, k2, x2, q2) := ls_refine toler fuel running2 c2 (st2, o2) in
  r1 = r2 /\ k1 = k2 /\ q1 = q2 /\ same_view (snd x1) (snd x2) /\
  (q1 = Ok tt -> forall l n, (1 <= l <= f_ma o)%nat -> (1 <= n <= f_ma o)%nat -> f_covar (snd x2) l n = f_covar (snd x1) l n).
Proof. exact refine_independent. Qed.
Print Assumptions C13_fresh_start.

Example C13_fresh_case : same_start par (set_alpha (set_covar (set_chisq par 5) (fun _ _ => 7)) (fun r c => INR (r + c))).
Proof. repeat split. Qed.

(** but when the final step fails because two parameters depend on each other,
    every later refinement fails in the same way, whatever is fixed, freed, set
    or constrained in between, although the first of those edits alone makes a
    new object refinable *)
Theorem C13_final_failure_refuted :
  forall toler, exists c x,
  ls_refine toler 101 false c_new (None, summed) = (true, c, x, Err ErrCalculation) /\
  (forall gs, (forall g, In g gs -> keeps_number g) ->
     Forall (fun r => r = Err ErrCalculation) (attempts toler true c x (fix_2 :: gs))) /\
  snd (ls_refine toler 101 false c_new (None, edit fix_2 summed)) = Ok tt.
Proof.
  intros toler. destruct (summed_fails toler) as (c & x & E & S). exists c, x. split; [exact E|]. split.
  - intros gs K. apply stuck_attempts; auto. intros g [<-|I]; auto. intros e. reflexivity.
  - exact (summed_fixed_succeeds toler).
Qed.
Print Assumptions C13_final_failure_refuted.

(** and a step that raises in the middle of a refinement moves the parameters to
    where the model cannot be evaluated, each further call moving them on *)
Theorem C13_failed_step_moves_parameters_refuted :
  forall toler, exists c0 x0 c1 x1 c2 x2 c3 x3,
  ls_step toler false c0 x0 = (true, c1, x1, Ok false) /\
  ls_step toler true c1 x1 = (true, c2, x2, Err ErrStructure) /\
  ls_step toler true c2 x2 = (true, c3, x3, Err ErrStructure) /\
  f_theory (snd x2) (f_p (snd x2)) = Err ErrStructure /\
  f_p (snd x1) 1%nat < f_p (snd x2) 1%nat < f_p (snd x3) 1%nat.
Proof.
  intros toler. destruct (lim_first toler) as (s1 & o1 & p1 & E1 & W1 & P1).
  destruct (lim_fail toler (mkC 1 0) s1 o1 p1 ltac:(cbn; lia) eq_refl W1 ltac:(lra)) as (s2 & o2 & p2 & E2 & W2 & P2).
  destruct (lim_fail toler (mkC 1 0) s2 o2 p2 ltac:(cbn; lia) eq_refl W2 ltac:(lra)) as (s3 & o3 & p3 & E3 & W3 & P3).
  eexists _, _, _, _, _, _, _, _. split. exact E1. split. exact E2. split. exact E3. cbn [snd].
  destruct W1 as (_ & A1 & _). destruct W2 as ((_ & _ & T & _) & A2 & _). destruct W3 as (_ & A3 & _). rewrite A1, A2, A3, T. split.
  - cbn [f_theory limited blank]. rewrite A2. destruct (Rlt_dec (9995 / 1000) p2); auto. lra.
  - lra.
Qed.
Print Assumptions C13_failed_step_moves_parameters_refuted.

(** * C14 *)

(** the fitted points are nfmin to nfmax, both included, and entry k of the
    cumulative chi-squared sums the first k+1 of them *)
Theorem C14_fitted_points :
  forall d, (forall i, In i (points d) <-> (d_lo d <= i <= d_hi d)%nat) /\
  ((d_lo d <= d_hi d)%nat -> length (points d) = (d_hi d - d_lo d + 1)%nat) /\
  forall k, (k < length (points d))%nat ->
    nth k (cum_chisq d) 0 = lsum (fun i => d_w d i * ((d_obs d i - d_pdf d i) * (d_obs d i - d_pdf d i))) (seq (d_lo d) (S k)).
Proof. intros d. exact (conj (points_range d) (conj (points_length d) (cum_entry d))). Qed.
Print Assumptions C14_fitted_points.

(** cumulative chi-squared of one data set: one entry per fitted point,
    non-decreasing, the last being the data set's share of chi-squared *)
Theorem C14_cumulative :
  forall d, (forall i, In i (points d) -> 0 <= d_w d i) ->
  length (cum_chisq d) = length (points d) /\
  (forall j k, (j <= k < length (points d))%nat -> nth j (cum_chisq d) 0 <= nth k (cum_chisq d) 0) /\
  back0 (cum_chisq d) = ds_chisq d.
Proof. intros d W. exact (conj (cum_length d) (conj (cum_mono d W) (cum_last d))). Qed.
Print Assumptions C14_cumulative.

(** one evaluation records exactly these, and returns their total *)
Theorem C14_evaluation :
  forall o a al be, match mrqcof o a al be with
  | (o', _, _, Ok c) => exists ds, f_theory o a = Ok ds /\ f_cum o' = map cum_chisq ds /\ c = lsum back0 (f_cum o')
  | _ => forall ds, f_theory o a <> Ok ds
  end.
Proof. exact mrqcof_cum. Qed.
Print Assumptions C14_evaluation.

(** getcrw is non-decreasing and ends at getdsrw *)
Theorem C14_crw :
  forall total d, (forall i, In i (points d) -> 0 <= d_w d i) ->
  (forall j k, (j <= k < length (points d))%nat -> nth j (getcrw total (cum_chisq d)) 0 <= nth k (getcrw total (cum_chisq d)) 0) /\
  (points d <> [] -> getdsrw total (cum_chisq d) = nth (length (points d) - 1) (getcrw total (cum_chisq d)) 0) /\
  (0 < total -> getdsrw total (cum_chisq d) = sqrt (ds_chisq d / total)).
Proof. exact crw_spec. Qed.
Print Assumptions C14_crw.

(** with the normalisation used by the program the squares of the data sets' Rw
    add up to the square of the total Rw *)
Theorem C14_rw_adds_up :
  forall ds, weights_ok ds -> 0 < lsum (fun d => lsum (fun i => d_w d i * (d_obs d i * d_obs d i)) (points d)) ds ->
  lsum (fun d => getdsrw (total_wsqobs ds) (cum_chisq d) * getdsrw (total_wsqobs ds) (cum_chisq d)) ds =
  chisq_of ds / lsum (fun d => lsum (fun i => d_w d i * (d_obs d i * d_obs d i)) (points d)) ds.
Proof. exact rw_adds_up. Qed.
Print Assumptions C14_rw_adds_up.

(** two data sets of two points *)
Example C14_case : weights_ok [flat_ds 2 1; flat_ds 1 0] /\ 0 < lsum (fun d => lsum (fun i => d_w d i * (d_obs d i * d_obs d i)) (points d)) [flat_ds 2 1; flat_ds 1 0] /\
  cum_chisq (flat_ds 2 1) = [1 * ((2 - 1) * (2 - 1)) + 0; 1 * ((2 - 1) * (2 - 1)) + (1 * ((- 2 - 1) * (- 2 - 1)) + 0)].
Proof.
  split; [|split].
  - intros d i [<-|[<-|[]]] _; cbn; lra.
  - simpl. lra.
  - reflexivity.
Qed.

(** * C15 *)

(** the recorded cumulative residuals are those of the last trial: of the
    reported parameters when that trial was accepted, otherwise of a rejected
    trial that was no better; the final call does not change them *)
Theorem C15_cumulative_of_last_trial :
  forall toler running c st o n running1 c1 x1 running2 c2 x2 r, fresh running c ->
  ls_steps toler (S n) running c (st, o) = Some (running1, c1, x1) ->
  ls_step toler running1 c1 x1 = (running2, c2, x2, r) ->
  (r = Ok false -> exists t dst, f_theory o t = Ok dst /\ f_cum (snd x2) = map cum_chisq dst /\
    ((f_p (snd x2) = t /\ f_chisq (snd x2) = chisq_of dst /\ f_chisq (snd x2) < f_chisq (snd x1)) \/
     (f_p (snd x2) = f_p (snd x1) /\ f_chisq (snd x2) = f_chisq (snd x1) /\ f_chisq (snd x1) <= chisq_of dst))) /\
  (r = Ok true -> f_cum (snd x2) = f_cum (snd x1)).
Proof. exact step_cum_only. Qed.
Print Assumptions C15_cumulative_of_last_trial.

(** a complete refinement after which getdsrw is at least 1.9 times what it
    should be: y = p*p + 1 fitted to a single zero from p = 0.1 *)
Theorem C15_reported_rw_refuted :
  forall toler, 0 <= toler -> exists c o ds,
  ls_refine toler 101 false c_new (None, par) = (false, c, (None, o), Ok tt) /\
  f_theory o (f_p o) = Ok ds /\ f_cum o <> map cum_chisq ds /\
  forall total, 0 < total -> getdsrw total (nth 0 (f_cum o) []) >= 19 / 10 * getdsrw total (nth 0 (map cum_chisq ds) []).
Proof.
  intros toler TO. destruct (par_refine toler TO) as (c & o & E & TH & t & T1 & CU). exists c, o, [par_ds (/ 10)].
  split; auto. split; auto. rewrite CU. exact (par_reports t T1).
Qed.
Print Assumptions C15_reported_rw_refuted.

(** * C52 *)

(** the covariance reported by a complete refinement is the inverse of the
    curvature matrix at the final parameters, zero for fixed parameters *)
Theorem C52_covariance_of_final_parameters :
  forall toler fuel running c st o, fresh running c ->
  let '(running', c', x', r) := ls_refine toler fuel running c (st, o) in
  r = Ok tt -> exists ds, f_theory o (f_p (snd x')) = Ok ds /\ cov_spec o ds (f_covar (snd x')).
Proof. exact refine_covariance. Qed.
Print Assumptions C52_covariance_of_final_parameters.

(** it is determined by this *)
Theorem C52_covariance_unique :
  forall o ds V W, cov_spec o ds V -> cov_spec o ds W ->
  forall l n, (1 <= l <= f_ma o)%nat -> (1 <= n <= f_ma o)%nat -> V l n = W l n.
Proof. exact cov_unique. Qed.
Print Assumptions C52_covariance_unique.

Example C52_case : cov_spec (flat 2) [flat_ds 2 0] (fun _ _ => / 2).
Proof.
  split.
  - intros l n _ _ N. exfalso. apply N. split; reflexivity.
  - intros l n [Hl _] [Hn _]. cbn in Hl, Hn. assert (l = 1 /\ n = 1)%nat as [-> ->] by lia.
    change (f_ia (flat 2)) with (fun _ : nat => true). change (f_ma (flat 2)) with 1%nat. rewrite !sum_free_1, !flat_curv. unfold identity. cbn. lra.
Qed.

(** * C53 *)

(** when the model can be evaluated, weights are not negative and every free
    parameter influences some weighted point, a refinement succeeds unless some
    combination of free parameters has no influence at the final parameters, in
    which case it raises calculationError *)
Theorem C53_refinement_succeeds :
  forall toler fuel running c st o, fresh running c -> f_setup o = Ok tt -> regular o -> (101 <= fuel)%nat ->
  let '(running', c', x', r) := ls_refine toler fuel running c (st, o) in
  exists ds, f_theory o (f_p (snd x')) = Ok ds /\
    ((r = Ok tt /\ ~ dependent o ds) \/ (r = Err ErrCalculation /\ dependent o ds)).
Proof. exact refine_success. Qed.
Print Assumptions C53_refinement_succeeds.

Example C53_case : regular (flat 2) /\ (forall p, ~ dependent (flat 2) [flat_ds 2 p]) /\ regular summed.
Proof. split. apply flat_regular. split. apply flat_independent. apply summed_regular. Qed.

(** the damped equations of a step fail exactly for a free parameter without
    influence *)
Theorem C53_step_singular :
  forall ia ma ds lam, weights_ok ds -> 0 < lam ->
  (damped_singular ia ma ds lam <-> exists l, (1 <= l <= ma)%nat /\ ia l = true /\ no_influence ds l).
Proof. exact damped_singular_influence. Qed.
Print Assumptions C53_step_singular.

(** * C54 *)

(** every step tries the parameters p + d, d zero for fixed ones, where d solves
    the normal equations with damped diagonal *)
Theorem C54_trial :
  forall toler running c st o n running1 c1 x1 running2 c2 x2, fresh running c ->
  ls_steps toler (S n) running c (st, o) = Some (running1, c1, x1) ->
  ls_step toler running1 c1 x1 = (running2, c2, x2, Ok false) ->
  exists ds lam t dst, f_theory o (f_p (snd x1)) = Ok ds /\ 0 < lam /\ (forall l, ~ free o l -> t l = f_p (snd x1) l) /\
    damped (f_ia o) (f_ma o) ds lam (fun l => t l - f_p (snd x1) l) (gradient ds) /\
    f_theory o t = Ok dst /\
    (f_p (snd x2) = t <-> chisq_of dst < chisq_of ds \/ t = f_p (snd x1)) /\
    (f_p (snd x2) = f_p (snd x1) <-> chisq_of ds <= chisq_of dst).
Proof. exact step_trial. Qed.
Print Assumptions C54_trial.

(** and d points downhill: to first order chi-squared does not increase along it *)
Theorem C54_downhill :
  forall ia ma dir dss lam, smooth_along ia ma dir dss -> weights_ok (dss 0) -> 0 <= lam ->
  damped ia ma (dss 0) lam dir (gradient (dss 0)) ->
  exists slope, derivable_pt_lim (fun s => chisq_of (dss s)) 0 slope /\ slope <= 0.
Proof.
  intros ia ma dir dss lam SM W LP D. exists (- 2 * sum_free ia ma (fun l => gradient (dss 0) l * dir l)). split.
  - exact (chisq_derivative ia ma dir dss SM).
  - pose proof (step_downhill ia ma (dss 0) lam dir W LP D). lra.
Qed.
Print Assumptions C54_downhill.

Example C54_case : let dss := fun s => [flat_ds 2 (3 + s * (-3))] in
  smooth_along (fun _ => true) 1 (fun _ => -3) dss /\ damped (fun _ => true) 1 (dss 0) 0 (fun _ => -3) (gradient (dss 0)).
Proof.
  split.
  - exists [fun s => flat_ds 2 (3 + s * (-3))]. split. reflexivity. intros d [<-|[]]. split. intros s. repeat split.
    intros i _. rewrite sum_free_1. unfold dpar. cbn [flat_ds d_fb d_pdf]. replace (1 * -3) with (0 + (1 * -3 + 0 * 0)) by ring.
    apply (derivable_pt_lim_plus (fun _ => 3) (fun s => s * -3)). apply derivable_pt_lim_const.
    apply (derivable_pt_lim_mult (fun s => s) (fun _ => -3)). apply derivable_pt_lim_id. apply derivable_pt_lim_const.
  - intros l Hl _. rewrite sum_free_1, !flat_curv, flat_grad. lra.
Qed.

(** * C55 *)

(** a refinement that starts fresh never leaves its arrays *)
Theorem C55_no_overrun :
  forall toler fuel running c st o, fresh running c -> never_ub o -> snd (ls_refine toler fuel running c (st, o)) <> UB.
Proof. exact refine_safe. Qed.
Print Assumptions C55_no_overrun.

Example C55_case : never_ub (flat 2) /\ never_ub par /\ never_ub two.
Proof. repeat split; intros; discriminate. Qed.

(** a parameter added between two steps makes the second one overrun them *)
Theorem C55_added_between_steps_refuted :
  forall toler, exists w, w_calls toler (mkW false None (fun _ => (c_new, flat 2))) [WStep 0; WEdit 0 add_par] = Some w /\
  snd (w_call toler w (WStep 0)) = UB /\ never_ub (snd (w_obj w 0)).
Proof. exact added_overruns. Qed.
Print Assumptions C55_added_between_steps_refuted.
