(** Property C72: the log of a refinement tells its course. *)
From Coq Require Import Ascii String List Arith ZArith Reals Bool Sorted.
From Verif Require Import Base LsModel LsSpec LsCases LsCases2 ParserModel DataModel FmtModel SaveModel OutModel OutSpec FitTextSpec RunLogModel RunLogSpec RunLogFinal RunLogAny RunLogEx.
Import ListNotations.
Local Open Scope R_scope.

(** a finished refinement: data sets and phases, then for the start and for every
    iteration the free parameters, chi squared, reduced chi squared and Rw of that
    state, marked if it stagnates, and at the end those the object keeps *)
Theorem C72_course : forall lg toler fuel running c st o running' c' x', fresh running c -> log_ok_for lg o ->
  ls_refine toler fuel running c (st, o) = (running', c', x', Ok tt) ->
  exists t views, refine_log lg toler fuel running c (st, o) = Ok t /\ log_says lg o views (lines t) /\ history toler running c st o views /\
    length views = S (c_iter c') /\ exists before v, views = before ++ [v] /\ v_p v = f_p (snd x') /\ v_chisq v = f_chisq (snd x').
Proof. exact log_whole. Qed.
Print Assumptions C72_course.
Example C72_course_case : forall toler a, exists running' c' x', fresh false c_new /\ log_ok_for lg_some (flat a) /\
  ls_refine toler 101 false c_new (None, flat a) = (running', c', x', Ok tt).
Proof. exact some_case. Qed.
Example C72_course_head : start_text lg_some = Ok (concat (map ln [
  chars "*******************"; chars "Starting refinement"; chars "*******************"; chars " Dataset: 1   Phase: 1  3  "; chars " Dataset: 2   Phase: "])).
Proof. exact start_case. Qed.

(** searching it: the numbers of the iterations count up from zero, the values of chi
    squared begin with that of the given parameters, never rise, and the last two are
    that of the parameters kept *)
Theorem C72_search : forall lg toler fuel running c st o running' c' x', fresh running c -> log_ok_for lg o ->
  ls_refine toler fuel running c (st, o) = (running', c', x', Ok tt) ->
  exists t qs, refine_log lg toler fuel running c (st, o) = Ok t /\
    iter_words (lines t) = map (fun k => int_text (Z.of_nat k)) (seq 0 (S (c_iter c'))) /\
    Forall2 (fun w q => x_part 6 (Fin (dbl_of q)) w) (chisq_words (lines t)) (qs ++ [f_chisq (snd x')]) /\
    length qs = S (c_iter c') /\ (exists ds, f_theory o (f_p o) = Ok ds /\ nth_error qs 0 = Some (chisq_of ds)) /\ nth_error qs (c_iter c') = Some (f_chisq (snd x')) /\
    StronglySorted Rge qs.
Proof. exact log_search. Qed.
Print Assumptions C72_search.

(** whatever happens: every completed iteration is in the log, in order, and the closing
    line is there exactly if the refinement succeeded *)
Theorem C72_closing : forall lg toler fuel running c st o running' c' x' r, fresh running c -> log_ok_for lg o -> (0 < fuel)%nat ->
  ls_refine toler fuel running c (st, o) = (running', c', x', r) ->
  exists t m, refine_log lg toler fuel running c (st, o) = Ok t /\ iter_words (lines t) = map (fun k => int_text (Z.of_nat k)) (seq 0 m) /\
    (m = S (c_iter c') \/ (m = 0%nat /\ c_iter c' = 0%nat)) /\
    (In (chars "=========================================================================") (lines t) <-> r = Ok tt).
Proof. exact log_any. Qed.
Print Assumptions C72_closing.
Example C72_closing_case : forall toler, exists running' c' x', fresh false c_new /\ log_ok_for lg_some summed /\
  ls_refine toler 101 false c_new (None, summed) = (running', c', x', Err ErrCalculation).
Proof. exact fail_case. Qed.
