(** Property C71: the parameters, counts, numbers and correlations can be read off the
    characters of the results text, the parameters also off the log. *)
From Coq Require Import Ascii String List Arith ZArith Reals Bool Sorted.
From Verif Require Import Base ParamModel ParamSpec MatrixModel ParserModel DataModel FmtModel ScatModel SaveModel ReportModel ReportSpec OutModel OutSpec FitTextModel FitTextSpec FitTextFinal FitTextEx.
Import ListNotations.
Local Open Scope R_scope.

(** the three counts; nothing follows them when no parameter is refined *)
Theorem C71_counts : forall h f redchisq rw l m, fd_tab f = prun ptab_init h -> sized f -> all_ok h f redchisq rw ->
  NoDup l -> NoDup m -> (forall a, In a l <-> flag_of a (rev h) = Some true) -> (forall a, In a m <-> flag_of a (rev h) = Some false) ->
  exists t body rest, fit_text f redchisq rw = Ok t /\ parts dashes (lines t) = body :: rest /\
    counts_say body (fd_nvar f) (length l) (length m) /\ (rest = [] <-> l = []).
Proof. exact text_counts. Qed.
Print Assumptions C71_counts.
Example C71_counts_case : NoDup [20; 10; 7; 1001]%Z /\ NoDup [5]%Z /\
  (forall a, In a [20; 10; 7; 1001]%Z <-> flag_of a (rev tx_h) = Some true) /\ (forall a, In a [5]%Z <-> flag_of a (rev tx_h) = Some false).
Proof. exact tx_flags. Qed.

(** every parameter once, by ascending id, three in a row, with its value and its
    deviation; the number of iterations, the reduced chi squared and Rw *)
Theorem C71_parameters : forall h f redchisq rw a0, fd_tab f = prun ptab_init h -> sized f -> all_ok h f redchisq rw -> fd_iter f <> 0%Z -> flag_of a0 (rev h) = Some true ->
  exists t body tail ps, fit_text f redchisq rw = Ok t /\ parts dashes (lines t) = [body; [chars " REFINEMENT INFORMATION:"]; tail] /\
    rows_of 3 (after (chars " Refinement parameters :") body) /\ Forall2 par_shown (all_entries (after (chars " Refinement parameters :") body)) ps /\
    numbers_say tail (fd_iter f) redchisq rw /\
    StronglySorted Z.lt (map (fun x => fst (fst x)) ps) /\
    forall a v d, In (a, v, d) ps <->
      last_set a (rev h) = Some v /\
      exists i, nth_error (pid (fd_tab f)) i = Some a /\
        (flag_of a (rev h) = Some true /\ nth_error (fd_dp f) i = Some d \/ flag_of a (rev h) = Some false /\ d = Fin d_zero).
Proof. exact text_pars. Qed.
Print Assumptions C71_parameters.
Example C71_case : fd_tab tx_f = prun ptab_init tx_h /\ sized tx_f /\ all_ok tx_h tx_f (real (12 / 10)) (real (1 / 10)) /\ fd_iter tx_f <> 0%Z /\
  flag_of 10 (rev tx_h) = Some true /\ flag_of 5 (rev tx_h) = Some false /\ last_set 7 (rev tx_h) = Some (Inf true).
Proof. exact tx_case. Qed.

(** a line for each correlation of two refined parameters above 0.8 in size, with the
    smaller id first, or a line that there are none *)
Theorem C71_correlations : forall h f redchisq rw a0 (cov : nat -> nat -> R) (sd : nat -> R),
  fd_tab f = prun ptab_init h -> sized f -> all_ok h f redchisq rw -> fd_iter f <> 0%Z -> flag_of a0 (rev h) = Some true ->
  let n := length (pid (fd_tab f)) in
  (forall i j, (i < n)%nat -> (j < n)%nat -> entry (fd_cov f) i j = Some (real (cov i j))) ->
  (forall i, (i < n)%nat -> nth_error (fd_dp f) i = Some (real (sd i))) ->
  (forall i, nth_error (pfree (fd_tab f)) i = Some true -> 0 < sd i) ->
  exists t body tail cs, fit_text f redchisq rw = Ok t /\ parts dashes (lines t) = [body; [chars " REFINEMENT INFORMATION:"]; tail] /\
    corrs_say (after (chars " Correlations greater than 0.8 :") tail) cs /\ NoDup (map fst cs) /\
    forall a b c, In (a, b, c) cs <->
      (a < b)%Z /\ flag_of a (rev h) = Some true /\ flag_of b (rev h) = Some true /\
      exists i j, nth_error (pid (fd_tab f)) i = Some a /\ nth_error (pid (fd_tab f)) j = Some b /\
        Rabs (cov i j) > 8 / 10 * (sd i * sd j) /\ c = real (cov i j / (sd i * sd j)).
Proof. exact text_corr. Qed.
Print Assumptions C71_correlations.
Example C71_correlations_case :
  (forall i j, (i < 5)%nat -> (j < 5)%nat -> entry (fd_cov tx_f) i j = Some (real (tx_cov i j))) /\
  (forall i, (i < 5)%nat -> nth_error (fd_dp tx_f) i = Some (real 2)) /\ Rabs (tx_cov 0 1) > 8 / 10 * (2 * 2).
Proof. exact tx_corr_case. Qed.

(** in the whole results text these parts come after the sections of the phases and
    data sets *)
Theorem C71_whole : forall h f redchisq rw version ps ds, fd_tab f = prun ptab_init h -> sized f -> all_ok h f redchisq rw -> fd_iter f <> 0%Z ->
  one_line version -> Forall phase_ok ps -> Forall data_ok ds ->
  exists t ft head pss dss, whole_text f version ps ds redchisq rw = Ok t /\ fit_text f redchisq rw = Ok ft /\
    parts dashes (lines t) = head :: concat (map section_parts (pss ++ dss)) ++ [chars " PARAMETER INFORMATION :"] :: parts dashes (lines ft ++ [" "%char :: repeat "="%char 78]) /\
    Forall2 phase_says ps pss /\ Forall2 data_says ds dss.
Proof. exact text_whole. Qed.
Print Assumptions C71_whole.

(** the log of a refinement shows the refined parameters only, each once by ascending
    id with six decimals, four in a row *)
Theorem C71_log : forall h f, fd_tab f = prun ptab_init h -> (forall a v, last_set a (rev h) = Some v -> x_ok v) ->
  exists t xs, fit_out f = Ok t /\
    rows_of 4 (block (chars " Refinement parameters :") (lines t)) /\ Forall2 log_shown (all_entries (block (chars " Refinement parameters :") (lines t))) xs /\
    StronglySorted Z.lt (map fst xs) /\
    forall a v, In (a, v) xs <-> flag_of a (rev h) = Some true /\ last_set a (rev h) = Some v.
Proof. exact log_ok. Qed.
Print Assumptions C71_log.
