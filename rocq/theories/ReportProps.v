(** Properties C61 and C62: parameters, correlations and selected atoms in the
    results text. *)
From Coq Require Import Ascii String List Arith ZArith Reals Bool Sorted.
From Verif Require Import Base ParamModel ParamSpec MatrixModel ParserModel DataModel FmtModel ScatModel SaveModel ReportModel ReportSpec ReportFinal ReportEx.
Import ListNotations.
Local Open Scope R_scope.

(** the counts; the other parts are there unless no parameter is refined *)
Theorem C61_counts :
  forall (T : Type) (h : list (pop T)) f l m, fd_tab f = prun ptab_init h -> sized f -> fd_iter f <> 0%Z ->
  NoDup l -> NoDup m -> (forall a, In a l <-> flag_of a (rev h) = Some true) -> (forall a, In a m <-> flag_of a (rev h) = Some false) ->
  exists r, save_res f = Ok r /\ rp_constraints r = fd_nvar f /\ rp_refined r = length l /\ rp_fixed r = length m /\
    (rp_body r = None <-> l = []).
Proof. exact @report_counts. Qed.
Print Assumptions C61_counts.

(** every parameter once, by ascending id, with its value and its deviation, which is
    zero for a fixed one *)
Theorem C61_parameters :
  forall (T : Type) (h : list (pop T)) f a0, fd_tab f = prun ptab_init h -> sized f -> fd_iter f <> 0%Z -> flag_of a0 (rev h) = Some true ->
  exists r ps it cs, save_res f = Ok r /\ rp_body r = Some (ps, it, cs) /\ it = fd_iter f /\
    StronglySorted Z.lt (map (fun x => fst (fst x)) ps) /\
    forall a v d, In (a, v, d) ps <->
      last_set a (rev h) = Some v /\
      exists i, nth_error (pid (fd_tab f)) i = Some a /\
        (flag_of a (rev h) = Some true /\ nth_error (fd_dp f) i = Some d \/ flag_of a (rev h) = Some false /\ d = Fin d_zero).
Proof. exact @report_pars. Qed.
Print Assumptions C61_parameters.
Example C61_case : fd_tab (ex_f ex_dp) = prun ptab_init ex_h /\ sized (ex_f ex_dp) /\ fd_iter (ex_f ex_dp) <> 0%Z /\ flag_of 10 (rev ex_h) = Some true /\ flag_of 5 (rev ex_h) = Some false /\
  (forall a, In a [10; 20]%Z <-> flag_of a (rev ex_h) = Some true) /\ (forall a, In a [5]%Z <-> flag_of a (rev ex_h) = Some false).
Proof. exact ex_case. Qed.

(** the correlations listed are those of two refined parameters above 0.8 in size,
    each pair once with the smaller id first *)
Theorem C61_correlations :
  forall (T : Type) (h : list (pop T)) f a0 (cov : nat -> nat -> R) (sd : nat -> R),
  fd_tab f = prun ptab_init h -> sized f -> fd_iter f <> 0%Z -> flag_of a0 (rev h) = Some true ->
  let n := length (pid (fd_tab f)) in
  (forall i j, (i < n)%nat -> (j < n)%nat -> entry (fd_cov f) i j = Some (real (cov i j))) ->
  (forall i, (i < n)%nat -> nth_error (fd_dp f) i = Some (real (sd i))) ->
  (forall i, nth_error (pfree (fd_tab f)) i = Some true -> 0 < sd i) ->
  exists r ps it cs, save_res f = Ok r /\ rp_body r = Some (ps, it, cs) /\ NoDup (map fst cs) /\
    forall a b c, In (a, b, c) cs <->
      (a < b)%Z /\ flag_of a (rev h) = Some true /\ flag_of b (rev h) = Some true /\
      exists i j, nth_error (pid (fd_tab f)) i = Some a /\ nth_error (pid (fd_tab f)) j = Some b /\
        Rabs (cov i j) > 8 / 10 * (sd i * sd j) /\ c = real (cov i j / (sd i * sd j)).
Proof. exact @report_corr. Qed.
Print Assumptions C61_correlations.
Example C61_correlations_case :
  (forall i j, (i < 3)%nat -> (j < 3)%nat -> entry (fd_cov (ex_f ex_dp)) i j = Some (real (ex_cov i j))) /\
  (forall i, (i < 3)%nat -> nth_error (fd_dp (ex_f ex_dp)) i = Some (real (sqrt (ex_cov i i)))) /\
  (forall i, nth_error (pfree (fd_tab (ex_f ex_dp))) i = Some true -> 0 < sqrt (ex_cov i i)) /\
  Rabs (ex_cov 1 0) > 8 / 10 * (sqrt (ex_cov 1 1) * sqrt (ex_cov 0 0)).
Proof. exact ex_case_corr. Qed.

(** with the deviations of a covariance matrix no correlation exceeds 1 *)
Theorem C61_at_most_one :
  forall (T : Type) (h : list (pop T)) f a0 (cov : nat -> nat -> R) (sd : nat -> R),
  fd_tab f = prun ptab_init h -> sized f -> fd_iter f <> 0%Z -> flag_of a0 (rev h) = Some true ->
  let n := length (pid (fd_tab f)) in
  (forall i j, (i < n)%nat -> (j < n)%nat -> entry (fd_cov f) i j = Some (real (cov i j))) ->
  (forall i, (i < n)%nat -> nth_error (fd_dp f) i = Some (real (sd i)) /\ sd i = sqrt (cov i i)) ->
  (forall i, nth_error (pfree (fd_tab f)) i = Some true -> 0 < cov i i) ->
  (forall i j x y, 0 <= x * x * cov i i + x * y * (cov i j + cov j i) + y * y * cov j j) -> (forall i j, cov i j = cov j i) ->
  exists r ps it cs, save_res f = Ok r /\ rp_body r = Some (ps, it, cs) /\
    forall a b c, In (a, b, c) cs -> exists x, c = real x /\ 8 / 10 < Rabs x <= 1.
Proof. exact @report_bound. Qed.
Print Assumptions C61_at_most_one.
Example C61_at_most_one_case :
  (forall i, nth_error (pfree (fd_tab (ex_f ex_dp))) i = Some true -> 0 < ex_cov i i) /\
  (forall i j x y, 0 <= x * x * ex_cov i i + x * y * (ex_cov i j + ex_cov j i) + y * y * ex_cov j j) /\ (forall i j, ex_cov i j = ex_cov j i).
Proof. exact ex_case_bound. Qed.

(** refused exactly when no step of a refinement was made *)
Theorem C61_refused : forall (T : Type) (f : fitdata T), save_res f = Err ErrUnassigned <-> fd_iter f = 0%Z.
Proof. exact @report_refused. Qed.
Print Assumptions C61_refused.

(** between the steps of the first refinement the deviations are still zero: every
    pair with a matrix entry other than zero is listed, as infinite *)
Theorem C61_running :
  forall (T : Type) (h : list (pop T)) f a0 (cov : nat -> nat -> R),
  fd_tab f = prun ptab_init h -> sized f -> fd_iter f <> 0%Z -> flag_of a0 (rev h) = Some true ->
  let n := length (pid (fd_tab f)) in
  (forall i j, (i < n)%nat -> (j < n)%nat -> entry (fd_cov f) i j = Some (real (cov i j))) ->
  (forall i, (i < n)%nat -> nth_error (fd_dp f) i = Some (real 0)) ->
  exists r ps it cs, save_res f = Ok r /\ rp_body r = Some (ps, it, cs) /\
    forall a b c, In (a, b, c) cs <->
      (a < b)%Z /\ flag_of a (rev h) = Some true /\ flag_of b (rev h) = Some true /\
      exists i j, nth_error (pid (fd_tab f)) i = Some a /\ nth_error (pid (fd_tab f)) j = Some b /\
        (0 < cov i j /\ c = Inf false \/ cov i j < 0 /\ c = Inf true).
Proof. exact @report_zero. Qed.
Print Assumptions C61_running.
Example C61_running_case : forall i, (i < 3)%nat -> nth_error (fd_dp (ex_f [real 0; real 0; real 0])) i = Some (real 0).
Proof. exact ex_zero_entries. Qed.
Theorem C61_running_refuted : exists (h : list (pop R)) f (cov : nat -> nat -> R),
  fd_tab f = prun ptab_init h /\ sized f /\ fd_iter f <> 0%Z /\
  (forall i j, (i < length (pid (fd_tab f)))%nat -> (j < length (pid (fd_tab f)))%nat -> entry (fd_cov f) i j = Some (real (cov i j))) /\
  exists r ps it cs a b c, save_res f = Ok r /\ rp_body r = Some (ps, it, cs) /\ In (a, b, c) cs /\ forall x, c <> real x.
Proof. exact running_refuted. Qed.
Print Assumptions C61_running_refuted.

(** a parameter added after the refinement has no deviation: the array is read
    beyond its end *)
Theorem C61_added :
  forall (T : Type) (h : list (pop T)) f k v, fd_tab f = prun ptab_init h -> sized f -> fd_iter f <> 0%Z -> last_set (u32 k) (rev h) = None ->
  save_res (mkFd (prun ptab_init (h ++ [PSet k v])) (fd_nvar f) (fd_dp f) (fd_cov f) (fd_iter f)) = UB.
Proof. exact @report_added. Qed.
Print Assumptions C61_added.
Theorem C61_added_refuted : exists (h : list (pop R)) f k v, fd_tab f = prun ptab_init h /\ sized f /\ fd_iter f <> 0%Z /\
  save_res (mkFd (prun ptab_init (h ++ [PSet k v])) (fd_nvar f) (fd_dp f) (fd_cov f) (fd_iter f)) = UB.
Proof. exact added_refuted. Qed.
Print Assumptions C61_added_refuted.

(** an atom is named in the list of its side exactly if it is not ignored there *)
Theorem C62_named :
  forall psel ip ats ii jj, nth_error psel ip = Some (Some (ats, ii, jj)) -> Forall symbol ats ->
  exists ti tj, selected_atoms psel ip "i" = Ok ti /\ selected_atoms psel ip "j" = Ok tj /\
  forall k a, nth_error ats k = Some a ->
    (named (upper a) (int_text (Z.of_nat k + 1)) (words ti) <-> ~ In k ii) /\
    (named (upper a) (int_text (Z.of_nat k + 1)) (words tj) <-> ~ In k jj).
Proof. exact sel_read. Qed.
Print Assumptions C62_named.
Example C62_named_case : Forall symbol nacl /\ sel_text nacl [1; 4]%nat = chars "  NA 1  CL".
Proof. exact (conj nacl_symbols nacl_text). Qed.

(** equal texts mean equal selections *)
Theorem C62_determines :
  forall psel ip ats ii jj psel' ii' jj' ij, nth_error psel ip = Some (Some (ats, ii, jj)) -> nth_error psel' ip = Some (Some (ats, ii', jj')) -> Forall symbol ats ->
  ij = "i"%char \/ ij = "j"%char -> selected_atoms psel ip ij = selected_atoms psel' ip ij ->
  forall k, (k < length ats)%nat -> (In k (if Ascii.eqb ij "i" then ii else jj) <-> In k (if Ascii.eqb ij "i" then ii' else jj')).
Proof. exact sel_equal. Qed.
Print Assumptions C62_determines.

(** other letters and deselected phases *)
Theorem C62_bad_side :
  forall psel ip ij ats ii jj, nth_error psel ip = Some (Some (ats, ii, jj)) ->
  ij <> "i"%char -> ij <> "j"%char -> selected_atoms psel ip ij = Err ErrValue.
Proof. exact (fun psel ip ij ats ii jj P => proj2 (proj2 (sel_outcome psel ip ij ats ii jj P))). Qed.
Print Assumptions C62_bad_side.
Theorem C62_deselected : forall psel ip ij, nth_error psel ip = Some None -> selected_atoms psel ip ij = Ok [].
Proof. exact sel_null. Qed.
Print Assumptions C62_deselected.
