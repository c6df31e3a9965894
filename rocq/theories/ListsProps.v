(** C92: data given as Python lists. *)
From Coq Require Import List Arith ZArith Reals Bool Lia.
From Verif Require Import Base ListsModel ListsSpec ListsProof.
Import ListNotations.

(** Lists of numbers of one length, not empty: just these numbers are given to
    PdfFit::read_data_arrays (no uncertainties exactly when None was given), and Python
    sees what became of them. *)
Theorem C92_numbers : forall reads r G dG rs Gs, is_list r rs -> is_list G Gs -> Gs <> [] -> length rs = length Gs ->
  (dG = PyNone \/ exists ds, is_list dG ds /\ length ds = length Gs) ->
  let c := read_arrays reads r G dG in
  exists ds, c_given c = Some (rs, Gs, ds) /\ (dG = PyNone <-> ds = None) /\ (forall d, ds = Some d -> is_list dG d) /\
    seen_by_python c = if reads (rs, Gs, ds) then SReturns else SDataError.
Proof. exact numbers_ok. Qed.
Print Assumptions C92_numbers.

Example C92_numbers_case : seen_by_python (read_arrays (fun _ => true) (PyList [PyNum 1; PyNum 2]) (PyList [PyNum 5; PyNum 7]) PyNone) = SReturns /\
  c_given (read_arrays (fun _ => true) (PyList [PyNum 1; PyNum 2]) (PyList [PyNum 5; PyNum 7]) PyNone) = Some ([1; 2], [5; 7], None)%R.
Proof. split; reflexivity. Qed.

(** Lists of different lengths, whatever their elements, or uncertainties that are no
    list: ValueError, nothing is stored or left behind. *)
Theorem C92_lengths : forall reads r G dG m n, some_list r m -> some_list G n ->
  m <> n \/ (exists k, some_list dG k /\ k <> n) \/ dG = PyOther ->
  let c := read_arrays reads r G dG in seen_by_python c = SValueError /\ c_given c = None /\ c_leaked c = 0.
Proof. exact lengths_differ. Qed.
Print Assumptions C92_lengths.

Example C92_lengths_case : some_list (PyList [PyNum 1; PyNotNum]) 2 /\ some_list (PyList [PyNum 1]) 1 /\ 2 <> 1.
Proof. split; [|split]; [eexists; split; reflexivity|eexists; split; reflexivity|discriminate]. Qed.

(** One of r and G is a list and the other is not: ValueError. *)
Theorem C92_one_list : forall reads r G dG, (no_list r /\ (exists n, some_list G n)) \/ (no_list G /\ (exists n, some_list r n)) ->
  let c := read_arrays reads r G dG in seen_by_python c = SValueError /\ c_given c = None /\ c_leaked c = 0.
Proof. exact one_list. Qed.
Print Assumptions C92_one_list.

Example C92_one_list_case : no_list PyOther /\ exists n, some_list (PyList [PyNum 1]) n.
Proof. split. right. reflexivity. exists 1. eexists. split; reflexivity. Qed.

(** None of the arguments is a list (tuples or arrays, say): all sizes are -1 and pass
    the check, new double[-1] throws outside the try block, the process is killed. *)
Theorem C92_no_lists : forall reads r G dG, no_list r -> no_list G -> no_list dG -> seen_by_python (read_arrays reads r G dG) = SKilled.
Proof. exact no_lists. Qed.
Print Assumptions C92_no_lists.

Example C92_no_lists_case : no_list PyOther /\ no_list PyNone.
Proof. split; [right|left]; reflexivity. Qed.

(** Refuted: the call always ends in a return or an exception. *)
Theorem C92_no_lists_refuted : exists reads r G dG, seen_by_python (read_arrays reads r G dG) = SKilled.
Proof. exact tuples_kill. Qed.
Print Assumptions C92_no_lists_refuted.

(** A value of G that is no number is given to PdfFit::read_data_arrays as -1; when the
    data set is stored, Python sees a SystemError. *)
Theorem C92_not_number : forall reads lr lG, length lr = length lG -> In PyNotNum lG ->
  let c := read_arrays reads (PyList lr) (PyList lG) PyNone in
  exists rs Gs, c_given c = Some (rs, Gs, None) /\ (forall i, nth_error lG i = Some PyNotNum -> nth_error Gs i = Some (-1)%R) /\
    seen_by_python c = if reads (rs, Gs, None) then SSystemError else SDataError.
Proof. exact bad_values. Qed.
Print Assumptions C92_not_number.

Example C92_not_number_case : In PyNotNum [PyNum 3; PyNotNum].
Proof. right. left. reflexivity. Qed.

(** In general: lists of one length, not empty, with any elements.  Each number arrives
    as it is and all else as -1; what Python sees depends on the data being refused and
    on all elements of all lists being numbers. *)
Theorem C92_values : forall reads lr lG ld, lG <> [] -> length lr = length lG -> (forall l, ld = Some l -> length l = length lG) ->
  let c := read_arrays reads (PyList lr) (PyList lG) (match ld with Some l => PyList l | None => PyNone end) in
  let d := (map taken lr, map taken lG, option_map (map taken) ld) in
  let good := all_numbers lr /\ all_numbers lG /\ (forall l, ld = Some l -> all_numbers l) in
  c_given c = Some d /\ (reads d = false -> seen_by_python c = SDataError) /\
  (reads d = true -> good -> seen_by_python c = SReturns) /\ (reads d = true -> ~ good -> seen_by_python c = SSystemError).
Proof. exact any_values. Qed.
Print Assumptions C92_values.

Example C92_values_case : c_given (read_arrays (fun _ => true) (PyList [PyNum 1; PyNum 2]) (PyList [PyNum 5; PyNum 7]) (PyList [PyNotNum; PyNum 4])) = Some ([1; 2], [5; 7], Some [-1; 4])%R /\
  seen_by_python (read_arrays (fun _ => true) (PyList [PyNum 1; PyNum 2]) (PyList [PyNum 5; PyNum 7]) (PyList [PyNotNum; PyNum 4])) = SSystemError.
Proof. split; reflexivity. Qed.

(** Refuted: nothing is stored by a call that raises an exception. *)
Theorem C92_not_number_refuted : exists reads r G dG, seen_by_python (read_arrays reads r G dG) = SSystemError /\
  c_given (read_arrays reads r G dG) = Some ([1; 2], [3; -1], None)%R /\ reads ([1; 2], [3; -1], None)%R = true.
Proof. exact wrong_stored. Qed.
Print Assumptions C92_not_number_refuted.

(** Empty lists pass the check; the first element of an array of none is read. *)
Theorem C92_empty : forall reads dG, dG = PyNone \/ dG = PyList [] -> seen_by_python (read_arrays reads (PyList []) (PyList []) dG) = SUndefined.
Proof. exact empty_lists. Qed.
Print Assumptions C92_empty.

Example C92_empty_case : PyList [] = PyNone \/ PyList [] = PyList [].
Proof. right. reflexivity. Qed.

(** Work arrays are left behind exactly when the data are refused: two, or three with
    uncertainties. *)
Theorem C92_leak : forall reads r G dG, c_leaked (read_arrays reads r G dG) =
  match seen_by_python (read_arrays reads r G dG) with SDataError => match dG with PyNone => 2 | _ => 3 end | _ => 0 end.
Proof. exact leaked_arrays. Qed.
Print Assumptions C92_leak.

(** Refuted: the work arrays are deleted however the call ends. *)
Theorem C92_leak_refuted : exists reads r G dG, c_leaked (read_arrays reads r G dG) = 3.
Proof. exact leak_case. Qed.
Print Assumptions C92_leak_refuted.
