(** Property C66: phases and data sets in the results text, and the text with
    scattering factors. *)
From Coq Require Import Ascii String List Arith ZArith Reals Bool.
From Verif Require Import Base ParserModel DataModel DataSpec FmtModel FmtSpec ScatModel SaveModel ReportModel ReportSpec OutModel OutSpec OutPhase OutData OutFinal OutEx.
Import ListNotations.
Local Open Scope R_scope.

(** The text has a section for each phase and each data set, in their order; every
    line with a label shows the values it names, with six digits and their deviations,
    however wide they are. *)
Theorem C66_sections : forall version iter ps ds fit, iter <> 0%Z -> one_line version -> Forall phase_ok ps -> Forall data_ok ds ->
  exists t, res_text version iter ps ds fit = Ok t /\ result_says ps ds t.
Proof. exact result_text. Qed.
Print Assumptions C66_sections.
Example C66_sections_case : Forall phase_ok [p_ex None; p_ex (Some d_zero)] /\ Forall data_ok [d_ex "X"; d_ex "N"] /\
  labelled (chars " Scale factor           :") (phase_body (p_ex None)) = Some (chars " 1234.57 (0.001)").
Proof. exact ex_case. Qed.

(** the section of a single phase *)
Theorem C66_phase : forall p, phase_ok p ->
  exists body, lines (phase_output p) = dashes :: (chars " PHASE " ++ int_text (op_iphase p) ++ chars " : " ++ op_name p) :: dashes :: body /\
  phase_says p (chars " PHASE " ++ int_text (op_iphase p) ++ chars " : " ++ op_name p, body).
Proof. exact phase_text. Qed.
Print Assumptions C66_phase.

(** refused exactly before the first refinement *)
Theorem C66_refused : forall version iter ps ds fit, Forall data_ok ds -> (res_text version iter ps ds fit = Err ErrUnassigned <-> iter = 0%Z).
Proof. exact result_refused. Qed.
Print Assumptions C66_refused.

(** Deviations of off-diagonal displacement factors that are all zero are not in the
    text: two refinements that differ in them print the same. *)
Theorem C66_offdiag_refuted : exists p q a b, phase_ok p /\ phase_ok q /\ op_atoms p = [a] /\ op_atoms q = [b] /\ phase_output p = phase_output q /\
  exists d, snd (oa_u a 3) = Some d /\ matters (fst (oa_u a 3)) d /\ snd (oa_u b 3) = Some d_zero.
Proof. exact offdiag_lost. Qed.
Print Assumptions C66_offdiag_refuted.

(** A data set with the letter 'x' is calculated as X-ray data and printed as neutron
    data. *)
Theorem C66_radiation_refuted : exists d t, data_ok d /\ data_output d = Ok t /\ (forall v, sf (od_type d) v = Ok (fst v)) /\
  exists pre post, t = pre ++ chars "   Radiation            : Neutrons" ++ post.
Proof. exact radiation_wrong. Qed.
Print Assumptions C66_radiation_refuted.

(** The text with scattering factors names each atom type with its value for the
    radiation asked for, in the order of the atom types. *)
Theorem C66_scat : forall tp (x : bool) types, In tp (if x then ["x"; "X"] else ["n"; "N"])%char ->
  exists t ns, scat_string tp types = Ok t /\ Forall2 (fun (a : text * (R * R)) n => shows_general 6 (dbl_of (if x then fst (snd a) else snd (snd a))) n) types ns /\
    t = concat (map (fun an => (if x then chars "X-ray scattering factor for " else chars "Neutron scattering length for ") ++
                               upper (fst (fst an)) ++ chars " :  " ++ print_numeral (snd an)) (combine types ns)).
Proof. exact scat_text. Qed.
Print Assumptions C66_scat.
Theorem C66_scat_refused : forall tp a types, ~ In tp ["x"; "X"; "n"; "N"]%char -> scat_string tp (a :: types) = Err ErrPlain.
Proof. exact scat_refused. Qed.
Print Assumptions C66_scat_refused.
(** but the entries are not on lines of their own: the text is one line *)
Theorem C66_scat_line : forall tp types, Forall (fun a => symbol (fst a)) types -> forall t, scat_string tp types = Ok t -> (length (lines t) <= 1)%nat.
Proof. exact scat_one_line. Qed.
Print Assumptions C66_scat_line.
Theorem C66_scat_line_refuted : exists types t, length types = 2%nat /\ Forall (fun a => symbol (fst a)) types /\ scat_string "N" types = Ok t /\ length (lines t) = 1%nat.
Proof. exact scat_joined. Qed.
Print Assumptions C66_scat_line_refuted.
