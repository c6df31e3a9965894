(** Model of the sections of the results text about phases and data sets
    (output.cc:37-117 Phase::output, 162-244 DataSet::output, pdf.cc:918-945
    PdfFit::save_res) and of the text with scattering factors (scatlen.cc:31-72).
    A double is as in FmtModel.v, None is NaN; infinities are left out. *)
From Coq Require Import Ascii String List Arith ZArith Reals Bool.
From Verif Require Import Base ParserModel DataModel FmtModel ScatModel SaveModel ReportModel.
Import ListNotations.
Local Open Scope R_scope.

(** a double, and a double with its standard deviation *)
Definition val : Type := option dbl.
Definition vstd : Type := val * val.
Definition nl : ascii := ascii_of_nat 10.
(** endl or '\n' after a text *)
Definition ln (t : text) : text := t ++ [nl].
(** output.cc:42-44, " " << string(78,'-') *)
Definition rule : text := " "%char :: repeat "-"%char 78.
(** output.cc:50, 54, 192, 197, 202: x <= 0.0 *)
Definition nonpos (x : val) : bool :=
  match x with Some d => if Rle_dec (d_val d) 0 then true else false | None => false end.
(** output.cc:107, a double used as a condition *)
Definition nonzero (x : val) : bool :=
  match x with Some d => if Req_EM_T (d_mag d) 0 then false else true | None => true end.
(** ostream << double, default precision *)
Definition num_text (x : val) : text := general_text 6 x.

(** ** phases *)
(** pdffit.h:508-531 and Atom.h:45-50, the members that are printed *)
Record oatom : Type := mkOa { oa_sym : text; oa_pos : nat -> vstd; oa_occ : vstd; oa_u : nat -> vstd }.
Record ophase : Type := mkOp {
  op_iphase : Z; op_name : text; op_pscale : vstd; op_spdiameter : vstd; op_stepcut : val; op_corr_max : val;
  op_delta2 : vstd; op_delta1 : vstd; op_sratio : vstd; op_rcut : val; op_a0 : nat -> vstd; op_win : nat -> vstd;
  op_atoms : list oatom }.
(** the settings of value_std: output.cc:39-40; 71, 73 and 89; 75 and 94 *)
Definition f_plain : fmt := mkFmt 0 true false 2.
Definition f_col : fmt := mkFmt 20 true true 2.
Definition f_last : fmt := mkFmt 0 true true 2.
Definition put (f : fmt) (v : vstd) : text := value_std f (fst v) (snd v).
(** output.cc:73-75, 78-80, 102-105, 110-113: three values *)
Definition put3 (v : nat -> vstd) (i : nat) : text := put f_col (v i) ++ put f_col (v (i + 1)%nat) ++ put f_last (v (i + 2)%nat).
(** output.cc:87-88, 101: the symbol of an atom; the stream is left adjusted *)
Definition put_sym (s : text) : text := chars "   " ++ pad_right 4 (upper s).
(** output.cc:87-94 *)
Definition atom_line (a : oatom) : text :=
  ln (put_sym (oa_sym a) ++ put f_col (oa_pos a 0) ++ put f_col (oa_pos a 1) ++ put f_col (oa_pos a 2) ++ put f_last (oa_occ a)).
(** output.cc:101-115 *)
Definition aniso_lines (a : oatom) : text :=
  ln (put_sym (oa_sym a) ++ put3 (oa_u a) 0) ++
  (if nonzero (fst (oa_u a 3)) || nonzero (fst (oa_u a 4)) || nonzero (fst (oa_u a 5))
   then ln (chars "       " ++ put3 (oa_u a) 3) else []).
(** output.cc:42-44 *)
Definition heading (t : text) : text := ln rule ++ ln t ++ ln rule.
(** output.cc:50-51, 54-55, 192-205 *)
Definition unless_off (x : val) (shown : text) : text := if nonpos x then chars "not applied" else shown.
(** models output.cc:37-117 Phase::output *)
Definition phase_output (p : ophase) : text :=
  heading (chars " PHASE " ++ int_text (op_iphase p) ++ chars " : " ++ op_name p) ++
  ln (chars " Scale factor           : " ++ put f_plain (op_pscale p)) ++
  ln (chars "   Particle diameter    : " ++ unless_off (fst (op_spdiameter p)) (put f_plain (op_spdiameter p) ++ chars " A")) ++
  ln (chars "   Step cutoff          : " ++ unless_off (op_stepcut p) (put f_plain (op_stepcut p, Some d_zero) ++ chars " A")) ++
  (match op_corr_max p with
   | Some d => if Rlt_dec 0 (d_val d) then ln (chars " Correlation limit [A]  : " ++ num_text (op_corr_max p)) else []
   | None => []
   end) ++
  ln (chars " Quad. corr. factor     : " ++ put f_plain (op_delta2 p)) ++
  ln (chars " Lin. corr. factor      : " ++ put f_plain (op_delta1 p)) ++
  ln (chars " Low r sigma ratio      : " ++ put f_plain (op_sratio p)) ++
  ln (chars " R cutoff [A]           : " ++ put f_plain (op_rcut p, Some d_zero)) ++
  ln (chars " Lattice parameters     :" ++ put3 (op_a0 p) 0) ++
  ln (chars "           & angles     :" ++ put3 (op_win p) 0) ++
  ln [] ++
  ln (chars " Atom positions & occupancies :") ++
  concat (map atom_line (op_atoms p)) ++
  ln [] ++
  ln (chars " Anisotropic temperature factors :") ++
  concat (map aniso_lines (op_atoms p)).

(** ** data sets *)
(** pdffit.h:414-470, the members that are printed, with the values of getdsredchisq
    and getdsrw (pdf.cc), the selection as in ReportModel.v and the three lists of
    phase fractions (ScatModel.v) *)
Record odata : Type := mkOd {
  od_iset : Z; od_name : text; od_rmin : val; od_rmax : val; od_deltar : val; od_rcmin : val; od_rcmax : val;
  od_rfmin : val; od_rfmax : val; od_nfmin : Z; od_nfmax : Z; od_redchisq : val; od_rw : val;
  od_type : ascii; od_qmax : val; od_qdamp : vstd; od_qbroad : vstd; od_dscale : vstd;
  od_psel : list (option (list text * list nat * list nat));
  od_fatom : list vstd; od_fcell : list vstd; od_fmass : list vstd }.
(** output.cc:236 *)
Definition f_frac : fmt := mkFmt 24 true true 2.
(** output.cc:213-222 for one phase *)
Definition sel_lines (sel : list (option (list text * list nat * list nat))) (ip : nat) : outcome text :=
  match nth_error sel ip with
  | Some (Some _) =>
      obind (selected_atoms sel ip "i") (fun ti => obind (selected_atoms sel ip "j") (fun tj =>
      Ok (ln (chars "   Phase " ++ int_text (Z.of_nat ip + 1) ++ chars " :") ++
          ln (chars "     Atoms (i) :" ++ ti) ++ ln (chars "     Atoms (j) :" ++ tj))))
  | Some None => Ok []
  | None => UB
  end.
Fixpoint oconcat (l : list (outcome text)) : outcome text :=
  match l with [] => Ok [] | o :: r => obind o (fun t => omap (app t) (oconcat r)) end.
(** output.cc:233-242 for one phase *)
Definition frac_line (d : odata) (ip : nat) : outcome text :=
  obind (rd (od_fatom d) ip) (fun a => obind (rd (od_fcell d) ip) (fun c => obind (rd (od_fmass d) ip) (fun m =>
  Ok (ln (chars " Phase " ++ int_text (Z.of_nat ip + 1) ++ chars " :" ++ put f_frac a ++ put f_frac c ++ put f_last m))))).
(** output.cc:187-190 *)
Definition radiation (tp : ascii) : text := if Ascii.eqb tp "X" then chars "X-Rays" else chars "Neutrons".
(** models output.cc:162-244 DataSet::output; value_std is new (fmt_right) up to the
    fractions *)
Definition fmt_right : fmt := mkFmt 0 false false 2.
Definition data_output (d : odata) : outcome text :=
  obind (oconcat (map (sel_lines (od_psel d)) (seq 0 (length (od_psel d))))) (fun sel =>
  obind (oconcat (map (frac_line d) (seq 0 (length (od_psel d))))) (fun frac =>
  Ok (
  heading (chars " DATA SET : " ++ int_text (od_iset d) ++ chars " (" ++ od_name d ++ chars ")") ++
  ln (chars " Data range in r [A]    : " ++ pad_right 8 (num_text (od_rmin d)) ++ chars " -> " ++ pad_right 8 (num_text (od_rmax d)) ++
      chars "      Step dr  : " ++ num_text (od_deltar d)) ++
  ln (chars " Calculated range       : " ++ pad_right 8 (num_text (od_rcmin d)) ++ chars " -> " ++ num_text (od_rcmax d)) ++
  ln (chars " Refinement r range     : " ++ pad_right 8 (num_text (od_rfmin d)) ++ chars " -> " ++ pad_right 8 (num_text (od_rfmax d)) ++
      chars "      Data pts : " ++ pad_right 5 (int_text (od_nfmin d)) ++ chars " -> " ++ int_text (od_nfmax d)) ++
  ln (chars " Reduced chi squared    : " ++ num_text (od_redchisq d)) ++
  ln (chars " Rw - value             : " ++ num_text (od_rw d)) ++
  ln [] ++ ln [] ++
  ln (chars " Experimental settings  :") ++
  ln (chars "   Radiation            : " ++ radiation (od_type d)) ++
  ln (chars "   Termination at Qmax  : " ++ unless_off (od_qmax d) (num_text (od_qmax d) ++ chars " A**-1")) ++
  ln (chars "   DQ dampening Qdamp   : " ++ unless_off (fst (od_qdamp d)) (put fmt_right (od_qdamp d) ++ chars " A**-1")) ++
  ln (chars "   DQ broadening Qbroad : " ++ unless_off (fst (od_qbroad d)) (put fmt_right (od_qbroad d) ++ chars " A**-1")) ++
  ln (chars "   Scale factor         : " ++ put fmt_right (od_dscale d)) ++
  ln [] ++
  ln (chars " Selected phases and atoms for this data set :") ++
  sel ++
  ln [] ++
  ln (chars " Relative phase content in terms of") ++
  ln (chars "           atoms                   unit cells              mass") ++
  frac ++
  ln []))).

(** models pdf.cc:918-945 save_res; [version] is PdfFit::version(), [fit] what
    Fit::output prints after its heading (its contents are in ReportModel.v), [iter]
    is fit.iter *)
Definition double_rule : text := " "%char :: repeat "="%char 78.
Definition res_text (version : text) (iter : Z) (ps : list ophase) (ds : list odata) (fit : text) : outcome text :=
  if (iter =? 0)%Z then Err ErrUnassigned
  else obind (oconcat (map data_output ds)) (fun dt =>
  Ok (ln double_rule ++ ln (chars " PDF REFINEMENT") ++ ln (chars "   Using PDFFIT version : " ++ version) ++ ln double_rule ++
      concat (map phase_output ps) ++ dt ++ heading (chars " PARAMETER INFORMATION :") ++ fit ++ ln double_rule)).

(** ** scattering factors *)
(** models scatlen.cc:54-72 get_scat_string(tp, atp); the symbol and the two values
    stand for the AtomType *)
Definition scat_line (tp : ascii) (a : text * (R * R)) : outcome text :=
  let label :=
    if Ascii.eqb tp "n" || Ascii.eqb tp "N" then chars "Neutron scattering length for " ++ upper (fst a) ++ chars " :  "
    else if Ascii.eqb tp "x" || Ascii.eqb tp "X" then chars "X-ray scattering factor for " ++ upper (fst a) ++ chars " :  "
    else [] in
  omap (fun v => label ++ num_text (Some (dbl_of v))) (sf tp (snd a)).
(** models scatlen.cc:36-45 get_scat_string(tp); [types] are the atom types of the
    phase *)
Definition scat_string (tp : ascii) (types : list (text * (R * R))) : outcome text := oconcat (map (scat_line tp) types).
