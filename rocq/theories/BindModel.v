(** Model of how the extension functions of misc.cc hand the exceptions of the engine
    to Python: every function as the catch clauses it has around the engine call
    modelled elsewhere.  Conversion of arguments and results is left out. *)
From Coq Require Import List ZArith Reals Bool Ascii.
From Verif Require Import Base.
From Verif Require ParamModel ParserModel ConModel MetricModel PdfModel LsModel SessModel StruModel DataModel SaveModel ReportModel BondModel ScatModel ElementTable.
Import ListNotations.
Notation text := ParserModel.text.

(** the exception classes a caller sees, pdffit2module.cc:63-84: the five of
    the module and the Python classes IOError, ValueError, SystemError *)
Inductive pyexc : Type := XUnassigned | XData | XStructure | XCalculation | XConstraint | XIO | XValue | XSystem.

(** how a call from Python ends.  [PNull]: the function returns NULL and no
    exception is set.  [PBoth]: it returns a value although an exception is set.
    [PAbort]: a C++ exception leaves the extension function; there is no handler
    above it, so std::terminate ends the whole process. *)
Inductive pyres (A : Type) : Type :=
| PVal (a : A) | PExc (x : pyexc) | PNull | PBoth (a : A) (x : pyexc) | PAbort | PUndef | PHang.
Arguments PVal {A}. Arguments PExc {A}. Arguments PNull {A}. Arguments PBoth {A}.
Arguments PAbort {A}. Arguments PUndef {A}. Arguments PHang {A}.

(** try { call } catch ...; the classes of exceptions.h have no common handler *)
Definition catching {A} (c : err -> option pyexc) (o : outcome A) : pyres A :=
  match o with
  | Ok a => PVal a
  | Err e => match c e with Some x => PExc x | None => PAbort end
  | UB => PUndef
  | NoFuel => PHang
  end.

(** ** the catch clauses *)
(** misc.cc:319-341 alloc; 1196-1224, 1228-1256, 1260-1286, 1290-1316 selectAtomType,
    selectAtomIndex, selectAll, selectNone; 1320-1345, 1349-1385, 1390-1441
    bond_angle, bond_length_atoms, bond_length_types; 1585-1863 lat, x, y, z,
    u11, ..., occ *)
Definition c_value_unassigned (e : err) : option pyexc :=
  match e with ErrValue => Some XValue | ErrUnassigned => Some XUnassigned | _ => None end.
(** misc.cc:281-302 pdfrange; 1476-1495 get_scat; 1536-1559 reset_scat *)
Definition c_value (e : err) : option pyexc := match e with ErrValue => Some XValue | _ => None end.
(** misc.cc:1501-1530 set_scat *)
Definition c_value_plain (e : err) : option pyexc := match e with ErrValue | ErrPlain => Some XValue | _ => None end.
(** misc.cc:606-625 show_struct; 723-742, 748-776 setpar; 834-858 getcrw; 876-1023
    getR, getpdf_fit, getpdf_obs, getpdf_diff; 1027-1092 getpar, fixpar, freepar;
    1098-1192 setphase, setdata, psel, pdesel; 2136-2170 phase_fractions; and the
    test of isAssigned() in setvar and getvar (782-832) *)
Definition c_unassigned (e : err) : option pyexc := match e with ErrUnassigned => Some XUnassigned | _ => None end.
(** misc.cc:483-510, 514-541, 545-572, 575-602 save_pdf, save_dif, save_res, save_struct *)
Definition c_save (e : err) : option pyexc :=
  match e with ErrIO => Some XIO | ErrUnassigned => Some XUnassigned | _ => None end.
(** misc.cc:93-120 read_struct *)
Definition c_struct_file (e : err) : option pyexc :=
  match e with ErrStructure | ErrValue => Some XStructure | ErrCalculation => Some XCalculation | ErrIO => Some XIO | _ => None end.
(** misc.cc:127-150 read_struct_string *)
Definition c_struct (e : err) : option pyexc :=
  match e with ErrStructure | ErrValue => Some XStructure | ErrCalculation => Some XCalculation | _ => None end.
(** misc.cc:158-179, 186-210 read_data, read_data_string *)
Definition c_data (e : err) : option pyexc := match e with ErrIO => Some XIO | ErrData => Some XData | _ => None end.
(** misc.cc:217-274 read_data_arrays *)
Definition c_arrays (e : err) : option pyexc := match e with ErrData => Some XData | _ => None end.
(** misc.cc:347-370 calc *)
Definition c_calc (e : err) : option pyexc :=
  match e with ErrCalculation => Some XCalculation | ErrUnassigned => Some XUnassigned | ErrParse => Some XConstraint | _ => None end.
(** misc.cc:376-396 refine *)
Definition c_refine (e : err) : option pyexc :=
  match e with ErrConstraint => Some XConstraint | ErrCalculation => Some XCalculation | _ => None end.
(** misc.cc:437-476 refine_step, the clauses that set an exception *)
Definition c_step (e : err) : option pyexc :=
  match e with
  | ErrParse | ErrConstraint => Some XConstraint | ErrCalculation => Some XCalculation | ErrUnassigned => Some XUnassigned
  | _ => None
  end.
(** misc.cc:648-658, 694-709 constrain_str, constrain_int *)
Definition c_constrain (e : err) : option pyexc :=
  match e with ErrConstraint => Some XConstraint | ErrUnassigned => Some XUnassigned | _ => None end.

(** ** the session *)
(** the clauses around each call of SessModel.op.  The reading calls are below. *)
Definition c_op (o : SessModel.op) : err -> option pyexc :=
  match o with
  | SessModel.OAlloc _ _ _ _ _ | SessModel.OSelType _ _ _ _ | SessModel.OSelIndex _ _ _ _ | SessModel.OSelAll _ _ | SessModel.OSelNone _ _ => c_value_unassigned
  | SessModel.OSetphase _ | SessModel.OSetdata _ | SessModel.OPsel _ | SessModel.OPdesel _ => c_unassigned
  | SessModel.ORange _ _ _ => c_value
  | SessModel.OSetvar (inr _) _ => c_value_unassigned
  | SessModel.OSetvar (inl _) _ => c_unassigned
  | SessModel.OReset => fun _ => None
  | SessModel.OReadData _ => c_data
  | SessModel.OReadStruct _ => c_struct
  end.
Definition b_op (look : text -> option SessModel.tyid) (o : SessModel.op) (s : SessModel.session) : pyres unit :=
  catching (c_op o) (snd (SessModel.step look o s)).

(** what a reader gives to the session: an exception, or the content made from its result *)
Definition content {A B} (f : A -> B) (o : outcome A) : outcome (err + B) :=
  match o with Ok a => Ok (inr (f a)) | Err e => Ok (inl e) | UB => UB | NoFuel => NoFuel end.
(** misc.cc:127-150 with stru.cc:152-170 *)
Definition b_read_struct (mk : StruModel.sphase -> SessModel.stru_content) (t : text) (s : SessModel.session) : pyres unit :=
  catching c_struct (obind (content mk (StruModel.read_struct t)) (fun r => snd (SessModel.read_struct r s))).
(** misc.cc:186-210 with pdf.cc:1324-1341 *)
Definition b_read_data (mk : DataModel.dset -> SessModel.data_content) (fuel : nat) (t : text) (s : SessModel.session) : pyres unit :=
  catching c_data (obind (content mk (DataModel.read_data_stream fuel t)) (fun r => snd (SessModel.read_data r s))).
(** misc.cc:217-274 with pdf.cc:1294-1318: the length check comes before the try block *)
Definition b_read_arrays (mk : DataModel.dset -> SessModel.data_content) (r gr : list R) (dgr : option (list R)) (s : SessModel.session) : pyres unit :=
  if negb ((length r =? length gr)%nat && match dgr with Some l => (length l =? length gr)%nat | None => true end)
  then PExc XValue
  else catching c_arrays (obind (content mk (DataModel.read_data_arrays r gr dgr)) (fun x => snd (SessModel.read_data x s))).

(** ** parameters and constraints *)
(** misc.cc:1027-1047 getpar *)
Definition b_getpar {T} (t : ParamModel.ptab T) (n : Z) : pyres T := catching c_unassigned (ParamModel.getpar t n).
(** misc.cc:1050-1092 fixpar, freepar *)
Definition b_setflag {T} (b : bool) (t : ParamModel.ptab T) (n : Z) : pyres unit := catching c_unassigned (snd (ParamModel.setflag b t n)).
(** misc.cc:638-666 constrain_str.  [v] is what the variable refers to: None when not
    assigned, otherwise the address.  Line 664 sets an exception and line 666
    returns None all the same. *)
Definition b_constrain_str {T} (s : ConModel.cstate T) (v : option nat) (form : text) : ConModel.cstate T * pyres unit :=
  match v with
  | None => (s, PBoth tt XUnassigned)
  | Some a => let s' := ConModel.constrain_str s a form in (s', catching c_constrain (Ok tt))
  end.
(** misc.cc:677-717 constrain_int *)
Definition b_constrain_int {T} (s : ConModel.cstate T) (v : option nat) (ipar ftype : Z) : ConModel.cstate T * pyres unit :=
  match v with
  | None => (s, PExc XUnassigned)
  | Some a => let (s', r) := ConModel.constrain_int s a ipar ftype in (s', catching c_constrain r)
  end.

(** ** the calculation *)
(** models AtomType.h:56-73 as called from pdf.cc:790-818: sf throws runtime_error for
    a letter that is not a radiation type *)
Definition type_check (tp : ascii) (atoms : list PdfModel.catom) : outcome unit :=
  match atoms with [] => Ok tt | _ :: _ => omap (fun _ => tt) (ScatModel.sf tp (0%R, 0%R)) end.
(** models pdf.cc:154-413 as PdfModel.determine does, with the test of the radiation
    type in front of each phase (pdf.cc:196) *)
Definition determine (fuel : nat) (d : PdfModel.cdata) (psel : list (option PdfModel.centry)) : outcome (Z * Z * list PdfModel.num) :=
  obind (PdfModel.nint_div (PdfModel.cd_rfmin d - PdfModel.cd_rmin d) (PdfModel.cd_deltar d)) (fun nfmin =>
  obind (PdfModel.nint_div (PdfModel.cd_rfmax d - PdfModel.cd_rmin d) (PdfModel.cd_deltar d)) (fun nfmax =>
  obind (PdfModel.calc_range d) (fun r =>
  let '(rcmin, rcmax, ncmin, ncmax) := r in
  if (ncmax + 1 <? 0)%Z then Err ErrPlain
  else
  obind (ofold (fun t pe => match pe with
                            | Some e => obind (type_check (PdfModel.cd_type d) (PdfModel.cp_atoms (PdfModel.en_ph e))) (fun _ =>
                                        PdfModel.add_phase fuel d rcmin rcmax ncmin ncmax t e)
                            | None => Ok t end)
           psel (repeat (Some 0%R) (Z.to_nat (ncmax + 1)))) (fun pdftot =>
  if Rlt_dec 0 (PdfModel.cd_qmax d) then
    if ((ncmin <? 0) || (ncmax <? ncmin))%Z then UB
    else
      let k := Z.to_nat ncmin in
      omap (fun y => (nfmin, nfmax, firstn k pdftot ++ y)) (PdfModel.cutoff (PdfModel.cd_qmax d) (PdfModel.cd_deltar d) (skipn k pdftot))
  else Ok (nfmin, nfmax, pdftot))))).

(** models fit.cc:311-342 as PdfModel.fit_theory does *)
Definition theory (fuel : nat) (ph : list PdfModel.cphase) (sets : list PdfModel.cset) : outcome (list (Z * Z * list PdfModel.num)) :=
  let ph := map PdfModel.wrap_phase ph in
  obind (ofold (fun acc p => obind (PdfModel.phase_lattice p) (fun de => Ok (acc ++ [(p, de)]))) ph []) (fun phd =>
  ofold (fun acc s => obind (determine fuel (PdfModel.cs_data s) (PdfModel.entries phd (PdfModel.cs_sel s))) (fun r => Ok (acc ++ [r]))) sets []).

Section Calc.
(** the arithmetic of the formulas and the built-in functions (ConModel.v) *)
Context (N : ParserModel.numops R) (builtins : list (ParserModel.builtin R)).
(** the phases and data sets as they read their numbers from the variables *)
Variable view : (nat -> R) -> list PdfModel.cphase * list PdfModel.cset.

(** models fit.cc:303-342 fit_theory: constraints first, then the phases and the sets *)
Definition fit_theory (fuel : nat) (s : ConModel.cstate R) : ConModel.cstate R * outcome (list (Z * Z * list PdfModel.num)) :=
  let (s', r) := ConModel.fill_variables N builtins s in
  (s', obind r (fun _ => let (ph, sets) := view (ConModel.cmem s') in theory fuel ph sets)).
(** models fit.cc:288-297 calc *)
Definition calc (fuel : nat) (s : ConModel.cstate R) : ConModel.cstate R * outcome (list (Z * Z * list PdfModel.num)) :=
  match snd (view (ConModel.cmem s)) with
  | [] => (s, Err ErrUnassigned)
  | _ :: _ => fit_theory fuel s
  end.
(** misc.cc:347-370 calc *)
Definition b_calc (fuel : nat) (s : ConModel.cstate R) : pyres unit :=
  catching c_calc (omap (fun _ => tt) (snd (calc fuel s))).

(** what the solver of LsModel.v calls: fit_theory for the parameter values a; the
    sums over the points are made from the result by [mk] *)
Definition set_pars (a : nat -> R) (s : ConModel.cstate R) : ConModel.cstate R :=
  let t := ConModel.ctab s in
  ConModel.mkCst (ParamModel.mkPtab (map a (seq 1 (length (ParamModel.pval t)))) (ParamModel.pfree t) (ParamModel.pid t))
    (ConModel.cons_ s) (ConModel.cdvdp s) (ConModel.cmem s).
Definition solver_theory (fuel : nat) (s : ConModel.cstate R) (mk : list (Z * Z * list PdfModel.num) -> list LsModel.dsval) (a : nat -> R) : outcome (list LsModel.dsval) :=
  omap mk (snd (fit_theory fuel (set_pars a s))).
(** what the solver calls first, models fit.cc:174-283 fit_setup: the constraints and the
    comparison of the number of variables with getnpar (275-278) *)
Definition solver_setup (s : ConModel.cstate R) (maxvar npar : Z) : outcome unit :=
  obind (snd (ConModel.fill_variables N builtins s)) (fun _ => if (maxvar =? npar)%Z then Ok tt else Err ErrConstraint).
End Calc.

(** misc.cc:376-396 refine *)
Definition b_refine (toler : R) (fuel : nat) (running : bool) (c : LsModel.ctl) (s : LsModel.lst) : pyres unit :=
  catching c_refine (snd (LsModel.ls_refine toler fuel running c s)).
(** misc.cc:437-476 refine_step; the clause catch(...) returns NULL *)
Definition b_refine_step (toler : R) (running : bool) (c : LsModel.ctl) (s : LsModel.lst) : pyres bool :=
  match snd (LsModel.ls_step toler running c s) with
  | Err e => match c_step e with Some x => PExc x | None => PNull end
  | o => catching c_step o
  end.

(** ** texts, distances, scattering factors *)
(** misc.cc:483-541 save_pdf, save_dif with an empty file name *)
Definition b_save_pdf (sets : list SaveModel.sdata) (is : Z) : pyres text := catching c_save (SaveModel.save_pdf sets is).
Definition b_save_dif (sets : list SaveModel.sdata) (is : Z) : pyres text := catching c_save (SaveModel.save_dif sets is).
(** misc.cc:545-572 save_res with an empty file name *)
Definition b_save_res {T} (f : ReportModel.fitdata T) : pyres (ReportModel.report T) := catching c_save (ReportModel.save_res f).
(** misc.cc:1320-1441 *)
Definition b_bond_angle (fuel : nat) (c : option BondModel.bphase) (i j k : Z) : pyres (PdfModel.num * PdfModel.num) :=
  catching c_value_unassigned (BondModel.on_current (fun b => BondModel.bond_angle fuel b i j k) c).
Definition b_bond_length_atoms (fuel : nat) (c : option BondModel.bphase) (i j : Z) : pyres BondModel.pair_dist :=
  catching c_value_unassigned (BondModel.on_current (fun b => BondModel.bond_length_atoms fuel b i j) c).
Definition b_bond_length_types (fuel : nat) (c : option BondModel.bphase) (si sj : text) (bmin bmax : R) : pyres (list BondModel.pair_dist) :=
  catching c_value_unassigned (BondModel.on_current (fun b => BondModel.bond_length_types fuel b si sj bmin bmax) c).
(** misc.cc:1476-1559; [t] is the table of the current phase, None without phase *)
Definition b_get_scat (tbl : list ElementTable.element) (t : option ScatModel.ltable) (tp : ascii) (pat : text) : pyres R :=
  catching c_value (ScatModel.get_scat tbl (match t with Some t => t | None => [] end) tp pat).
Definition b_set_scat (tbl : list ElementTable.element) (t : option ScatModel.ltable) (tp : ascii) (pat : text) (v : R) : pyres unit :=
  match t with None => PExc XUnassigned | Some t => catching c_value_plain (snd (ScatModel.set_scat tbl t tp pat v)) end.
Definition b_reset_scat (tbl : list ElementTable.element) (t : option ScatModel.ltable) (pat : text) : pyres unit :=
  match t with None => PExc XUnassigned | Some t => catching c_value (snd (ScatModel.reset_scat tbl t pat)) end.

(** ** lists *)
(** misc.cc:876-1023: PyList_New refuses a negative length with SystemError and the
    function returns its NULL ([ErrPlain] in DataModel.py_list is this, not a C++
    exception) *)
Definition b_list {A} (f : DataModel.view -> outcome (list A)) (cur : option DataModel.view) : pyres (list A) :=
  match cur with
  | None => catching c_unassigned (Err ErrUnassigned)
  | Some v => match f v with Err ErrPlain => PExc XSystem | o => catching c_unassigned o end
  end.
(** misc.cc:2136-2170 phase_fractions with pdffit.cc:327-353; [sel] is the selection of
    the current data set with the atoms of each phase, [fr] the fractions (ScatModel.v) *)
Definition b_phase_fractions {A} (cur : option (ascii * list (option (list PdfModel.catom)))) (fr : A) : pyres A :=
  catching c_unassigned
    match cur with
    | None => Err ErrUnassigned
    | Some (tp, sel) =>
        obind (ofold (fun _ p => match p with Some atoms => type_check tp atoms | None => Ok tt end) sel tt) (fun _ => Ok fr)
    end.
