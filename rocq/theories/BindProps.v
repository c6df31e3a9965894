(** C63: errors of the engine reach the Python caller as exceptions. *)
From Coq Require Import Ascii String.
From Coq Require Import List Arith ZArith Reals Bool.
From Verif Require Import Base.
From Verif Require ParamModel ParamProof ParserModel ParserSpec ConModel ConSpec MatrixProof PdfModel LsModel SessModel SessSpec StruModel DataModel SaveModel ReportModel BondModel ScatModel.
From Verif Require Import BindModel BindSpec BindProof BindProof2 BindEx.
Import ListNotations.
Local Open Scope R_scope.

(** Calls on phases, data sets, selections, ranges and variables: whatever the engine
    raises, the caller gets the exception of the class that belongs to it, and a value
    otherwise. *)
Theorem C63_session_calls :
  forall look o s, no_reading o -> told (snd (SessModel.step look o s)) (b_op look o s).
Proof. exact session_told. Qed.
Print Assumptions C63_session_calls.
Example C63_session_calls_case :
  b_op (fun _ => None) (SessModel.OSetphase 3) SessModel.init = PExc XUnassigned /\
  b_op (fun _ => None) (SessModel.ORange 1 5 2) SessModel.init = PExc XValue /\
  b_op (fun _ => None) SessModel.OReset SessModel.init = PVal tt.
Proof. repeat split. unfold b_op; cbn; unfold SessModel.range. destruct (Rle_dec 2 5) as [H|H]; [reflexivity|exfalso; apply H; apply Rlt_le, (IZR_lt 2 5); reflexivity]. Qed.

(** Reading a structure in any session: the phase is added, or StructureError. *)
Theorem C63_read_struct :
  forall mk t s look l, SessSpec.reachable look l s ->
  match StruModel.read_struct t with
  | Ok p => b_read_struct mk t s = PVal tt /\ snd (SessModel.read_struct (inr (mk p)) s) = Ok tt
  | Err _ => b_read_struct mk t s = PExc XStructure
  | UB => b_read_struct mk t s = PUndef
  | NoFuel => b_read_struct mk t s = PHang
  end.
Proof. exact read_struct_told. Qed.
Print Assumptions C63_read_struct.

(** Reading data: the data set is added, or DataError. *)
Theorem C63_read_data :
  forall mk fuel t s look l, SessSpec.reachable look l s ->
  match DataModel.read_data_stream fuel t with
  | Ok d => b_read_data mk fuel t s = PVal tt /\ snd (SessModel.read_data (inr (mk d)) s) = Ok tt
  | Err _ => b_read_data mk fuel t s = PExc XData
  | UB => b_read_data mk fuel t s = PUndef
  | NoFuel => b_read_data mk fuel t s = PHang
  end.
Proof. exact read_data_told. Qed.
Print Assumptions C63_read_data.

(** Data from lists: ValueError when the lengths differ, DataError when the grid is not
    regular; only empty lists are out of bounds. *)
Theorem C63_read_data_lists :
  forall mk r gr dgr s look l, SessSpec.reachable look l s ->
  (~ same_lengths r gr dgr -> b_read_arrays mk r gr dgr s = PExc XValue) /\
  (same_lengths r gr dgr ->
  match DataModel.read_data_arrays r gr dgr with
  | Ok d => b_read_arrays mk r gr dgr s = PVal tt /\ snd (SessModel.read_data (inr (mk d)) s) = Ok tt
  | Err _ => b_read_arrays mk r gr dgr s = PExc XData
  | UB => b_read_arrays mk r gr dgr s = PUndef /\ r = []
  | NoFuel => False
  end).
Proof. exact read_arrays_told. Qed.
Print Assumptions C63_read_data_lists.
Example C63_reading_case mk mkd :
  b_read_struct mk (ParserModel.chars "cell 1") SessModel.init = PExc XStructure /\
  b_read_data mkd 10 (ParserModel.chars "x") SessModel.init = PExc XData /\
  b_read_arrays mkd [0] [1; 2] None SessModel.init = PExc XValue /\
  SessSpec.reachable (fun _ => None) [] SessModel.init.
Proof. repeat split. Qed.

(** Parameters: an unknown parameter is an UnassignedError for getpar, fixpar and freepar. *)
Theorem C63_parameters :
  forall (t : ParamModel.ptab R) n,
  told (ParamModel.getpar t n) (b_getpar t n) /\ forall b, told (snd (ParamModel.setflag b t n)) (b_setflag b t n).
Proof. intros t n. split. exact (getpar_told t n). intros b. exact (setflag_told b t n). Qed.
Print Assumptions C63_parameters.

(** Constraints: an unknown type is a ConstraintError and an unassigned variable an
    UnassignedError when the constraint is given by a parameter; a formula is taken
    without complaint, to be checked later. *)
Theorem C63_constrain :
  forall (s : ConModel.cstate R) a,
  (forall ipar ty, fst (b_constrain_int s (Some a) ipar ty) = fst (ConModel.constrain_int s a ipar ty) /\
    told (snd (ConModel.constrain_int s a ipar ty)) (snd (b_constrain_int s (Some a) ipar ty)) /\
    b_constrain_int s None ipar ty = (s, PExc XUnassigned)) /\
  (forall form, b_constrain_str s (Some a) form = (ConModel.constrain_str s a form, PVal tt)).
Proof. intros s a. split. exact (constrain_int_told s a). exact (constrain_str_told s a). Qed.
Print Assumptions C63_constrain.
Example C63_constrain_case :
  snd (b_constrain_int (ConModel.cinit right_angles) (Some 7%nat) 1 9) = PExc XConstraint /\
  snd (b_constrain_int (ConModel.cinit right_angles) (Some 7%nat) 1 2) = PVal tt /\
  b_getpar (ParamModel.ptab_init (T:=R)) 4 = PExc XUnassigned.
Proof. repeat split. Qed.

(** Finding: a formula for a variable that is not assigned returns None with the
    exception set (misc.cc:664-666); Python reports a SystemError instead. *)
Theorem C63_constrain_str_refuted :
  exists (s : ConModel.cstate R) v form, lost (snd (b_constrain_str s v form)).
Proof. exists (ConModel.cinit right_angles), None, (ParserModel.chars "@1"). right. right. exists tt, XUnassigned. reflexivity. Qed.
Print Assumptions C63_constrain_str_refuted.

(** Texts of results and fits. *)
Theorem C63_texts :
  (forall sets is, told (SaveModel.save_pdf sets is) (b_save_pdf sets is)) /\
  (forall sets is, told (SaveModel.save_dif sets is) (b_save_dif sets is)) /\
  (forall f : ReportModel.fitdata R, told (ReportModel.save_res f) (b_save_res f)).
Proof. split. exact pdf_told. split. exact dif_told. exact res_told. Qed.
Print Assumptions C63_texts.

(** Distances and angles, for the current phase or without one. *)
Theorem C63_distances :
  forall fuel c,
  (forall i j k, told (BondModel.on_current (fun b => BondModel.bond_angle fuel b i j k) c) (b_bond_angle fuel c i j k)) /\
  (forall i j, told (BondModel.on_current (fun b => BondModel.bond_length_atoms fuel b i j) c) (b_bond_length_atoms fuel c i j)) /\
  (forall si sj lo hi, told (BondModel.on_current (fun b => BondModel.bond_length_types fuel b si sj lo hi) c) (b_bond_length_types fuel c si sj lo hi)).
Proof. intros fuel c. split. exact (angle_told fuel c). split. exact (length_told fuel c). exact (types_told fuel c). Qed.
Print Assumptions C63_distances.

(** Scattering factors: unknown elements and letters are ValueErrors. *)
Theorem C63_scattering :
  forall tbl t pat,
  (forall tp, told (ScatModel.get_scat tbl (match t with Some t => t | None => [] end) tp pat) (b_get_scat tbl t tp pat)) /\
  (forall q tp v, t = Some q -> told (snd (ScatModel.set_scat tbl q tp pat v)) (b_set_scat tbl t tp pat v)) /\
  (forall q, t = Some q -> told (snd (ScatModel.reset_scat tbl q pat)) (b_reset_scat tbl t pat)) /\
  (t = None -> (forall tp v, b_set_scat tbl t tp pat v = PExc XUnassigned) /\ b_reset_scat tbl t pat = PExc XUnassigned).
Proof.
  intros tbl t pat. split. intros tp. exact (get_scat_told tbl t tp pat).
  split. intros q tp v ->. exact (proj1 (set_scat_told tbl q tp pat v)).
  split. intros q ->. exact (proj1 (reset_scat_told tbl q pat)).
  intros ->. split; [intros tp v|]; reflexivity.
Qed.
Print Assumptions C63_scattering.
Example C63_texts_case :
  b_save_pdf [] 1 = PExc XUnassigned /\ b_bond_angle 5 None 1 2 3 = PExc XUnassigned /\
  b_set_scat [] (Some []) "q" (ParserModel.chars "Zz") 1 = PExc XValue.
Proof. repeat split. Qed.

(** Lists for plotting: UnassignedError without data set; when the fit range is upside
    down the list cannot be made and Python's SystemError is passed on. *)
Theorem C63_lists :
  forall (f : DataModel.view -> outcome (list PdfModel.num)) cur,
  f = DataModel.getpdf_fit \/ f = DataModel.getpdf_obs \/ f = DataModel.getpdf_diff \/ f = (fun v => omap (map Some) (DataModel.get_r v)) ->
  match cur with
  | None => b_list f cur = PExc XUnassigned
  | Some v => match f v with Ok l => b_list f cur = PVal l | Err _ => b_list f cur = PExc XSystem | UB => b_list f cur = PUndef | NoFuel => b_list f cur = PHang end
  end.
Proof.
  intros f cur H. apply list_told. destruct H as [->|[->|[->| ->]]].
  exact fit_call. exact obs_call. exact diff_call. exact get_r_map_call.
Qed.
Print Assumptions C63_lists.
Example C63_lists_case :
  b_list DataModel.getpdf_obs (Some (DataModel.mkView 4 1 0 1 1 [1; 2] [])) = PExc XSystem /\
  b_list DataModel.getpdf_obs (Some (DataModel.mkView 0 1 0 1 1 [1; 2] [])) = PVal [Some 1; Some 2].
Proof. split; reflexivity. Qed.

(** Phase fractions: fine with X-rays or neutrons, otherwise the process ends. *)
Theorem C63_phase_fractions :
  forall (A : Type) tp sel (fr : A),
  ((forall atoms, In (Some atoms) sel -> atoms = [] \/ radiation tp) -> b_phase_fractions (Some (tp, sel)) fr = PVal fr) /\
  (forall a l, ~ radiation tp -> In (Some (a :: l)) sel -> b_phase_fractions (Some (tp, sel)) fr = PAbort) /\
  b_phase_fractions None fr = PExc XUnassigned.
Proof. exact @fractions_told. Qed.
Print Assumptions C63_phase_fractions.
(** Finding: alloc and read_data take any letter; phase_fractions then ends the process. *)
Theorem C63_phase_fractions_refuted :
  exists tp sel, lost (b_phase_fractions (Some (tp, sel)) tt).
Proof. exists "q"%char, [Some [at0]]. left. exact (proj1 (proj2 (fractions_told "q" [Some [at0]] tt)) at0 [] not_q (or_introl eq_refl)). Qed.
Print Assumptions C63_phase_fractions_refuted.

(** Calculation: if the constraints refer to parameters that are set, every cell has a
    volume and every data set is a possible one, the caller gets the result or the
    right exception. *)
Theorem C63_calc :
  forall N builtins view fuel s,
  Forall (refs_set (ConModel.ctab s)) (ConModel.cons_ s) -> calculable N builtins view s ->
  told (omap (fun _ => tt) (snd (calc N builtins view fuel s))) (b_calc N builtins view fuel s).
Proof. intros N builtins view fuel s A B. exact (calc_told N builtins view fuel s (conj A B)). Qed.
Print Assumptions C63_calc.
Example C63_calc_case :
  (Forall (refs_set (ConModel.ctab s_good)) (ConModel.cons_ s_good) /\ calculable N0 [] (view0 "X") s_good) /\
  b_calc N0 [] (view0 "N") 100 (ConModel.crun N0 [] (ConModel.cinit right_angles) h_parse) = PExc XConstraint /\
  b_calc N0 [] (fun _ => ([], [])) 100 (ConModel.cinit right_angles) = PExc XUnassigned.
Proof. split. exact calc_good. split. exact calc_parse. exact calc_none. Qed.

(** and this is all: every exception of the calculation, what becomes of it and where it
    comes from *)
Theorem C63_calc_exceptions :
  forall N builtins view fuel s,
  match snd (calc N builtins view fuel s) with
  | Ok _ => b_calc N builtins view fuel s = PVal tt
  | Err ErrUnassigned => b_calc N builtins view fuel s = PExc XUnassigned /\ snd (view (ConModel.cmem s)) = []
  | Err ErrParse => b_calc N builtins view fuel s = PExc XConstraint
  | Err ErrConstraint => b_calc N builtins view fuel s = PAbort /\ ~ Forall (refs_set (ConModel.ctab s)) (ConModel.cons_ s)
  | Err ErrStructure => b_calc N builtins view fuel s = PAbort /\ ~ Forall cell_ok (fst (after N builtins view s))
  | Err ErrPlain => b_calc N builtins view fuel s = PAbort /\ ~ Forall set_ok (snd (after N builtins view s))
  | Err _ => False
  | UB => b_calc N builtins view fuel s = PUndef
  | NoFuel => b_calc N builtins view fuel s = PHang
  end.
Proof. exact calc_outcome. Qed.
Print Assumptions C63_calc_exceptions.

(** Without a data set: UnassignedError.  With one, a constraint that refers to a parameter
    that is not set (the constraints before it being in order), or a cell without volume,
    always ends the process. *)
Theorem C63_calc_ends :
  forall N builtins view fuel s,
  (snd (view (ConModel.cmem s)) = [] -> b_calc N builtins view fuel s = PExc XUnassigned) /\
  (snd (view (ConModel.cmem s)) <> [] ->
   (forall cs1 a c cs2 n, ParamProof.wf (ConModel.ctab s) -> MatrixProof.mwf (ConModel.cdvdp s) -> ConSpec.table s (cs1 ++ (a, c) :: cs2) ->
      (forall a c, In (a, c) cs1 -> ConSpec.con_val N builtins (ParserSpec.env_of (ConModel.ctab s)) c <> None) ->
      In n (ConSpec.con_pars c) -> ParamModel.getpar (ConModel.ctab s) n = Err ErrUnassigned ->
      b_calc N builtins view fuel s = PAbort) /\
   (snd (ConModel.fill_variables N builtins s) = Ok tt -> (exists p, In p (fst (after N builtins view s)) /\ ~ cell_ok p) ->
      b_calc N builtins view fuel s = PAbort)).
Proof.
  intros N builtins view fuel s. split. exact (calc_no_set N builtins view fuel s). intros V. split.
  intros cs1 a c cs2 n. exact (undefined_aborts N builtins view fuel s cs1 a c cs2 n V). exact (flat_aborts N builtins view fuel s V).
Qed.
Print Assumptions C63_calc_ends.

(** Finding: calc has no handler for constraintError, structureError and runtime_error.
    A constraint on a parameter that is not set, three angles set to 0, or a data set
    with another letter than X and N end the process. *)
Theorem C63_calc_refuted :
  (exists h, h = [ConModel.CInt 7 5 1] /\ lost (b_calc N0 [] (view0 "N") 100 (ConModel.crun N0 [] (ConModel.cinit right_angles) h))) /\
  (exists h, h = [ConModel.CSetVar 0 0; ConModel.CSetVar 1 0; ConModel.CSetVar 2 0] /\ lost (b_calc N0 [] (view0 "N") 100 (ConModel.crun N0 [] (ConModel.cinit right_angles) h))) /\
  lost (b_calc N0 [] (view0 "q") 100 (ConModel.cinit right_angles)).
Proof.
  split. exists h_undef. exact (conj eq_refl (or_introl calc_undef)).
  split. exists h_flat. exact (conj eq_refl (or_introl calc_flat)). exact (or_introl calc_letter).
Qed.
Print Assumptions C63_calc_refuted.

(** One step of a refinement: a value or the right exception, or NULL without exception;
    the last only if for some values of the parameters a cell has no volume or a data
    set is impossible. *)
Theorem C63_refine_step :
  forall N builtins view fuel s mk maxvar npar toler running c st o,
  LsModel.f_theory o = solver_theory N builtins view fuel s mk -> LsModel.f_setup o = solver_setup N builtins s maxvar npar ->
  (told (snd (LsModel.ls_step toler running c (st, o))) (b_refine_step toler running c (st, o)) \/
   (b_refine_step toler running c (st, o) = PNull /\ exists a, ~ calculable N builtins view (set_pars a s))) /\
  ((forall a, calculable N builtins view (set_pars a s)) -> told (snd (LsModel.ls_step toler running c (st, o))) (b_refine_step toler running c (st, o))).
Proof.
  intros N builtins view fuel s mk maxvar npar toler running c st o T U. split.
  exact (step_outcome N builtins view fuel s mk maxvar npar toler running c st o T U).
  exact (step_told N builtins view fuel s mk maxvar npar toler running c st o T U).
Qed.
Print Assumptions C63_refine_step.
Example C63_refine_step_case :
  (forall a, calculable N0 [] (view0 "X") (set_pars a s_good)) /\
  LsModel.f_theory (fob "X" s_good) = solver_theory N0 [] (view0 "X") 100 s_good mk0 /\
  forall toler, b_refine_step toler false (LsModel.mkC 0 0) (None, fob "N" s_parse) = PExc XConstraint.
Proof. split. exact step_good. split. reflexivity. exact step_parse. Qed.
(** Finding: with a flat cell refine_step returns NULL and sets nothing. *)
Theorem C63_refine_step_refuted :
  exists toler c st o, lost (b_refine_step toler false c (st, o)).
Proof. exists 0, (LsModel.mkC 0 0), None, (fob "N" s_flat). exact (or_intror (or_introl (step_flat 0))). Qed.
Print Assumptions C63_refine_step_refuted.

(** The whole refinement in one call (not used by pdffit.py): what it lets through. *)
Theorem C63_refine :
  forall N builtins view fuel s mk maxvar npar toler f running c st o,
  LsModel.f_theory o = solver_theory N builtins view fuel s mk -> LsModel.f_setup o = solver_setup N builtins s maxvar npar ->
  told (snd (LsModel.ls_refine toler f running c (st, o))) (b_refine toler f running c (st, o)) \/
  (b_refine toler f running c (st, o) = PAbort /\
   (snd (LsModel.ls_refine toler f running c (st, o)) = Err ErrParse \/ exists a, ~ calculable N builtins view (set_pars a s))).
Proof. exact refine_outcome. Qed.
Print Assumptions C63_refine.
(** Finding: a formula that cannot be read ends the process there. *)
Theorem C63_refine_refuted :
  exists toler fuel c st o, lost (b_refine toler fuel false c (st, o)).
Proof. exists 0, 5%nat, (LsModel.mkC 0 0), None, (fob "N" s_parse). exact (or_introl (refine_parse 0 4)). Qed.
Print Assumptions C63_refine_refuted.
