(** Specification vocabulary: what a Python caller is told. *)
From Coq Require Import List ZArith Reals Bool Ascii.
From Verif Require Import Base BindModel.
From Verif Require ParamModel ParserModel ConModel MetricModel MetricSpec PdfModel SessModel.
Import ListNotations.
Local Open Scope R_scope.

(** the Python class that goes with an exception of the engine *)
Definition class_of (e : err) : pyexc :=
  match e with
  | ErrUnassigned => XUnassigned
  | ErrData => XData
  | ErrStructure => XStructure
  | ErrCalculation => XCalculation
  | ErrConstraint | ErrParse => XConstraint
  | ErrIO => XIO
  | ErrValue | ErrPlain => XValue
  end.
(** the caller gets the value, or the exception of the right class *)
Definition told {A} (o : outcome A) (r : pyres A) : Prop :=
  match o with Ok a => r = PVal a | Err e => r = PExc (class_of e) | UB => r = PUndef | NoFuel => r = PHang end.

(** ends a caller cannot handle *)
Definition lost {A} (r : pyres A) : Prop := r = PAbort \/ r = PNull \/ exists a x, r = PBoth a x.

(** a formula refers to parameter n: somewhere in it there is an '@' with n behind it *)
Definition mentions (form : text) (n : Z) : Prop :=
  exists pre post rest, form = pre ++ "@"%char :: post /\ ParserModel.scan_int post = Some (n, rest).
(** all parameters that a constraint refers to have been set *)
Definition refs_set {T} (t : ParamModel.ptab T) (e : ConModel.centry) : Prop :=
  match ConModel.cform e with
  | [] => ParamModel.getpar t (ConModel.cidef e) <> Err ErrUnassigned
  | _ :: _ => forall n, mentions (ConModel.cform e) n -> ParamModel.getpar t n <> Err ErrUnassigned
  end.
(** the angles make a cell with a volume *)
Definition cell_ok (p : PdfModel.cphase) : Prop :=
  let c i := cos (PI / 180 * PdfModel.cp_win p i) in
  MetricModel.double_eps < MetricSpec.gram (c 0%nat) (c 1%nat) (c 2%nat).
(** X-rays or neutrons *)
Definition radiation (tp : ascii) : Prop := In tp ["x"; "X"; "n"; "N"]%char.
(** a data set that can be calculated *)
Definition set_ok (s : PdfModel.cset) : Prop :=
  let d := PdfModel.cs_data s in
  radiation (PdfModel.cd_type d) /\ 0 < PdfModel.cd_deltar d /\ PdfModel.cd_rmin d <= PdfModel.cd_rfmax d.

(** the phases and data sets with the values that the constraints give *)
Definition after (N : ParserModel.numops R) builtins (view : (nat -> R) -> list PdfModel.cphase * list PdfModel.cset) (s : ConModel.cstate R) :=
  view (ConModel.cmem (fst (ConModel.fill_variables N builtins s))).
(** phases and data sets can be calculated then *)
Definition calculable N builtins view s : Prop :=
  Forall cell_ok (fst (after N builtins view s)) /\ Forall set_ok (snd (after N builtins view s)).

(** calls of the session that read nothing *)
Definition no_reading (o : SessModel.op) : Prop :=
  match o with SessModel.OReadData _ | SessModel.OReadStruct _ => False | _ => True end.
