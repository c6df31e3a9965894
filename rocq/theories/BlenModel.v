(** Model of the methods blen and bang of class PdfFit, which print bond lengths and
    angles (pdffit.py:31-65 and 812-914).  Numbers are reals or NaN; infinities are left
    out. *)
From Coq Require Import Ascii String.
From Coq Require Import List Arith ZArith Reals Bool.
From Verif Require Import Base ParserModel FmtModel.
From Verif Require PyModel SaveModel ReportModel PdfModel BondModel BindModel.
Import ListNotations.
Local Open Scope R_scope.

(** a number of the engine as Python prints it *)
Definition to_dbl (x : PdfModel.num) : option dbl := option_map SaveModel.dbl_of x.
(** models pdffit.py:31-46 _format_value_std; "%g" is six digits *)
Definition format_value_std (value stdev : option dbl) : text :=
  let larger := match value, stdev with
                | Some v, Some s => if Rlt_dec (Rabs (d_val v) * (1 / 100000000)) (d_val s) then true else false
                | _, _ => false
                end in
  if larger then general_text 6 value ++ chars " (" ++ general_text 6 stdev ++ chars ")"
  else match stdev with None => general_text 6 value ++ chars " (NaN)" | Some _ => general_text 6 value end.
(** "%s (#%i)" *)
Definition atom_name (s : text) (i : Z) : text := s ++ chars " (#" ++ int_text i ++ chars ")".
(** models pdffit.py:49-65 _format_bond_length *)
Definition format_bond_length (dij ddij : option dbl) (i1 j1 : Z) (si sj : text) : text :=
  let leader0 := chars "   " ++ pad_right 10 (atom_name si i1) ++ chars " -   " ++ atom_name sj j1 ++ chars " " in
  pad_right 30 leader0 ++ chars "=   " ++ format_value_std dij ddij ++ chars " A".

(** the end of a call; [BGone]: undefined or endless *)
Inductive bx : Type := BEng (x : BindModel.pyexc) | BType | BOverflow | BIndex | BAssert.
Inductive bend : Type := BDone | BRaised (x : bx) | BGone.
(** the lines printed, and the end *)
Definition printed : Type := list text * bend.
Definition call {A} (r : BindModel.pyres A) (k : A -> printed) : printed :=
  match PyModel.from_ext r with
  | PyModel.RVal a => k a
  | PyModel.RExc (PyModel.XEng x) => ([], BRaised (BEng x))
  | _ => ([], BGone)
  end.
(** list[k] *)
Definition py_at {A} (l : list A) (k : Z) : option A :=
  let n := Z.of_nat (length l) in
  let k' := if (k <? 0)%Z then (k + n)%Z else k in
  if ((k' <? 0) || (n <=? k'))%Z then None else nth_error l (Z.to_nat k').
(** misc.cc:2009-2035 get_atoms and 2061-2086 get_atom_types for the current phase *)
Definition symbols (b : BondModel.bphase) : list text := map (BondModel.bp_sym b) (seq 0 (length (PdfModel.cp_atoms (BondModel.bp_ph b)))).
Definition get_atoms (c : option BondModel.bphase) : BindModel.pyres (list text) :=
  match c with None => BindModel.PExc BindModel.XUnassigned | Some b => BindModel.PVal (map ReportModel.upper (symbols b)) end.
Definition get_atom_types (c : option BondModel.bphase) : BindModel.pyres (list text) :=
  match c with None => BindModel.PExc BindModel.XUnassigned | Some b => BindModel.PVal (map ReportModel.upper (ReportModel.atom_types (symbols b))) end.

(** an argument: a text, an integer or another number *)
Inductive arg : Type := AText (t : text) | AInt (n : Z) | AReal (x : R).
(** the formats "i" and "d" of PyArg_ParseTuple *)
Definition as_int (a : arg) : bx + Z := match a with AInt n => if PyModel.c_int n then inr n else inl BOverflow | _ => inl BType end.
(** the conversion of a large int to double is that to the nearest, here exact *)
Definition as_real (a : arg) : bx + R := match a with AInt n => inr (IZR n) | AReal x => inr x | AText _ => inl BType end.
Definition as_text (a : arg) : bx + text := match a with AText t => inr t | _ => inl BType end.
Definition need {A} (x : bx + A) (k : A -> printed) : printed := match x with inr a => k a | inl e => ([], BRaised e) end.

(** models pdffit.py:870-878, the first form of blen; str.upper of symbols that are in
    capitals already *)
Definition blen_atoms (fuel : nat) (c : option BondModel.bphase) (a1 a2 : arg) : printed :=
  need (as_int a1) (fun i => need (as_int a2) (fun j =>
  call (BindModel.b_bond_length_atoms fuel c i j) (fun pd =>
  call (get_atoms c) (fun syms =>
  if ((0 <=? Z.min i j - 1) && (Z.max i j - 1 <? Z.of_nat (length syms)))%Z then
    match py_at syms (i - 1), py_at syms (j - 1) with
    | Some si, Some sj => ([format_bond_length (to_dbl (BondModel.pd_dij pd)) (to_dbl (Some (BondModel.pd_ddij pd))) i j (ReportModel.upper si) (ReportModel.upper sj)], BDone)
    | _, _ => ([], BRaised BIndex)
    end
  else ([], BRaised BAssert))))).

(** models pdffit.py:883-890: an index is replaced by a symbol; None: IndexError *)
Definition named (types : list text) (a : arg) : option arg :=
  match a with AInt k => option_map AText (py_at types (k - 1)) | _ => Some a end.
(** models pdffit.py:897-906, the loop; the lines printed before an IndexError stay *)
Fixpoint bond_lines (syms : list text) (l : list BondModel.pair_dist) : printed :=
  match l with
  | [] => ([], BDone)
  | pd :: r =>
      match py_at syms (BondModel.pd_i pd - 1), py_at syms (BondModel.pd_j pd - 1) with
      | Some si, Some sj => let (t, e) := bond_lines syms r in
          (format_bond_length (to_dbl (BondModel.pd_dij pd)) (to_dbl (Some (BondModel.pd_ddij pd))) (BondModel.pd_i pd) (BondModel.pd_j pd) si sj :: t, e)
      | _, _ => ([], BRaised BIndex)
      end
  end.
(** models pdffit.py:893 *)
Definition bond_header (a1 a2 : text) (lb ub : R) : text :=
  chars "(" ++ a1 ++ chars "," ++ a2 ++ chars ") bond lengths in [" ++ general_text 6 (to_dbl (Some lb)) ++ chars "A," ++
  general_text 6 (to_dbl (Some ub)) ++ chars "A] for current phase :".
(** models pdffit.py:880-909, the second form of blen *)
Definition blen_types (fuel : nat) (c : option BondModel.bphase) (a1 a2 a3 a4 : arg) : printed :=
  call (get_atom_types c) (fun types =>
  match named types a1 with
  | None => ([], BDone)
  | Some a1 =>
  match named types a2 with
  | None => ([], BDone)
  | Some a2 =>
      need (as_text a1) (fun s1 => need (as_text a2) (fun s2 => need (as_real a3) (fun lb => need (as_real a4) (fun ub =>
      call (BindModel.b_bond_length_types fuel c s1 s2 lb ub) (fun bld =>
      call (get_atoms c) (fun syms =>
      let (t, e) := bond_lines syms bld in
      (bond_header s1 s2 lb ub :: t ++ match e with
                                       | BDone => [] :: match bld with [] => [chars "   *** No pairs found ***"] | _ => [] end
                                       | _ => []
                                       end, e)))))))
  end
  end).
(** models pdffit.py:846-914 blen *)
Definition blen (fuel : nat) (c : option BondModel.bphase) (args : list arg) : printed :=
  match args with
  | [a1; a2] => blen_atoms fuel c a1 a2
  | [a1; a2; a3; a4] => blen_types fuel c a1 a2 a3 a4
  | _ => ([], BRaised BType)
  end.
(** models pdffit.py:812-833 bang *)
Definition bang (fuel : nat) (c : option BondModel.bphase) (a1 a2 a3 : arg) : printed :=
  need (as_int a1) (fun i => need (as_int a2) (fun j => need (as_int a3) (fun k =>
  call (BindModel.b_bond_angle fuel c i j k) (fun r =>
  call (get_atoms c) (fun syms =>
  match py_at syms (i - 1), py_at syms (j - 1), py_at syms (k - 1) with
  | Some si, Some sj, Some sk =>
      ([chars "   " ++ atom_name si i ++ chars " - " ++ atom_name sj j ++ chars " - " ++ atom_name sk k ++ chars "   =   " ++
        format_value_std (to_dbl (fst r)) (to_dbl (snd r)) ++ chars " degrees"], BDone)
  | _, _, _ => ([], BRaised BIndex)
  end))))).
