(** Model of the Python class PdfFit (src/diffpy/pdffit2/pdffit.py) for the calls that
    take a variable or the name ALL: the text of a reference is taken apart, the
    function of that name is fetched from the extension module and called, and the
    result handed to the engine.  Texts are ASCII; numbers are reals. *)
From Coq Require Import Ascii String.
From Coq Require Import List ZArith Reals Bool.
From Verif Require Import Base.
From Verif Require ParamModel ParserModel DataModel FmtModel SessModel BindModel ConModel.
Import ListNotations.
Notation text := ParserModel.text.
Notation chars := ParserModel.chars.
Local Open Scope Z_scope.

(** how a call of a Python method ends: the exceptions of BindModel.v, or one that
    Python itself raises.  [RForeign]: some other function of the module has been
    called with the PdfFit object; what it does is in other files. *)
Inductive pyx : Type := XEng (x : BindModel.pyexc) | XAttribute | XType | XOverflow | XKey.
Inductive res (A : Type) : Type := RVal (a : A) | RExc (x : pyx) | RUndef | RAbort | RHang | RForeign.
Arguments RVal {A}. Arguments RExc {A}. Arguments RUndef {A}. Arguments RAbort {A}. Arguments RHang {A}. Arguments RForeign {A}.
(** what the interpreter makes of the end of an extension function: NULL without an
    exception, and a value together with one, are both SystemError *)
Definition from_ext {A} (r : BindModel.pyres A) : res A :=
  match r with
  | BindModel.PVal a => RVal a | BindModel.PExc x => RExc (XEng x)
  | BindModel.PNull => RExc (XEng BindModel.XSystem) | BindModel.PBoth _ _ => RExc (XEng BindModel.XSystem)
  | BindModel.PAbort => RAbort | BindModel.PUndef => RUndef | BindModel.PHang => RHang
  end.

(** ** str methods *)
(** str.isspace for ASCII: \t \n \v \f \r, 0x1c to 0x1f and blank *)
Definition py_space (c : ascii) : bool :=
  let n := nat_of_ascii c in ((9 <=? n) && (n <=? 13) || (28 <=? n) && (n <=? 32))%nat.
Fixpoint lstrip (f : ascii -> bool) (t : text) : text :=
  match t with [] => [] | c :: r => if f c then lstrip f r else t end.
(** str.strip() with f = py_space, str.strip(c) with f = equal to c *)
Definition strip (f : ascii -> bool) (t : text) : text := rev (lstrip f (rev (lstrip f t))).
(** str.split(c) *)
Fixpoint split (c : ascii) (t : text) : list text :=
  match t with
  | [] => [[]]
  | h :: r => if Ascii.eqb h c then [] :: split c r
              else match split c r with p :: q => (h :: p) :: q | [] => [[h]] end
  end.
(** digits with single underscores between them, as int() and float() read them;
    [b]: an underscore may come next *)
Fixpoint drop_us (b : bool) (t : text) : option text :=
  match t with
  | [] => Some []
  | c :: r =>
      if Ascii.eqb c "_" then
        if b then match r with d :: _ => if ParserModel.is_digit d then drop_us false r else None | [] => None end else None
      else option_map (cons c) (drop_us (ParserModel.is_digit c) r)
  end.
(** int(t) for a text without blanks at the ends: an optional sign and digits.  The
    limit of 4300 digits of newer Python versions is left out. *)
Definition py_int (t : text) : option Z :=
  match drop_us false t with
  | None => None
  | Some u =>
      let (neg, d) := ParserModel.sign_split u in
      match ParserModel.span_digits d with
      | ((_ :: _) as w, []) => Some (if neg : bool then - ParserModel.digits_val w else ParserModel.digits_val w)
      | _ => None
      end
  end.
Definition lower (c : ascii) : ascii :=
  let n := nat_of_ascii c in if ((65 <=? n) && (n <=? 90))%nat then ascii_of_nat (n + 32) else c.
Definition upper (c : ascii) : ascii :=
  let n := nat_of_ascii c in if ((97 <=? n) && (n <=? 122))%nat then ascii_of_nat (n - 32) else c.
(** float(t): a decimal number, or inf, infinity, nan; None in the result is a value
    that is not finite.  Overflow to inf is left out. *)
Definition py_float (t : text) : option (option R) :=
  let t := strip ParserModel.is_space t in
  match drop_us false t with
  | None => None
  | Some u =>
      let (neg, v) := ParserModel.sign_split u in
      match ParserModel.scan_float v with
      | Some (m, e, []) => Some (Some (if neg : bool then - DataModel.dec_val m e else DataModel.dec_val m e)%R)
      | _ => if existsb (ParserModel.text_eqb (map lower v)) [chars "inf"; chars "infinity"; chars "nan"] then Some None else None
      end
  end.

(** ** the functions of the module *)
(** what a function of the module needs besides the PdfFit object, and what it is.
    [KVec], [KSca]: lat, x, ... and pscale, ...  [KCall]: functions that work on the
    session, called with the object alone (first) or with an int (second); their
    result is no variable.  [KForeign]: the others, with the numbers of int arguments
    they take. *)
Inductive kind : Type :=
| KVec (v : SessModel.vname) | KSca (v : SessModel.sname)
| KCall (f0 : option (SessModel.session -> SessModel.session * outcome unit)) (f1 : option (Z -> SessModel.session -> SessModel.session * outcome unit))
| KForeign (a0 a1 : bool).

Definition read_only (f : SessModel.session -> outcome unit) (s : SessModel.session) : SessModel.session * outcome unit := (s, f s).
(** misc.cc:2038-2056 num_atoms, 2009-2035 get_atoms, 2061-2086 get_atom_types,
    2091-2130 num_phases, num_datasets, as far as they fail *)
Definition num_atoms (s : SessModel.session) : outcome unit :=
  match SessModel.s_curphase s with Some _ => Ok tt | None => Err ErrUnassigned end.
Definition phase_there (ip : Z) (s : SessModel.session) : outcome unit := omap (fun _ => tt) (SessModel.getphase ip s).

(** models the method table bindings.cc:26-338 with the names and formats of
    misc.cc, and the exceptions of pdffit2module.cc:61-84 (calling a class makes an
    object).  copyright and create do not look at their arguments (misc.cc:51, 81).  Names with an underscore in front, which every module has, are left
    out.  No engine function throws from reset. *)
Definition methods : list (text * kind) :=
  map (fun p => (chars (fst p), snd p))
  [("lat", KVec SessModel.Vlat); ("x", KVec (SessModel.Vatom SessModel.Ax)); ("y", KVec (SessModel.Vatom SessModel.Ay)); ("z", KVec (SessModel.Vatom SessModel.Az));
   ("u11", KVec (SessModel.Vatom SessModel.Au11)); ("u22", KVec (SessModel.Vatom SessModel.Au22)); ("u33", KVec (SessModel.Vatom SessModel.Au33));
   ("u12", KVec (SessModel.Vatom SessModel.Au12)); ("u13", KVec (SessModel.Vatom SessModel.Au13)); ("u23", KVec (SessModel.Vatom SessModel.Au23));
   ("occ", KVec (SessModel.Vatom SessModel.Aocc));
   ("pscale", KSca SessModel.Spscale); ("spdiameter", KSca SessModel.Sspdiameter); ("stepcut", KSca SessModel.Sstepcut); ("sratio", KSca SessModel.Ssratio);
   ("delta2", KSca SessModel.Sdelta2); ("delta1", KSca SessModel.Sdelta1); ("dscale", KSca SessModel.Sdscale); ("qdamp", KSca SessModel.Sqdamp);
   ("qbroad", KSca SessModel.Sqbroad); ("rcut", KSca SessModel.Srcut);
   ("reset", KCall (Some (fun s => (SessModel.reset s, Ok tt))) None);
   ("setphase", KCall None (Some SessModel.setphase)); ("setdata", KCall None (Some SessModel.setdata));
   ("psel", KCall None (Some SessModel.psel)); ("pdesel", KCall None (Some SessModel.pdesel));
   ("num_atoms", KCall (Some (read_only num_atoms)) None);
   ("num_phases", KCall (Some (read_only (fun _ => Ok tt))) None); ("num_datasets", KCall (Some (read_only (fun _ => Ok tt))) None);
   ("get_atoms", KCall (Some (read_only (phase_there 0))) (Some (fun ip => read_only (phase_there ip))));
   ("get_atom_types", KCall (Some (read_only (phase_there 0))) (Some (fun ip => read_only (phase_there ip))));
   ("calc", KForeign true false); ("refine", KForeign false true); ("refine_step", KForeign false true);
   ("show_struct", KForeign false true); ("getpar", KForeign false true); ("fixpar", KForeign false true); ("freepar", KForeign false true);
   ("getvar", KForeign false true); ("getR", KForeign true false); ("getcrw", KForeign true false); ("getrw", KForeign true false);
   ("getpdf_fit", KForeign true false); ("getpdf_obs", KForeign true false); ("getpdf_diff", KForeign true false); ("phase_fractions", KForeign true false);
   ("copyright", KForeign true true); ("create", KForeign true true); ("read_struct", KForeign false false); ("read_struct_string", KForeign false false);
   ("read_data", KForeign false false); ("read_data_string", KForeign false false); ("read_data_arrays", KForeign false false); ("pdfrange", KForeign false false);
   ("alloc", KForeign false false); ("save_pdf", KForeign false false); ("save_dif", KForeign false false); ("save_res", KForeign false false);
   ("save_struct", KForeign false false); ("constrain_int", KForeign false false); ("constrain_str", KForeign false false); ("setpar_dbl", KForeign false false);
   ("setpar_RV", KForeign false false); ("setvar", KForeign false false); ("selectAtomType", KForeign false false); ("selectAtomIndex", KForeign false false);
   ("selectAll", KForeign false false); ("selectNone", KForeign false false); ("bond_angle", KForeign false false); ("bond_length_atoms", KForeign false false);
   ("bond_length_types", KForeign false false); ("get_scat_string", KForeign false false); ("get_scat", KForeign false false); ("set_scat", KForeign false false);
   ("reset_scat", KForeign false false); ("redirect_stdout", KForeign false false); ("restore_stdout", KForeign false false); ("is_element", KForeign false false);
   ("RuntimeException", KForeign true true); ("unassignedError", KForeign true true); ("dataError", KForeign true true);
   ("structureError", KForeign true true); ("calculationError", KForeign true true); ("constraintError", KForeign true true)]%string.
(** getattr(pdffit2, name) *)
Definition getattr (name : text) : option kind :=
  option_map snd (find (fun p => ParserModel.text_eqb (fst p) name) methods).

(** what a call gives: a capsule with a variable in it, or anything else *)
Inductive pyobj : Type := OVar (h : SessModel.handle) | OOther.
(** format "i" of PyArg_ParseTuple *)
Definition c_int (i : Z) : bool := (-2147483648 <=? i) && (i <=? 2147483647).
Definition end_call (f : SessModel.session -> SessModel.session * outcome unit) (s : SessModel.session) : SessModel.session * res pyobj :=
  let (s', r) := f s in (s', from_ext (BindModel.catching BindModel.c_unassigned (omap (fun _ => OOther) r))).
(** f(handle) or f(handle, i); models misc.cc:1585-2006 for the variables *)
Definition call (k : kind) (a : option Z) (s : SessModel.session) : SessModel.session * res pyobj :=
  match k, a with
  | KVec v, Some i => (s, if c_int i then from_ext (BindModel.catching BindModel.c_value_unassigned (omap OVar (SessModel.get_ref v i s))) else RExc XOverflow)
  | KSca v, None => (s, RVal (OVar (SessModel.HSca v)))
  | KCall (Some f) _, None => end_call f s
  | KCall _ (Some f), Some i => if c_int i then end_call (f i) s else (s, RExc XOverflow)
  | KForeign true _, None | KForeign _ true, Some _ => (s, RForeign)
  | _, _ => (s, RExc XType)
  end.

(** ** references *)
(** models pdffit.py:1293-1300: the name and the number in the brackets *)
Definition take_apart (t : text) : text * option Z :=
  match split "(" t with
  | [m; a] => match py_int (strip py_space (strip (Ascii.eqb ")") a)) with
              | Some i => (strip py_space m, Some i)
              | None => (strip py_space t, None)
              end
  | _ => (strip py_space t, None)
  end.

(** what a user gives for a variable: a text, a number, or one of the methods that
    return a text, without its brackets *)
Inductive pyarg : Type := AText (t : text) | ANum (x : R) | AVec (v : SessModel.vname) | ASca (v : SessModel.sname).
(** the names of the variables as the methods pdffit.py:1087-1259 write them *)
Definition vec_name (v : SessModel.vname) : text :=
  chars match v with
  | SessModel.Vlat => "lat" | SessModel.Vatom SessModel.Ax => "x" | SessModel.Vatom SessModel.Ay => "y" | SessModel.Vatom SessModel.Az => "z"
  | SessModel.Vatom SessModel.Au11 => "u11" | SessModel.Vatom SessModel.Au22 => "u22" | SessModel.Vatom SessModel.Au33 => "u33"
  | SessModel.Vatom SessModel.Au12 => "u12" | SessModel.Vatom SessModel.Au13 => "u13" | SessModel.Vatom SessModel.Au23 => "u23"
  | SessModel.Vatom SessModel.Aocc => "occ" end%string.
Definition sca_name (v : SessModel.sname) : text :=
  chars match v with
  | SessModel.Spscale => "pscale" | SessModel.Sspdiameter => "spdiameter" | SessModel.Sstepcut => "stepcut" | SessModel.Sdelta2 => "delta2"
  | SessModel.Sdelta1 => "delta1" | SessModel.Ssratio => "sratio" | SessModel.Srcut => "rcut" | SessModel.Sdscale => "dscale"
  | SessModel.Sqdamp => "qdamp" | SessModel.Sqbroad => "qbroad" end%string.
(** pf.x(i) and so on: "x(%i)" % i *)
Definition vec_text (v : SessModel.vname) (i : Z) : text := vec_name v ++ "("%char :: FmtModel.int_text i ++ [")"%char].
(** pf.lat(n) with a text, pdffit.py:1073-1085; None is KeyError *)
Definition lat_number (n : text) : option Z :=
  option_map snd (find (fun p => ParserModel.text_eqb (chars (fst p)) n) [("a", 1); ("b", 2); ("c", 3); ("alpha", 4); ("beta", 5); ("gamma", 6)]%string).
Definition lat_text (n : text) : res text :=
  match lat_number n with Some i => RVal (vec_text SessModel.Vlat i) | None => RExc XKey end.

(** models pdffit.py:68-80 _convertCallable: a method is called; those of indexed
    variables want an argument *)
Definition convert (a : pyarg) : res (text + R) :=
  match a with AText t => RVal (inl t) | ANum x => RVal (inr x) | ASca v => RVal (inl (sca_name v)) | AVec _ => RExc XType end.
(** models pdffit.py:1281-1306 __getRef; a number has no split *)
Definition get_ref (a : pyarg) (s : SessModel.session) : SessModel.session * res pyobj :=
  match convert a with
  | RVal (inl t) =>
      let (name, i) := take_apart t in
      match getattr name with None => (s, RExc XAttribute) | Some k => call k i s end
  | RVal (inr _) => (s, RExc XAttribute)
  | RExc x => (s, RExc x)
  | RUndef => (s, RUndef) | RAbort => (s, RAbort) | RHang => (s, RHang) | RForeign => (s, RForeign)
  end.
(** the extension function is called with the result of __getRef.  PyCapsule_GetPointer
    gives NULL for anything that is not a variable, which is used all the same. *)
Definition with_ref {A} (a : pyarg) (s : SessModel.session) (f : SessModel.handle -> SessModel.session -> SessModel.session * res A) : SessModel.session * res A :=
  match get_ref a s with
  | (s', RVal (OVar h)) => f h s'
  | (s', RVal OOther) => (s', RUndef)
  | (s', RExc x) => (s', RExc x)
  | (s', RUndef) => (s', RUndef) | (s', RAbort) => (s', RAbort) | (s', RHang) => (s', RHang) | (s', RForeign) => (s', RForeign)
  end.

(** models pdffit.py:540-549 getvar *)
Definition getvar (a : pyarg) (s : SessModel.session) : SessModel.session * res R :=
  with_ref a s (fun h s => (s, from_ext (BindModel.catching BindModel.c_unassigned (SessModel.getvar h s)))).
(** models pdffit.py:529-538 setvar *)
Definition setvar (a : pyarg) (x : R) (s : SessModel.session) : SessModel.session * res unit :=
  with_ref a s (fun h s => let (s', r) := SessModel.setvar h x s in (s', from_ext (BindModel.catching BindModel.c_unassigned r))).

(** ** parameters *)
Notation ptab := (ParamModel.ptab (option R)).
(** models misc.cc:748-776 setpar_RV with pdffit.h:291-294; [par] is the Python int *)
Definition setpar_RV (par : Z) (h : SessModel.handle) (s : SessModel.session) (t : ptab) : ptab * res unit :=
  match SessModel.getvar h s with
  | Ok x => (ParamModel.setpar t par (Some x), RVal tt)
  | r => (t, from_ext (BindModel.catching BindModel.c_unassigned (omap (fun _ => tt) r)))
  end.
(** models pdffit.py:510-527 setpar: a number, or a text that reads as one; otherwise
    a reference *)
Definition setpar (par : Z) (a : pyarg) (s : SessModel.session) (t : ptab) : SessModel.session * ptab * res unit :=
  let by_ref a :=
    match get_ref a s with
    | (s', RVal (OVar h)) => let (t', r) := setpar_RV par h s' t in (s', t', r)
    | (s', RVal OOther) => (s', t, RUndef)
    | (s', RExc x) => (s', t, RExc x)
    | (s', RUndef) => (s', t, RUndef) | (s', RAbort) => (s', t, RAbort) | (s', RHang) => (s', t, RHang) | (s', RForeign) => (s', t, RForeign)
    end in
  match convert a with
  | RVal (inr x) => (s, ParamModel.setpar t par (Some x), RVal tt)
  | RVal (inl u) => match py_float u with
                    | Some x => (s, ParamModel.setpar t par x, RVal tt)
                    | None => by_ref (AText u)
                    end
  | RExc x => (s, t, RExc x)
  | RUndef => (s, t, RUndef) | RAbort => (s, t, RAbort) | RHang => (s, t, RHang) | RForeign => (s, t, RForeign)
  end.

(** an index argument: an int or a text *)
Inductive pyidx : Type := IInt (n : Z) | IText (t : text).
(** models pdffit.py:685-686, 698-699, 733-734, 745-746 and selalias (119): the name
    ALL in any case; other texts are refused by format "i" *)
Definition index (n : pyidx) : res Z :=
  match n with
  | IInt n => if c_int n then RVal n else RExc XOverflow
  | IText t => if ParserModel.text_eqb (map upper t) (chars "ALL") then RVal (-1) else RExc XType
  end.
Definition on_index {S A} (n : pyidx) (s : S) (f : Z -> S * res A) : S * res A :=
  match index n with
  | RVal k => f k
  | RExc x => (s, RExc x)
  | RUndef => (s, RUndef) | RAbort => (s, RAbort) | RHang => (s, RHang) | RForeign => (s, RForeign)
  end.
(** models pdffit.py:677-701 fixpar, freepar *)
Definition setflag (b : bool) (n : pyidx) (t : ptab) : ptab * res unit :=
  on_index n t (fun k => let (t', r) := ParamModel.setflag b t k in (t', from_ext (BindModel.catching BindModel.c_unassigned r))).
(** models pdffit.py:726-748 psel, pdesel *)
Definition psel (n : pyidx) (s : SessModel.session) : SessModel.session * res unit :=
  on_index n s (fun k => let (s', r) := SessModel.psel k s in (s', from_ext (BindModel.catching BindModel.c_unassigned r))).
Definition pdesel (n : pyidx) (s : SessModel.session) : SessModel.session * res unit :=
  on_index n s (fun k => let (s', r) := SessModel.pdesel k s in (s', from_ext (BindModel.catching BindModel.c_unassigned r))).

(** ** constraints *)
Notation cstate := (ConModel.cstate R).
(** the second argument of constrain *)
Inductive pypar : Type := PInt (n : Z) | PForm (t : text).
(** FCON, pdffit.py:121; None is KeyError *)
Definition fcon_number (t : text) : option Z :=
  option_map snd (find (fun p => ParserModel.text_eqb (chars (fst p)) t) [("USER", 0); ("IDENT", 1); ("FCOMP", 2); ("FSQR", 3)]%string).
(** the class of the reference, pdffit.h:72-107: stepcut and rcut are NonRefVar
    (pdffit.h:359-366) *)
Definition refinable (h : SessModel.handle) : bool :=
  match h with SessModel.HSca SessModel.Sstepcut | SessModel.HSca SessModel.Srcut => false | _ => true end.
(** the address of the variable as a number, for ConModel.v *)
Definition place (enc : SessModel.addr * SessModel.loc -> nat) (h : SessModel.handle) (s : SessModel.session) : outcome (option nat) :=
  omap (option_map enc) (SessModel.ref_of h s).
(** models pdffit.py:477-508 constrain with misc.cc:631-717: the class of the variable
    is tested first; an empty fcon counts as none *)
Definition constrain (enc : SessModel.addr * SessModel.loc -> nat) (a : pyarg) (p : pypar) (fcon : option text) (s : SessModel.session) (c : cstate) : SessModel.session * cstate * res unit :=
  match get_ref a s with
  | (s', RVal (OVar h)) =>
      let use (f : option nat -> cstate * BindModel.pyres unit) :=
        if refinable h then
          match place enc h s' with
          | Ok v => let (c', r) := f v in (s', c', from_ext r)
          | _ => (s', c, RUndef)
          end
        else (s', c, RExc (XEng BindModel.XConstraint)) in
      let by_int n ftype := if c_int n then use (fun v => BindModel.b_constrain_int c v n ftype) else (s', c, RExc XOverflow) in
      match fcon, p with
      | Some ((_ :: _) as w), PInt n => match fcon_number w with Some k => by_int n k | None => (s', c, RExc XKey) end
      | Some ((_ :: _) as w), PForm _ => match fcon_number w with Some _ => (s', c, RExc XType) | None => (s', c, RExc XKey) end
      | _, PForm t => use (fun v => BindModel.b_constrain_str c v t)
      | _, PInt n => by_int n 0
      end
  | (s', RVal OOther) => (s', c, RUndef)
  | (s', RExc x) => (s', c, RExc x)
  | (s', RUndef) => (s', c, RUndef) | (s', RAbort) => (s', c, RAbort) | (s', RHang) => (s', c, RHang) | (s', RForeign) => (s', c, RForeign)
  end.
