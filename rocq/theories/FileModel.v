(** Model of files and of the names of structures and data: the lists stru_files and
    data_files of class PdfFit (pdffit.py:166-300), DataSet::name, reading from files and
    saving to files.  Texts and file names have no NUL character; the radiation type is
    one letter. *)
From Coq Require Import Ascii String.
From Coq Require Import List ZArith Reals Bool.
From Verif Require Import Base BindModel.
From Verif Require Import PdfModel.
From Verif Require ParserModel StruModel DataModel SaveModel SessModel.
Import ListNotations.
Notation text := ParserModel.text.
Notation chars := ParserModel.chars.

(** what a file contains; None: opening it for reading fails *)
Definition files : Type := text -> option text.

(** a PdfFit object: the engine, the name member of each data set (pdffit.h:417), and the
    two lists *)
Record pf : Type := mkPf { pf_ses : SessModel.session; pf_names : list text; pf_stru : list text; pf_data : list text }.
(** models pdffit.py:1273-1276 __init__ *)
Definition pf_new : pf := mkPf SessModel.init [] [] [].
Definition with_ses (s : SessModel.session) (p : pf) : pf := mkPf s (pf_names p) (pf_stru p) (pf_data p).
Definition add_name (n : text) (p : pf) : pf := mkPf (pf_ses p) (pf_names p ++ [n]) (pf_stru p) (pf_data p).
Definition add_stru (n : text) (p : pf) : pf := mkPf (pf_ses p) (pf_names p) (pf_stru p ++ [n]) (pf_data p).
Definition add_data (n : text) (p : pf) : pf := mkPf (pf_ses p) (pf_names p) (pf_stru p) (pf_data p ++ [n]).

Section Calls.
Context (look : list ascii -> option SessModel.tyid) (mks : StruModel.sphase -> SessModel.stru_content) (mkd : DataModel.dset -> SessModel.data_content) (fuel : nat).

(** models stru.cc:128-170 read_struct, read_struct_string, once there is a stream, with
    the catch clauses c *)
Definition load_struct (c : err -> option pyexc) (t : text) (p : pf) : pf * pyres unit :=
  match StruModel.read_struct t with
  | Ok ph => let (s', r) := SessModel.read_struct (inr (mks ph)) (pf_ses p) in (with_ses s' p, catching c r)
  | Err e => (p, catching c (Err e))
  | UB => (p, PUndef)
  | NoFuel => (p, PHang)
  end.
(** models pdf.cc:1294-1371, the three readers of data, for a data set d with the name n *)
Definition load_data (c : err -> option pyexc) (n : text) (d : outcome DataModel.dset) (p : pf) : pf * pyres unit :=
  match d with
  | Ok ds => let (s', r) := SessModel.read_data (inr (mkd ds)) (pf_ses p) in (add_name n (with_ses s' p), catching c r)
  | Err e => (p, catching c (Err e))
  | UB => (p, PUndef)
  | NoFuel => (p, PHang)
  end.
(** misc.cc:93-120 with stru.cc:172-180 *)
Definition ext_read_struct (fs : files) (f : text) (p : pf) : pf * pyres unit :=
  match fs f with None => (p, catching c_struct_file (Err ErrIO)) | Some t => load_struct c_struct_file t p end.
(** misc.cc:127-150 *)
Definition ext_read_struct_string (t : text) (p : pf) : pf * pyres unit := load_struct c_struct t p.
(** misc.cc:158-179 with pdf.cc:1603-1612: the file name is the name *)
Definition ext_read_data (fs : files) (f : text) (p : pf) : pf * pyres unit :=
  match fs f with None => (p, catching c_data (Err ErrIO)) | Some t => load_data c_data f (DataModel.read_data_stream fuel t) p end.
(** misc.cc:186-210 with pdf.cc:1324-1341: PdfFit::read_data_string does not hand on the
    name [n], and the default of pdffit.h:440 is taken *)
Definition ext_read_data_string (t n : text) (p : pf) : pf * pyres unit :=
  load_data c_data (chars "string") (DataModel.read_data_stream fuel t) p.
(** misc.cc:217-274 with pdf.cc:1294-1318 *)
Definition ext_read_arrays (r gr : list R) (dgr : option (list R)) (n : text) (p : pf) : pf * pyres unit :=
  if negb ((length r =? length gr)%nat && match dgr with Some l => (length l =? length gr)%nat | None => true end)
  then (p, PExc XValue)
  else load_data c_arrays n (DataModel.read_data_arrays r gr dgr) p.
(** misc.cc:319-341 with pdf.cc:48-104; line 83 gives the name *)
Definition ext_alloc (qmax qdamp rmin rmax : R) (bin : Z) (p : pf) : pf * pyres unit :=
  match SessModel.alloc qmax qdamp rmin rmax bin (pf_ses p) with
  | (s', Ok _) => (add_name (chars "Dummy set") (with_ses s' p), PVal tt)
  | (s', r) => (with_ses s' p, catching c_value_unassigned r)
  end.

(** the calls of a user *)
Inductive pop : Type :=
| PStruct (f : text) | PStructString (t name : text) | PAddStructure (t : text)
| PData (f : text) | PDataString (t name : text) | PDataLists (r gr : list R) (dgr : option (list R)) (name : text)
| PAlloc (qmax qdamp rmin rmax : R) (bin : Z) | PReset
| POther (o : SessModel.op).
(** calls of the session that load nothing and delete nothing *)
Definition plain (o : SessModel.op) : bool :=
  match o with SessModel.OAlloc _ _ _ _ _ | SessModel.OReadData _ | SessModel.OReadStruct _ | SessModel.OReset => false | _ => true end.
(** the statement behind the call of the extension is reached when there is no exception *)
Definition then_ (r : pf * pyres unit) (g : pf -> pf) : pf * pyres unit :=
  match r with (p, PVal u) => (g p, PVal u) | r => r end.
(** models pdffit.py:166-300: add_structure, read_struct, read_struct_string, read_data,
    read_data_string (where line 242 replaces the name by the data), read_data_lists,
    reset, alloc.  What writeStr makes of a structure object is given. *)
Definition pstep (fs : files) (o : pop) (p : pf) : pf * pyres unit :=
  match o with
  | PStruct f => then_ (ext_read_struct fs f p) (add_stru f)
  | PStructString t n => then_ (ext_read_struct_string t p) (add_stru n)
  | PAddStructure t => then_ (ext_read_struct_string t p) (add_stru [])
  | PData f => then_ (ext_read_data fs f p) (add_data f)
  | PDataString t n => then_ (ext_read_data_string t n p) (add_data t)
  | PDataLists r gr dgr n => then_ (ext_read_arrays r gr dgr n p) (add_data n)
  | PAlloc qmax qdamp rmin rmax bin => ext_alloc qmax qdamp rmin rmax bin p
  | PReset => (mkPf (SessModel.reset (pf_ses p)) [] [] [], PVal tt)
  | POther o => if plain o then let (s', r) := SessModel.step look o (pf_ses p) in (with_ses s' p, catching (c_op o) r) else (p, PVal tt)
  end.
(** a session: the files can be others at each call; the answers are whether there was no
    exception.  None: the process is gone or the behaviour undefined *)
Fixpoint prun (l : list (files * pop)) (p : pf) : option (pf * list bool) :=
  match l with
  | [] => Some (p, [])
  | (fs, o) :: l =>
      match pstep fs o p with
      | (p', PVal _) => option_map (fun r => (fst r, true :: snd r)) (prun l p')
      | (p', PExc _) => option_map (fun r => (fst r, false :: snd r)) (prun l p')
      | _ => None
      end
  end.
End Calls.

(** ** saving *)
Definition put (fs : files) (f t : text) : files := fun g => if DataModel.text_eqb g f then Some t else fs g.
Section Save.
(** which files can be opened for writing, and how many characters there is room for.
    ofstream drops what does not fit and only sets a flag, which is not looked at. *)
Context (can : text -> bool) (room : text -> nat).
(** the text is made after the file has been opened, which empties it *)
Definition write_after (build : outcome text) (f : text) (fs : files) : files * outcome text :=
  match f with
  | [] => (fs, build)
  | _ :: _ => if can f then match build with
                            | Ok t => (put fs f (firstn (room f) t), Ok t)
                            | r => (put fs f [], r)
                            end
              else (fs, Err ErrIO)
  end.
(** the text is made before *)
Definition write_before (build : outcome text) (f : text) (fs : files) : files * outcome text :=
  match build with
  | Ok t => match f with
            | [] => (fs, Ok t)
            | _ :: _ => if can f then (put fs f (firstn (room f) t), Ok t) else (fs, Err ErrIO)
            end
  | r => (fs, r)
  end.
Definition ext_save (r : files * outcome text) : files * pyres text := (fst r, catching c_save (snd r)).
(** misc.cc:483-510 with pdf.cc:969-1004 *)
Definition save_pdf (sets : list SaveModel.sdata) (is : Z) (f : text) (fs : files) : files * pyres text :=
  ext_save (if ((is <? 1) || (Z.of_nat (length sets) <? is))%Z then (fs, Err ErrUnassigned)
            else write_after (obind (rdz sets (is - 1)) SaveModel.build_pdf_file) f fs).
(** misc.cc:514-541 with pdf.cc:1037-1068 *)
Definition save_dif (sets : list SaveModel.sdata) (is : Z) (f : text) (fs : files) : files * pyres text :=
  ext_save (if ((is <? 1) || (Z.of_nat (length sets) <? is))%Z then (fs, Err ErrUnassigned)
            else write_after (obind (rdz sets (is - 1)) SaveModel.build_dif_file) f fs).
(** misc.cc:545-572 with pdf.cc:918-960; [report]: the text of lines 932-945 *)
Definition save_res (iter : Z) (report : outcome text) (f : text) (fs : files) : files * pyres text :=
  ext_save (if (iter =? 0)%Z then (fs, Err ErrUnassigned) else write_before report f fs).
(** misc.cc:575-602 with stru.cc:433-473 *)
Definition save_struct (phases : list StruModel.sphase) (ip : Z) (f : text) (fs : files) : files * pyres text :=
  ext_save (if ((ip <? 1) || (Z.of_nat (length phases) <? ip))%Z then (fs, Err ErrUnassigned)
            else write_before (omap StruModel.save_struct (rdz phases (ip - 1))) f fs).
End Save.
