(** Model of the Phase and DataSet objects a PdfFit object makes and deletes:
    stru.cc:128-170, pdf.cc:48-104 and 1294-1371, pdffit.cc:60-101.  What the
    objects contain is in SessModel; here an object is its address. *)
From Coq Require Import List Arith ZArith Reals Bool.
From Verif Require Import Base.
Import ListNotations.

(** pdffit.h:223,229: the vectors phase and datasets; per address made by new
    whether the object still exists *)
Record pool : Type := mkPool { p_live : list bool; p_phases : list nat; p_sets : list nat }.

(** delete of the object at a, stru.cc:135,159, pdf.cc:1304,1330,1355, pdffit.cc:84,92 *)
Definition free1 (l : list bool) (a : nat) : outcome (list bool) :=
  match nth_error l a with Some true => Ok (upd a false l) | _ => UB end.

(** calls that make or delete objects.  For the readers the flag tells whether
    the file or string was read without an exception; all exceptions thrown by
    them are of class Exception (exceptions.h:27-93) *)
Inductive scall : Type :=
| CStruct (ok : bool)                              (* read_struct, read_struct_string *)
| CData (ok : bool)                                (* read_data, read_data_string, read_data_arrays *)
| CAlloc (qmax qdamp rmin rmax : R) (bin : Z)      (* alloc *)
| CReset.                                          (* reset; also the destructor *)

(** models pdf.cc:53-68, the tests in alloc *)
Definition alloc_test (qmax qdamp rmin rmax : R) (bin : Z) : bool :=
  if Rlt_dec rmax rmin then false
  else if Rlt_dec rmin 0 then false
  else if Rlt_dec rmax 0 then false
  else if (bin <=? 1)%Z then false
  else if Rlt_dec qmax 0 then false
  else if Rlt_dec qdamp 0 then false
  else true.

(** one call *)
Definition scall_step (p : pool) (c : scall) : outcome pool :=
  let a := length (p_live p) in
  let l := p_live p ++ [true] in
  match c with
  | CStruct ok => (* models stru.cc:130-139, 154-163 *)
      if ok then Ok (mkPool l (p_phases p ++ [a]) (p_sets p))
      else obind (free1 l a) (fun l => Ok (mkPool l (p_phases p) (p_sets p)))
  | CData ok => (* models pdf.cc:1297-1315, 1326-1337, 1350-1367 *)
      if ok then Ok (mkPool l (p_phases p) (p_sets p ++ [a]))
      else obind (free1 l a) (fun l => Ok (mkPool l (p_phases p) (p_sets p)))
  | CAlloc qmax qdamp rmin rmax bin => (* models pdf.cc:51-68, 101 *)
      if alloc_test qmax qdamp rmin rmax bin then Ok (mkPool l (p_phases p) (p_sets p ++ [a]))
      else Ok (mkPool l (p_phases p) (p_sets p))
  | CReset => (* models pdffit.cc:83-85, 91-93 *)
      obind (ofold free1 (p_sets p) (p_live p)) (fun l =>
      obind (ofold free1 (p_phases p) l) (fun l => Ok (mkPool l [] [])))
  end.

(** a PdfFit object and the calls on it; models pdffit.cc:60-64 *)
Definition own_run (cs : list scall) : outcome pool := ofold scall_step cs (mkPool [] [] []).
