(** Model of read_data_arrays of the Python module, misc.cc:57-68 and 217-274: from the
    Python objects given to the numbers stored.  PdfFit::read_data_arrays itself
    (pdf.cc:1294-1318, with DataSet::read_data_arrays of pdf.cc:1392) is a parameter here. *)
From Coq Require Import List Arith ZArith Reals Bool.
From Verif Require Import Base.
Import ListNotations.

(** an element of a list as PyFloat_AsDouble sees it *)
Inductive pyval : Type := PyNum (x : R) | PyNotNum.
(** an argument given for "O" *)
Inductive pyarg : Type := PyList (l : list pyval) | PyNone | PyOther.

(** PyList_Size (misc.cc:235,237,240) and whether it sets a Python exception *)
Definition list_size (a : pyarg) : Z * bool := match a with PyList l => (Z.of_nat (length l), false) | _ => ((-1)%Z, true) end.
(** models misc.cc:57-68 double_array_from_pylist: -1 and an exception for what is
    no number; PyList_GetItem gives NULL behind the end, then the same *)
Definition from_pylist (a : pyarg) (n : nat) : list R * bool :=
  let get i := match a with PyList l => match nth_error l i with Some (PyNum x) => (x, false) | _ => ((-1)%R, true) end | _ => ((-1)%R, true) end in
  (map (fun i => fst (get i)) (seq 0 n), existsb (fun i => snd (get i)) (seq 0 n)).

(** how the call ends *)
Inductive ending : Type :=
| ENone                 (* returns Py_None *)
| EValue | EData        (* returns 0 with this exception set *)
| EUndef                (* undefined behaviour: reads r_data[0] of an array of no elements, pdf.cc:1435 *)
| ETerminate.           (* a C++ exception leaves the function: std::terminate *)
(** numbers given to PdfFit::read_data_arrays: r, G(r) and dG(r) *)
Definition numbers : Type := list R * list R * option (list R).
Record called : Type := mkCalled {
  c_end : ending;
  c_set : bool;                 (* a Python exception is set at the end *)
  c_given : option numbers;     (* what PdfFit::read_data_arrays was called with *)
  c_leaked : nat }.             (* arrays made and not deleted *)

(** models misc.cc:217-274.  [reads d] tells whether PdfFit::read_data_arrays stores d
    as a data set or throws a dataError.  The name is given, as by pdffit.py:258;
    lengths fit in an int and memory suffices *)
Definition read_arrays (reads : numbers -> bool) (r G dG : pyarg) : called :=
  let '(len, e1) := list_size G in
  let '(rlen, e2) := list_size r in
  let '(dlen, e3) := match dG with PyNone => (len, false) | _ => list_size dG end in
  if negb (rlen =? len)%Z || negb (dlen =? len)%Z then mkCalled EValue true None 0
  else if (len <? 0)%Z then mkCalled ETerminate true None 0 (* new double [-1] *)
  else
    let n := Z.to_nat len in
    let '(rs, e4) := from_pylist r n in
    let '(Gs, e5) := from_pylist G n in
    let '(dGs, e6) := match dG with PyNone => (None, false) | _ => let '(d, e) := from_pylist dG n in (Some d, e) end in
    let d := (rs, Gs, dGs) in
    if n =? 0 then mkCalled EUndef true (Some d) 0
    else if reads d then mkCalled ENone (e1 || e2 || e3 || e4 || e5 || e6) (Some d) 0
    else mkCalled EData true (Some d) (match dGs with Some _ => 3 | None => 2 end).
