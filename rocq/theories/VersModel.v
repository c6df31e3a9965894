(** Model of the version kept by the class PdfFit, pdffit.cc:33-56, and of its
    transfer from Python when the module is loaded, pdffit2module.cc:38-57. *)
From Coq Require Import String List Bool.
From Verif Require Import Base.
Import ListNotations.
Local Open Scope string_scope.

(** the static variable vervalue, pdffit.cc:35: None when it holds no text *)
Definition vstate : Type := option string.
(** models pdffit.cc:33-56 PdfFit::version; invalid_argument is ErrPlain.  [ver] is None
    for a null pointer, the default argument of pdffit.h:216 *)
Definition version (st : vstate) (ver : option string) : vstate * outcome string :=
  let shown s := Ok (match s with Some v => v | None => "1.0?" end) in
  match ver with
  | None => (st, shown st)
  | Some w => match st with
              | None => (Some w, shown (Some w))
              | Some v => if v =? w then (st, shown st) else (st, Err ErrPlain)
              end
  end.
(** a history of calls: the state behind them and what each one gave *)
Fixpoint calls (st : vstate) (h : list (option string)) : vstate * list (outcome string) :=
  match h with
  | [] => (st, [])
  | c :: h' => let (st1, r) := version st c in let (st2, l) := calls st1 h' in (st2, r :: l)
  end.

(** what PyImport_ImportModule, PyObject_GetAttrString and PyUnicode_AsUTF8 find,
    pdffit2module.cc:42-51 (Python 3) *)
Inductive pyversion : Type := NoModule | NoAttribute | NotText | VText (s : string).
(** models pdffit2module.cc:38-57 transfer_version: the state, whether it returned or an
    exception of C++ left it, and whether a Python exception is set *)
Definition transfer_version (st : vstate) (p : pyversion) : vstate * outcome bool :=
  match p with
  | VText s => let (st', r) := version st (Some s) in (st', omap (fun _ => false) r)
  | _ => (st, Ok true)
  end.
