(** Specification of the results text: sizes of the arrays after a refinement and
    how a list of selected atoms is read. *)
From Coq Require Import Ascii String List Arith ZArith Reals Bool.
From Verif Require Import Base ParamModel MatrixModel ParserModel DataModel FmtModel ElementTable ScatModel SaveModel ReportModel.
Import ListNotations.

(** the deviations and the covariance matrix have the size of the parameter table,
    as fit.cc:281-283 makes them *)
Definition sized {T} (f : fitdata T) : Prop :=
  let n := length (pid (fd_tab f)) in
  length (fd_dp f) = n /\ mrows (fd_cov f) = n /\ mcols (fd_cov f) = n /\ length (mdata (fd_cov f)) = (n * n)%nat.
(** entry of a matrix stored by rows *)
Definition entry {T} (m : @matrix T) (i j : nat) : option T := nth_error (mdata m) (i * mcols m + j).
(** a finite double *)
Definition real (x : R) : xdbl := Fin (dbl_of x).

(** Reading a list of selected atoms: words of digits are the numbers of atoms of the
    kind named by the last word before that is no number; without numbers all atoms
    of the kind are meant. *)
Definition digits_only (w : text) : bool := forallb (fun c => is_digit c) w.
Fixpoint take_numbers (ws : list text) : list text * list text :=
  match ws with
  | w :: r => if digits_only w then let (a, b) := take_numbers r in (w :: a, b) else ([], ws)
  | [] => ([], [])
  end.
(** atom number [no] of kind [sym] is named by the words *)
Inductive named (sym no : text) : list text -> Prop :=
| N_here ws : (fst (take_numbers ws) = [] \/ In no (fst (take_numbers ws))) -> named sym no (sym :: ws)
| N_later w ws : named sym no ws -> named sym no (w :: ws).
(** the symbol of an element of the table *)
Definition symbol (s : text) : Prop := exists e, In e elements /\ s = esym e.
