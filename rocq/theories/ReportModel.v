(** Model of the parameter part of the results text (output.cc:253-322 Fit::output,
    pdf.cc:918-960 PdfFit::save_res) and of the list of selected atoms in it
    (output.cc:118-155 DataSet::selectedAtomsString). *)
From Coq Require Import Ascii String List Arith ZArith Reals Bool.
From Verif Require Import Base ParamModel OrderModel MatrixModel ParserModel DataModel FmtModel ScatModel SaveModel.
Import ListNotations.
Local Open Scope R_scope.

(** ** parameters and correlations *)
(** double / double with the IEEE rules for zero, infinity and NaN; rounding is
    left out *)
Definition x_div (a b : xdbl) : xdbl :=
  match a, b with
  | Nan, _ | _, Nan => Nan
  | Inf _, Inf _ => Nan
  | Inf s, Fin d => Inf (xorb s (d_neg d))
  | Fin d, Inf s => Fin (mkDbl (xorb (d_neg d) s) 0)
  | Fin x, Fin y =>
      if Req_EM_T (d_mag y) 0 then if Req_EM_T (d_mag x) 0 then Nan else Inf (xorb (d_neg x) (d_neg y))
      else Fin (mkDbl (xorb (d_neg x) (d_neg y)) (d_mag x / d_mag y))
  end.
(** fabs(corr) > 0.8; output.cc:311 *)
Definition x_big (a : xdbl) : bool :=
  match a with Fin d => if Rlt_dec (8 / 10) (d_mag d) then true else false | Inf _ => true | Nan => false end.

(** what the text says: the three counts and, if there is a refined parameter, the
    parameters (id, value, deviation), the number of iterations and the correlations
    (two ids and the value), "none" when there are none.  The layout, Rw and the
    reduced chi squared are left out. *)
Record report (T : Type) : Type := mkRep {
  rp_constraints : nat; rp_refined : nat; rp_fixed : nat;
  rp_body : option (list (Z * T * xdbl) * Z * list (Z * Z * xdbl)) }.
Arguments mkRep {T}. Arguments rp_constraints {T}. Arguments rp_refined {T}. Arguments rp_fixed {T}. Arguments rp_body {T}.

(** models pdffit.h:150-177, the members of Fit used here; [f_nvar] is varsize() *)
Record fitdata (T : Type) : Type := mkFd { fd_tab : ptab T; fd_nvar : nat; fd_dp : list xdbl; fd_cov : @matrix xdbl; fd_iter : Z }.
Arguments mkFd {T}. Arguments fd_tab {T}. Arguments fd_nvar {T}. Arguments fd_dp {T}. Arguments fd_cov {T}. Arguments fd_iter {T}.

Section Report.
Context {T : Type}.
Variable f : fitdata T.
Let t := fd_tab f.

(** models output.cc:259-264 *)
Definition npar : nat := length (filter (fun b => b) (pfree t)).
(** models output.cc:280-284 for one index *)
Definition par_item (i : nat) : outcome (Z * T * xdbl) :=
  obind (rd (pfree t) i) (fun free =>
  obind (if free : bool then rd (fd_dp f) i else Ok (Fin d_zero)) (fun d =>
  obind (rd (pid t) i) (fun a => obind (rd (pval t) i) (fun v => Ok (a, v, d))))).
Fixpoint par_items (order : list nat) : outcome (list (Z * T * xdbl)) :=
  match order with
  | [] => Ok []
  | i :: r => obind (par_item i) (fun x => omap (cons x) (par_items r))
  end.
(** models output.cc:304-316, the loop over j for a refined i *)
Fixpoint corr_row (i : nat) (js : list nat) : outcome (list (Z * Z * xdbl)) :=
  match js with
  | [] => Ok []
  | j :: r =>
      obind (rd (pfree t) j) (fun free =>
      if free : bool then
        obind (mx_get (fd_cov f) i j) (fun c => obind (rd (fd_dp f) i) (fun di => obind (rd (fd_dp f) j) (fun dj =>
        let corr := x_div (x_div c di) dj in
        if x_big corr then
          obind (rd (pid t) i) (fun a => obind (rd (pid t) j) (fun b => omap (cons (a, b, corr)) (corr_row i r)))
        else corr_row i r)))
      else corr_row i r)
  end.
(** models output.cc:299-318 *)
Fixpoint corr_rows (order : list nat) : outcome (list (Z * Z * xdbl)) :=
  match order with
  | [] => Ok []
  | i :: r => obind (rd (pfree t) i) (fun free =>
      if free : bool then obind (corr_row i r) (fun x => omap (app x) (corr_rows r)) else corr_rows r)
  end.
(** models output.cc:253-322 *)
Definition fit_output : outcome (report T) :=
  let n := npar in
  let counts := mkRep (fd_nvar f) n (length (pval t) - n) in
  if (n =? 0)%nat then Ok (counts None)
  else let order := order_by_id t in
    obind (par_items order) (fun ps => obind (corr_rows order) (fun cs => Ok (counts (Some (ps, fd_iter f, cs))))).
(** models pdf.cc:918-946; the parts about phases and data sets are left out *)
Definition save_res : outcome (report T) := if (fd_iter f =? 0)%Z then Err ErrUnassigned else fit_output.
End Report.

(** ** selected atoms *)
(** toupper(string); StringUtils.cc:35-41 *)
Definition upper (s : text) : text := map to_up s.
(** models stru.cc:209-217, atom_types.  Atoms have the same AtomType object exactly
    if they have the same symbol (LocalPeriodicTable keeps one object per symbol), so
    the symbol stands for the object. *)
Definition atom_types (ats : list text) : list text :=
  fold_left (fun l a => if existsb (text_eqb a) l then l else l ++ [a]) ats [].
(** models map<const AtomType*, string>::operator[] += and count, find *)
Fixpoint tm_find (m : list (text * text)) (k : text) : option text :=
  match m with [] => None | (k', v) :: r => if text_eqb k' k then Some v else tm_find r k end.
Fixpoint tm_add (m : list (text * text)) (k v : text) : list (text * text) :=
  match m with [] => [(k, v)] | (k', w) :: r => if text_eqb k' k then (k', w ++ v) :: r else (k', w) :: tm_add r k v end.
(** models output.cc:133-143; [ign] is the set of ignored indices *)
Definition sel_loop (ats : list text) (ign : list nat) : list (text * text) * list text :=
  fold_left (fun '(m, it) '(k, a) =>
    if existsb (Nat.eqb k) ign then (m, a :: it) else (tm_add m a (" "%char :: int_text (Z.of_nat k + 1)), it))
    (combine (seq 0 (length ats)) ats) ([], []).
(** models output.cc:144-154 *)
Definition sel_text (ats : list text) (ign : list nat) : text :=
  let '(m, it) := sel_loop ats ign in
  concat (map (fun a => match tm_find m a with
                        | None => []
                        | Some s => chars "  " ++ upper a ++ (if existsb (text_eqb a) it then s else [])
                        end) (atom_types ats)).
(** models output.cc:118-132.  A selected phase is given by the symbols of its atoms
    and the two sets of ignored indices; None is a null pointer in psel. *)
Definition selected_atoms (psel : list (option (list text * list nat * list nat))) (ip : nat) (ij : ascii) : outcome text :=
  obind (rd psel ip) (fun p =>
  match p with
  | None => Ok []
  | Some (ats, ii, jj) =>
      if Ascii.eqb ij "i" then Ok (sel_text ats ii)
      else if Ascii.eqb ij "j" then Ok (sel_text ats jj)
      else Err ErrValue
  end).
