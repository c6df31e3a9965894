(** Model of the characters of the parameter part of the results text
    (output.cc:253-322 Fit::output; its contents are in ReportModel.v) and of the
    parameters in the log of a refinement (fit.cc:149-169 Fit::out). *)
From Coq Require Import Ascii String List Arith ZArith Reals Bool.
From Verif Require Import Base ParamModel OrderModel MatrixModel ParserModel DataModel FmtModel ScatModel SaveModel ReportModel OutModel.
Import ListNotations.
Local Open Scope R_scope.

(** ** numbers *)
(** ostream << double with precision P and no float format, with infinities; a NaN
    has no sign here *)
Definition x_general (P : nat) (x : xdbl) : text :=
  match x with
  | Fin d => general_text P (Some d)
  | Inf neg => sign_text neg ++ chars "inf"
  | Nan => chars "nan"
  end.
(** ostream << fixed << double with precision 6; fit.cc:160 *)
Definition x_fixed (x : xdbl) : text :=
  match x with
  | Fin d => fixed_text 6 d
  | Inf neg => sign_text neg ++ chars "inf"
  | Nan => chars "nan"
  end.
(** dx > fabs(x)*1e-8; StringUtils.cc:43 *)
Definition x_larger (x dx : xdbl) : bool :=
  match x, dx with
  | Fin x, Fin dx => if Rlt_dec (Rabs (d_val x) * (1 / 100000000)) (d_val dx) then true else false
  | Fin _, Inf neg => negb neg
  | _, _ => false
  end.
(** models StringUtils.cc:38-56 FormatValueWithStd::operator(); value_std of
    FmtModel.v with infinities *)
Definition x_value_std (f : fmt) (x dx : xdbl) : text :=
  let lead := if f_leading_blank f then [" "%char] else [] in
  let std := if x_larger x dx then chars " (" ++ x_general (f_std_precision f) dx ++ chars ")"
             else match dx with Nan => chars " (NaN)" | _ => [] end in
  let rv := lead ++ x_general 6 x ++ std in
  if (Z.of_nat (length rv) <? f_width f)%Z then
    let blanks := blank_text (Z.to_nat (f_width f - Z.of_nat (length rv))) in
    if f_left f then rv ++ blanks else blanks ++ rv
  else rv.

Section Text.
Variable f : fitdata xdbl.
Let t := fd_tab f.

(** ** results *)
(** models output.cc:279-286 for the parameter number [nword] of [n] *)
Definition par_text (n nword : nat) (x : Z * xdbl * xdbl) : text :=
  let '(a, v, d) := x in
  let lastword := (((nword + 1) mod 3 =? 0) || (nword + 1 =? n))%nat%bool in
  chars " " ++ pad_left 3 (int_text a) ++ chars ":" ++ x_value_std (mkFmt (if lastword then 0 else 20) true true 2) v d ++
  (if lastword then [nl] else chars "  ").
(** models output.cc:277-287 *)
Fixpoint pars_text (n nword : nat) (order : list nat) : outcome text :=
  match order with
  | [] => Ok []
  | i :: r => obind (par_item f i) (fun x => omap (app (par_text n nword x)) (pars_text n (S nword) r))
  end.
(** models output.cc:313 *)
Definition corr_text (x : Z * Z * xdbl) : text :=
  let '(a, b, c) := x in
  ln (chars "   Corr(p[" ++ int_text a ++ chars "], p[" ++ int_text b ++ chars "]) = " ++ x_general 6 c).
(** models output.cc:302-320; the loops are ReportModel.corr_rows, lkor is set
    exactly when a line is printed *)
Definition corrs_text (order : list nat) : outcome text :=
  omap (fun cs => concat (map corr_text cs) ++ match cs with [] => ln (chars "   *** none ***") | _ => [] end) (corr_rows f order).
(** models output.cc:259-322, what follows the heading *)
Definition fit_text (redchisq rw : xdbl) : outcome text :=
  let n := npar f in
  let counts :=
    ln (chars " Number of constraints        : " ++ int_text (Z.of_nat (fd_nvar f))) ++
    ln (chars " Number of refined parameters : " ++ int_text (Z.of_nat n)) ++
    ln (chars " Number of fixed parameters   : " ++ int_text (Z.of_nat (length (pval t)) - Z.of_nat n)) in
  if (n =? 0)%nat then Ok counts
  else let order := order_by_id t in
    obind (pars_text (length (pval t)) 0 order) (fun ps =>
    obind (corrs_text order) (fun cs =>
    Ok (counts ++ ln [] ++ ln (chars " Refinement parameters :") ++ ps ++
        heading (chars " REFINEMENT INFORMATION:") ++
        ln (chars " Number of iterations : " ++ int_text (fd_iter f)) ++
        ln (chars " Reduced chi squared  : " ++ x_general 6 redchisq) ++
        ln (chars " Rw - value           : " ++ x_general 6 rw) ++ ln [] ++
        ln (chars " Correlations greater than 0.8 :") ++ ln [] ++ cs))).
(** models pdf.cc:918-945 with this part; nothing is returned when a part fails *)
Definition whole_text (version : text) (ps : list ophase) (ds : list odata) (redchisq rw : xdbl) : outcome text :=
  obind (res_text version (fd_iter f) ps ds []) (fun _ =>
  obind (fit_text redchisq rw) (fun ft => res_text version (fd_iter f) ps ds ft)).

(** ** log *)
(** models fit.cc:155-166; [j] counts the parameters printed *)
Fixpoint log_items (j : nat) (order : list nat) : outcome (text * nat) :=
  match order with
  | [] => Ok ([], j)
  | i :: r =>
      obind (rd (pfree t) i) (fun free =>
      if free : bool then
        obind (rd (pid t) i) (fun a => obind (rd (pval t) i) (fun v =>
        omap (fun '(x, k) => (pad_left 4 (int_text a) ++ chars ": " ++ pad_left 9 (x_fixed v) ++
                              (if (S j mod 4 =? 0)%nat then [nl] else chars "  ") ++ x, k)) (log_items (S j) r)))
      else log_items j r)
  end.
(** models fit.cc:149-169 Fit::out *)
Definition fit_out : outcome text :=
  omap (fun '(x, j) => ln [] ++ ln (chars " Refinement parameters :") ++ x ++ (if (j mod 4 =? 0)%nat then [] else [nl]) ++ ln [])
       (log_items 0 (order_by_id t)).
End Text.
