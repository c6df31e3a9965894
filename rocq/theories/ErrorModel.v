(** Model of PdfFit::fit_errors and Fit::fill_errors (fit.cc:787-840). *)
From Coq Require Import List Arith Reals.
From Verif Require Import Base MatrixModel.
Import ListNotations.

(** models fit.cc:790-802: dvdpt, dp = covar.sd(), vcovar = dvdp*covar*dvdpt,
    dvar = vcovar.sd(); double idealised as R *)
Definition propagate (dvdp covar : matrix R) : outcome (list R * list R) :=
  obind (mx_transposed 0%R dvdp) (fun dvdpt =>
  obind (mx_sd 0%R sqrt covar) (fun dp =>
  obind (mx_mul 0%R Rplus Rmult dvdp covar) (fun jc =>
  obind (mx_mul 0%R Rplus Rmult jc dvdpt) (fun vcovar =>
  omap (fun dvar => (dp, dvar)) (mx_sd 0%R sqrt vcovar))))).

(** models fit.cc:823-840 Fit::fill_errors: [refvar.(i)] is the constraint of
    refinable variable i or None (-1); [sd] are the cells sdptr points to, in
    the same order *)
Fixpoint fill_errors {T} (refvar : list (option nat)) (dvar : list T) (sd : list T) : outcome (list T) :=
  match refvar, sd with
  | [], _ => Ok sd
  | _ :: _, [] => UB
  | r :: rs, s :: ss =>
      obind (match r with None => Ok s | Some k => rd dvar k end) (fun s' =>
      omap (cons s') (fill_errors rs dvar ss))
  end.
