(** Model of the log of a refinement (fit.cc:54-146 refine_step, pdflsmin.cc:109-113
    in mrqmin); what the refinement does is in LsModel.v, the parameters in the log are
    in FitTextModel.v.  The log of a call that throws is what has been printed before.
    The log is UB where printing it reads a phase that does not exist. *)
From Coq Require Import Ascii String List Arith ZArith Reals Bool.
From Verif Require Import Base GaussModel LsModel ParamModel MatrixModel ParserModel DataModel FmtModel SaveModel ReportModel OutModel FitTextModel.
Import ListNotations.
Local Open Scope R_scope.

(** models pdffit.h:151-164, 226-228: what is printed but not kept in [fobj]: the ids of
    the parameters (index from 1), number and selected phases of each data set, numbers
    of the phases, fit.ntot and fit.wnorm.  The last two are summed up anew in each
    evaluation of the model (fit.cc:328-341) from the fit ranges, weights and observed
    values, which a refinement does not change; they are constants here. *)
Record logd : Type := mkLog {
  lg_id : nat -> Z; lg_sets : list (Z * list bool); lg_phases : list Z; lg_ntot : Z; lg_wnorm : R }.

(** one text after another *)
Definition cat (a b : outcome text) : outcome text := obind a (fun x => omap (app x) b).

Section Log.
Variable lg : logd.

(** models fit.cc:75-77, the selected phases of a data set from number [ip] on *)
Fixpoint sel_text (ip : nat) (psel : list bool) : outcome text :=
  match psel with
  | [] => Ok []
  | b :: r =>
      if b then obind (rd (lg_phases lg) ip) (fun k => omap (app (int_text k ++ chars "  ")) (sel_text (S ip) r))
      else sel_text (S ip) r
  end.
(** models fit.cc:72-80 *)
Fixpoint sets_text (sets : list (Z * list bool)) : outcome text :=
  match sets with
  | [] => Ok []
  | (iset, psel) :: r =>
      obind (sel_text 0 psel) (fun s =>
      omap (app (ln (chars " Dataset: " ++ int_text iset ++ chars "   Phase: " ++ s))) (sets_text r))
  end.
(** models fit.cc:67-80 *)
Definition start_text : outcome text :=
  cat (Ok (ln (chars "*******************") ++ ln (chars "Starting refinement") ++ ln (chars "*******************")))
      (sets_text (lg_sets lg)).

(** the doubles of an object as the table that is printed *)
Definition log_tab (o : fobj) : ptab xdbl :=
  mkPtab (map (fun l => Fin (dbl_of (f_p o l))) (up (f_ma o))) (map (f_ia o) (up (f_ma o))) (map (lg_id lg) (up (f_ma o))).
Definition log_fit (o : fobj) : fitdata xdbl := mkFd (log_tab o) 0 [] (mkMx 0 0 []) 0%Z.

(** sqrt(double) with the IEEE rules *)
Definition x_sqrt (x : xdbl) : xdbl :=
  match x with
  | Fin d => if Req_EM_T (d_mag d) 0 then Fin d else if d_neg d then Nan else Fin (mkDbl false (sqrt (d_mag d)))
  | Inf neg => if neg : bool then Nan else Inf false
  | Nan => Nan
  end.
(** models fit.cc:107-108, 127-128, pdflsmin.cc:110-111; ndof is counted in fit_setup
    (fit.cc:276-279) *)
Definition log_rw (chisq : R) : xdbl := x_sqrt (x_div (Fin (dbl_of chisq)) (Fin (dbl_of (lg_wnorm lg)))).
Definition log_red (o : fobj) (chisq : R) : xdbl :=
  x_div (Fin (dbl_of chisq)) (Fin (dbl_of (IZR (lg_ntot lg - Z.of_nat (free_count (f_ia o) (f_ma o)))))).

(** models fit.cc:110-114, 130-132, pdflsmin.cc:112-113 *)
Definition state_text (o : fobj) (chisq : R) (stag : bool) : outcome text :=
  cat (fit_out (log_fit o))
      (Ok (ln (chars " chisq.: " ++ x_general 6 (Fin (dbl_of chisq)) ++ chars "   red.chisq.: " ++ x_general 6 (log_red o chisq) ++
               chars "   Rw: " ++ x_general 6 (log_rw chisq) ++ (if stag then chars "    stagnating" else [])))).
(** models fit.cc:105 and pdflsmin.cc:109 *)
Definition iter_text (iter : nat) : text :=
  ln [] ++ ln (chars "******************************** ITER: " ++ int_text (Z.of_nat iter) ++ chars " ********************************").
(** models fit.cc:122 *)
Definition final_text : text := ln [] ++ ln (chars "================================ FINAL ==================================").
(** models fit.cc:134 *)
Definition end_text : text := ln [] ++ ln (chars "=========================================================================") ++ ln [].

(** models pdflsmin.cc:93-114, what the first call of mrqmin prints; nothing when
    mrqcof throws *)
Definition first_text (iter : nat) (x : lst) : outcome text :=
  let (st, o) := x in
  if Rlt_dec (f_alambda o) 0 then
    match mrq_init st o with
    | (_, o', Ok _) => cat (Ok (iter_text iter)) (state_text o' (f_chisq o') false)
    | _ => Ok []
    end
  else Ok [].

(** models fit.cc:93-116 *)
Definition iterate_log (toler : R) (c : ctl) (x : lst) : outcome text :=
  cat (first_text (c_iter c) x)
    match ls_iterate toler x with
    | (x', Ok stag) =>
        let c' := bump c stag in
        cat (Ok (iter_text (c_iter c'))) (state_text (snd x') (f_chisq (snd x')) (negb (c_stag c' =? 0)%nat))
    | _ => Ok []
    end.
(** models fit.cc:122-134; what follows prints nothing *)
Definition finish_log (x : lst) : outcome text :=
  let (st, o) := x in
  cat (Ok final_text)
    match mrqmin st (set_lambda o 0) with
    | (_, o', Ok _) => cat (state_text o' (f_chisq o') false) (Ok end_text)
    | _ => Ok []
    end.
(** models fit.cc:54-146, what refine_step prints *)
Definition step_log (toler : R) (running : bool) (c : ctl) (x : lst) : outcome text :=
  let running := (running && negb (c_iter c =? 0)%nat)%bool in
  let '(head, c, x, r) :=
    if running then (Ok [], c, x, Ok tt)
    else let (x, r) := ls_setup x in (start_text, mkC 0 0, x, r) in
  cat head
    match r with
    | Ok _ => if need_more c then iterate_log toler c x else finish_log x
    | _ => Ok []
    end.
(** models fit.cc:40-48 refine and pdffit.py:329-334, what the loop over refine_step
    prints *)
Fixpoint refine_log (toler : R) (fuel : nat) (running : bool) (c : ctl) (x : lst) : outcome text :=
  match fuel with
  | O => Ok []
  | S n =>
      cat (step_log toler running c x)
        match ls_step toler running c x with
        | (running', c', x', Ok false) => refine_log toler n running' c' x'
        | _ => Ok []
        end
  end.
End Log.
