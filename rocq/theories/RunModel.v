(** Model of the refinement working on the program's memory: mrqcof, mrqmin and
    refine_step as in LsModel.v, but every calculation starts from the variables,
    derivative table and constraints that the one before left behind, instead of being
    a function of the parameters.  The arrays of the solver are those of LsModel.v. *)
From Coq Require Import List Arith ZArith Reals Bool.
From Verif Require Import Base GaussModel ParamModel ParserModel MatrixModel MathSpec ConModel MathModel MetricModel PdfModel LayoutModel DerivModel LsModel TheoryModel.
Import ListNotations.
Local Open Scope R_scope.

(** * the solver *)
Section Solver.
(** [W] is what the calculations work on; [put] writes fit.p, [calc] is
    fit_theory(true, false), [wsetup] is fit_setup and [wlast] fit_theory(false, false) *)
Context {W : Type}.
Variable put : W -> (nat -> R) -> W.
Variable calc : W -> W * outcome (list dsval).
Variable wsetup : W -> W * outcome unit.
Variable wlast : W -> W * outcome unit.

(** models pdflsmin.cc:175-299 mrqcof with deriv = true *)
Definition wcof (o : fobj) (w : W) (a : nat -> R) (al : fmat) (be : nat -> R) : fobj * W * fmat * (nat -> R) * outcome R :=
  let mfit := free_count (f_ia o) (f_ma o) in
  let (al, be) := mrq_zero mfit al be in
  let o := set_p o a in
  let (w, r) := calc (put w a) in
  match r with
  | Ok ds =>
      let '((al, be), chisq, cums) := acc_all (f_ma o) (f_ia o) ds (al, be) in
      (set_cum o cums, w, sym_fill mfit al, be, Ok chisq)
  | Err e => (o, w, al, be, Err e)
  | UB => (o, w, al, be, UB)
  | NoFuel => (o, w, al, be, NoFuel)
  end.

(** models pdflsmin.cc:93-115 *)
Definition winit (st : option statics) (o : fobj) (w : W) : option statics * fobj * W * outcome unit :=
  if Rlt_dec (f_alambda o) 0 then
    let mfit := free_count (f_ia o) (f_ma o) in
    let a := f_p o in
    let o := set_lambda o (/ 1000) in
    let '(o, w, al, be, r) := wcof o w a (f_alpha o) (fun _ => 0) in
    let o := set_alpha o al in
    match r with
    | Ok c => (Some (mkS (f_ma o) mfit c a be (fun _ => 0) 0), set_chisq o c, w, Ok tt)
    | Err e => (None, o, w, Err e)
    | UB => (None, o, w, UB)
    | NoFuel => (None, o, w, NoFuel)
    end
  else (st, o, w, Ok tt).

(** models pdflsmin.cc:116-171 with the wrapper 36-63: fit.p is written back (line 57)
    unless an exception leaves mrqmin *)
Definition wmain (st : statics) (o : fobj) (w : W) : option statics * fobj * W * outcome unit :=
  let ma := f_ma o in
  let a := f_p o in
  let mfit := s_mfit st in
  if negb ((ma <=? s_ma st) && (mfit <=? f_dim o) && (ma <=? f_dim o))%nat%bool then (Some st, o, w, UB) else
  let cv := augment mfit (f_alpha o) (f_covar o) (f_alambda o) in
  match gaussj mfit 1 cv (fun j _ => s_beta st j) with
  | Ok (cv, oneda) =>
      let da := copy_vec mfit (fun j => oneda j 1%nat) (s_da st) in
      let dan := Nat.max (s_dan st) mfit in
      let st := mkS (s_ma st) mfit (s_ochisq st) (s_atry st) (s_beta st) da dan in
      if Req_EM_T (f_alambda o) 0 then
        (None, set_alpha (set_covar o (covsrt cv ma (f_ia o) mfit)) (covsrt (f_alpha o) ma (f_ia o) mfit), put w a, Ok tt)
      else
        let o := set_covar o cv in
        if (dan <? free_count (f_ia o) ma)%nat then (Some st, o, w, UB) else
        let atry := trial ma (f_ia o) a da (s_atry st) in
        let '(o, w, cv, da, r) := wcof o w atry (f_covar o) da in
        let o := set_covar o cv in
        let st := mkS (s_ma st) mfit (s_ochisq st) atry (s_beta st) da dan in
        match r with
        | Ok c =>
            let o := set_chisq o c in
            if Rlt_dec c (s_ochisq st) then
              (Some (mkS (s_ma st) mfit c atry (copy_vec mfit da (s_beta st)) da dan),
               set_p (set_lambda (set_alpha o (copy_square mfit cv (f_alpha o))) (f_alambda o * / 10))
                 (copy_vec ma atry a), put w (copy_vec ma atry a), Ok tt)
            else
              (Some st, set_p (set_lambda (set_chisq o (s_ochisq st)) (f_alambda o * 10)) a, put w a, Ok tt)
        | Err e => (Some st, o, w, Err e)
        | UB => (Some st, o, w, UB)
        | NoFuel => (Some st, o, w, NoFuel)
        end
  | Err e => (Some st, set_covar o cv, w, Err e)
  | UB => (Some st, o, w, UB)
  | NoFuel => (Some st, o, w, NoFuel)
  end.

(** models pdflsmin.cc:36-171 *)
Definition wmin (st : option statics) (o : fobj) (w : W) : option statics * fobj * W * outcome unit :=
  let '(st, o, w, r) := winit st o w in
  match r with
  | Ok _ => match st with Some st => wmain st o w | None => (None, o, w, UB) end
  | e => (st, o, w, e)
  end.

Definition wst : Type := (option statics * fobj * W)%type.
(** models fit.cc:63-83 with fit_setup *)
Definition w_setup (s : wst) : wst * outcome unit :=
  let '(st, o, w) := s in
  let o := set_chisq (set_lambda o (-1)) double_max in
  let (w, r) := wsetup w in
  match r with
  | Ok _ => ((st, set_dim o (f_ma o), w), Ok tt)
  | e => ((st, o, w), e)
  end.
(** models fit.cc:95-103 *)
Definition w_iterate (toler : R) (s : wst) : wst * outcome bool :=
  let '(st, o, w) := s in
  let o := set_ochisq o (f_chisq o) in
  let '(st, o, w, r) := wmin st o w in
  ((st, o, w), omap (fun _ => if Rle_dec (f_ochisq o - f_chisq o) (toler * f_ochisq o) then true else false) r).
(** models fit.cc:124-136; fit_errors (138) is in ErrorModel.v *)
Definition w_finish (s : wst) : wst * outcome unit :=
  let '(st, o, w) := s in
  let o := set_lambda o 0 in
  let '(st, o, w, r) := wmin st o w in
  match r with
  | Ok _ => let (w, r) := wlast w in ((st, o, w), r)
  | e => ((st, o, w), e)
  end.
(** models fit.cc:54-146 and the loop fit.cc:40-48, pdffit.py:329-334 *)
Definition wstep (toler : R) : bool -> ctl -> wst -> bool * ctl * wst * outcome bool :=
  refine_step w_setup (w_iterate toler) w_finish.
Definition wrefine (toler : R) : nat -> bool -> ctl -> wst -> bool * ctl * wst * outcome unit :=
  refine w_setup (w_iterate toler) w_finish.
End Solver.

(** * the calculations *)
(** parameters, constraints, derivative table and variables; the layout made by
    fit_setup; nfmin, nfmax and pdftot of the data sets *)
Record world : Type := mkW { w_st : cstate R; w_ly : layout; w_pdf : list (Z * Z * list num) }.

Section World.
Variable addr : rvar -> nat.
Context (N : numops R) (builtins : list (builtin R)).
Variable fuel : nat.
Variable ph : list cphase.
Variable sets : list tset.
Variable npar : nat.

(** models pdflsmin.cc:57 and 190-191 *)
Definition put_pars (w : world) (p : nat -> R) : world := mkW (with_pars (w_st w) p) (w_ly w) (w_pdf w).
(** models fit.cc:303-342 fit_theory with ldiff.  When it throws, the PDFs are left as
    they were (those of the data sets before the failing one are new in the program). *)
Definition calc_diff (w : world) : world * outcome (list dsval) :=
  let (st, r) := theory_diff addr N builtins fuel (w_ly w) ph sets (w_st w) in
  match r with
  | Ok rs => (mkW st (w_ly w) (map (fun r => (r_lo r, r_hi r, r_pdf r)) rs), Ok (map (fun x => see (fst x) (snd x)) (combine sets rs)))
  | Err e => (mkW st (w_ly w) (w_pdf w), Err e)
  | UB => (mkW st (w_ly w) (w_pdf w), UB)
  | NoFuel => (mkW st (w_ly w) (w_pdf w), NoFuel)
  end.
(** models fit.cc:303-342 fit_theory without ldiff *)
Definition theory_plain (st : cstate R) : cstate R * outcome (list (Z * Z * list num)) :=
  let (st, r) := fill_variables N builtins st in
  match r with
  | Ok _ =>
      let mem := wrap_mem addr ph (cmem st) in
      let st := mkCst (ctab st) (cons_ st) (cdvdp st) mem in
      (st,
       obind (ofold (fun acc p => obind (phase_lattice p) (fun de => Ok (acc ++ [(p, de)]))) (load_phases addr mem ph) []) (fun phd =>
       ofold (fun acc (x : nat * tset) =>
                let (is, s) := x in
                omap (fun r => acc ++ [r]) (determine fuel (load_set addr mem is (ts_data s)) (entries phd (ts_sel s))))
         (combine (seq 0 (length sets)) sets) []))
  | Err e => (st, Err e)
  | UB => (st, UB)
  | NoFuel => (st, NoFuel)
  end.
Definition calc_plain (w : world) : world * outcome unit :=
  let (st, r) := theory_plain (w_st w) in
  match r with
  | Ok ts => (mkW st (w_ly w) ts, Ok tt)
  | Err e => (mkW st (w_ly w) (w_pdf w), Err e)
  | UB => (mkW st (w_ly w) (w_pdf w), UB)
  | NoFuel => (mkW st (w_ly w) (w_pdf w), NoFuel)
  end.
(** models fit.cc:174-277 fit_setup *)
Definition setup_world (w : world) : world * outcome unit :=
  let (st, r) := theory_setup addr N builtins ph (length sets) npar (w_st w) in
  match r with
  | Ok ly => (mkW st ly (w_pdf w), Ok tt)
  | Err e => (mkW st (w_ly w) (w_pdf w), Err e)
  | UB => (mkW st (w_ly w) (w_pdf w), UB)
  | NoFuel => (mkW st (w_ly w) (w_pdf w), NoFuel)
  end.
(** refine of a session: fit.p, fit.ip and the world belong to the same object *)
Definition world_refine (toler : R) : nat -> bool -> ctl -> wst -> bool * ctl * wst * outcome unit :=
  wrefine put_pars calc_diff setup_world calc_plain toler.
Definition world_step (toler : R) : bool -> ctl -> wst -> bool * ctl * wst * outcome bool :=
  wstep put_pars calc_diff setup_world calc_plain toler.
End World.
