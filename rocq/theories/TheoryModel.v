(** Model of PdfFit::fit_theory with derivatives (fit.cc:303-342), as called by
    mrqcof (pdflsmin.cc:189-195): the constraints, the atoms moved into their block of
    cells, the lattices, and for each data set the PDF and its derivatives with
    respect to the parameters (pdf.cc:154-413, fit.cc:361-560).
    The refinable variables are kept in the memory of ConModel.v; [addr] gives the
    address of each.  All other members of phases and data sets do not change. *)
From Coq Require Import List Arith ZArith Reals Bool.
From Verif Require Import Base ParamModel ParserModel MatrixModel MathSpec ConModel MathModel MetricModel PdfModel LayoutModel DerivModel LsModel.
Import ListNotations.
Local Open Scope R_scope.

Section Theory.
Variable addr : rvar -> nat.
Context (N : numops R) (builtins : list (builtin R)).

(** ** variables in memory *)
(** models the refinable members of Atom and Phase (pdffit.h:426-560) *)
Definition load_atom (mem : nat -> R) (ip : nat) (x : nat * catom) : catom :=
  let (ia, a) := x in
  mkAt (fun k => if (k <? 3)%nat then mem (addr (AV ip ia (FPos k))) else at_pos a k) (fun k => if (k <? 6)%nat then mem (addr (AV ip ia (FU k))) else at_u a k)
    (mem (addr (AV ip ia FOcc))) (at_sf a).
Definition load_phase (mem : nat -> R) (x : nat * cphase) : cphase :=
  let (ip, p) := x in
  mkCp (fun k => if (k <? 3)%nat then mem (addr (PV ip (FA0 k))) else cp_a0 p k) (fun k => if (k <? 3)%nat then mem (addr (PV ip (FWin k))) else cp_win p k) (cp_icc p)
    (map (load_atom mem ip) (combine (seq 0 (length (cp_atoms p))) (cp_atoms p)))
    (mem (addr (PV ip FDelta2))) (mem (addr (PV ip FDelta1))) (mem (addr (PV ip FPscale))) (mem (addr (PV ip FSpd)))
    (cp_stepcut p) (mem (addr (PV ip FSratio))) (cp_rcut p).
Definition load_phases (mem : nat -> R) (ph : list cphase) : list cphase := map (load_phase mem) (combine (seq 0 (length ph)) ph).
(** models the refinable members of DataSet (pdffit.h:276-420) *)
Definition load_set (mem : nat -> R) (is : nat) (d : cdata) : cdata :=
  mkCd (cd_rmin d) (cd_rfmin d) (cd_rfmax d) (cd_deltar d) (cd_qmax d)
    (mem (addr (SV is FQdamp))) (mem (addr (SV is FQbroad))) (mem (addr (SV is FDscale))) (cd_type d).

(** models fit.cc:311-322, fmod of all coordinates *)
Definition wrap_list (ph : list cphase) : list (nat * nat * nat * Z) :=
  flat_map (fun x : nat * cphase => let (ip, p) := x in
    flat_map (fun ia => map (fun i => (ip, ia, i, cp_icc p i)) [0; 1; 2]%nat) (seq 0 (length (cp_atoms p))))
    (combine (seq 0 (length ph)) ph).
Definition wrap_mem (ph : list cphase) (mem : nat -> R) : nat -> R :=
  fold_left (fun mem x => let '(ip, ia, i, icc) := x in
    let a := addr (AV ip ia (FPos i)) in mem_set mem a (fmod (mem a) (IZR icc))) (wrap_list ph) mem.

(** ** one calculation *)
(** a data set: members that are not refined, selected phases with their ignored
    atoms, observed values and weights (obs and wic are long enough) *)
Record tset : Type := mkTset {
  ts_data : cdata; ts_sel : list (option ((nat -> bool) * (nat -> bool))); ts_obs : nat -> R; ts_w : nat -> R }.
(** nfmin, nfmax, pdftot and fit_b of a data set *)
Record tres : Type := mkRes { r_lo : Z; r_hi : Z; r_pdf : list num; r_b : matrix num }.

(** models pdf.cc:154-413 DataSet::determine with ldiff set; the product fit_a * dvdp
    is fit.cc:558 *)
Definition set_result (fuel : nat) (ly : layout) (vref : list bool) (dvdp : matrix R) (is : nat) (d : cdata) (psel : list (option centry)) : outcome tres :=
  obind (determine fuel d psel) (fun r =>
  let '(lo, hi, t) := r in
  obind (determine_diff fuel d psel ly is vref) (fun A =>
  omap (mkRes lo hi t)
    (mx_mul (Some 0) nadd nmul (mkMx (length A) (length vref) (concat A)) (mkMx (mrows dvdp) (mcols dvdp) (map Some (mdata dvdp)))))).

(** models fit.cc:303-342 with ldiff set; the sums ntot and wnorm are in PdfModel.v and
    LsModel.v.  When an exception is thrown the variables keep what they have. *)
Definition theory_diff (fuel : nat) (ly : layout) (ph : list cphase) (sets : list tset) (st : cstate R) : cstate R * outcome (list tres) :=
  let (st, r) := fill_variables N builtins st in
  match r with
  | Ok _ =>
      let mem := wrap_mem ph (cmem st) in
      let st := mkCst (ctab st) (cons_ st) (cdvdp st) mem in
      (st,
       obind (ofold (fun acc p => obind (phase_lattice p) (fun de => Ok (acc ++ [(p, de)]))) (load_phases mem ph) []) (fun phd =>
       ofold (fun acc (x : nat * tset) =>
                let (is, s) := x in
                omap (fun r => acc ++ [r])
                  (set_result fuel ly (map cref (cons_ st)) (cdvdp st) is (load_set mem is (ts_data s)) (entries phd (ts_sel s))))
         (combine (seq 0 (length sets)) sets) []))
  | Err e => (st, Err e)
  | UB => (st, UB)
  | NoFuel => (st, NoFuel)
  end.

(** models pdflsmin.cc:190-191: the parameters (numbered from 1) get the values p *)
Definition with_pars (st : cstate R) (p : nat -> R) : cstate R :=
  mkCst (mkPtab (map p (seq 1 (length (pval (ctab st))))) (pfree (ctab st)) (pid (ctab st))) (cons_ st) (cdvdp st) (cmem st).

(** models fit.cc:174-277 PdfFit::fit_setup; npar is the result of getnpar *)
Definition theory_setup (ph : list cphase) (nset npar : nat) (st : cstate R) : cstate R * outcome layout :=
  let (st, r) := fill_variables N builtins st in
  (st, obind r (fun _ => fit_setup (fun v => vfind (cons_ st) (addr v)) (map (fun p => length (cp_atoms p)) ph) nset npar)).

(** ** the refinement of LsModel.v with this calculation *)
(** what mrqcof reads (pdflsmin.cc:264-277); LsModel.v has no NaN, which is 0 here *)
Definition number (x : num) : R := match x with Some r => r | None => 0 end.
Definition see (s : tset) (r : tres) : dsval :=
  mkDs (Z.to_nat (r_lo r)) (Z.to_nat (r_hi r)) (ts_obs s) (ts_w s)
    (fun i => number (nth i (r_pdf r) None)) (fun i k => number (match mx_get (r_b r) i k with Ok x => x | _ => None end)).
(** calculation for the parameters p from the state st *)
Definition theory_values (fuel : nat) (ly : layout) (ph : list cphase) (sets : list tset) (st : cstate R) (p : nat -> R) : outcome (list dsval) :=
  omap (fun rs => map (fun x => see (fst x) (snd x)) (combine sets rs)) (snd (theory_diff fuel ly ph sets (with_pars st p))).
(** the parameters of the state, numbered from 1, and a refinement of them; the
    remaining members are those of o *)
Definition pars_of (st : cstate R) (l : nat) : R := nth (l - 1) (pval (ctab st)) 0.
Definition free_of (st : cstate R) (l : nat) : bool := match l with O => false | S k => nth k (pfree (ctab st)) false end.
Definition theory_object (fuel : nat) (ph : list cphase) (sets : list tset) (npar : nat) (st : cstate R) (o : fobj) : fobj :=
  let (st', r) := theory_setup ph (length sets) npar st in
  mkF (length (pval (ctab st))) (pars_of st) (free_of st)
    (fun p => match r with Ok ly => theory_values fuel ly ph sets st' p | _ => UB end)
    (omap (fun _ => tt) r)
    (f_covar o) (f_alpha o) (f_dim o) (f_chisq o) (f_ochisq o) (f_alambda o) (f_cum o).
End Theory.
