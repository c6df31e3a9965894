(** Model of the r grid of a data set and of the indices computed from it, in the
    double arithmetic of the machine: binary64 of IEEE 754 with rounding to nearest,
    as formalised by Flocq (one NaN, infinities, signed zeros, subnormals).
    The other models take doubles to be real numbers; here nothing is idealised.
    Sources: pdf.cc:48-90 (alloc), 161-180, 232-345 (determine), 815-845
    (extendCalculationRange), 1370-1445 (read_data_arrays), 1540-1575
    (read_data_stream), 1617-1656 (range), MathUtils.h:47-50 (nint), misc.cc:895-915
    (getR).  The scattering type, names and observed values are left out. *)
From Coq Require Import List ZArith Bool.
From Flocq Require Import Core.Core IEEE754.BinarySingleNaN.
From Verif Require Import Base PdfModel.
Import ListNotations.
Local Open Scope Z_scope.

(** double *)
Global Instance f64_prec : Prec_gt_0 53 := eq_refl.
Global Instance f64_emax : Prec_lt_emax 53 1024 := eq_refl.
Definition f64 : Type := binary_float 53 1024.
Definition fadd (x y : f64) : f64 := Bplus mode_NE x y.
Definition fsub (x y : f64) : f64 := Bminus mode_NE x y.
Definition fmul (x y : f64) : f64 := Bmult mode_NE x y.
Definition fdiv (x y : f64) : f64 := Bdiv mode_NE x y.
(** comparisons; false when an operand is NaN *)
Definition flt (x y : f64) : bool := Bltb x y.
Definition fle (x y : f64) : bool := Bleb x y.
(** the double nearest to m * 2^e: literals, and conversions of an int with e = 0 *)
Definition flit (m e : Z) : f64 := binary_normalize 53 1024 _ _ mode_NE m e false.
Definition fofz (m : Z) : f64 := flit m 0.
Definition fzero : f64 := fofz 0.
(** M_PI of math.h, 0x1.921FB54442D18p+1 *)
Definition fpi : f64 := flit 7074237752028440 (-51).
(** std::max(a, b) and std::min(a, b) *)
Definition fmax (a b : f64) : f64 := if flt a b then b else a.
Definition fmin (a b : f64) : f64 := if flt b a then b else a.
Definition fabs (x : f64) : f64 := Babs x.

(** the magnitude m * 2^e rounded to an integer, halves up *)
Definition round_mag (m : positive) (e : Z) : Z :=
  if 0 <=? e then Zpos m * 2 ^ e else (2 * Zpos m + 2 ^ (- e)) / (2 * 2 ^ (- e)).
(** the magnitude m * 2^e rounded down to an integer *)
Definition trunc_mag (m : positive) (e : Z) : Z :=
  if 0 <=? e then Zpos m * 2 ^ e else Zpos m / 2 ^ (- e).
(** conversion of a double whose fraction is discarded by [mag]; undefined for NaN,
    infinities and values that do not fit in an int *)
Definition fconv (mag : positive -> Z -> Z) (x : f64) : outcome Z :=
  match x with
  | B754_zero _ => Ok 0
  | B754_finite s m e _ => to_int (cond_Zopp s (mag m e))
  | B754_infinity _ | B754_nan => UB
  end.
(** models MathUtils.h:47-50 nint: (int) round(x), halves away from zero *)
Definition fnint (x : f64) : outcome Z := fconv round_mag x.
(** (int) x *)
Definition ftrunc (x : f64) : outcome Z := fconv trunc_mag x.

(** models the fields of DataSet that place its points: rmin, rmax, rfmin, rfmax,
    bin, deltar, qmax, nfmin, nfmax *)
Record fset : Type := mkFs {
  fs_rmin : f64; fs_rmax : f64; fs_rfmin : f64; fs_rfmax : f64; fs_bin : Z; fs_dr : f64;
  fs_qmax : f64; fs_nfmin : Z; fs_nfmax : Z }.

(** models pdf.cc:82, 1438 and 1570: the step *)
Definition fstep (rmin rmax : f64) (bin : Z) : f64 := fdiv (fsub rmax rmin) (fofz (bin - 1)).
(** models pdf.cc:48-82 alloc; nfmin and nfmax keep the zeros of the constructor
    (pdffit.h class Pdf).  The test of qdamp is left out. *)
Definition falloc (qmax rmin rmax : f64) (bin : Z) : outcome fset :=
  if flt rmax rmin || flt rmin fzero || flt rmax fzero then Err ErrValue
  else if bin <=? 1 then Err ErrValue
  else if flt qmax fzero then Err ErrValue
  else Ok (mkFs rmin rmax rmin rmax bin (fstep rmin rmax bin) qmax 0 0).

(** models MathUtils.h:31 deltar_tol, the double nearest to 0.001 *)
Definition fdeltar_tol : f64 := flit 1152921504606847 (-60).
(** models pdf.cc:1376-1382, the loop of isRegular *)
Fixpoint fsteps_ok (dx p0 : f64) (r : list f64) : bool :=
  match r with
  | [] => true
  | p1 :: t => if flt fdeltar_tol (fabs (fsub (fsub p1 p0) dx)) then false else fsteps_ok dx p1 t
  end.
(** models pdf.cc:1371-1383 isRegular *)
Definition fregular (r : list f64) : bool :=
  match r with
  | [] => true
  | p :: t =>
      if Z.of_nat (length r) <? 2 then true
      else fsteps_ok (fdiv (fsub (last r p) p) (fofz (Z.of_nat (length r) - 1))) p t
  end.
(** models pdf.cc:1431-1443, the end of read_data_arrays (nfmin and nfmax keep the
    zeros of the constructor); an empty array is read at r_data[0] *)
Definition fread_arrays (qmax : f64) (r : list f64) : outcome fset :=
  match r with
  | [] => UB
  | p :: _ =>
      let b := Z.of_nat (length r) in
      let s := mkFs p (last r p) p (last r p) b (fstep p (last r p) b) qmax 0 0 in
      if fregular r then Ok s else Err ErrData
  end.
(** models pdf.cc:1556-1570, the end of read_data_stream *)
Definition fread_stream (qmax : f64) (r : list f64) : outcome fset :=
  if fregular r then
    match r with
    | p :: _ :: _ =>
        let b := Z.of_nat (length r) in
        Ok (mkFs p (last r p) p (last r p) b (fstep p (last r p) b) qmax 0 (b - 1))
    | _ => Err ErrData
    end
  else Err ErrData.
(** models pdf.cc:1617-1656 PdfFit::range on one data set, and DataSet::range *)
Definition frange (s : fset) (rmin rmax : f64) : outcome fset :=
  if fle rmax rmin then Err ErrValue
  else if fle (fs_rmin s) rmin && fle rmin (fs_rmax s) && fle rmax (fs_rmax s) && flt rmin rmax then
    Ok (mkFs (fs_rmin s) (fs_rmax s) rmin rmax (fs_bin s) (fs_dr s) (fs_qmax s) (fs_nfmin s) (fs_nfmax s))
  else Err ErrValue.

(** models nint((x - rmin)/deltar), pdf.cc:167-168, 338-339, 827-828, 837-838 *)
Definition findex (s : fset) (x : f64) : outcome Z := fnint (fdiv (fsub x (fs_rmin s)) (fs_dr s)).
(** models i*deltar + rmin, pdf.cc:344, 365, 1020, 1083, fit.cc:377, misc.cc:913 *)
Definition fgrid (s : fset) (i : Z) : f64 := fadd (fmul (fofz i) (fs_dr s)) (fs_rmin s).

(** rcmin, rcmax, ncmin, ncmax *)
Record fcalc : Type := mkFc { fc_min : f64; fc_max : f64; fc_nmin : Z; fc_nmax : Z }.
(** models pdf.cc:824-828 and 835-838 *)
Definition fcalc_of (s : fset) (rcmin rcmax : f64) : outcome fcalc :=
  obind (findex s rcmin) (fun a => obind (findex s rcmax) (fun b => Ok (mkFc rcmin rcmax a b))).
(** models pdf.cc:815-844 extendCalculationRange: nripples*2 is an int product *)
Definition fextend (s : fset) : outcome fcalc :=
  obind (fcalc_of s (fs_rfmin s) (fs_rfmax s)) (fun c =>
  if negb (flt fzero (fs_qmax s)) then Ok c
  else
    let rext := fdiv (fmul (fofz (6 * 2)) fpi) (fs_qmax s) in
    fcalc_of s (fmax (fs_rmin s) (fsub (fs_rfmin s) rext)) (fadd (fs_rfmax s) rext)).
(** models pdf.cc:167-171, the beginning of determine *)
Definition fdetermine (s : fset) : outcome (fset * fcalc) :=
  obind (findex s (fs_rfmin s)) (fun a =>
  obind (findex s (fs_rfmax s)) (fun b =>
  let s' := mkFs (fs_rmin s) (fs_rmax s) (fs_rfmin s) (fs_rfmax s) (fs_bin s) (fs_dr s) (fs_qmax s) a b in
  obind (fextend s') (fun c => Ok (s', c)))).
(** models pdf.cc:330-339, the points one peak is added to: ib and ie *)
Definition fpeak (s : fset) (c : fcalc) (dist sigma stepcut : f64) : outcome (Z * Z) :=
  let rb := fmax (fc_min c) (fsub dist (fmul (fofz 5) sigma)) in
  let re := fmin (fc_max c) (fadd dist (fmul (fofz 5) sigma)) in
  let re := if flt fzero stepcut then fmin re stepcut else re in
  obind (findex s rb) (fun ib => obind (findex s re) (fun ie => Ok (ib, ie))).
(** models pdf.cc:341-346: the indices of ppp written for one peak, in order;
    UB when one is outside the ncmax + 1 elements of ppp *)
Definition fpeak_writes (s : fset) (c : fcalc) (dist sigma stepcut : f64) : outcome (list Z) :=
  obind (fpeak s c dist sigma stepcut) (fun p =>
  let l := zloop (fst p) (snd p) in
  if forallb (fun i => (0 <=? i) && (i <? fc_nmax c + 1)) l then Ok l else UB).

(** models misc.cc:896-915 getR *)
Definition fget_r (s : fset) : outcome (list f64) :=
  let pts a b := if b - a + 1 <? 0 then Err ErrPlain else Ok (map (fgrid s) (zloop a b)) in
  if fs_nfmax s - fs_nfmin s + 1 =? 1 then
    obind (ftrunc (fdiv (fsub (fs_rmax s) (fs_rmin s)) (fs_dr s))) (fun n => pts 0 n)
  else pts (fs_nfmin s) (fs_nfmax s).
