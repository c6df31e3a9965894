(** Model of the PDF calculation: DataSet::determine and what it calls
    (pdf.cc:107-145, 154-413, 790-909), PdfFit::fit_theory (fit.cc:303-342).
    Doubles are real numbers.  Where an operation leaves the real numbers (division
    by zero, root of a negative number) the result is [None], which stands for NaN
    or an infinity; nothing the code does with such a value afterwards gives a
    finite one again.  Rounding is left out.  Derivatives are in DerivModel.v. *)
From Coq Require Import List Arith ZArith Reals Bool Ascii.
From Verif Require Import Base MathModel MetricModel SphereModel.
Import ListNotations.
Local Open Scope R_scope.

(** a double *)
Definition num : Type := option R.
Definition nadd (x y : num) : num := match x, y with Some a, Some b => Some (a + b) | _, _ => None end.
Definition nsub (x y : num) : num := match x, y with Some a, Some b => Some (a - b) | _, _ => None end.
Definition nmul (x y : num) : num := match x, y with Some a, Some b => Some (a * b) | _, _ => None end.
Definition ndiv (x y : num) : num :=
  match x, y with Some a, Some b => if Req_EM_T b 0 then None else Some (a / b) | _, _ => None end.
Definition nsqrt (x : R) : num := if Rlt_dec x 0 then None else Some (sqrt x).

(** round() of the C library: nearest integer, halves away from zero *)
Definition rnd (x : R) : Z := if Rlt_dec x 0 then (- zfloor (1 / 2 - x))%Z else zfloor (x + 1 / 2).
(** conversion to int: undefined when the value does not fit *)
Definition to_int (z : Z) : outcome Z :=
  if ((-2147483648 <=? z) && (z <=? 2147483647))%Z then Ok z else UB.
(** models MathUtils.h:47-50 nint applied to the quotient x/d; for d = 0 the
    quotient is not finite and its conversion to int is undefined *)
Definition nint_div (x d : R) : outcome Z := if Req_EM_T d 0 then UB else to_int (rnd (x / d)).

(** for (i = a; i <= b; i++) *)
Definition zloop (a b : Z) : list Z := map (fun k => (a + Z.of_nat k)%Z) (seq 0 (Z.to_nat (b - a + 1))).
(** array access through an int index *)
Definition rdz {A} (l : list A) (i : Z) : outcome A := if (i <? 0)%Z then UB else rd l (Z.to_nat i).
Definition wrz {A} (l : list A) (i : Z) (x : A) : outcome (list A) := if (i <? 0)%Z then UB else wr l (Z.to_nat i) x.

(** models Atom of pdffit.h: position, u[0..5], occupancy and the scattering
    factor atom_type->sf(tp) for the radiation tp *)
Record catom : Type := mkAt { at_pos : v3; at_u : nat -> R; at_occ : R; at_sf : ascii -> R }.
(** models the fields of Phase (pdffit.h:477-) that the calculation reads *)
Record cphase : Type := mkCp {
  cp_a0 : v3; cp_win : v3; cp_icc : nat -> Z; cp_atoms : list catom;
  cp_delta2 : R; cp_delta1 : R; cp_pscale : R; cp_spd : R; cp_stepcut : R; cp_sratio : R; cp_rcut : R }.
(** models the fields of DataSet that the calculation reads *)
Record cdata : Type := mkCd {
  cd_rmin : R; cd_rfmin : R; cd_rfmax : R; cd_deltar : R;
  cd_qmax : R; cd_qdamp : R; cd_qbroad : R; cd_dscale : R; cd_type : ascii }.
(** what Phase::lattice leaves in the phase *)
Record cderived : Type := mkDer { de_lat : lattice_t; de_np : R; de_rho0 : num }.
(** an entry of psel that is not null: the phase with the indices of
    phase_ignore_i and phase_ignore_j *)
Record centry : Type := mkEnt { en_ph : cphase; en_der : cderived; en_igni : nat -> bool; en_ignj : nat -> bool }.

(** models metric.cc:162-173, number density at the end of Phase::lattice *)
Definition phase_lattice (p : cphase) : outcome cderived :=
  obind (lattice (cp_a0 p) (cp_win p)) (fun l =>
  let np := fold_left (fun s a => s + at_occ a) (cp_atoms p) 0 in
  let ncc := (cp_icc p 0 * cp_icc p 1 * cp_icc p 2)%Z in
  Ok (mkDer l np (ndiv (Some np) (Some (IZR ncc * l_v l))))).

(** models pdf.cc:821-844 extendCalculationRange: rcmin, rcmax, ncmin, ncmax *)
Definition calc_range (d : cdata) : outcome (R * R * Z * Z) :=
  let lim rcmin rcmax :=
    obind (nint_div (rcmin - cd_rmin d) (cd_deltar d)) (fun ncmin =>
    obind (nint_div (rcmax - cd_rmin d) (cd_deltar d)) (fun ncmax => Ok (rcmin, rcmax, ncmin, ncmax))) in
  obind (lim (cd_rfmin d) (cd_rfmax d)) (fun l =>
  if Rlt_dec 0 (cd_qmax d) then
    let rext := 6 * 2 * PI / cd_qmax d in
    lim (Rmax (cd_rmin d) (cd_rfmin d - rext)) (cd_rfmax d + rext)
  else Ok l).

(** models pdf.cc:850-875 circum_diameter *)
Definition circum_diameter (l : lattice_t) (atoms : list catom) : R :=
  match atoms with
  | [] => 0
  | _ =>
      let norm x y z :=
        let h : v3 := fun i => match i with O => x | S O => y | _ => z end in
        sqrt (skalpro (l_gten l) h h) in
      let maxnorm := fold_left (fun m n => if Rlt_dec m n then n else m)
                       [norm 1 1 1; norm (-1) 1 1; norm 1 (-1) 1; norm 1 1 (-1)] (-1) in
      maxnorm * (1 + double_eps) + double_eps
  end.

(** models pdf.cc:880-909 msdAtoms.  The caller has checked that vl is at least
    0.1 long, so the division by its length is a plain one. *)
Definition msd_atoms (l : lattice_t) (ai aj : catom) (vl : v3) : R :=
  let vlnorm := sqrt (skalpro (l_gten l) vl vl) in
  let vln : v3 := fun i => vl i / vlnorm in
  let U k := at_u ai k + at_u aj k in
  let ar := l_ar l in
  let rhs i := fold_left (fun s j => s + l_gten l i j * vln j) idx3 0 in
  U 0%nat * ar 0%nat * ar 0%nat * rhs 0%nat * rhs 0%nat
  + U 1%nat * ar 1%nat * ar 1%nat * rhs 1%nat * rhs 1%nat
  + U 2%nat * ar 2%nat * ar 2%nat * rhs 2%nat * rhs 2%nat
  + 2 * (U 3%nat * ar 0%nat * ar 1%nat) * rhs 0%nat * rhs 1%nat
  + 2 * (U 4%nat * ar 0%nat * ar 2%nat) * rhs 0%nat * rhs 2%nat
  + 2 * (U 5%nat * ar 1%nat * ar 2%nat) * rhs 1%nat * rhs 2%nat.

(** models pdf.cc:790-818 averageScatteringFactor and setup_weights *)
Definition weights (tp : ascii) (np : R) (atoms : list catom) : list num :=
  let bavg := ndiv (Some (fold_left (fun s a => s + at_occ a * at_sf a tp) atoms 0)) (Some np) in
  map (fun a => ndiv (Some (at_sf a tp)) bavg) atoms.

(** for (iidx = 0; ...) for (jidx = iidx; ...) *)
Definition half_loop (n : nat) : list (nat * nat) :=
  flat_map (fun i => map (fun j => (i, j)) (seq i (n - i))) (seq 0 n).
(** models pdf.cc:222-223 and 257-258 *)
Definition skip_pair (igni ignj : nat -> bool) (i j : nat) : bool :=
  (igni i || ignj j) && (igni j || ignj i).

(** models pdf.cc:210-228, the ratio ract/rtot kept in dnorm *)
Definition pair_norm (igni ignj : nat -> bool) (w : list num) : num :=
  let wt i := nth i w None in
  let add s (ij : nat * nat) :=
    let (i, j) := ij in
    nadd s (nmul (nmul (Some (if (i =? j)%nat then 1 else 2)) (wt i)) (wt j)) in
  let rtot := fold_left add (half_loop (length w)) (Some 0) in
  let ract := fold_left (fun s (ij : nat * nat) => if skip_pair igni ignj (fst ij) (snd ij) then s else add s ij)
                (half_loop (length w)) (Some 0) in
  ndiv ract rtot.

(** a peak: distance, width, amplitude *)
Record peak : Type := mkPeak { pk_dist : R; pk_sigma : num; pk_ampl : num }.

(** models pdf.cc:261-329, one pair and one lattice point; None when the pair is
    passed over.  A negative msd makes sigmap NaN, and NaN <= 0.0 is false. *)
Definition pair_peak (qbroad rmin2 rmax2 : R) (p : cphase) (l : lattice_t)
    (wi wj : num) (ai aj : catom) (offdiag : bool) (mno : Z * Z * Z) : option peak :=
  let '(m, n, o) := mno in
  let T i : R := IZR (match i with O => m | S O => n | _ => o end) in
  let dd : v3 := fun i => at_pos ai i - at_pos aj i - T i * IZR (cp_icc p i) in
  let dist2 := skalpro (l_gten l) dd dd in
  if Rlt_dec dist2 rmin2 then None
  else if Rlt_dec rmax2 dist2 then None
  else
    let dist := sqrt dist2 in
    let sigmap := nsqrt (msd_atoms l ai aj dd) in
    if match sigmap with Some s => if Rle_dec s 0 then true else false | None => false end then None
    else
      let corfact := 1 - cp_delta2 p / dist2 - cp_delta1 p / dist + m_sqr qbroad * dist2 in
      if Rle_dec corfact 0 then None
      else
        let sigma := nmul sigmap (Some (sqrt corfact)) in
        let sigma := if Rlt_dec dist (cp_rcut p) then nmul sigma (Some (cp_sratio p)) else sigma in
        let ampl := nmul (nmul (nmul (Some (at_occ ai)) wi) (Some (at_occ aj))) wj in
        let ampl := if offdiag then nadd ampl ampl else ampl in
        Some (mkPeak dist sigma ampl).

(** models pdf.cc:326 and 345-346, gnorm * exp(-0.5*sqr((rk-dist)/sigma)) *)
Definition gauss (sigma : num) (rg : R) : num :=
  nmul (ndiv (Some 1) (nmul (Some (sqrt (2 * PI))) sigma))
    (match ndiv (Some rg) sigma with Some t => Some (exp (- (1 / 2) * m_sqr t)) | None => None end).

(** models pdf.cc:331-347, the points changed by one peak.  max(rcmin, NaN) is
    rcmin and min(rcmax, NaN) is rcmax. *)
Definition add_peak (d : cdata) (rcmin rcmax stepcut : R) (ppp : list num) (k : peak) : outcome (list num) :=
  let rb := match pk_sigma k with Some s => Rmax rcmin (pk_dist k - 5 * s) | None => rcmin end in
  let re := match pk_sigma k with Some s => Rmin rcmax (pk_dist k + 5 * s) | None => rcmax end in
  let re := if Rlt_dec 0 stepcut then Rmin re stepcut else re in
  obind (nint_div (rb - cd_rmin d) (cd_deltar d)) (fun ib =>
  obind (nint_div (re - cd_rmin d) (cd_deltar d)) (fun ie =>
  ofold (fun ppp ig =>
           let rk := cd_rmin d + IZR ig * cd_deltar d in
           obind (rdz ppp ig) (fun old =>
           wrz ppp ig (nadd old (nmul (pk_ampl k) (gauss (pk_sigma k) (rk - pk_dist k))))))
        (zloop ib ie) ppp)).

(** models pdf.cc:365-386, calc[i][ip] from ppp[i] *)
Definition calc_point (d : cdata) (p : cphase) (np : R) (rho0 dnorm : num) (i : Z) (v : num) : num :=
  let r := IZR i * cd_deltar d + cd_rmin d in
  let c := nsub (ndiv (ndiv v (Some np)) (Some r)) (nmul (nmul (Some (4 * PI * r)) rho0) dnorm) in
  let c := if Rlt_dec 0 (cd_qdamp d) then nmul c (Some (exp (- m_sqr (r * cd_qdamp d) / 2))) else c in
  let c := if Rlt_dec 0 (cp_spd p) then nmul c (Some (sphereEnvelope r (cp_spd p))) else c in
  if Rlt_dec 0 (cp_stepcut p) then nmul c (Some (if Rle_dec r (cp_stepcut p) then 1 else 0)) else c.

(** models pdf.cc:173-175, the limits of the squared pair distance *)
Definition dist_limits (rcmin rcmax : R) : R * R :=
  let rmax2 := m_sqr (rcmax + 1) in
  let rmin2 := m_sqr (rcmin - 1) * (if Rlt_dec (rcmin - 1) 0 then -1 else 1) in
  (Rmax (1 / 100) rmin2, rmax2).

(** models pdf.cc:192-359, ppp and dnorm of one phase.  ppp keeps nothing from
    the phase before: it is cleared where it is used. *)
Definition phase_sums (fuel : nat) (d : cdata) (rcmin rcmax : R) (ncmin ncmax : Z) (e : centry) : outcome (list num * num) :=
  let p := en_ph e in
  let l := de_lat (en_der e) in
  let atoms := cp_atoms p in
  let w := weights (cd_type d) (de_np (en_der e)) atoms in
  let dnorm := pair_norm (en_igni e) (en_ignj e) w in
  if ((ncmin <? 0) || (ncmax + 1 <? ncmin))%Z then UB
  else
  let ppp := repeat (Some 0) (Z.to_nat (ncmax + 1)) in
  let (rmin2, rmax2) := dist_limits rcmin rcmax in
  let buffzone := circum_diameter l atoms in
  let rsphmin := sqrt rmin2 - buffzone in
  let rsphmax := sqrt rmax2 + buffzone in
  let rsphmax := if Rlt_dec 0 (cp_stepcut p) then Rmin rsphmax (cp_stepcut p + buffzone) else rsphmax in
  let a0 i := cp_a0 p i * IZR (cp_icc p i) in
  let win := cp_win p in
  obind (points_in_sphere fuel rsphmin rsphmax
           (lp_make (a0 0%nat) (a0 1%nat) (a0 2%nat) (win 0%nat) (win 1%nat) (win 2%nat))) (fun pts =>
  obind (ofold (fun ppp (ij : nat * nat) =>
           let (i, j) := ij in
           if skip_pair (en_igni e) (en_ignj e) i j then Ok ppp
           else
             obind (rd atoms i) (fun ai => obind (rd atoms j) (fun aj =>
             ofold (fun ppp mno =>
                      match pair_peak (cd_qbroad d) rmin2 rmax2 p l (nth i w None) (nth j w None) ai aj (negb (i =? j)%nat) mno with
                      | None => Ok ppp
                      | Some k => add_peak d rcmin rcmax (cp_stepcut p) ppp k
                      end) pts ppp)))
          (half_loop (length atoms)) ppp) (fun ppp => Ok (ppp, dnorm))).

(** models pdf.cc:192-390, one phase: pdftot afterwards *)
Definition add_phase (fuel : nat) (d : cdata) (rcmin rcmax : R) (ncmin ncmax : Z) (pdftot : list num) (e : centry) : outcome (list num) :=
  obind (phase_sums fuel d rcmin rcmax ncmin ncmax e) (fun r =>
  let (ppp, dnorm) := r in
  let p := en_ph e in
  ofold (fun pdftot i =>
           obind (rdz ppp i) (fun v =>
           let c := calc_point d p (de_np (en_der e)) (de_rho0 (en_der e)) dnorm i v in
           obind (rdz pdftot i) (fun old =>
           wrz pdftot i (nadd old (nmul (Some (cd_dscale d * cp_pscale p)) c)))))
        (zloop ncmin ncmax) pdftot).

(** ** the Qmax cutoff *)
(** complex numbers and the discrete Fourier sums, which is what
    gsl_fft_complex_radix2_forward (s = -1) and the unscaled
    gsl_fft_complex_radix2_inverse (s = 1) compute *)
Notation cplx := (R * R)%type.
Definition dft (s : R) (z : list cplx) : list cplx :=
  let n := length z in
  map (fun k =>
    fold_left (fun (acc : cplx) (j : nat) =>
      let (x, y) := nth j z (0, 0) in
      let t := 2 * PI * INR j * INR k / INR n in
      (fst acc + (x * cos t - s * (y * sin t)), snd acc + (s * (x * sin t) + y * cos t)))
      (seq 0 n) (0, 0)) (seq 0 n).

(** all values finite *)
Fixpoint all_fin (y : list num) : option (list R) :=
  match y with
  | [] => Some []
  | Some x :: r => match all_fin r with Some l => Some (x :: l) | None => None end
  | None :: _ => None
  end.

(** models pdf.cc:107-145 on finite values; the padded buffer as complex numbers *)
Definition cutoff_fin (qmax deltar : R) (y : list R) : outcome (list R) :=
  let len := length y in
  let padlen := (2 ^ Nat.log2_up (2 * len))%nat in
  let ycpad := map (fun x => (x, 0)) y ++ repeat (0, 0) (padlen - len) in
  let ycpad := dft (-1) ycpad in
  let dQ := 2 * PI / (INR (padlen - 1) * deltar) in
  obind (to_int (zceil (qmax / dQ))) (fun lo =>
  let hi := (Z.of_nat padlen + 1 - lo)%Z in
  obind (ofold (fun z i => wrz z i (0, 0)) (zloop lo (hi - 1)) ycpad) (fun ycpad =>
  let ycpad := map (fun z : cplx => (fst z / INR padlen, snd z / INR padlen)) (dft 1 ycpad) in
  Ok (map fst (firstn len ycpad)))).
(** one value that is not finite spoils all of them *)
Definition cutoff (qmax deltar : R) (y : list num) : outcome (list num) :=
  match all_fin y with
  | Some l => omap (map Some) (cutoff_fin qmax deltar l)
  | None => Ok (map (fun _ => None) y)
  end.

(** models pdf.cc:154-413 DataSet::determine without derivatives and printing:
    nfmin, nfmax and pdftot.  resize with a negative length throws
    std::length_error. *)
Definition determine (fuel : nat) (d : cdata) (psel : list (option centry)) : outcome (Z * Z * list num) :=
  obind (nint_div (cd_rfmin d - cd_rmin d) (cd_deltar d)) (fun nfmin =>
  obind (nint_div (cd_rfmax d - cd_rmin d) (cd_deltar d)) (fun nfmax =>
  obind (calc_range d) (fun r =>
  let '(rcmin, rcmax, ncmin, ncmax) := r in
  if (ncmax + 1 <? 0)%Z then Err ErrPlain
  else
  obind (ofold (fun t pe => match pe with Some e => add_phase fuel d rcmin rcmax ncmin ncmax t e | None => Ok t end)
           psel (repeat (Some 0) (Z.to_nat (ncmax + 1)))) (fun pdftot =>
  if Rlt_dec 0 (cd_qmax d) then
    if ((ncmin <? 0) || (ncmax <? ncmin))%Z then UB
    else
      let k := Z.to_nat ncmin in
      omap (fun y => (nfmin, nfmax, firstn k pdftot ++ y)) (cutoff (cd_qmax d) (cd_deltar d) (skipn k pdftot))
  else Ok (nfmin, nfmax, pdftot))))).

(** models fit.cc:311-322, the coordinates are replaced by fmod(x, icc).  The
    number of cells icc is not 0. *)
Definition ztrunc (x : R) : Z := if Rlt_dec x 0 then zceil x else zfloor x.
Definition fmod (x y : R) : R := x - IZR (ztrunc (x / y)) * y.
Definition wrap_phase (p : cphase) : cphase :=
  mkCp (cp_a0 p) (cp_win p) (cp_icc p)
    (map (fun a => mkAt (fun i => fmod (at_pos a i) (IZR (cp_icc p i))) (at_u a) (at_occ a) (at_sf a)) (cp_atoms p))
    (cp_delta2 p) (cp_delta1 p) (cp_pscale p) (cp_spd p) (cp_stepcut p) (cp_sratio p) (cp_rcut p).

(** a data set of the calculation: its fields, for each phase whether it is
    selected and the ignored atoms *)
Record cset : Type := mkCset { cs_data : cdata; cs_sel : list (option ((nat -> bool) * (nat -> bool))) }.

(** psel of a data set: entry k is null or phase k *)
Fixpoint entries (ph : list (cphase * cderived)) (sel : list (option ((nat -> bool) * (nat -> bool)))) : list (option centry) :=
  match ph, sel with
  | (p, de) :: ph, s :: sel =>
      match s with Some (gi, gj) => Some (mkEnt p de gi gj) | None => None end :: entries ph sel
  | _, _ => []
  end.

(** models fit.cc:303-342 PdfFit::fit_theory from line 311 on, without
    derivatives: the phases afterwards, the number of fitted points, and nfmin,
    nfmax and pdftot of every set.  fill_variables (line 309) is in ConModel.v, the
    sum wnorm in LsModel.v. *)
Definition fit_theory (fuel : nat) (ph : list cphase) (sets : list cset) : outcome (list cphase * Z * list (Z * Z * list num)) :=
  let ph := map wrap_phase ph in
  obind (ofold (fun acc p => obind (phase_lattice p) (fun de => Ok (acc ++ [(p, de)]))) ph []) (fun phd =>
  obind (ofold (fun acc s =>
           obind (determine fuel (cs_data s) (entries phd (cs_sel s))) (fun r =>
           let '(nfmin, nfmax, t) := r in
           Ok (fst acc + (nfmax - nfmin + 1), snd acc ++ [r])%Z)) sets (0%Z, [])) (fun r =>
  Ok (ph, fst r, snd r))).
