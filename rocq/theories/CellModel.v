(** Model of the members of a phase that Phase::lattice computes with their standard
    deviations (metric.cc:36-178), and of the text that Phase::show_lattice writes when a
    structure has been read (metric.cc:181-242, stru.cc:144 and 167).
    Doubles are reals; the permutation tensors eps, reps, deps and dreps, which nothing
    reads, are left out. *)
From Coq Require Import Ascii String.
From Coq Require Import List Arith ZArith Reals Bool.
From Verif Require Import Base MathModel MetricModel ParserModel FmtModel OutModel.
From Verif Require SaveModel BondModel.
Import ListNotations.
Local Open Scope R_scope.

(** pdffit.h:486-488, 510 and 524 *)
Record cell_t : Type := mkCell {
  ce_v : R; ce_dv : R; ce_vr : R; ce_dvr : R; ce_gten : t33; ce_dgten : t33;
  ce_ar : v3; ce_dar : v3; ce_wrez : v3; ce_dwrez : v3; ce_rten : t33; ce_drten : t33;
  ce_rho0 : R; ce_drho0 : R }.

(** models metric.cc:36-178 Phase::lattice; [occ] and [docc] are those of the atoms *)
Definition cell (a0 win da0 dwin : v3) (icc : nat -> Z) (occ docc : list R) : outcome cell_t :=
  let cosa := m_cosd (win 0%nat) in
  let cosb := m_cosd (win 1%nat) in
  let cosg := m_cosd (win 2%nat) in
  let sina := m_sind (win 0%nat) in
  let sinb := m_sind (win 1%nat) in
  let sing := m_sind (win 2%nat) in
  let abscosa := Rabs cosa in
  let abscosb := Rabs cosb in
  let abscosg := Rabs cosg in
  let dcosa := Rabs (sina * rad * dwin 0%nat) in
  let dcosb := Rabs (sinb * rad * dwin 1%nat) in
  let dcosg := Rabs (sing * rad * dwin 2%nat) in
  let voll := 1 - m_sqr cosa - m_sqr cosb - m_sqr cosg + 2 * cosa * cosb * cosg in
  if Rle_dec voll double_eps then Err ErrStructure
  else
    let v := sqrt voll * a0 0%nat * a0 1%nat * a0 2%nat in
    let dvoll := 2 * (abscosa * dcosa + abscosb * dcosb + abscosg * dcosg +
                      dcosa * abscosb * abscosg + abscosa * dcosb * abscosg + abscosa * abscosb * dcosg) in
    let dv := (1 / 2) / sqrt voll * dvoll * a0 0%nat * a0 1%nat * a0 2%nat
              + sqrt voll * (da0 0%nat * a0 1%nat * a0 2%nat + a0 0%nat * da0 1%nat * a0 2%nat + a0 0%nat * a0 1%nat * da0 2%nat) in
    let vr := 1 / v in
    let dvr := 1 / (v * v) * dv in
    let i1 i := ((i + 1) mod 3)%nat in
    let i2 i := ((i + 2) mod 3)%nat in
    let arg i := (m_cosd (win (i1 i)) * m_cosd (win (i2 i)) - m_cosd (win i)) / (m_sind (win (i1 i)) * m_sind (win (i2 i))) in
    let ar := fun i => a0 (i1 i) * a0 (i2 i) * m_sind (win i) / v in
    let wrez := fun i => m_acosd (arg i) in
    let dcos k := m_sind (win k) * rad * dwin k in
    let dsin k := m_cosd (win k) * rad * dwin k in
    let dar := fun i =>
      ((da0 (i1 i) * a0 (i2 i) + a0 (i1 i) * da0 (i2 i)) * m_sind (win i) + a0 (i1 i) * a0 (i2 i) * dsin i) / v
      + a0 (i1 i) * a0 (i2 i) * m_sind (win i) / (v * v) * dv in
    let darg i := (dcos (i1 i) * m_cosd (win (i2 i)) + m_cosd (win (i1 i)) * dcos (i2 i) + dcos i) / (m_sind (win (i1 i)) * m_sind (win (i2 i)))
                  + arg i / m_sind (win (i1 i)) * dsin (i1 i) + arg i / m_sind (win (i2 i)) * dsin (i2 i) in
    let dwrez := fun i => 1 / sqrt (1 - arg i * arg i) * darg i / rad in
    let np := fold_left Rplus occ 0 in
    let dnp := fold_left Rplus docc 0 in
    let ncc := IZR (icc 0%nat * icc 1%nat * icc 2%nat) in
    let rho0 := np / (ncc * v) in
    let drho0 := sqrt (m_sqr (dnp / v) + m_sqr (dv * np / m_sqr v)) in
    Ok (mkCell v dv vr dvr (tensor a0 win) (BondModel.dtensor a0 win da0 dwin) ar dar wrez dwrez
          (tensor ar wrez) (BondModel.dtensor ar wrez dar dwrez) rho0 drho0).

(** value_std(x, dx) *)
Definition pair_of (x dx : R) : vstd := (Some (SaveModel.dbl_of x), Some (SaveModel.dbl_of dx)).
(** metric.cc:190-198 and 219-228, three values on a line *)
Definition three (x dx : v3) : text := put3 (fun i => pair_of (x i) (dx i)) 0.
(** metric.cc:206-216 and 232-241, the three lines of a tensor; column i, line j *)
Definition tensor_lines (label : text) (t dt : t33) : text :=
  ln (label ++ three (fun i => t i 0%nat) (fun i => dt i 0%nat)) ++
  ln (chars "                         " ++ three (fun i => t i 1%nat) (fun i => dt i 1%nat)) ++
  ln (chars "                         " ++ three (fun i => t i 2%nat) (fun i => dt i 2%nat)).
(** models metric.cc:181-242 Phase::show_lattice; the width is 0 after line 192 until
    the next three values *)
Definition show_lattice (iphase : Z) (name : text) (a0 win da0 dwin : v3) (c : cell_t) : text :=
  ln (chars " Phase number           : " ++ int_text iphase) ++
  ln (chars " Phase title            : " ++ name) ++ ln [] ++
  ln (chars " Lattice parameters     :" ++ three a0 da0) ++
  ln (chars "           & angles     :" ++ three win dwin) ++
  ln (chars " Unit cell volume       :" ++ put f_last (pair_of (ce_v c) (ce_dv c))) ++
  ln (chars " Number density         :" ++ put f_last (pair_of (ce_rho0 c) (ce_drho0 c))) ++
  tensor_lines (chars " Metric tensor          :") (ce_gten c) (ce_dgten c) ++ ln [] ++
  ln (chars " Recip. lat. parameters :" ++ three (ce_ar c) (ce_dar c)) ++
  ln (chars "               & angles :" ++ three (ce_wrez c) (ce_dwrez c)) ++
  ln (chars " Recip. unit cell vol.  :" ++ put f_last (pair_of (ce_vr c) (ce_dvr c))) ++
  tensor_lines (chars " Recip. metric tensor   :") (ce_rten c) (ce_drten c) ++ ln [].
