(** Model of the cell geometry: Phase::lattice, tensor, skalpro (metric.cc) and
    LatticeParameters (PointsInSphere.cc:29-71).
    Doubles are real numbers, so rounding, NaN and infinities are left out; in
    particular a division by zero is not visible here.  The standard deviations
    (dgten, dar, ...) and the permutation tensors are left out. *)
From Coq Require Import List Arith Reals.
From Verif Require Import Base MathModel.
Import ListNotations.
Local Open Scope R_scope.

(** double v[3] and double t[3][3], indices 0..2 *)
Definition v3 : Type := nat -> R.
Definition t33 : Type := nat -> nat -> R.
Definition idx3 : list nat := [0; 1; 2]%nat.

(** double_eps of MathUtils.h:29, the square root of the machine epsilon 2^-52 *)
Definition double_eps : R := / 67108864.

(** models metric.cc:250-271 Phase::tensor *)
Definition tensor (vec win : v3) : t33 := fun i j =>
  if (i =? j)%nat then vec i * vec j
  else let x := vec i * vec j * m_cosd (win (3 - (i + j))%nat) in
       if Rlt_dec (Rabs x) double_eps then 0 else x.

(** what lattice() leaves in v, ar, wrez, gten, rten *)
Record lattice_t : Type := mkLat {
  l_v : R; l_ar : v3; l_wrez : v3; l_gten : t33; l_rten : t33 }.

(** models metric.cc:36-118 Phase::lattice *)
Definition lattice (a0 win : v3) : outcome lattice_t :=
  let cosa := m_cosd (win 0%nat) in
  let cosb := m_cosd (win 1%nat) in
  let cosg := m_cosd (win 2%nat) in
  let voll := 1 - m_sqr cosa - m_sqr cosb - m_sqr cosg + 2 * cosa * cosb * cosg in
  if Rle_dec voll double_eps then Err ErrStructure
  else
    let v := sqrt voll * a0 0%nat * a0 1%nat * a0 2%nat in
    let i1 i := ((i + 1) mod 3)%nat in
    let i2 i := ((i + 2) mod 3)%nat in
    let ar := fun i => a0 (i1 i) * a0 (i2 i) * m_sind (win i) / v in
    let wrez := fun i =>
      m_acosd ((m_cosd (win (i1 i)) * m_cosd (win (i2 i)) - m_cosd (win i)) / (m_sind (win (i1 i)) * m_sind (win (i2 i)))) in
    Ok (mkLat v ar wrez (tensor a0 win) (tensor ar wrez)).

(** models metric.cc:309-322 Phase::skalpro *)
Definition skalpro (gten : t33) (h k : v3) : R :=
  fold_left (fun s i => fold_left (fun s j => s + h i * k j * gten i j) idx3 s) idx3 0.

(** models PointsInSphere.h:63-69, the fields of LatticeParameters that are used
    in this program (the reciprocal angles alphar, betar, gammar are not) *)
Record latpar : Type := mkLp {
  lp_a : R; lp_b : R; lp_c : R;
  lp_ca : R; lp_cb : R; lp_cg : R; lp_sa : R; lp_sb : R; lp_sg : R;
  lp_ar : R; lp_br : R; lp_cr : R; lp_car : R; lp_cbr : R; lp_cgr : R;
  lp_sar : R; lp_sbr : R; lp_sgr : R }.

(** models PointsInSphere.cc:29-54, constructor and update.  cosd and sind of
    PointsInSphere.h:72-73 are those of MathUtils.h. *)
Definition lp_make (a b c alpha beta gamma : R) : latpar :=
  let ca := m_cosd alpha in let cb := m_cosd beta in let cg := m_cosd gamma in
  let sa := m_sind alpha in let sb := m_sind beta in let sg := m_sind gamma in
  let vunit := sqrt (1 + 2 * ca * cb * cg - ca * ca - cb * cb - cg * cg) in
  let car := (cb * cg - ca) / (sb * sg) in
  let cbr := (ca * cg - cb) / (sa * sg) in
  let cgr := (ca * cb - cg) / (sa * sb) in
  mkLp a b c ca cb cg sa sb sg (sa / (a * vunit)) (sb / (b * vunit)) (sg / (c * vunit))
    car cbr cgr (sqrt (1 - car * car)) (sqrt (1 - cbr * cbr)) (sqrt (1 - cgr * cgr)).

(** models PointsInSphere.cc:56-71 *)
Definition lp_reciprocal (l : latpar) : latpar :=
  mkLp (lp_ar l) (lp_br l) (lp_cr l) (lp_car l) (lp_cbr l) (lp_cgr l) (lp_sar l) (lp_sbr l) (lp_sgr l)
    (lp_a l) (lp_b l) (lp_c l) (lp_ca l) (lp_cb l) (lp_cg l) (lp_sa l) (lp_sb l) (lp_sg l).

(** models PointsInSphere.cc:194-200 PointsInSphere::r *)
Definition lp_r (l : latpar) (m n o : Z) : R :=
  let m := IZR m in let n := IZR n in let o := IZR o in
  let a := lp_a l in let b := lp_b l in let c := lp_c l in
  sqrt (m * m * a * a + n * n * b * b + o * o * c * c
        + 2 * m * n * a * b * lp_cg l + 2 * m * o * a * c * lp_cb l + 2 * n * o * b * c * lp_ca l).
