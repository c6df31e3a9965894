(** Model of the derivatives of the calculated PDF: DataSet::pdf_derivative
    (pdf.cc:421-770), its calls in DataSet::determine (pdf.cc:179-183, 258-354,
    398-401) and DataSet::fit_setup_derivatives (fit.cc:361-560) up to the product
    with dvdp.  Numbers are those of PdfModel.v.  The code fills ppp and fit_a in
    the same loops; they are different arrays, so the loops are written twice here,
    once in PdfModel.v for ppp and once below for fit_a. *)
From Coq Require Import List Arith ZArith Reals Bool Ascii.
From Verif Require Import Base MathModel MetricModel SphereModel PdfModel LayoutModel.
Import ListNotations.
Local Open Scope R_scope.

Declare Scope num_scope.
Delimit Scope num_scope with num.
Notation "x + y" := (nadd x y) : num_scope.
Notation "x - y" := (nsub x y) : num_scope.
Notation "x * y" := (nmul x y) : num_scope.
Notation "x / y" := (ndiv x y) : num_scope.

(** if ((ipar = fit.refvar[s]) != -1) row[ipar] = f(row[ipar]) *)
Definition edit (refvar : list (option nat)) (row : list num) (s : nat) (f : num -> num) : outcome (list num) :=
  obind (rd refvar s) (fun c =>
  match c with None => Ok row | Some c => obind (rd row c) (fun x => wr row c (f x)) end).
(** a sequence of them: slot and operation *)
Definition run_edits (refvar : list (option nat)) (row : list num) (l : list (nat * (num -> num))) : outcome (list num) :=
  ofold (fun row e => edit refvar row (fst e) (snd e)) l row.
Definition plus_ (g : num) : num -> num := fun x => nadd x g.
Definition minus_ (g : num) : num -> num := fun x => nsub x g.

(** models pdf.cc:421-770 pdf_derivative, as the sequence of operations on the row
    fit_a_i.  oi, oj, op, os: offsets of the two atoms, the phase, the data set.
    dist is at least 0.1, so divisions by it are plain. *)
Definition pair_edits (p : cphase) (qbroad : R) (ai aj : catom) (oi oj op os : nat)
    (rk dist : R) (sigma sigmap ampl gaus : num) (d : v3) : list (nat * (num -> num)) :=
  let s11 := at_u ai 0%nat + at_u aj 0%nat in
  let s22 := at_u ai 1%nat + at_u aj 1%nat in
  let s33 := at_u ai 2%nat + at_u aj 2%nat in
  let s12 := at_u ai 3%nat + at_u aj 3%nat in
  let s13 := at_u ai 4%nat + at_u aj 4%nat in
  let s23 := at_u ai 5%nat + at_u aj 5%nat in
  let cosa := m_cosd (cp_win p 0%nat) in let cosb := m_cosd (cp_win p 1%nat) in let cosg := m_cosd (cp_win p 2%nat) in
  let sina := m_sind (cp_win p 0%nat) in let sinb := m_sind (cp_win p 1%nat) in let sing := m_sind (cp_win p 2%nat) in
  let d0 := d 0%nat in let d1 := d 1%nat in let d2 := d 2%nat in
  let a0 := cp_a0 p in
  let rd := (Some (rk - dist)%R / sigma)%num in
  let inner := if Rlt_dec dist (cp_rcut p) then true else false in
  let phi := if inner then Some (cp_sratio p) else Some 1 in
  let dsdphi := if inner then (sigma / phi)%num else Some 0 in
  let T := (ampl * gaus)%num in
  let dTds := (T / sigma * (rd * rd - Some 1))%num in
  let dTdr := (Some (rk - dist)%R / (sigma * sigma) * T)%num in
  let dsds2 := ((phi * sigmap) * (phi * sigmap) / (Some 2 * sigma))%num in
  let dsdsp := (sigma / sigmap)%num in
  let dsdr := (dsds2 * Some (2 * cp_delta2 p / m_cube dist + cp_delta1 p / m_sqr dist + 2 * m_sqr qbroad * dist)%R)%num in
  let dspdr := (Some (-1)%R * sigmap / Some dist)%num in
  (* d/dx, d/dy, d/dz: edge, direction, row of the summed displacements *)
  let tx := d0 + cosg * d1 + cosb * d2 in
  let ty := cosg * d0 + d1 + cosa * d2 in
  let tz := cosb * d0 + cosa * d1 + d2 in
  let sx := d0 * s11 + d1 * s12 + d2 * s13 in
  let sy := d0 * s12 + d1 * s22 + d2 * s23 in
  let sz := d0 * s13 + d1 * s23 + d2 * s33 in
  let pos a t s :=
    let drdx := Some (a / dist * t) in
    let dspdx := (Some (a * s / m_sqr dist)%R / sigmap)%num in
    (dTds * (dsdsp * (dspdr * drdx + dspdx) + dsdr * drdx) + dTdr * drdx)%num in
  (* d/du *)
  let dspdu := (Some 1 / (Some 2 * sigmap * Some (m_sqr dist)))%num in
  let fsimp := (dTds * dsdsp * dspdu)%num in
  (* d/da, d/db, d/dc *)
  let len a t s dk :=
    let drda := (Some (t * dk)%R / Some a / Some dist)%num in
    let dspda := (Some (s * dk)%R / Some a / Some (m_sqr dist) / sigmap)%num in
    ((dTds * (dsdsp * dspdr + dsdr) + dTdr) * drda + dTds * dsdsp * dspda)%num in
  (* d/dalpha, d/dbeta, d/dgamma *)
  let ang sn dd :=
    let drda := Some (- rad * sn * dd / dist) in
    ((dTds * (dsdsp * dspdr + dsdr) + dTdr) * drda)%num in
  let both k g1 g2 := [((oi + k)%nat, plus_ g1); ((oj + k)%nat, plus_ g2)] in
  let diff k g := [((oi + k)%nat, plus_ g); ((oj + k)%nat, minus_ g)] in
  diff 0%nat (pos (a0 0%nat) tx sx) ++ diff 1%nat (pos (a0 1%nat) ty sy) ++ diff 2%nat (pos (a0 2%nat) tz sz) ++
  both 3%nat (fsimp * Some (m_sqr d0))%num (fsimp * Some (m_sqr d0))%num ++
  both 4%nat (fsimp * Some (m_sqr d1))%num (fsimp * Some (m_sqr d1))%num ++
  both 5%nat (fsimp * Some (m_sqr d2))%num (fsimp * Some (m_sqr d2))%num ++
  both 6%nat (Some 2 * fsimp * Some d0 * Some d1)%num (Some 2 * fsimp * Some d0 * Some d1)%num ++
  both 7%nat (Some 2 * fsimp * Some d0 * Some d2)%num (Some 2 * fsimp * Some d0 * Some d2)%num ++
  both 8%nat (Some 2 * fsimp * Some d1 * Some d2)%num (Some 2 * fsimp * Some d1 * Some d2)%num ++
  both 9%nat (T / Some (at_occ ai))%num (T / Some (at_occ aj))%num ++
  [ (op, plus_ (len (a0 0%nat) tx sx d0)); ((op + 1)%nat, plus_ (len (a0 1%nat) ty sy d1)); ((op + 2)%nat, plus_ (len (a0 2%nat) tz sz d2));
    ((op + 3)%nat, plus_ (ang sina (d1 * d2))); ((op + 4)%nat, plus_ (ang sinb (d0 * d2))); ((op + 5)%nat, plus_ (ang sing (d0 * d1)));
    ((op + 6)%nat, plus_ (Some (-1)%R * dTds * dsds2 / Some (m_sqr dist))%num);
    ((op + 7)%nat, plus_ (Some (-1)%R * dTds * dsds2 / Some dist)%num);
    ((op + 10)%nat, plus_ (dTds * dsdphi)%num);
    ((os + 2)%nat, plus_ (dTds * dsds2 * Some (2 * qbroad * m_sqr dist)%R)%num) ].

(** models pdf.cc:329-354, the rows changed by one peak *)
Definition deriv_peak (refvar : list (option nat)) (d : cdata) (rcmin rcmax : R) (p : cphase) (ai aj : catom) (oi oj op os : nat)
    (sigmap : num) (dv : v3) (A : list (list num)) (k : peak) : outcome (list (list num)) :=
  let rb := match pk_sigma k with Some s => Rmax rcmin (pk_dist k - 5 * s) | None => rcmin end in
  let re := match pk_sigma k with Some s => Rmin rcmax (pk_dist k + 5 * s) | None => rcmax end in
  let re := if Rlt_dec 0 (cp_stepcut p) then Rmin re (cp_stepcut p) else re in
  obind (nint_div (rb - cd_rmin d) (cd_deltar d)) (fun ib =>
  obind (nint_div (re - cd_rmin d) (cd_deltar d)) (fun ie =>
  ofold (fun A ig =>
           let rk := cd_rmin d + IZR ig * cd_deltar d in
           let gaus := gauss (pk_sigma k) (rk - pk_dist k) in
           obind (rdz A ig) (fun row =>
           obind (run_edits refvar row (pair_edits p (cd_qbroad d) ai aj oi oj op os rk (pk_dist k) (pk_sigma k) sigmap (pk_ampl k) gaus dv)) (fun row =>
           wrz A ig row)))
        (zloop ib ie) A)).

(** models pdf.cc:187-357, fit_a after one phase; oa: offsets of its atoms *)
Definition phase_derivs (fuel : nat) (refvar : list (option nat)) (d : cdata) (rcmin rcmax : R) (ncmin ncmax : Z)
    (e : centry) (op : nat) (oa : list nat) (os : nat) (A : list (list num)) : outcome (list (list num)) :=
  let p := en_ph e in
  let l := de_lat (en_der e) in
  let atoms := cp_atoms p in
  let w := weights (cd_type d) (de_np (en_der e)) atoms in
  let (rmin2, rmax2) := dist_limits rcmin rcmax in
  let buffzone := circum_diameter l atoms in
  let rsphmin := sqrt rmin2 - buffzone in
  let rsphmax := sqrt rmax2 + buffzone in
  let rsphmax := if Rlt_dec 0 (cp_stepcut p) then Rmin rsphmax (cp_stepcut p + buffzone) else rsphmax in
  let a0 i := cp_a0 p i * IZR (cp_icc p i) in
  let win := cp_win p in
  obind (points_in_sphere fuel rsphmin rsphmax
           (lp_make (a0 0%nat) (a0 1%nat) (a0 2%nat) (win 0%nat) (win 1%nat) (win 2%nat))) (fun pts =>
  ofold (fun A (ij : nat * nat) =>
           let (i, j) := ij in
           if skip_pair (en_igni e) (en_ignj e) i j then Ok A
           else
             obind (rd atoms i) (fun ai => obind (rd atoms j) (fun aj =>
             obind (rd oa i) (fun oi => obind (rd oa j) (fun oj =>
             ofold (fun A mno =>
                      let '(m, n, o) := mno in
                      let T i : R := IZR (match i with O => m | S O => n | _ => o end) in
                      let dd : v3 := fun i => at_pos ai i - at_pos aj i - T i * IZR (cp_icc p i) in
                      match pair_peak (cd_qbroad d) rmin2 rmax2 p l (nth i w None) (nth j w None) ai aj (negb (i =? j)%nat) mno with
                      | None => Ok A
                      | Some k => deriv_peak refvar d rcmin rcmax p ai aj oi oj op os (nsqrt (msd_atoms l ai aj dd)) (fun i => dd i * cp_a0 p i) A k
                      end) pts A)))))
          (half_loop (length atoms)) A).

(** models fit.cc:389-507, one point and one selected phase: fac and the operations
    on the row.  oa with the weights of the atoms. *)
Definition phase_setup (d : cdata) (e : centry) (op : nat) (oa : list nat) (w : list num) (dnorm calc : num) (r bk : R) : num * list (nat * (num -> num)) :=
  let p := en_ph e in
  let np := de_np (en_der e) in let rho0 := de_rho0 (en_der e) in let v := l_v (de_lat (en_der e)) in
  let a0 := cp_a0 p in
  let cosa := m_cosd (cp_win p 0%nat) in let cosb := m_cosd (cp_win p 1%nat) in let cosg := m_cosd (cp_win p 2%nat) in
  let sina := m_sind (cp_win p 0%nat) in let sinb := m_sind (cp_win p 1%nat) in let sing := m_sind (cp_win p 2%nat) in
  let shape_env := if Rle_dec (cp_spd p) 0 then 1 else sphereEnvelope r (cp_spd p) in
  let shape_env := if Rlt_dec 0 (cp_stepcut p) then (if Rlt_dec (cp_stepcut p) r then 0 else shape_env) else shape_env in
  let facp := cp_pscale p * shape_env * cd_dscale d * bk in
  let facs := (Some 1 / Some (np * r)%R)%num in
  let fac := (facs * Some facp)%num in
  let times := fun x => (x * fac)%num in
  let base := (Some (4 * PI * r)%R * rho0 * dnorm)%num in
  let occ (wt : num) := fun x =>
    (Some facp * (facs * x - base / Some np)
     + Some (cp_pscale p * cd_dscale d)%R * (Some 1 - Some 2 * wt) / Some np * (calc + base * Some bk * Some shape_env))%num in
  let len k := fun x => (Some facp * (facs * x + Some (4 * PI * r)%R * dnorm * rho0 / Some (a0 k)))%num in
  let q := (Some (a0 0%nat * a0 1%nat * a0 2%nat)%R / Some v)%num in
  let ang sn t := fun x => (Some facp * (facs * x + Some (4 * PI * r)%R * dnorm * rho0 * (q * q * Some (rad * sn * t)%R)))%num in
  let spd := if Rle_dec (cp_spd p) 0 then Some 0
             else (calc * Some (cd_dscale d) * Some (cp_pscale p) * Some (dsphereEnvelope r (cp_spd p)) /
                   Some (if Rlt_dec 0 shape_env then shape_env else 1))%num in
  (fac,
   flat_map (fun x : nat * num => let (o, wt) := x in
      map (fun j => ((o + j)%nat, times)) (seq 0 9) ++ [((o + 9)%nat, occ wt)]) (combine oa w) ++
   [ (op, len 0%nat); ((op + 1)%nat, len 1%nat); ((op + 2)%nat, len 2%nat);
     ((op + 3)%nat, ang sina (cosa - cosb * cosg)); ((op + 4)%nat, ang sinb (cosb - cosa * cosg)); ((op + 5)%nat, ang sing (cosg - cosa * cosb));
     ((op + 6)%nat, times); ((op + 7)%nat, times);
     ((op + 8)%nat, fun _ => (calc * Some (cd_dscale d))%num);
     ((op + 9)%nat, fun _ => spd);
     ((op + 10)%nat, times) ]).

(** models fit.cc:509-537, the data set; fac is that of the last selected phase *)
Definition set_setup (d : cdata) (os : nat) (fac pdftot : num) (r : R) : list (nat * (num -> num)) :=
  [ (os, fun _ => (pdftot / Some (cd_dscale d))%num);
    ((os + 1)%nat, fun _ => if Rlt_dec 0 (cd_qdamp d) then (Some (- (r * r) * cd_qdamp d)%R * pdftot)%num else Some 0);
    ((os + 2)%nat, fun x => (x * fac)%num) ].

(** what determine() keeps of a phase for fit_setup_derivatives *)
Record kept_phase : Type := mkKept { kp_entry : centry; kp_op : nat; kp_oa : list nat; kp_w : list num; kp_ppp : list num; kp_dnorm : num }.

(** models fit.cc:377-539, one point *)
Definition setup_point (refvar : list (option nat)) (d : cdata) (ks : list kept_phase) (os : nat) (pdftot : list num) (A : list (list num)) (i : Z) : outcome (list (list num)) :=
  let r := IZR i * cd_deltar d + cd_rmin d in
  let bk := if Rlt_dec 0 (cd_qdamp d) then exp (- m_sqr (r * cd_qdamp d) / 2) else 1 in
  obind (rdz A i) (fun row =>
  obind (ofold (fun s k =>
           obind (rdz (kp_ppp k) i) (fun v =>
           let e := kp_entry k in
           let calc := calc_point d (en_ph e) (de_np (en_der e)) (de_rho0 (en_der e)) (kp_dnorm k) i v in
           let (fac, l) := phase_setup d e (kp_op k) (kp_oa k) (kp_w k) (kp_dnorm k) calc r bk in
           omap (fun row => (row, fac)) (run_edits refvar (fst s) l))) ks (row, Some 0)) (fun s =>
  obind (rdz pdftot i) (fun t =>
  obind (run_edits refvar (fst s) (set_setup d os (snd s) t r)) (fun row =>
  wrz A i row)))).

(** models fit.cc:541-556, the Qmax cutoff of column c *)
Definition cut_column (d : cdata) (ncmin ncmax : Z) (A : list (list num)) (c : nat) : outcome (list (list num)) :=
  obind (ofold (fun col i => obind (rdz A i) (fun row => obind (rd row c) (fun x => Ok (col ++ [x])))) (zloop ncmin ncmax) []) (fun col =>
  obind (cutoff (cd_qmax d) (cd_deltar d) col) (fun col =>
  ofold (fun A i => obind (rdz A i) (fun row => obind (rdz col (i - ncmin)) (fun x => obind (wr row c x) (fun row => wrz A i row)))) (zloop ncmin ncmax) A)).

(** models pdf.cc:154-413 with ldiff set, as far as fit_a is concerned.  ly: slots and
    offsets from fit_setup; is: number of the data set; psel[ip] is null or phase
    number ip; vref: the flags of the constraints, one for each column. *)
Definition determine_diff (fuel : nat) (d : cdata) (psel : list (option centry)) (ly : layout) (is : nat) (vref : list bool) : outcome (list (list num)) :=
  obind (calc_range d) (fun r =>
  let '(rcmin, rcmax, ncmin, ncmax) := r in
  if (ncmax + 1 <? 0)%Z then Err ErrPlain
  else
  let n := Z.to_nat (ncmax + 1) in
  obind (rd (ly_set ly) is) (fun os =>
  obind (ofold (fun (s : list (list num) * list num * list kept_phase) (x : nat * option centry) =>
           let '(A, pdftot, ks) := s in
           match snd x with
           | None => Ok s
           | Some e =>
               obind (rd (ly_phase ly) (fst x)) (fun op => obind (rd (ly_atom ly) (fst x)) (fun oa =>
               obind (phase_sums fuel d rcmin rcmax ncmin ncmax e) (fun q =>
               obind (add_phase fuel d rcmin rcmax ncmin ncmax pdftot e) (fun pdftot =>
               obind (phase_derivs fuel (ly_refvar ly) d rcmin rcmax ncmin ncmax e op oa os A) (fun A =>
               Ok (A, pdftot, ks ++ [mkKept e op oa (weights (cd_type d) (de_np (en_der e)) (cp_atoms (en_ph e))) (fst q) (snd q)]))))))
           end)
           (combine (seq 0 (length psel)) psel) (repeat (repeat (Some 0) (length vref)) n, repeat (Some 0) n, [])) (fun s =>
  let '(A, pdftot, ks) := s in
  obind (ofold (setup_point (ly_refvar ly) d ks os pdftot) (zloop ncmin ncmax) A) (fun A =>
  if Rlt_dec 0 (cd_qmax d) then
    ofold (fun A c => obind (rd vref c) (fun b => if b then cut_column d ncmin ncmax A c else Ok A)) (seq 0 (length vref)) A
  else Ok A)))).
