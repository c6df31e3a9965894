(** Specification vocabulary for the PDF calculation. *)
From Coq Require Import List Arith ZArith Reals Bool.
From Verif Require Import Base RSum MathModel MetricModel MetricSpec SphereSpec PdfModel.
Import ListNotations.
Local Open Scope R_scope.

(** ** the grid *)
(** point number n of the data set *)
Definition grid (d : cdata) (n : Z) : R := cd_rmin d + IZR n * cd_deltar d.
(** n is the number of the point nearest to r *)
Definition nearest (d : cdata) (r : R) (n : Z) : Prop := grid d n - cd_deltar d / 2 <= r < grid d n + cd_deltar d / 2.
(** the interval for which the PDF is calculated: the fit range, widened by six
    ripples when there is a Qmax, but not below the first data point *)
Definition calc_lo (d : cdata) : R :=
  if Rlt_dec 0 (cd_qmax d) then Rmax (cd_rmin d) (cd_rfmin d - 12 * PI / cd_qmax d) else cd_rfmin d.
Definition calc_hi (d : cdata) : R :=
  if Rlt_dec 0 (cd_qmax d) then cd_rfmax d + 12 * PI / cd_qmax d else cd_rfmax d.
(** positive step, no negative r, a fit range that is not empty and starts in the
    data, and point numbers (also of the pairs looked at) that fit an int *)
Definition good_grid (d : cdata) : Prop :=
  0 < cd_deltar d /\ 0 <= cd_rmin d /\ cd_rmin d <= cd_rfmin d <= cd_rfmax d /\
  (calc_hi d + 1) / cd_deltar d < 2147483647.
(** no calculated point at r = 0 *)
Definition off_origin (d : cdata) : Prop :=
  0 < cd_rmin d \/ cd_rmin d = 0 /\ cd_deltar d / 2 <= calc_lo d.

(** ** the structure *)
(** vector from atom j, moved by the lattice translation t, to atom i, in
    fractions of the cell edges, and its length *)
Definition sep (p : cphase) (ai aj : catom) (t : Z * Z * Z) : v3 :=
  let '(m, n, o) := t in
  vec3 (at_pos ai 0%nat - (at_pos aj 0%nat + IZR m * IZR (cp_icc p 0)))
       (at_pos ai 1%nat - (at_pos aj 1%nat + IZR n * IZR (cp_icc p 1)))
       (at_pos ai 2%nat - (at_pos aj 2%nat + IZR o * IZR (cp_icc p 2))).
Definition length_of (p : cphase) (h : v3) : R := sqrt (dot33 (metric (cp_a0 p) (cp_win p)) h h).

(** mean square displacement of the pair along h: the tensor elements refer to
    reciprocal basis vectors of unit length *)
Definition msd (p : cphase) (ai aj : catom) (h : v3) : R :=
  let g := metric (cp_a0 p) (cp_win p) in
  let n k := sqrt (rmetric (cp_a0 p) (cp_win p) k k) *
             (g k 0%nat * h 0%nat + g k 1%nat * h 1%nat + g k 2%nat * h 2%nat) / length_of p h in
  let u k := at_u ai k + at_u aj k in
  u 0%nat * (n 0%nat * n 0%nat) + u 1%nat * (n 1%nat * n 1%nat) + u 2%nat * (n 2%nat * n 2%nat)
  + 2 * u 3%nat * (n 0%nat * n 1%nat) + 2 * u 4%nat * (n 0%nat * n 2%nat) + 2 * u 5%nat * (n 1%nat * n 2%nat).

(** correction of the peak width for correlated motion and resolution *)
Definition width_factor (d : cdata) (p : cphase) (r : R) : R :=
  1 - cp_delta2 p / (r * r) - cp_delta1 p / r + cd_qbroad d * cd_qbroad d * (r * r).
Definition width (d : cdata) (p : cphase) (ai aj : catom) (h : v3) : R :=
  let r := length_of p h in
  sqrt (msd p ai aj h) * sqrt (width_factor d p r) * (if Rlt_dec r (cp_rcut p) then cp_sratio p else 1).

(** normal distribution *)
Definition normal (s x : R) : R := / (s * sqrt (2 * PI)) * exp (- (x * x) / (2 * (s * s))).

(** the peak at r of width s reaches grid point g: five widths to either side,
    inside the calculated interval and below stepcut, to the nearest point *)
Definition reaches (d : cdata) (p : cphase) (r s : R) (g : Z) : Prop :=
  let lo := Rmax (calc_lo d) (r - 5 * s) in
  let hi := Rmin (calc_hi d) (r + 5 * s) in
  let hi := if Rlt_dec 0 (cp_stepcut p) then Rmin hi (cp_stepcut p) else hi in
  lo < grid d g + cd_deltar d / 2 /\ grid d g - cd_deltar d / 2 <= hi /\ cd_rmin d - cd_deltar d / 2 < hi.

(** contribution of a pair to the radial distribution at point g.  Pairs without
    a positive width contribute nothing. *)
Definition contributes (d : cdata) (p : cphase) (ai aj : catom) (t : Z * Z * Z) (g : Z) : Prop :=
  let h := sep p ai aj t in
  0 < msd p ai aj h /\ 0 < width_factor d p (length_of p h) /\ reaches d p (length_of p h) (width d p ai aj h) g.
Definition pair_height (d : cdata) (p : cphase) (ai aj : catom) (t : Z * Z * Z) (g : Z) : R :=
  let h := sep p ai aj t in normal (width d p ai aj h) (grid d g - length_of p h).

(** the distances looked at: the calculated interval and 1 to either side, not
    below 0.1 *)
Definition in_reach (d : cdata) (r : R) : Prop := 1 / 10 <= r /\ calc_lo d - 1 <= r <= calc_hi d + 1.

(** the pair counts: one of its orders has neither atom excluded *)
Definition counted (igni ignj : nat -> bool) (i j : nat) : bool :=
  (negb (igni i) && negb (ignj j)) || (negb (igni j) && negb (ignj i)).

(** atoms by number *)
Definition no_atom : catom := mkAt (fun _ => 0) (fun _ => 0) 0 (fun _ => 0).
Definition atom_no (p : cphase) (i : nat) : catom := nth i (cp_atoms p) no_atom.
Definition natoms (p : cphase) : nat := length (cp_atoms p).
Definition occ_sum (p : cphase) : R := rsum (natoms p) (fun i => at_occ (atom_no p i)).
Definition mean_sf (d : cdata) (p : cphase) : R :=
  rsum (natoms p) (fun i => at_occ (atom_no p i) * at_sf (atom_no p i) (cd_type d)) / occ_sum p.
Definition weight_no (d : cdata) (p : cphase) (i : nat) : R := at_sf (atom_no p i) (cd_type d) / mean_sf d p.

(** share of the counted pairs *)
Definition counted_share (d : cdata) (p : cphase) (igni ignj : nat -> bool) : R :=
  rsum (natoms p) (fun i => rsum (natoms p) (fun j => if counted igni ignj i j then weight_no d p i * weight_no d p j else 0)) /
  (rsum (natoms p) (weight_no d p) * rsum (natoms p) (weight_no d p)).

(** an ordered pair of atoms with a translation *)
Definition pairT : Type := nat * nat * (Z * Z * Z).
Definition is_pair (d : cdata) (e : centry) (x : pairT) : Prop :=
  let '(i, j, t) := x in let p := en_ph e in
  (i < natoms p)%nat /\ (j < natoms p)%nat /\ counted (en_igni e) (en_ignj e) i j = true /\
  in_reach d (length_of p (sep p (atom_no p i) (atom_no p j) t)).
Definition below_stepcut (p : cphase) (r : R) : Prop := 0 < cp_stepcut p -> r <= cp_stepcut p.

(** the atoms are listed in one cell: no two coordinates differ by more than 1 *)
Definition one_cell (p : cphase) : Prop :=
  forall i j k, (i < natoms p)%nat -> (j < natoms p)%nat -> (k < 3)%nat ->
  Rabs (at_pos (atom_no p i) k - at_pos (atom_no p j) k) <= 1.

(** W lists ordered counted pairs within reach, each once.  When the atoms are
    listed in one cell it has all those not beyond stepcut, so all of them when
    there is no stepcut. *)
Definition pair_list (d : cdata) (e : centry) (W : list pairT) : Prop :=
  NoDup W /\ (forall x, In x W -> is_pair d e x) /\
  (one_cell (en_ph e) -> forall i j t, is_pair d e (i, j, t) ->
     below_stepcut (en_ph e) (length_of (en_ph e) (sep (en_ph e) (atom_no (en_ph e) i) (atom_no (en_ph e) j) t)) -> In (i, j, t) W).

(** T g is the radial distribution of the phase at point g: the sum over W of the
    heights, weighted with the scattering power *)
Definition pair_term (d : cdata) (p : cphase) (g : Z) (x : pairT) (v : R) : Prop :=
  let '(i, j, t) := x in
  let ai := atom_no p i in let aj := atom_no p j in
  (contributes d p ai aj t g -> v = at_occ ai * weight_no d p i * (at_occ aj * weight_no d p j) * pair_height d p ai aj t g) /\
  (~ contributes d p ai aj t g -> v = 0).
Definition radial (d : cdata) (p : cphase) (W : list pairT) (g : Z) (v : R) : Prop :=
  exists f, (forall x, In x W -> pair_term d p g x (f x)) /\ v = lsum f W.

(** damping and shape of a phase *)
Definition envelope (d : cdata) (p : cphase) (r : R) : R :=
  (if Rlt_dec 0 (cd_qdamp d) then exp (- ((r * cd_qdamp d) * (r * cd_qdamp d)) / 2) else 1) *
  (if Rlt_dec 0 (cp_spd p) then (if Rlt_dec r (cp_spd p) then 1 - 3 / 2 * (r / cp_spd p) + 1 / 2 * (r / cp_spd p) * (r / cp_spd p) * (r / cp_spd p) else 0) else 1) *
  (if Rlt_dec 0 (cp_stepcut p) then (if Rle_dec r (cp_stepcut p) then 1 else 0) else 1).
(** number density *)
Definition density (p : cphase) : R :=
  occ_sum p / (IZR (cp_icc p 0 * cp_icc p 1 * cp_icc p 2) * sqrt (det33 (metric (cp_a0 p) (cp_win p)))).

(** v is the PDF of the phase at point g *)
Definition phase_pdf (d : cdata) (e : centry) (W : list pairT) (g : Z) (v : R) : Prop :=
  let p := en_ph e in let r := grid d g in
  exists s, radial d p W g s /\
  v = envelope d p r * (s / (occ_sum p * r) - 4 * PI * r * density p * counted_share d p (en_igni e) (en_ignj e)).

(** what a phase must satisfy for all this to be defined *)
Definition sane_phase (d : cdata) (p : cphase) : Prop :=
  proper_cell (cp_a0 p 0%nat) (cp_a0 p 1%nat) (cp_a0 p 2%nat) (cp_win p 0%nat) (cp_win p 1%nat) (cp_win p 2%nat) /\
  no_tiny (metric (cp_a0 p) (cp_win p)) /\ (forall k, (1 <= cp_icc p k)%Z) /\
  occ_sum p <> 0 /\ mean_sf d p <> 0 /\ rsum (natoms p) (fun i => at_sf (atom_no p i) (cd_type d)) <> 0 /\
  (forall i j h, (i < natoms p)%nat -> (j < natoms p)%nat -> 0 <= msd p (atom_no p i) (atom_no p j) h) /\
  0 < cp_sratio p.
(** the selected phases *)
Fixpoint selected_entries (psel : list (option centry)) : list centry :=
  match psel with [] => [] | Some e :: r => e :: selected_entries r | None :: r => selected_entries r end.
(** the derived fields are those left by Phase::lattice *)
Definition up_to_date (e : centry) : Prop := phase_lattice (en_ph e) = Ok (en_der e).

(** the PDF of the sample: scales times the PDFs of the phases *)
Fixpoint total_is (d : cdata) (es : list centry) (Ws : list (list pairT)) (g : Z) (v : R) : Prop :=
  match es, Ws with
  | [], [] => v = 0
  | e :: es, W :: Ws => exists x y, phase_pdf d e W g x /\ total_is d es Ws g y /\ v = cd_dscale d * cp_pscale (en_ph e) * x + y
  | _, _ => False
  end.

(** ** the Qmax cutoff *)
(** P is the padded length: the power of two from 2*len up *)
Definition is_pad (len P : nat) : Prop := (exists k, P = 2 ^ k)%nat /\ (2 * len <= P < 4 * len)%nat.
(** frequency k or its mirror image P - k is below the limit *)
Definition kept (qmax deltar : R) (P k : nat) : Prop :=
  INR k * (2 * PI / (INR (P - 1) * deltar)) < qmax \/ INR (P - k) * (2 * PI / (INR (P - 1) * deltar)) < qmax.
Definition kept_dec qmax deltar P k : {kept qmax deltar P k} + {~ kept qmax deltar P k}.
Proof.
  unfold kept. destruct (Rlt_dec (INR k * (2 * PI / (INR (P - 1) * deltar))) qmax); [left; auto|].
  destruct (Rlt_dec (INR (P - k) * (2 * PI / (INR (P - 1) * deltar))) qmax); [left; auto|right; tauto].
Defined.
(** out is y convoluted with the cosines of the kept frequencies *)
Definition filtered (qmax deltar : R) (y out : list R) : Prop :=
  exists P, is_pad (length y) P /\ length out = length y /\
  forall m, (m < length y)%nat -> nth m out 0 =
    / INR P * rsum (length y) (fun j => nth j y 0 *
      rsum P (fun k => (if kept_dec qmax deltar P k then 1 else 0) * cos (2 * PI * INR k * (INR m - INR j) / INR P))).
(** what the cutoff would be if it removed just the frequencies from qmax up *)
Definition below_qmax (qmax deltar : R) (P k : nat) : Prop :=
  2 * PI * INR k / (INR P * deltar) < qmax \/ 2 * PI * INR (P - k) / (INR P * deltar) < qmax.
Definition below_qmax_dec qmax deltar P k : {below_qmax qmax deltar P k} + {~ below_qmax qmax deltar P k}.
Proof.
  unfold below_qmax. destruct (Rlt_dec (2 * PI * INR k / (INR P * deltar)) qmax); [left; auto|].
  destruct (Rlt_dec (2 * PI * INR (P - k) / (INR P * deltar)) qmax); [left; auto|right; tauto].
Defined.
Definition ideally_filtered (qmax deltar : R) (y out : list R) : Prop :=
  exists P, is_pad (length y) P /\ length out = length y /\
  forall m, (m < length y)%nat -> nth m out 0 =
    / INR P * rsum (length y) (fun j => nth j y 0 *
      rsum P (fun k => (if below_qmax_dec qmax deltar P k then 1 else 0) * cos (2 * PI * INR k * (INR m - INR j) / INR P))).
(** the numbers in the cutoff fit an int *)
Definition good_filter (d : cdata) : Prop :=
  0 < cd_qmax d -> 4 * cd_qmax d * (calc_hi d - calc_lo d + 2 * cd_deltar d) <= 1000000000.

(** ** scale factors *)
Definition with_dscale (s : R) (d : cdata) : cdata :=
  mkCd (cd_rmin d) (cd_rfmin d) (cd_rfmax d) (cd_deltar d) (cd_qmax d) (cd_qdamp d) (cd_qbroad d) s (cd_type d).
Definition with_pscale (x : R) (e : centry) : centry :=
  let p := en_ph e in
  mkEnt (mkCp (cp_a0 p) (cp_win p) (cp_icc p) (cp_atoms p) (cp_delta2 p) (cp_delta1 p) x (cp_spd p) (cp_stepcut p) (cp_sratio p) (cp_rcut p))
    (en_der e) (en_igni e) (en_ignj e).
(** the selected phases get the scales xs *)
Fixpoint with_pscales (xs : list R) (psel : list (option centry)) : list (option centry) :=
  match psel with
  | [] => []
  | None :: r => None :: with_pscales xs r
  | Some e :: r => match xs with x :: xs => Some (with_pscale x e) :: with_pscales xs r | [] => Some e :: with_pscales [] r end
  end.
(** s * (x1 * f1 g + x2 * f2 g + ...) *)
Fixpoint mix (s : R) (xs : list R) (fs : list (Z -> R)) (g : Z) : R :=
  match xs, fs with x :: xs, f :: fs => s * x * f g + mix s xs fs g | _, _ => 0 end.

(** ** when the atoms are not sane *)
(** what is needed for the search of pairs to end *)
Definition cell_ok (e : centry) : Prop :=
  let p := en_ph e in
  up_to_date e /\ proper_cell (cp_a0 p 0%nat) (cp_a0 p 1%nat) (cp_a0 p 2%nat) (cp_win p 0%nat) (cp_win p 1%nat) (cp_win p 2%nat) /\
  (forall k, (1 <= cp_icc p k)%Z) /\ 0 <= cp_sratio p.
(** a pair whose square displacement is negative *)
Definition bad_pair (d : cdata) (e : centry) (x : pairT) : Prop :=
  let '(i, j, t) := x in let p := en_ph e in let h := sep p (atom_no p i) (atom_no p j) t in
  is_pair d e x /\ msd p (atom_no p i) (atom_no p j) h < 0 /\ 0 < width_factor d p (length_of p h).
Definition spoiler (d : cdata) (e : centry) : Prop :=
  (exists x, bad_pair d e x) /\ no_tiny (metric (cp_a0 (en_ph e)) (cp_win (en_ph e))) /\ cp_stepcut (en_ph e) <= 0 /\ one_cell (en_ph e).
(** element g of an array of results; not finite when None *)
Definition el (l : list num) (g : Z) : num := nth (Z.to_nat g) l None.
(** no calculated point is finite *)
Definition spoilt (d : cdata) (t : list num) : Prop :=
  forall g lo hi, nearest d (calc_lo d) lo -> nearest d (calc_hi d) hi -> (lo <= g <= hi)%Z -> el t g = None.

(** the points lo, lo + 1, ..., hi *)
Definition from_to (lo hi : Z) : list Z := map (fun k => (lo + Z.of_nat k)%Z) (seq 0 (Z.to_nat (hi - lo + 1))).
(** lo..hi are the calculated points, f1..f2 the fitted ones *)
Definition point_ranges (d : cdata) (lo hi f1 f2 : Z) : Prop :=
  nearest d (calc_lo d) lo /\ nearest d (calc_hi d) hi /\ nearest d (cd_rfmin d) f1 /\ nearest d (cd_rfmax d) f2 /\
  (0 <= lo <= f1)%Z /\ (f1 <= f2 <= hi)%Z.
(** t holds zeros before lo and the values V, without or with the Qmax cutoff,
    from lo to hi, and nothing else *)
Definition holds_pdf (d : cdata) (lo hi : Z) (V : Z -> R) (t : list num) : Prop :=
  length t = Z.to_nat (hi + 1) /\ (forall g, (0 <= g < lo)%Z -> el t g = Some 0) /\
  (cd_qmax d <= 0 -> forall g, (lo <= g <= hi)%Z -> el t g = Some (V g)) /\
  (0 < cd_qmax d -> exists out, filtered (cd_qmax d) (cd_deltar d) (map V (from_to lo hi)) out /\
     forall g, (lo <= g <= hi)%Z -> el t g = Some (nth (Z.to_nat (g - lo)) out 0)).

(** ** wrapped coordinates *)
(** p' is p with every coordinate moved by whole blocks of cells to less than one
    block from the origin, and nothing else changed *)
Definition wrapped_atom (icc : nat -> Z) (a a' : catom) : Prop :=
  at_u a' = at_u a /\ at_occ a' = at_occ a /\ at_sf a' = at_sf a /\
  forall k, Rabs (at_pos a' k) < IZR (icc k) /\ exists z : Z, at_pos a' k = at_pos a k - IZR z * IZR (icc k).
Definition wrapped (p p' : cphase) : Prop :=
  cp_a0 p' = cp_a0 p /\ cp_win p' = cp_win p /\ cp_icc p' = cp_icc p /\ Forall2 (wrapped_atom (cp_icc p)) (cp_atoms p) (cp_atoms p') /\
  cp_delta2 p' = cp_delta2 p /\ cp_delta1 p' = cp_delta1 p /\ cp_pscale p' = cp_pscale p /\ cp_spd p' = cp_spd p /\
  cp_stepcut p' = cp_stepcut p /\ cp_sratio p' = cp_sratio p /\ cp_rcut p' = cp_rcut p.

(** a phase whose cell is accepted *)
Definition calculable (p : cphase) : Prop :=
  (exists de, phase_lattice p = Ok de) /\
  proper_cell (cp_a0 p 0%nat) (cp_a0 p 1%nat) (cp_a0 p 2%nat) (cp_win p 0%nat) (cp_win p 1%nat) (cp_win p 2%nat) /\
  (forall k, (1 <= cp_icc p k)%Z) /\ 0 <= cp_sratio p.

(** the same phase, with atoms moved by translations of the crystal *)
Definition translated (p p' : cphase) : Prop :=
  cp_a0 p' = cp_a0 p /\ cp_win p' = cp_win p /\ cp_icc p' = cp_icc p /\
  Forall2 (fun a a' => at_u a' = at_u a /\ at_occ a' = at_occ a /\ at_sf a' = at_sf a /\
     forall k, exists z : Z, at_pos a' k = at_pos a k + IZR z * IZR (cp_icc p k)) (cp_atoms p) (cp_atoms p') /\
  cp_delta2 p' = cp_delta2 p /\ cp_delta1 p' = cp_delta1 p /\ cp_pscale p' = cp_pscale p /\ cp_spd p' = cp_spd p /\
  cp_stepcut p' = cp_stepcut p /\ cp_sratio p' = cp_sratio p /\ cp_rcut p' = cp_rcut p.
