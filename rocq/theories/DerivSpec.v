(** Specification of the derivatives of the calculated PDF. *)
From Coq Require Import List Arith ZArith Reals Bool.
From Verif Require Import Base RSum MathModel MetricModel MetricSpec PdfModel PdfSpec LayoutModel LayoutSpec DerivModel.
Import ListNotations.
Local Open Scope R_scope.

(** ** changing one variable *)
Definition set_v3 (k : nat) (x : R) (v : nat -> R) : nat -> R := fun i => if (i =? k)%nat then x else v i.
Definition set_phase_field (f : phase_field) (x : R) (p : cphase) : cphase :=
  match f with
  | FA0 k => mkCp (set_v3 k x (cp_a0 p)) (cp_win p) (cp_icc p) (cp_atoms p) (cp_delta2 p) (cp_delta1 p) (cp_pscale p) (cp_spd p) (cp_stepcut p) (cp_sratio p) (cp_rcut p)
  | FWin k => mkCp (cp_a0 p) (set_v3 k x (cp_win p)) (cp_icc p) (cp_atoms p) (cp_delta2 p) (cp_delta1 p) (cp_pscale p) (cp_spd p) (cp_stepcut p) (cp_sratio p) (cp_rcut p)
  | FDelta2 => mkCp (cp_a0 p) (cp_win p) (cp_icc p) (cp_atoms p) x (cp_delta1 p) (cp_pscale p) (cp_spd p) (cp_stepcut p) (cp_sratio p) (cp_rcut p)
  | FDelta1 => mkCp (cp_a0 p) (cp_win p) (cp_icc p) (cp_atoms p) (cp_delta2 p) x (cp_pscale p) (cp_spd p) (cp_stepcut p) (cp_sratio p) (cp_rcut p)
  | FPscale => mkCp (cp_a0 p) (cp_win p) (cp_icc p) (cp_atoms p) (cp_delta2 p) (cp_delta1 p) x (cp_spd p) (cp_stepcut p) (cp_sratio p) (cp_rcut p)
  | FSpd => mkCp (cp_a0 p) (cp_win p) (cp_icc p) (cp_atoms p) (cp_delta2 p) (cp_delta1 p) (cp_pscale p) x (cp_stepcut p) (cp_sratio p) (cp_rcut p)
  | FSratio => mkCp (cp_a0 p) (cp_win p) (cp_icc p) (cp_atoms p) (cp_delta2 p) (cp_delta1 p) (cp_pscale p) (cp_spd p) (cp_stepcut p) x (cp_rcut p)
  end.
Definition phase_value (f : phase_field) (p : cphase) : R :=
  match f with
  | FA0 k => cp_a0 p k | FWin k => cp_win p k | FDelta2 => cp_delta2 p | FDelta1 => cp_delta1 p
  | FPscale => cp_pscale p | FSpd => cp_spd p | FSratio => cp_sratio p
  end.
Definition set_atom_field (f : atom_field) (x : R) (a : catom) : catom :=
  match f with
  | FPos k => mkAt (set_v3 k x (at_pos a)) (at_u a) (at_occ a) (at_sf a)
  | FU k => mkAt (at_pos a) (set_v3 k x (at_u a)) (at_occ a) (at_sf a)
  | FOcc => mkAt (at_pos a) (at_u a) x (at_sf a)
  end.
Definition atom_value (f : atom_field) (a : catom) : R := match f with FPos k => at_pos a k | FU k => at_u a k | FOcc => at_occ a end.
Fixpoint on_nth {A} (n : nat) (h : A -> A) (l : list A) : list A :=
  match l, n with [], _ => [] | a :: l, O => h a :: l | a :: l, S n => a :: on_nth n h l end.
Definition set_phase_atom (ia : nat) (f : atom_field) (x : R) (p : cphase) : cphase :=
  mkCp (cp_a0 p) (cp_win p) (cp_icc p) (on_nth ia (set_atom_field f x) (cp_atoms p)) (cp_delta2 p) (cp_delta1 p) (cp_pscale p) (cp_spd p) (cp_stepcut p) (cp_sratio p) (cp_rcut p).
Definition set_set_field (f : set_field) (x : R) (d : cdata) : cdata :=
  match f with
  | FDscale => mkCd (cd_rmin d) (cd_rfmin d) (cd_rfmax d) (cd_deltar d) (cd_qmax d) (cd_qdamp d) (cd_qbroad d) x (cd_type d)
  | FQdamp => mkCd (cd_rmin d) (cd_rfmin d) (cd_rfmax d) (cd_deltar d) (cd_qmax d) x (cd_qbroad d) (cd_dscale d) (cd_type d)
  | FQbroad => mkCd (cd_rmin d) (cd_rfmin d) (cd_rfmax d) (cd_deltar d) (cd_qmax d) (cd_qdamp d) x (cd_dscale d) (cd_type d)
  end.
Definition set_value (f : set_field) (d : cdata) : R := match f with FDscale => cd_dscale d | FQdamp => cd_qdamp d | FQbroad => cd_qbroad d end.
Definition with_phase (h : cphase -> cphase) (e : centry) : centry := mkEnt (h (en_ph e)) (en_der e) (en_igni e) (en_ignj e).
(** data set number is, with the phases as seen by it, when variable v is x *)
Definition data_with (is : nat) (v : rvar) (x : R) (d : cdata) : cdata :=
  match v with SV k f => if (k =? is)%nat then set_set_field f x d else d | _ => d end.
Definition phases_with (v : rvar) (x : R) (psel : list (option centry)) : list (option centry) :=
  match v with
  | PV ip f => on_nth ip (option_map (with_phase (set_phase_field f x))) psel
  | AV ip ia f => on_nth ip (option_map (with_phase (set_phase_atom ia f x))) psel
  | SV _ _ => psel
  end.
(** x is the value of v, when v occurs there *)
Definition value_is (is : nat) (v : rvar) (d : cdata) (psel : list (option centry)) (x : R) : Prop :=
  match v with
  | PV ip f => forall e, nth_error psel ip = Some (Some e) -> x = phase_value f (en_ph e)
  | AV ip ia f => forall e, nth_error psel ip = Some (Some e) -> x = atom_value f (atom_no (en_ph e) ia)
  | SV k f => k = is -> x = set_value f d
  end.

(** ** the PDF with fixed peak limits *)
(** Peaks are cut off at the grid points next to five widths, so the calculated PDF
    jumps when such a limit passes a point.  Here the pairs W and the points C they
    reach are fixed, everything else follows the variables. *)
Definition pair_share (d : cdata) (p : cphase) (g : Z) (x : pairT) : R :=
  let '(i, j, t) := x in
  let ai := atom_no p i in let aj := atom_no p j in
  at_occ ai * weight_no d p i * (at_occ aj * weight_no d p j) * pair_height d p ai aj t g.
Definition fixed_phase (d : cdata) (e : centry) (W : list pairT) (C : pairT -> Z -> bool) (g : Z) : R :=
  let p := en_ph e in let r := grid d g in
  envelope d p r * (lsum (fun x => if C x g then pair_share d p g x else 0) W / (occ_sum p * r)
                    - 4 * PI * r * density p * counted_share d p (en_igni e) (en_ignj e)).
(** what phase number ip adds, and all phases together *)
Definition phase_term (d : cdata) (psel : list (option centry)) (W : nat -> list pairT) (C : nat -> pairT -> Z -> bool) (g : Z) (ip : nat) : R :=
  match nth ip psel None with
  | None => 0
  | Some e => cd_dscale d * cp_pscale (en_ph e) * fixed_phase d e (W ip) (C ip) g
  end.
Definition fixed_pdf (d : cdata) (psel : list (option centry)) (W : nat -> list pairT) (C : nat -> pairT -> Z -> bool) (g : Z) : R :=
  lsum (phase_term d psel W C g) (seq 0 (length psel)).
(** W and C are the pairs and points of the calculation *)
Definition right_limits (d : cdata) (psel : list (option centry)) (W : nat -> list pairT) (C : nat -> pairT -> Z -> bool) : Prop :=
  forall ip e, nth_error psel ip = Some (Some e) ->
  pair_list d e (W ip) /\
  forall i j t g, C ip (i, j, t) g = true <-> contributes d (en_ph e) (atom_no (en_ph e) i) (atom_no (en_ph e) j) t g.

(** ** where the derivative is claimed *)
Definition right_angles (p : cphase) : Prop := forall k, (k < 3)%nat -> cp_win p k = 90.
Definition off_rcut (p : cphase) (W : list pairT) : Prop :=
  forall i j t, In (i, j, t) W -> length_of p (sep p (atom_no p i) (atom_no p j) t) <> cp_rcut p.
(** the factor of the sum over the pairs of a phase *)
Definition phase_factor (d : cdata) (e : centry) (r : R) : R := cp_pscale (en_ph e) * envelope d (en_ph e) r / occ_sum (en_ph e).
Definition same_factors (d : cdata) (psel : list (option centry)) : Prop :=
  forall e e' r, In e (selected_entries psel) -> In e' (selected_entries psel) -> 0 < r -> phase_factor d e r = phase_factor d e' r.
(** e is the last selected phase *)
Definition last_selected (psel : list (option centry)) (e : centry) : Prop :=
  exists ip, nth_error psel ip = Some (Some e) /\ forall k e', nth_error psel k = Some (Some e') -> (k <= ip)%nat.
Definition claimed (is : nat) (d : cdata) (psel : list (option centry)) (W : nat -> list pairT) (v : rvar) : Prop :=
  match v with
  | PV ip f => forall e, nth_error psel ip = Some (Some e) ->
      match f with
      | FA0 _ => right_angles (en_ph e) /\ off_rcut (en_ph e) (W ip)
      | FWin _ => False
      | FSpd => cp_spd (en_ph e) <> 0
      | _ => True
      end
  | AV ip ia f => forall e, nth_error psel ip = Some (Some e) ->
      match f with
      | FPos _ => right_angles (en_ph e) /\ off_rcut (en_ph e) (W ip)
      | FU _ => right_angles (en_ph e)
      | FOcc => at_occ (atom_no (en_ph e) ia) <> 0
      end
  | SV k f => k = is ->
      match f with
      | FDscale => cd_dscale d <> 0
      | FQdamp => True
      | FQbroad => same_factors d psel
      end
  end.
(** the variables that do not move the peaks or their limits *)
Definition peaks_fixed (v : rvar) : Prop :=
  match v with
  | PV _ FPscale | PV _ FSpd | AV _ _ FOcc | SV _ FDscale | SV _ FQdamp => True
  | _ => False
  end.
(** the derived fields follow, as Phase::lattice does before each calculation *)
Definition refresh (psel : list (option centry)) : list (option centry) :=
  map (option_map (fun e => mkEnt (en_ph e) (match phase_lattice (en_ph e) with Ok de => de | _ => en_der e end) (en_igni e) (en_ignj e))) psel.
(** the number calculated for point g; None when there is none *)
Definition pdf_at (fuel : nat) (d : cdata) (psel : list (option centry)) (g : Z) : num :=
  match determine fuel d (refresh psel) with Ok (_, _, t) => el t g | _ => None end.
Definition real_of (x : num) : R := match x with Some r => r | None => 0 end.
Definition column (A : list (list num)) (c : nat) : list num := map (fun row => nth c row None) A.
(** the phases of the data set have the atoms counted for the table *)
Definition counts_fit (psel : list (option centry)) (natoms : list nat) : Prop :=
  forall ip e, nth_error psel ip = Some (Some e) -> nth_error natoms ip = Some (length (cp_atoms (en_ph e))).
(** each column belongs to one variable and is refined *)
Definition columns_fit (find : rvar -> option nat) (natoms : list nat) (nset : nat) (vref : list bool) : Prop :=
  (forall v w c, exists_var natoms nset v -> exists_var natoms nset w -> find v = Some c -> find w = Some c -> v = w) /\
  (forall v c, exists_var natoms nset v -> find v = Some c -> nth_error vref c = Some true).
(** calculations with everything in order in which the column of v is not the derivative:
    either no number, or another one, whichever way the pairs are listed *)
Definition column_wrong (v : rvar) (d : cdata) (psel : list (option centry)) : Prop :=
  exists find natoms nset npar ly vref is c,
  good_grid d /\ off_origin d /\ good_filter d /\ cd_qmax d <= 0 /\ (forall e, In e (selected_entries psel) -> up_to_date e /\ sane_phase d (en_ph e)) /\
  counts_fit psel natoms /\ (is < nset)%nat /\ fit_setup find natoms nset npar = Ok ly /\ columns_fit find natoms nset vref /\
  exists_var natoms nset v /\ find v = Some c /\
  exists lo hi f1 f2 f0, point_ranges d lo hi f1 f2 /\
  forall fuel, (f0 <= fuel)%nat -> exists A, determine_diff fuel d psel ly is vref = Ok A /\
  forall W C, right_limits d psel W C ->
  exists g x0 D, (lo <= g <= hi)%Z /\ value_is is v d psel x0 /\
  derivable_pt_lim (fun x => fixed_pdf (data_with is v x d) (phases_with v x psel) W C g) x0 D /\ el (column A c) g <> Some D.
