(** Properties of the derivatives of the calculated PDF: C44, C45. *)
From Coq Require Import List Arith ZArith Reals Bool.
From Verif Require Import Base RSum MathModel MetricModel MetricSpec PdfModel PdfSpec PdfEx PdfFinal LayoutModel LayoutSpec DerivModel DerivSpec DerivFinal DerivOut DerivWit DerivBad DerivEx.
Import ListNotations.
Local Open Scope R_scope.

(** ** C44: derivatives of the calculated PDF *)
(** with the peaks cut off where the calculation cuts them, the calculated PDF is
    [fixed_pdf] and every claimed column is its derivative, after the same cutoff in Q *)
Theorem C44_derivatives :
  forall d psel find natoms nset npar ly vref is,
  good_grid d -> off_origin d -> good_filter d -> (forall e, In e (selected_entries psel) -> up_to_date e /\ sane_phase d (en_ph e)) ->
  counts_fit psel natoms -> (is < nset)%nat -> fit_setup find natoms nset npar = Ok ly -> columns_fit find natoms nset vref ->
  exists lo hi f1 f2 f0 W C, point_ranges d lo hi f1 f2 /\ right_limits d psel W C /\
  forall fuel, (f0 <= fuel)%nat ->
  (exists t, determine fuel d psel = Ok (f1, f2, t) /\ holds_pdf d lo hi (fixed_pdf d psel W C) t) /\
  exists A, determine_diff fuel d psel ly is vref = Ok A /\
  forall v c, exists_var natoms nset v -> find v = Some c -> claimed is d psel W v ->
  exists D, holds_pdf d lo hi D (column A c) /\
  forall g x0, (lo <= g <= hi)%Z -> value_is is v d psel x0 ->
  derivable_pt_lim (fun x => fixed_pdf (data_with is v x d) (phases_with v x psel) W C g) x0 (D g).
Proof. exact derivatives_hold. Qed.
Print Assumptions C44_derivatives.

(** scale factors, damping, particle diameter and occupancies leave the peak limits
    alone: the column is the derivative of the number that is put out *)
Theorem C44_outputs :
  forall d psel find natoms nset npar ly vref is,
  good_grid d -> off_origin d -> good_filter d -> (forall e, In e (selected_entries psel) -> up_to_date e /\ sane_phase d (en_ph e)) ->
  counts_fit psel natoms -> (is < nset)%nat -> fit_setup find natoms nset npar = Ok ly -> columns_fit find natoms nset vref ->
  exists hi f0, nearest d (calc_hi d) hi /\
  forall fuel, (f0 <= fuel)%nat ->
  exists A, determine_diff fuel d psel ly is vref = Ok A /\
  forall v c x0, exists_var natoms nset v -> find v = Some c -> peaks_fixed v -> claimed is d psel (fun _ => []) v -> value_is is v d psel x0 ->
  exists eps, 0 < eps /\ forall g, (0 <= g <= hi)%Z ->
  (forall x, Rabs (x - x0) < eps -> exists z, pdf_at fuel (data_with is v x d) (phases_with v x psel) g = Some z) /\
  exists y, el (column A c) g = Some y /\
  derivable_pt_lim (fun x => real_of (pdf_at fuel (data_with is v x d) (phases_with v x psel) g)) x0 y.
Proof. exact outputs_derive. Qed.
Print Assumptions C44_outputs.

(** a row of atoms with seven refined variables *)
Example C44_case : exists de ly, let d := rdata 1 in let psel := [Some (ent (row 90 1 [1]) de)] in
  ready d psel (place seven 0) [1%nat] 1 (phase_size [1%nat] + 3) ly (repeat true 7) 0 /\
  forall W C, right_limits d psel W C -> forall v, In v seven -> exists_var [1%nat] 1 v /\ claimed 0 d psel W v /\ exists x, value_is 0 v d psel x.
Proof. exact row_case. Qed.

(** ** C44: where the column is not the derivative *)
(** u11 with an angle of 120 degrees *)
Theorem C44_oblique_refuted :
  exists de, phase_lattice (row 120 1 [1]) = Ok de /\ column_wrong (AV 0 0 (FU 0)) (rdata 0) [Some (ent (row 120 1 [1]) de)].
Proof. exact oblique_wrong. Qed.
Print Assumptions C44_oblique_refuted.

(** an angle of the cell, although all angles are right *)
Theorem C44_angle_refuted :
  exists de, phase_lattice (row 90 1 [1]) = Ok de /\ column_wrong (PV 0 (FWin 0)) (rdata 0) [Some (ent (row 90 1 [1]) de)].
Proof. exact ang_wrong. Qed.
Print Assumptions C44_angle_refuted.

(** the occupancy of an empty site *)
Theorem C44_empty_refuted :
  exists de, phase_lattice (row 90 1 [1; 0]) = Ok de /\ column_wrong (AV 0 1 FOcc) (rdata 0) [Some (ent (row 90 1 [1; 0]) de)].
Proof. exact empty_wrong. Qed.
Print Assumptions C44_empty_refuted.

(** ** C45: qbroad *)
(** with any phases: the column is the sum over all phases, each taken with the
    factor of the last one *)
Theorem C45_column :
  forall d psel find natoms nset npar ly vref is c,
  good_grid d -> off_origin d -> good_filter d -> (forall e, In e (selected_entries psel) -> up_to_date e /\ sane_phase d (en_ph e)) ->
  counts_fit psel natoms -> (is < nset)%nat -> fit_setup find natoms nset npar = Ok ly -> columns_fit find natoms nset vref ->
  find (SV is FQbroad) = Some c ->
  exists lo hi f1 f2 f0 W C, point_ranges d lo hi f1 f2 /\ right_limits d psel W C /\
  forall fuel, (f0 <= fuel)%nat ->
  exists A, determine_diff fuel d psel ly is vref = Ok A /\
  forall e1, last_selected psel e1 ->
  exists H, holds_pdf d lo hi (fun g => cd_dscale d / grid d g * phase_factor d e1 (grid d g) * lsum (fun ip => H ip g) (seq 0 (length psel))) (column A c) /\
  (forall ip g, nth ip psel None = None -> H ip g = 0) /\
  forall ip e g, nth_error psel ip = Some (Some e) -> (lo <= g <= hi)%Z ->
  derivable_pt_lim (fun x => phase_term (set_set_field FQbroad x d) psel W C g ip) (cd_qbroad d) (cd_dscale d / grid d g * phase_factor d e (grid d g) * H ip g).
Proof. exact qbroad_column. Qed.
Print Assumptions C45_column.
Example C45_case : exists de1 de2 ly, let d := rdata 1 in let e2 := ent (row 90 2 [1]) de2 in let psel := [Some (ent (row 90 1 [1]) de1); Some e2] in
  ready d psel (place [SV 0 FQbroad] 0) [1%nat; 1%nat] 1 (phase_size [1%nat; 1%nat] + 3) ly [true] 0 /\
  place [SV 0 FQbroad] 0 (SV 0 FQbroad) = Some 0%nat /\ last_selected psel e2 /\ ~ same_factors d psel.
Proof. exact two_case. Qed.

(** two phases with scale factors 1 and 2 *)
Theorem C45_refuted :
  exists de1 de2, phase_lattice (row 90 1 [1]) = Ok de1 /\ phase_lattice (row 90 2 [1]) = Ok de2 /\
  column_wrong (SV 0 FQbroad) (rdata 1) [Some (ent (row 90 1 [1]) de1); Some (ent (row 90 2 [1]) de2)].
Proof. exact qbroad_wrong. Qed.
Print Assumptions C45_refuted.
