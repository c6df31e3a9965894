(** Property theorems C80. *)
From Coq Require Import Ascii String List Arith ZArith Reals Bool Lia Lra.
From Verif Require Import Base RSum ParserModel MetricModel PdfModel ElementTable ScatModel ScatSpec ScatEx PdfSpec PdfEx FactModel FactSpec FactProof FactPdf FactFinal FactEx.
Import ListNotations.
Local Open Scope R_scope.

(** every sequence of calls has a meaning *)
Theorem C80_histories : forall cs, exists s ph, history cs s ph /\ forall s' ph', history cs s' ph' -> s' = s /\ ph' = ph.
Proof. exact (fun cs => match history_total cs with ex_intro _ s (ex_intro _ ph H) => ex_intro _ s (ex_intro _ ph (conj H (fun s' ph' => history_unique cs s ph s' ph' H))) end). Qed.
Print Assumptions C80_histories.

(** the calculation reads for every atom the factor that the calls give its element
    in its phase *)
Theorem C80_factors : forall cs s ph p i q e tp r, history (rev cs) s ph -> symbol_of ph p i q -> means q e -> radiation_of tp r ->
  exists v, atom_factor (krun elements cs) p i tp = Ok v /\ factor_is p e r s v.
Proof. exact factor_ok. Qed.
Print Assumptions C80_factors.
Example C80_factors_case : history (rev ex_calls) [SetScat 0 "X" (chars "sODium") 5; NewPhase; NewPhase] ex_phases /\
  symbol_of ex_phases 0 2 (chars "sodium") /\ means (chars "sodium") sodium /\
  atom_factor (krun elements ex_calls) 0 0 "x" = Ok 5 /\ atom_factor (krun elements ex_calls) 0 2 "X" = Ok 5 /\ atom_factor (krun elements ex_calls) 1 0 "x" = Ok 11.
Proof. exact (conj ex_history (conj (proj1 (proj2 ex_sym)) (conj means_sodium ex_atoms))). Qed.

(** it is the one get_scat reports *)
Theorem C80_reported : forall cs s ph p i q tp r, history (rev cs) s ph -> symbol_of ph p i q -> radiation_of tp r ->
  exists k, nth_error (kw_ph (krun elements cs)) p = Some k /\ atom_factor (krun elements cs) p i tp = get_scat elements (kp_tab k) tp q.
Proof. exact factor_get. Qed.
Print Assumptions C80_reported.

(** two atoms have the same atom_type exactly when they are the same element, however
    it was written *)
Theorem C80_same_type : forall cs s ph p i j a b q1 q2 e1 e2,
  history (rev cs) s ph -> symbol_of ph p i q1 -> symbol_of ph p j q2 -> means q1 e1 -> means q2 e2 ->
  (exists k, nth_error (kw_ph (krun elements cs)) p = Some k /\ nth_error (kp_types k) i = Some a /\ nth_error (kp_types k) j = Some b) ->
  (a = b <-> e1 = e2).
Proof. exact types_ok. Qed.
Print Assumptions C80_same_type.
Example C80_same_type_case : history (rev ex_calls) [SetScat 0 "X" (chars "sODium") 5; NewPhase; NewPhase] ex_phases /\
  symbol_of ex_phases 0 0 (chars "Na") /\ symbol_of ex_phases 0 2 (chars "sodium") /\ means (chars "Na") sodium /\ means (chars "sodium") sodium.
Proof. exact (conj ex_history (conj (proj1 ex_sym) (conj (proj1 (proj2 ex_sym)) (conj means_Na means_sodium)))). Qed.

(** calls on other phases, elements and radiations do not change a factor *)
Theorem C80_unrelated : forall cs s ph p i q tp r c, history (rev cs) s ph -> symbol_of ph p i q -> radiation_of tp r -> unrelated ph p r c ->
  atom_factor (krun elements (cs ++ [c])) p i tp = atom_factor (krun elements cs) p i tp.
Proof. exact unrelated_ok. Qed.
Print Assumptions C80_unrelated.
Example C80_unrelated_case : unrelated ex_phases 1 XRay (KSet 0 "X" (chars "sODium") 7) /\ unrelated ex_phases 0 XRay (KReset 0 (chars "D")) /\ unrelated ex_phases 0 XRay (KSet 0 "N" (chars "Na") 7) /\
  ~ unrelated ex_phases 0 XRay (KSet 0 "X" (chars "sODium") 7).
Proof. exact ex_unrelated. Qed.

(** nor the calculated PDF *)
Theorem C80_unrelated_pdf : forall cs s ph c r d psel psel' fuel, history (rev cs) s ph -> radiation_of (cd_type d) r ->
  (forall p e, nth_error psel p = Some (Some e) -> unrelated ph p r c) ->
  has_factors (krun elements cs) (cd_type d) psel -> has_factors (krun elements (cs ++ [c])) (cd_type d) psel' ->
  Forall2 same_structure psel psel' -> determine fuel d psel' = determine fuel d psel.
Proof. exact unrelated_pdf. Qed.
Print Assumptions C80_unrelated_pdf.
Example C80_unrelated_pdf_case : exists de, phase_lattice (cub [patom 0 1]) = Ok de /\ radiation_of (cd_type xdata) Neutron /\
  unrelated [[chars "Po"]] 0 Neutron po_x /\ has_factors (krun elements po_calls) (cd_type xdata) [Some (ent (cub [patom 0 1]) de)] /\
  has_factors (krun elements (po_calls ++ [po_x])) (cd_type xdata) [Some (ent (cub [patom 0 1]) de)] /\
  Forall2 same_structure [Some (ent (cub [patom 0 1]) de)] [Some (ent (cub [patom 0 1]) de)] /\
  atom_factor (krun elements (po_calls ++ [po_x])) 0 0 "X" = Ok 5.
Proof. exact po_unrelated. Qed.

(** multiplying all factors of a phase by one number does not change the PDF *)
Theorem C80_common_factor : forall fuel d psel psel', Forall2 (same_but_factors (cd_type d)) psel psel' -> determine fuel d psel' = determine fuel d psel.
Proof. exact pdf_same. Qed.
Print Assumptions C80_common_factor.
Example C80_common_factor_case : forall de, same_but_factors "N" (Some (ent (cub [patom 1 1; patom 3 1]) de)) (Some (ent (cub [patom 2 1; patom 6 1]) de)).
Proof. exact ex_scaled. Qed.

(** the X-ray factors of the table are the atomic numbers; with them what the
    calculation divides by is positive *)
Theorem C80_xray_table : forall e, In e elements -> standard e XRay = IZR (el_z e) /\ 0 < standard e XRay.
Proof. exact xsf_ok. Qed.
Print Assumptions C80_xray_table.
Theorem C80_xray : forall d p, xray_phase d p ->
  0 < occ_sum p /\ 0 < mean_sf d p /\ 0 < rsum (natoms p) (fun i => at_sf (atom_no p i) (cd_type d)) /\
  forall i, (i < natoms p)%nat -> 0 < weight_no d p i.
Proof. exact xray_ok. Qed.
Print Assumptions C80_xray.
Example C80_xray_case : xray_phase xr_data (cub [patom 84 1; patom 11 0]).
Proof. exact po_xray. Qed.

(** a phase with average factor zero makes every point not finite, without an error *)
Theorem C80_null_average : forall d, good_grid d -> forall psel, good_filter d -> (forall e, In e (selected_entries psel) -> cell_ok e) ->
  (exists e, In e (selected_entries psel) /\ null_average d (en_ph e)) ->
  exists f0, forall fuel, (f0 <= fuel)%nat -> exists f1 f2 t, determine fuel d psel = Ok (f1, f2, t) /\ spoilt d t.
Proof. exact null_nan. Qed.
Print Assumptions C80_null_average.
Example C80_null_average_case : good_grid xdata /\ good_filter xdata /\ null_average xdata (cub [patom 0 1]) /\
  forall de, phase_lattice (cub [patom 0 1]) = Ok de -> cell_ok (ent (cub [patom 0 1]) de).
Proof. exact (conj xgrid (conj xfilter (conj po_null (cub_ok [patom 0 1])))). Qed.

(** with neutrons the factors of the table can do that: polonium *)
Theorem C80_neutron_refuted :
  exists cs d p de f0, good_grid d /\ off_origin d /\ radiation_of (cd_type d) Neutron /\ phase_lattice p = Ok de /\
  natoms p = 1%nat /\ at_occ (atom_no p 0) = 1 /\
  has_factors (krun elements cs) (cd_type d) [Some (ent p de)] /\
  forall fuel, (f0 <= fuel)%nat -> exists f1 f2 t, determine fuel d [Some (ent p de)] = Ok (f1, f2, t) /\ spoilt d t.
Proof.
  exact (match po_nan with ex_intro _ de (ex_intro _ f0 (conj L (conj H N))) =>
    ex_intro _ po_calls (ex_intro _ xdata (ex_intro _ (cub [patom 0 1]) (ex_intro _ de (ex_intro _ f0
      (conj xgrid (conj xoff (conj (or_intror eq_refl) (conj L (conj eq_refl (conj eq_refl (conj H N))))))))))) end).
Qed.
Print Assumptions C80_neutron_refuted.
