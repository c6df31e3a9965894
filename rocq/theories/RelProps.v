(** Property theorems C81. *)
From Coq Require Import List Arith ZArith Reals Bool Lia Lra Permutation.
From Verif Require Import Base RSum MetricModel PdfModel PdfSpec PdfEx PdfFinal RelSpec RelFinal RelList RelTheory RelEx RelAll.
Import ListNotations.
Local Open Scope R_scope.

(** phases whose atoms are on the same sites with the same total occupancies *)
Theorem C81_relisted : forall d psel psel', good_grid d -> off_origin d -> good_filter d -> ready d psel -> ready d psel' -> all_complete psel -> all_complete psel' ->
  Forall2 (opt_rel relisted) psel psel' -> same_pdf d psel psel'.
Proof. exact relisted_same. Qed.
Print Assumptions C81_relisted.
Example C81_relisted_case : exists e e', good_grid xdata /\ off_origin xdata /\ good_filter xdata /\ ready xdata [Some e] /\ ready xdata [Some e'] /\ all_complete [Some e] /\ all_complete [Some e'] /\
  natoms (en_ph e) = 3%nat /\ natoms (en_ph e') = 2%nat /\ Forall2 (opt_rel relisted) [Some e] [Some e'].
Proof.
  exact (match ex_dropped with ex_intro _ de (ex_intro _ de' (conj A (conj B (conj C (conj D E))))) =>
    ex_intro _ _ (ex_intro _ _ (conj xgrid (conj xoff (conj xfilter (conj (ready1 _ _ A) (conj (ready1 _ _ B) (conj (complete1 _ C) (conj (complete1 _ D) (conj eq_refl (conj eq_refl (rel1 _ _ _ (dropped_relisted _ _ E)))))))))))) end).
Qed.

(** the order of the atoms *)
Theorem C81_atom_order : forall d psel psel', good_grid d -> off_origin d -> good_filter d -> ready d psel -> ready d psel' -> all_complete psel -> all_complete psel' ->
  Forall2 (opt_rel reordered) psel psel' -> same_pdf d psel psel'.
Proof. exact (via reordered reordered_relisted). Qed.
Print Assumptions C81_atom_order.
Example C81_atom_order_case : exists e e', ready xdata [Some e] /\ ready xdata [Some e'] /\ all_complete [Some e] /\ all_complete [Some e'] /\
  en_igni e 0 = true /\ en_igni e' 0 = false /\ Forall2 (opt_rel reordered) [Some e] [Some e'].
Proof.
  exact (match ex_reordered with ex_intro _ de (ex_intro _ de' (conj A (conj B (conj C (conj D E))))) =>
    ex_intro _ _ (ex_intro _ _ (conj (ready1 _ _ A) (conj (ready1 _ _ B) (conj (complete1 _ C) (conj (complete1 _ D) (conj eq_refl (conj eq_refl (rel1 _ _ _ E)))))))) end).
Qed.

(** the origin of the cell *)
Theorem C81_origin : forall d psel psel', good_grid d -> off_origin d -> good_filter d -> ready d psel -> ready d psel' -> all_complete psel -> all_complete psel' ->
  Forall2 (opt_rel (fun e e' => exists v, shifted e e' v)) psel psel' -> same_pdf d psel psel'.
Proof. exact (via (fun e e' => exists v, shifted e e' v) shifted_via). Qed.
Print Assumptions C81_origin.
Example C81_origin_case : exists e e', ready xdata [Some e] /\ ready xdata [Some e'] /\ all_complete [Some e] /\ all_complete [Some e'] /\ shifted e e' (fun _ => 3 / 10).
Proof.
  exact (match ex_shifted with ex_intro _ de (ex_intro _ de' (conj A (conj B (conj C (conj D E))))) =>
    ex_intro _ _ (ex_intro _ _ (conj (ready1 _ _ A) (conj (ready1 _ _ B) (conj (complete1 _ C) (conj (complete1 _ D) E))))) end).
Qed.

(** an atom listed as two on the same site, sharing its occupancy *)
Theorem C81_split_site : forall d psel psel', good_grid d -> off_origin d -> good_filter d -> ready d psel -> ready d psel' -> all_complete psel -> all_complete psel' ->
  Forall2 (opt_rel site_split) psel psel' -> same_pdf d psel psel'.
Proof. exact (via site_split split_relisted). Qed.
Print Assumptions C81_split_site.
Example C81_split_site_case : exists e e', ready xdata [Some e] /\ ready xdata [Some e'] /\ all_complete [Some e] /\ all_complete [Some e'] /\ natoms (en_ph e') = S (natoms (en_ph e)) /\ Forall2 (opt_rel site_split) [Some e] [Some e'].
Proof.
  exact (match ex_split with ex_intro _ de (ex_intro _ de' (conj A (conj B (conj C (conj D E))))) =>
    ex_intro _ _ (ex_intro _ _ (conj (ready1 _ _ A) (conj (ready1 _ _ B) (conj (complete1 _ C) (conj (complete1 _ D) (conj eq_refl (rel1 _ _ _ E))))))) end).
Qed.

(** a site with occupancy 0 *)
Theorem C81_empty_site : forall d psel psel', good_grid d -> off_origin d -> good_filter d -> ready d psel -> ready d psel' -> all_complete psel -> all_complete psel' ->
  Forall2 (opt_rel empty_dropped) psel psel' -> same_pdf d psel psel'.
Proof. exact (via empty_dropped dropped_relisted). Qed.
Print Assumptions C81_empty_site.
Example C81_empty_site_case : exists e e', ready xdata [Some e] /\ ready xdata [Some e'] /\ all_complete [Some e] /\ all_complete [Some e'] /\ natoms (en_ph e) = S (natoms (en_ph e')) /\ Forall2 (opt_rel empty_dropped) [Some e] [Some e'].
Proof.
  exact (match ex_dropped with ex_intro _ de (ex_intro _ de' (conj A (conj B (conj C (conj D E))))) =>
    ex_intro _ _ (ex_intro _ _ (conj (ready1 _ _ A) (conj (ready1 _ _ B) (conj (complete1 _ C) (conj (complete1 _ D) (conj eq_refl (rel1 _ _ _ E))))))) end).
Qed.

(** the order of the phases; no condition on where atoms are listed *)
Theorem C81_phase_order : forall d psel psel', good_grid d -> off_origin d -> good_filter d -> ready d psel -> Permutation psel psel' -> same_pdf d psel psel'.
Proof. exact permuted_same. Qed.
Print Assumptions C81_phase_order.
Example C81_phase_order_case : exists e e', ready xdata [Some e; None; Some e'] /\ Permutation [Some e; None; Some e'] [Some e'; Some e; None].
Proof. exact (match ex_phases2 with ex_intro _ de (ex_intro _ de' H) => ex_intro _ _ (ex_intro _ _ H) end). Qed.

(** a whole calculation over the phases and data sets: samples listed differently, in
    other cells, with coordinates the calculation wraps *)
Theorem C81_theory : forall ph ph' sets, Forall2 same_sample ph ph' -> Forall plain ph -> Forall plain ph' ->
  (forall s, In s sets -> good_grid (cs_data s) /\ off_origin (cs_data s) /\ good_filter (cs_data s) /\ everything s /\ forall p, In p ph \/ In p ph' -> sane_phase (cs_data s) p) ->
  exists f0, forall fuel, (f0 <= fuel)%nat -> exists n r, fit_theory fuel ph sets = Ok (map wrap_phase ph, n, r) /\ fit_theory fuel ph' sets = Ok (map wrap_phase ph', n, r).
Proof. exact theory_same. Qed.
Print Assumptions C81_theory.
Example C81_theory_case : same_sample (two (9 / 10) (1 / 10)) moved_two /\ plain (two (9 / 10) (1 / 10)) /\ plain moved_two /\
  sane_phase xdata (two (9 / 10) (1 / 10)) /\ sane_phase xdata moved_two /\ everything (mkCset xdata [Some (none, none)]) /\ good_grid xdata /\ off_origin xdata /\ good_filter xdata.
Proof. exact (match ex_sample with conj A (conj B (conj C (conj D (conj E _)))) => conj A (conj B (conj C (conj D (conj E (conj ex_everything (conj xgrid (conj xoff xfilter))))))) end). Qed.

(** phases listed in another order, with the selections of the data sets *)
Theorem C81_theory_order : forall ph ph' sets sets', Forall calculable ph -> Forall calculable ph' ->
  Forall2 (fun s s' => cs_data s' = cs_data s /\ Permutation (combine ph (cs_sel s)) (combine ph' (cs_sel s'))) sets sets' ->
  (forall s, In s sets -> good_grid (cs_data s) /\ off_origin (cs_data s) /\ good_filter (cs_data s) /\ forall p, In p ph -> sane_phase (cs_data s) p) ->
  exists f0, forall fuel, (f0 <= fuel)%nat -> exists n r, fit_theory fuel ph sets = Ok (map wrap_phase ph, n, r) /\ fit_theory fuel ph' sets' = Ok (map wrap_phase ph', n, r).
Proof. exact theory_perm. Qed.
Print Assumptions C81_theory_order.
Example C81_theory_order_case : let ph := [two (9 / 10) (1 / 10); two (6 / 10) (1 / 10)] in let ph' := [two (6 / 10) (1 / 10); two (9 / 10) (1 / 10)] in
  let sets := [two_set [Some (only 0, only 0); Some (none, none)]] in let sets' := [two_set [Some (none, none); Some (only 0, only 0)]] in
  Forall calculable ph /\ Forall calculable ph' /\
  Forall2 (fun s s' => cs_data s' = cs_data s /\ Permutation (combine ph (cs_sel s)) (combine ph' (cs_sel s'))) sets sets' /\
  forall s, In s sets -> good_grid (cs_data s) /\ off_origin (cs_data s) /\ good_filter (cs_data s) /\ forall p, In p ph -> sane_phase (cs_data s) p.
Proof. exact ex_order. Qed.

(** with another atom ignored, splitting a counted atom changes the PDF: the share of
    ignored pairs is counted in atoms, not in occupancies *)
Theorem C81_split_ignored_refuted : exists d e e' f0 t t', good_grid d /\ off_origin d /\ good_filter d /\ (up_to_date e /\ sane_phase d (en_ph e)) /\ (up_to_date e' /\ sane_phase d (en_ph e')) /\ complete e /\ complete e' /\
  (exists l1 a o l2, cp_atoms (en_ph e) = l1 ++ a :: l2 /\ en_ph e' = with_atoms (en_ph e) (l1 ++ with_occ a o :: with_occ a (at_occ a - o) :: l2) /\ 0 < o < at_occ a) /\
  (forall i, (i < natoms (en_ph e'))%nat -> en_igni e' i = en_igni e i /\ en_ignj e' i = en_ignj e i) /\
  (forall fuel, (f0 <= fuel)%nat -> determine fuel d [Some e] = Ok (2%Z, 3%Z, t) /\ determine fuel d [Some e'] = Ok (2%Z, 3%Z, t')) /\ el t 2 <> el t' 2.
Proof. exact split_ignored. Qed.
Print Assumptions C81_split_ignored_refuted.
