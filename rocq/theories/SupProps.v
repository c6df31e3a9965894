(** Property theorems C82. *)
From Coq Require Import List Arith ZArith Reals Bool Lia Lra.
From Verif Require Import Base RSum MetricModel PdfModel PdfSpec PdfEx PdfFinal RelSpec RelTheory RelEx RelAll SupSpec SupFinal SupAll SupEx.
Import ListNotations.
Local Open Scope R_scope.

(** any listing of the copies of the atoms in a larger cell *)
Theorem C82_supercell : forall d psel psel', good_grid d -> off_origin d -> good_filter d -> ready d psel -> ready d psel' -> all_complete psel -> all_complete psel' ->
  Forall2 (opt_rel same_material) psel psel' -> same_pdf d psel psel'.
Proof. exact material_same. Qed.
Print Assumptions C82_supercell.
Example C82_supercell_case : exists e e', ready xdata [Some e] /\ ready xdata [Some e'] /\ all_complete [Some e] /\ all_complete [Some e'] /\
  natoms (en_ph e) = 2%nat /\ natoms (en_ph e') = 12%nat /\ en_igni e 0 = true /\ Forall2 (opt_rel same_material) [Some e] [Some e'].
Proof. exact ex_super. Qed.

(** the atoms written cell by cell: nothing has to be assumed of the larger cell *)
Theorem C82_enlarged : forall d k p de gi gj, good_grid d -> off_origin d -> good_filter d -> (forall j, (j < 3)%nat -> (1 <= comp k j)%Z) ->
  sane_phase d p -> phase_lattice p = Ok de -> (forall j, cp_icc p j = 1%Z) -> one_cell p -> cp_stepcut p <= 0 ->
  exists de', phase_lattice (enlarged k p) = Ok de' /\
  same_pdf d [Some (mkEnt p de gi gj)] [Some (mkEnt (enlarged k p) de' (fun x => gi (x mod natoms p)%nat) (fun x => gj (x mod natoms p)%nat))].
Proof. exact enlarged_same. Qed.
Print Assumptions C82_enlarged.
Example C82_enlarged_case : sane_phase xdata (two (9 / 10) (1 / 10)) /\ (exists de, phase_lattice (two (9 / 10) (1 / 10)) = Ok de) /\ (forall j, cp_icc (two (9 / 10) (1 / 10)) j = 1%Z) /\
  one_cell (two (9 / 10) (1 / 10)) /\ cp_stepcut (two (9 / 10) (1 / 10)) <= 0.
Proof. exact ex_enlarged. Qed.

(** such a cell can always be calculated *)
Theorem C82_sane : forall d k p p' m o, copies k p p' m o -> sane_phase d p -> sane_phase d p'.
Proof. exact copies_sane. Qed.
Print Assumptions C82_sane.
Example C82_sane_case : copies k213 (two (9 / 10) (1 / 10)) (enlarged k213 (two (9 / 10) (1 / 10))) (fun x => x mod 2)%nat (which k213 2) /\ sane_phase xdata (two (9 / 10) (1 / 10)).
Proof. exact (conj (enlarged_copies k213 (two (9 / 10) (1 / 10)) k213_one) (two_sane _ _)). Qed.

(** whole calculations: phases replaced by larger cells or other listings, with
    coordinates the calculation wraps *)
Theorem C82_theory : forall ph ph' sets, Forall2 same_crystal ph ph' -> Forall plain ph -> Forall plain ph' ->
  (forall s, In s sets -> good_grid (cs_data s) /\ off_origin (cs_data s) /\ good_filter (cs_data s) /\ everything s /\ forall p, In p ph \/ In p ph' -> sane_phase (cs_data s) p) ->
  exists f0, forall fuel, (f0 <= fuel)%nat -> exists n r, fit_theory fuel ph sets = Ok (map wrap_phase ph, n, r) /\ fit_theory fuel ph' sets = Ok (map wrap_phase ph', n, r).
Proof. exact theory_crystal. Qed.
Print Assumptions C82_theory.
Example C82_theory_case : let ph := [two (9 / 10) (1 / 10); two (9 / 10) (1 / 10)] in let ph' := [enlarged k213 (two (9 / 10) (1 / 10)); moved_two] in
  Forall2 same_crystal ph ph' /\ Forall plain ph /\ Forall plain ph' /\ forall p, In p ph \/ In p ph' -> sane_phase xdata p.
Proof. exact ex_crystal. Qed.

Theorem C82_enlarged_theory : forall k ph sets, (forall j, (j < 3)%nat -> (1 <= comp k j)%Z) -> Forall plain ph ->
  (forall s, In s sets -> good_grid (cs_data s) /\ off_origin (cs_data s) /\ good_filter (cs_data s) /\ everything s /\ forall p, In p ph -> sane_phase (cs_data s) p) ->
  exists f0, forall fuel, (f0 <= fuel)%nat -> exists n r, fit_theory fuel ph sets = Ok (map wrap_phase ph, n, r) /\ fit_theory fuel (map (enlarged k) ph) sets = Ok (map wrap_phase (map (enlarged k) ph), n, r).
Proof. exact enlarged_theory. Qed.
Print Assumptions C82_enlarged_theory.
Example C82_enlarged_theory_case : Forall plain [two (9 / 10) (1 / 10); moved_two] /\ everything (mkCset xdata [Some (none, none)]) /\ good_grid xdata /\ off_origin xdata /\ good_filter xdata /\
  sane_phase xdata (two (9 / 10) (1 / 10)) /\ sane_phase xdata moved_two.
Proof. exact (match ex_sample with conj _ (conj B (conj C (conj D (conj E _)))) => conj (Forall_cons _ B (Forall_cons _ C (Forall_nil _))) (conj ex_everything (conj xgrid (conj xoff (conj xfilter (conj D E))))) end). Qed.
