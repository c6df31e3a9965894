(** Property theorems C83. *)
From Coq Require Import List Arith ZArith Reals Bool Lia Lra.
From Verif Require Import Base RSum MetricModel PdfModel PdfSpec PdfEx PdfFinal RelSpec RelTheory RelEx RelAll AxSpec AxProof AxFinal AxEx.
Import ListNotations.
Local Open Scope R_scope.

(** mixtures of phases, each with its axes named in any order *)
Theorem C83_axes : forall d psel psel', good_grid d -> off_origin d -> good_filter d -> ready d psel -> ready d psel' -> all_complete psel -> all_complete psel' ->
  Forall2 (opt_rel other_axes) psel psel' -> same_pdf d psel psel'.
Proof. exact axes_same. Qed.
Print Assumptions C83_axes.
Example C83_axes_case : exists e e', ready xdata [Some e; None] /\ ready xdata [Some e'; None] /\ all_complete [Some e; None] /\ all_complete [Some e'; None] /\
  en_igni e 0 = true /\ cp_a0 (en_ph e) 0%nat = 20 /\ cp_a0 (en_ph e') 0%nat = 10 /\ Forall2 (opt_rel other_axes) [Some e; None] [Some e'; None].
Proof. exact ex_axes. Qed.

(** nothing has to be assumed of the phase with the other names *)
Theorem C83_rename : forall d s p de gi gj, good_grid d -> off_origin d -> good_filter d -> naming s ->
  sane_phase d p -> phase_lattice p = Ok de -> one_cell p -> cp_stepcut p <= 0 ->
  exists de', phase_lattice (rename s p) = Ok de' /\ same_pdf d [Some (mkEnt p de gi gj)] [Some (mkEnt (rename s p) de' gi gj)].
Proof. exact rename_same. Qed.
Print Assumptions C83_rename.
Example C83_rename_case : naming cyc /\ sane_phase xdata box /\ (exists de, phase_lattice box = Ok de) /\ one_cell box /\ cp_stepcut box <= 0 /\
  cp_a0 box 0%nat = 20 /\ cp_a0 box 1%nat = 10 /\ cp_a0 box 2%nat = 30 /\ cp_a0 (rename cyc box) 0%nat = 10 /\ cp_a0 (rename cyc box) 1%nat = 30 /\ cp_a0 (rename cyc box) 2%nat = 20.
Proof. exact ex_rename. Qed.

(** such a phase can always be calculated *)
Theorem C83_sane : forall s p p', naming s -> renamed s p p' -> forall d, sane_phase d p -> sane_phase d p'.
Proof. exact axes_sane. Qed.
Print Assumptions C83_sane.
Example C83_sane_case : naming cyc /\ renamed cyc box (rename cyc box) /\ sane_phase xdata box.
Proof. exact (conj cyc_naming (conj (rename_renamed cyc box cyc_naming) box_sane)). Qed.

(** whole calculations, with any atoms ignored and coordinates the calculation wraps *)
Theorem C83_theory : forall ph ph' sets, Forall2 axes_of ph ph' -> Forall plain ph ->
  (forall x, In x sets -> good_grid (cs_data x) /\ off_origin (cs_data x) /\ good_filter (cs_data x) /\ forall p, In p ph -> sane_phase (cs_data x) p) ->
  exists f0, forall fuel, (f0 <= fuel)%nat -> exists n r, fit_theory fuel ph sets = Ok (map wrap_phase ph, n, r) /\ fit_theory fuel ph' sets = Ok (map wrap_phase ph', n, r).
Proof. exact theory_axes. Qed.
Print Assumptions C83_theory.
Example C83_theory_case : let ph := [box; moved_two] in let ph' := [rename cyc box; rename swp moved_two] in
  Forall2 axes_of ph ph' /\ Forall plain ph /\ good_grid xdata /\ off_origin xdata /\ good_filter xdata /\ forall p, In p ph -> sane_phase xdata p.
Proof. exact ex_axes_theory. Qed.

Theorem C83_rename_theory : forall s ph sets, naming s -> Forall plain ph ->
  (forall x, In x sets -> good_grid (cs_data x) /\ off_origin (cs_data x) /\ good_filter (cs_data x) /\ forall p, In p ph -> sane_phase (cs_data x) p) ->
  exists f0, forall fuel, (f0 <= fuel)%nat -> exists n r, fit_theory fuel ph sets = Ok (map wrap_phase ph, n, r) /\ fit_theory fuel (map (rename s) ph) sets = Ok (map wrap_phase (map (rename s) ph), n, r).
Proof. exact rename_theory. Qed.
Print Assumptions C83_rename_theory.
Example C83_rename_theory_case : naming swp /\ Forall plain [box; moved_two] /\ good_grid xdata /\ off_origin xdata /\ good_filter xdata /\ forall p, In p [box; moved_two] -> sane_phase xdata p.
Proof. exact (conj swp_naming (proj2 ex_axes_theory)). Qed.
