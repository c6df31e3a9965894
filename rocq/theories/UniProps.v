(** Property theorems C85. *)
From Coq Require Import List Arith ZArith Reals Bool Ascii Lia Lra.
From Verif Require Import Base RSum MetricModel PdfModel PdfSpec PdfEx PdfFinal RelSpec RelTheory RelEx RelAll AxSpec AxEx UniSpec UniProof UniEx.
Import ListNotations.
Local Open Scope R_scope.

(** nothing has to be assumed of the phase in the other units *)
Theorem C85_units : forall d k c p de gi gj, good_grid d -> off_origin d -> good_filter d -> k <> 0 -> (forall t, c t <> 0) ->
  sane_phase d p -> phase_lattice p = Ok de -> one_cell p -> cp_stepcut p <= 0 ->
  exists de', phase_lattice (in_units k c p) = Ok de' /\ same_pdf d [Some (mkEnt p de gi gj)] [Some (mkEnt (in_units k c p) de' gi gj)].
Proof. exact units_same. Qed.
Print Assumptions C85_units.
Example C85_units_case : 1 / 2 <> 0 /\ (forall t, fm t <> 0) /\ sane_phase xdata box /\ (exists de, phase_lattice box = Ok de) /\ one_cell box /\ cp_stepcut box <= 0.
Proof. exact ex_units. Qed.

(** mixtures, each phase in units of its own *)
Theorem C85_mixture : forall d psel psel', good_grid d -> off_origin d -> good_filter d -> ready d psel -> ready d psel' -> all_complete psel -> all_complete psel' ->
  Forall2 (opt_rel other_units) psel psel' -> same_pdf d psel psel'.
Proof. exact units_pdf. Qed.
Print Assumptions C85_mixture.
Example C85_mixture_case : exists e e', ready xdata [Some e; Some e] /\ ready xdata [Some e; Some e'] /\ all_complete [Some e; Some e] /\ all_complete [Some e; Some e'] /\
  en_igni e 0 = true /\ cp_pscale (en_ph e) = 1 /\ cp_pscale (en_ph e') = 2 /\ Forall2 (opt_rel other_units) [Some e; Some e] [Some e; Some e'].
Proof. exact ex_unit_mix. Qed.

(** whole calculations *)
Theorem C85_theory : forall ph ph' sets, Forall2 units_of ph ph' -> Forall plain ph ->
  (forall x, In x sets -> good_grid (cs_data x) /\ off_origin (cs_data x) /\ good_filter (cs_data x) /\ forall p, In p ph -> sane_phase (cs_data x) p) ->
  exists f0, forall fuel, (f0 <= fuel)%nat -> exists n r, fit_theory fuel ph sets = Ok (map wrap_phase ph, n, r) /\ fit_theory fuel ph' sets = Ok (map wrap_phase ph', n, r).
Proof. exact theory_units. Qed.
Print Assumptions C85_theory.
Example C85_theory_case : let ph := [box; moved_two] in let ph' := [in_units 2 fm box; in_units (1 / 2) fm moved_two] in
  Forall2 units_of ph ph' /\ Forall plain ph /\ good_grid xdata /\ off_origin xdata /\ good_filter xdata /\ forall p, In p ph -> sane_phase xdata p.
Proof. exact ex_units_theory. Qed.
