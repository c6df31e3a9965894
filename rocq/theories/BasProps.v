(** Property theorems C84. *)
From Coq Require Import List Arith ZArith Reals Bool Lia Lra.
From Verif Require Import Base RSum MetricModel MetricSpec SphereSpec PdfModel PdfSpec PdfEx PdfFinal RelSpec RelTheory RelEx RelAll SupSpec AxSpec AxEx BasSpec BasProof BasFinal BasMake BasEx BasChain.
Import ListNotations.
Local Open Scope R_scope.

(** phases written in other bases of their lattices *)
Theorem C84_basis : forall d psel psel', good_grid d -> off_origin d -> good_filter d -> ready d psel -> ready d psel' -> all_complete psel -> all_complete psel' ->
  Forall2 (opt_rel other_basis) psel psel' -> same_pdf d psel psel'.
Proof. exact basis_same. Qed.
Print Assumptions C84_basis.
Example C84_basis_case : exists e e', ready xdata [Some e; None] /\ ready xdata [Some e'; None] /\ all_complete [Some e; None] /\ all_complete [Some e'; None] /\
  en_igni e 0 = true /\ cp_a0 (en_ph e) 1%nat = 10 /\ cp_a0 (en_ph e') 1%nat * cp_a0 (en_ph e') 1%nat = 200 /\ Forall2 (opt_rel other_basis) [Some e; None] [Some e'; None].
Proof. exact ex_basis. Qed.

(** every structure can be written in every basis of its lattice *)
Theorem C84_exists : forall m n v z p, inverse m n -> inverse n m -> proper p -> (forall k, cp_icc p k = 1%Z) ->
  rebased m n v z p (rebase m n v z p) /\ proper (rebase m n v z p).
Proof. exact (fun m n v z p A B C D => conj (rebase_rebased m n v z p A B C D) (rebase_proper m n v z p A B C)). Qed.
Print Assumptions C84_exists.
Example C84_exists_case : inverse shear unshear /\ inverse unshear shear /\ proper xt /\ forall k, cp_icc xt k = 1%Z.
Proof. exact (conj shear_un (conj un_shear (conj xt_proper (fun _ => eq_refl)))). Qed.

Theorem C84_rebase : forall d m n v z p de de' gi gj, good_grid d -> off_origin d -> good_filter d -> inverse m n -> inverse n m -> (forall k, cp_icc p k = 1%Z) ->
  sane_phase d p -> phase_lattice p = Ok de -> one_cell p -> cp_stepcut p <= 0 ->
  no_tiny (scalar m (metric (cp_a0 p) (cp_win p))) -> phase_lattice (rebase m n v z p) = Ok de' -> one_cell (rebase m n v z p) ->
  same_pdf d [Some (mkEnt p de gi gj)] [Some (mkEnt (rebase m n v z p) de' gi gj)].
Proof. exact rebase_same. Qed.
Print Assumptions C84_rebase.
Example C84_rebase_case : inverse shear unshear /\ inverse unshear shear /\ (forall k, cp_icc xt k = 1%Z) /\ sane_phase xdata xt /\ (exists de, phase_lattice xt = Ok de) /\ one_cell xt /\ cp_stepcut xt <= 0 /\
  no_tiny (scalar shear (metric (cp_a0 xt) (cp_win xt))) /\ (exists de', phase_lattice (rebase shear unshear zero3 stay xt) = Ok de') /\ one_cell (rebase shear unshear zero3 stay xt).
Proof. exact ex_rebase. Qed.

(** the image of a structure under inversion has the same PDF: hands cannot be told
    apart *)
Theorem C84_image : forall d v p de gi gj, good_grid d -> off_origin d -> good_filter d -> (forall k, cp_icc p k = 1%Z) ->
  sane_phase d p -> phase_lattice p = Ok de -> one_cell p -> cp_stepcut p <= 0 ->
  exists de', phase_lattice (image v p) = Ok de' /\ same_pdf d [Some (mkEnt p de gi gj)] [Some (mkEnt (image v p) de' gi gj)].
Proof. exact image_same. Qed.
Print Assumptions C84_image.
Example C84_image_case : (forall k, cp_icc xt k = 1%Z) /\ sane_phase xdata xt /\ (exists de, phase_lattice xt = Ok de) /\ one_cell xt /\ cp_stepcut xt <= 0.
Proof. exact ex_image. Qed.

(** whole calculations, with any atoms ignored and coordinates the calculation wraps *)
Theorem C84_theory : forall ph ph' sets, Forall2 basis_of ph ph' -> Forall plain ph -> Forall plain ph' ->
  (forall x, In x sets -> good_grid (cs_data x) /\ off_origin (cs_data x) /\ good_filter (cs_data x) /\ forall p, In p ph \/ In p ph' -> sane_phase (cs_data x) p) ->
  exists f0, forall fuel, (f0 <= fuel)%nat -> exists n r, fit_theory fuel ph sets = Ok (map wrap_phase ph, n, r) /\ fit_theory fuel ph' sets = Ok (map wrap_phase ph', n, r).
Proof. exact theory_basis. Qed.
Print Assumptions C84_theory.
Example C84_theory_case : let ph := [xt; moved_two] in let ph' := [sheared; moved_two] in
  Forall2 basis_of ph ph' /\ Forall plain ph /\ Forall plain ph' /\ good_grid xdata /\ off_origin xdata /\ good_filter xdata /\ forall p, In p ph \/ In p ph' -> sane_phase xdata p.
Proof. exact ex_basis_theory. Qed.

(** descriptions that follow from each other by any number of these steps *)
Theorem C84_chain : forall d x y, good_grid d -> off_origin d -> good_filter d -> linked d x y -> same_pdf d x y.
Proof. exact linked_same. Qed.
Print Assumptions C84_chain.
Example C84_chain_case : exists e e', linked xdata [Some e] [Some e'] /\ en_ph e = sheared /\ en_ph e' = rename cyc box /\ natoms (en_ph e) = 2%nat /\ natoms (en_ph e') = 12%nat.
Proof. exact ex_chain. Qed.
