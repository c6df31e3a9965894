(** Property C74: what is calculated for given parameters does not depend on the
    parameters tried before. *)
From Coq Require Import List ZArith Reals.
From Verif Require Import Base ParamModel ParamProof ParserModel ParserSpec ParserDeriv MatrixModel MatrixProof MathModel MathSpec MathProof ConModel ConSpec PdfModel LayoutModel LayoutSpec LsModel TheoryModel TheorySpec TheoryMem TheoryEx.
Import ListNotations.
Local Open Scope R_scope.

(** after calculations for any sequence of parameters, failed ones included, a
    calculation for parameters that give all constraints a value ends with the same
    variables, derivatives of the variables, PDFs and derivatives of the PDFs (or the
    same exception) as if it had been the first *)
Theorem C74_history_free : forall addr ph nset (N : numops R) builtins cs st fuel ly sets ps p,
  apart addr (atoms_in ph) nset -> blocks_ok ph -> wf (ctab st) -> mwf (cdvdp st) -> table st cs -> solvable N builtins (with_pars st p) cs ->
  theory_diff addr N builtins fuel ly ph sets (with_pars (visit addr N builtins fuel ly ph sets ps st) p) =
  theory_diff addr N builtins fuel ly ph sets (with_pars st p).
Proof. exact (fun addr ph nset N builtins cs st fuel ly sets ps p AP BO W M T => history_free addr ph nset AP BO N builtins cs (proj2 T) st fuel ly sets ps p W M T). Qed.
Print Assumptions C74_history_free.
Example C74_history_free_case : forall mem x, apart row (atoms_in [one_atom]) 1 /\ blocks_ok [one_atom] /\ wf (ctab (squared mem x)) /\ mwf (cdvdp (squared mem x)) /\
  table (squared mem x) [(11%nat, KPar KSqr 1)] /\ (forall p, solvable (Rnum Rlit) Rbuiltins (with_pars (squared mem x) p) [(11%nat, KPar KSqr 1)]) /\
  forall fuel ly sets, cmem (visit row (Rnum Rlit) Rbuiltins fuel ly [one_atom] sets [fun _ => 1 / 2] (squared mem x)) 11 = 1 / 4.
Proof.
  exact (fun mem x => conj row_apart (conj (proj1 (proj2 (proj2 (proj2 (squared_ok mem x))))) (conj (proj1 (squared_ok mem x)) (conj (proj1 (proj2 (squared_ok mem x)))
    (conj (proj1 (proj2 (proj2 (squared_ok mem x)))) (conj (proj2 (proj2 (proj2 (proj2 (squared_ok mem x))))) (fun fuel ly sets => squared_moves mem x fuel ly sets))))))).
Qed.
