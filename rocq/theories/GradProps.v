(** Property C77: derivatives with respect to the parameters. *)
From Coq Require Import List ZArith Reals.
From Verif Require Import Base RSum ParamModel ParserModel ParserSpec ParserDeriv MathModel MathSpec MathProof ConModel ConSpec PdfModel PdfSpec PdfEx LayoutModel LayoutSpec DerivSpec LsModel LsSpec TheoryModel TheorySpec ScaleSpec ScaleEx RunModel GradSpec GradFinal GradEx.
Import ListNotations.
Local Open Scope R_scope.

(** after any calls: a free parameter that is used in the constraint of a scale factor,
    particle diameter, occupancy or Q-damping factor.  What the refinement takes for the
    derivative of a point of the PDF is the derivative of the point as it is calculated *)
Theorem C77_output : forall addr ph sets mem (h : list (uop R)) npar o p l v c, let st := crun (Rnum Rlit) Rbuiltins (cinit mem) (map to_cop h) in
  apart addr (atoms_in ph) (length sets) -> blocks_ok ph -> regular addr ph sets st (ucons h) p -> exists_var (atoms_in ph) (length sets) v ->
  enters addr st (ucons h) p l v c -> peaks_fixed v -> npar = (phase_size (atoms_in ph) + 3 * length sets)%nat ->
  exists f0, forall fuel, (f0 <= fuel)%nat -> exists ds0, f_theory (theory_object addr (Rnum Rlit) Rbuiltins fuel ph sets npar st o) p = Ok ds0 /\ length ds0 = length sets /\
  exists eps, 0 < eps /\ forall is d i, nth_error ds0 is = Some d -> (d_lo d <= i <= d_hi d)%nat ->
    let F x := calculated addr (Rnum Rlit) Rbuiltins fuel ph sets st is i (moved p l x) in
    F (p l) = Some (d_pdf d i) /\ (forall x, Rabs (x - p l) < eps -> F x <> None) /\ derivable_pt_lim (fun x => real_of (F x)) (p l) (dpar d i l).
Proof. exact session_output. Qed.
Print Assumptions C77_output.
Example C77_output_case : forall y, apart row2 (atoms_in [half_empty]) 1 /\ blocks_ok [half_empty] /\ regular row2 [half_empty] [set2 y] st4 (ucons h4) p4 /\
  enters row2 st4 (ucons h4) p4 1 (PV 0 FPscale) (KPar KSqr 1) /\ forall x, con_at st4 (KPar KSqr 1) (moved p4 1 x) = x * x.
Proof. exact (fun y => conj row2_apart (conj blocks2 (conj (regular4 y) (conj enters_scale square4)))). Qed.

(** for any variable whose column C44 describes, coordinates and displacements
    included: the derivative of the PDF in which the points that the peaks reach are
    kept, followed by the Qmax cutoff *)
Theorem C77_frozen : forall addr ph sets mem (h : list (uop R)) npar o p l v c, let st := crun (Rnum Rlit) Rbuiltins (cinit mem) (map to_cop h) in
  apart addr (atoms_in ph) (length sets) -> blocks_ok ph -> regular addr ph sets st (ucons h) p -> exists_var (atoms_in ph) (length sets) v ->
  enters addr st (ucons h) p l v c -> npar = (phase_size (atoms_in ph) + 3 * length sets)%nat ->
  exists f0, forall fuel, (f0 <= fuel)%nat -> exists ds0, f_theory (theory_object addr (Rnum Rlit) Rbuiltins fuel ph sets npar st o) p = Ok ds0 /\ length ds0 = length sets /\
  forall is s d, nth_error sets is = Some s -> nth_error ds0 is = Some d -> exists psel lo hi W C G t,
    let mem0 := mem_at st (ucons h) p in let dd := data_in addr mem0 is s in
    seen_by addr ph mem0 s psel /\ point_ranges dd lo hi (Z.of_nat (d_lo d)) (Z.of_nat (d_hi d)) /\ right_limits dd psel W C /\
    (forall x0 g, value_is is v dd psel x0 -> (lo <= g <= hi)%Z ->
       let X x := x0 + (con_at st c (moved p l x) - con_at st c p) in
       derivable_pt_lim (fun x => fixed_pdf (data_with is v (X x) dd) (phases_with v (X x) psel) W C g) (p l) (G g)) /\
    holds_pdf dd lo hi G t /\ forall i, (d_lo d <= i <= d_hi d)%nat -> nth i t None = Some (dpar d i l).
Proof. exact session_frozen. Qed.
Print Assumptions C77_frozen.
Example C77_frozen_case : forall y, regular row2 [half_empty] [set2 y] st4 (ucons h4) p4 /\ exists_var (atoms_in [half_empty]) 1 u11 /\
  enters row2 st4 (ucons h4) p4 2 u11 (KPar KComp 2) /\ forall x, con_at st4 (KPar KComp 2) (moved p4 2 x) = 1 - x.
Proof. exact (fun y => conj (regular4 y) (conj u11_there (conj enters_u compl4))). Qed.
