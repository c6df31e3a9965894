(** C79: what is read between two calls of refine_step. *)
From Coq Require Import List Arith ZArith Reals Bool.
From Verif Require Import Base ParamModel ParserModel ParserSpec ParserDeriv MathModel MathSpec MathProof ConModel ConSpec PdfModel PdfEx LayoutModel LayoutSpec LsModel LsSpec LsCases TheoryModel TheorySpec ScaleEx RunModel RunSpec BetwSpec BetwFinal BetwEx.
Import ListNotations.
Local Open Scope R_scope.

(** after any number of calls that returned 0: getpar gives the best parameters so far,
    variables and PDFs are those of the last trial, which solves the damped normal
    equations of the call before and was taken only if it was better *)
Theorem C79_between : forall addr fuel ph sets npar mem (h : list (uop R)) toler running c tx pdf0 ly0 o, let st := crun (Rnum Rlit) Rbuiltins (cinit mem) (map to_cop h) in
  apart addr (atoms_in ph) (length sets) -> blocks_ok ph -> Forall (fun ac => con_ok (snd ac)) (ucons h) -> NoDup (map fst (ucons h)) -> solvable (Rnum Rlit) Rbuiltins st (ucons h) -> fresh running c ->
  let O := theory_object addr (Rnum Rlit) Rbuiltins fuel ph sets npar st o in
  (forall n running1 c1 tx1 o1 w1, world_steps addr (Rnum Rlit) Rbuiltins fuel ph sets npar toler (S n) running c (tx, O, mkW st ly0 pdf0) = Some (running1, c1, (tx1, o1, w1)) ->
  ls_steps toler (S n) running c (tx, O) = Some (running1, c1, (tx1, o1)) /\ getpar_is (w_st w1) (f_p o1) /\
  exists running0 c0 tx0 o0 w0, world_steps addr (Rnum Rlit) Rbuiltins fuel ph sets npar toler n running c (tx, O, mkW st ly0 pdf0) = Some (running0, c0, (tx0, o0, w0)) /\
    exists q, shows addr (Rnum Rlit) Rbuiltins fuel ph sets (ucons h) st w1 q /\ trial_of o0 o1 q) /\
  (forall n running1 c1 tx1 o1, ls_steps toler n running c (tx, O) = Some (running1, c1, (tx1, o1)) ->
    exists w1, world_steps addr (Rnum Rlit) Rbuiltins fuel ph sets npar toler n running c (tx, O, mkW st ly0 pdf0) = Some (running1, c1, (tx1, o1, w1))).
Proof. exact session_between. Qed.
Print Assumptions C79_between.
Example C79_between_case : apart row2 (atoms_in [half_empty]) 1 /\ blocks_ok [half_empty] /\ Forall (fun ac => con_ok (snd ac)) (ucons h6) /\ NoDup (map fst (ucons h6)) /\ solvable (Rnum Rlit) Rbuiltins st6 (ucons h6) /\
  exists fuel y, forall o toler tx ly0 pdf0, world_steps row2 (Rnum Rlit) Rbuiltins fuel [half_empty] [set2 y] 34 toler 1 false c_new (tx, theory_object row2 (Rnum Rlit) Rbuiltins fuel [half_empty] [set2 y] 34 st6 o, mkW st6 ly0 pdf0) <> None.
Proof. exact case6. Qed.

(** parameters, variables and PDFs need not belong together after a call: parameter 1 is
    1/10 and the scale factor, its square by constraint, is that of a rejected trial *)
Theorem C79_refuted : exists fuel y, forall o toler tx ly0 pdf0, let O := theory_object row2 (Rnum Rlit) Rbuiltins fuel [half_empty] [set2 y] 34 st6 o in
  exists c1 tx1 o1 w1, world_steps row2 (Rnum Rlit) Rbuiltins fuel [half_empty] [set2 y] 34 toler 1 false c_new (tx, O, mkW st6 ly0 pdf0) = Some (true, c1, (tx1, o1, w1)) /\
    pval (ctab (w_st w1)) = [1 / 10] /\ 1 / 100 < cmem (w_st w1) (row2 (PV 0 FPscale)) /\
    forall p, ~ settled row2 (Rnum Rlit) Rbuiltins fuel [half_empty] [set2 y] (ucons h6) st6 (w_st w1) (w_pdf w1) p.
Proof. exact not_settled6. Qed.
Print Assumptions C79_refuted.
