(** Property C76: the refinement on the program's memory. *)
From Coq Require Import List ZArith Reals.
From Verif Require Import Base RSum ParamModel ParamProof ParserModel ParserSpec ParserDeriv MathModel MathSpec MathProof MatrixModel MatrixProof ConModel ConSpec GaussSpec PdfModel PdfSpec PdfEx LayoutModel LayoutSpec LsModel LsSpec LsCases LinSpec TheoryModel TheorySpec ScaleSpec ScaleEx RunModel RunSpec RunFinal RunEx.
Import ListNotations.
Local Open Scope R_scope.

(** a refinement whose calculations work on the variables, derivatives and constraints
    that the earlier ones left takes the same course as one whose calculated PDFs are a
    function of the parameters alone: same iterations, solver arrays, sums of squares,
    parameters and exceptions *)
Theorem C76_same : forall addr (N : numops R) builtins fuel ph sets npar cs st o toler lfuel running c tx ly0 pdf0,
  apart addr (atoms_in ph) (length sets) -> blocks_ok ph -> wf (ctab st) -> mwf (cdvdp st) -> table st cs -> solvable N builtins st cs -> fresh running c ->
  let O := theory_object addr N builtins fuel ph sets npar st o in
  exists w' b c' tx' o' r, ls_refine toler lfuel running c (tx, O) = (b, c', (tx', o'), r) /\
    world_refine addr N builtins fuel ph sets npar toler lfuel running c (tx, O, mkW st ly0 pdf0) = (b, c', (tx', o', w'), r).
Proof.
  exact (fun addr N builtins fuel ph sets npar cs st o toler lfuel running c tx ly0 pdf0 AP BO W M T V FR =>
    match world_same addr N builtins fuel ph sets npar cs AP BO toler lfuel running c tx st pdf0 ly0 o W M T V FR with
    | ex_intro _ w' (ex_intro _ b (ex_intro _ c' (ex_intro _ tx' (ex_intro _ o' (ex_intro _ r (conj H1 (conj H2 _))))))) =>
        ex_intro _ w' (ex_intro _ b (ex_intro _ c' (ex_intro _ tx' (ex_intro _ o' (ex_intro _ r (conj H1 H2)))))) end).
Qed.
Print Assumptions C76_same.
Example C76_same_case : forall y, apart row2 (atoms_in [half_empty]) (length [set2 y]) /\ blocks_ok [half_empty] /\ wf (ctab st2) /\ mwf (cdvdp st2) /\ table st2 (ucons h2) /\
  solvable (Rnum Rlit) Rbuiltins st2 (ucons h2) /\ fresh false c_new.
Proof. exact (fun y => conj row2_apart (conj blocks2 (conj (proj1 dinv2) (conj (proj1 (proj2 dinv2)) (conj (proj1 (proj2 (proj2 dinv2))) (conj solv2 (or_introl eq_refl))))))). Qed.

(** after any calls that set parameters and constraints, a refinement that returns leaves
    things that belong together: the parameters are those of the last accepted step, each
    constrained variable has the value of its constraint for them (coordinates moved by
    whole blocks into the block), the other variables are as before, and the PDFs are those
    of the variables in memory *)
Theorem C76_final : forall addr fuel ph sets npar mem (h : list (uop R)) toler lfuel running c tx pdf0 ly0 o, let st := crun (Rnum Rlit) Rbuiltins (cinit mem) (map to_cop h) in
  apart addr (atoms_in ph) (length sets) -> blocks_ok ph -> Forall (fun ac => con_ok (snd ac)) (ucons h) -> NoDup (map fst (ucons h)) ->
  solvable (Rnum Rlit) Rbuiltins st (ucons h) -> fresh running c ->
  let O := theory_object addr (Rnum Rlit) Rbuiltins fuel ph sets npar st o in
  exists w' b c' tx' o' r, ls_refine toler lfuel running c (tx, O) = (b, c', (tx', o'), r) /\
    world_refine addr (Rnum Rlit) Rbuiltins fuel ph sets npar toler lfuel running c (tx, O, mkW st ly0 pdf0) = (b, c', (tx', o', w'), r) /\
    (r = Ok tt -> settled addr (Rnum Rlit) Rbuiltins fuel ph sets (ucons h) st (w_st w') (w_pdf w') (f_p o')).
Proof. exact session_same. Qed.
Print Assumptions C76_final.
Example C76_final_case : forall y o, Forall (fun ac => con_ok (snd ac)) (ucons h2) /\ NoDup (map fst (ucons h2)) /\
  exists f0, forall fuel, (f0 <= fuel)%nat -> forall toler lfuel tx ly0 pdf0, (101 <= lfuel)%nat ->
  let O := theory_object row2 (Rnum Rlit) Rbuiltins fuel [half_empty] [set2 y] 34 st2 o in
  exists c' tx' o' w' q cmin, world_refine row2 (Rnum Rlit) Rbuiltins fuel [half_empty] [set2 y] 34 toler lfuel false c_new (tx, O, mkW st2 ly0 pdf0) = (false, c', (tx', o', w'), Ok tt) /\
    least O q cmin /\ cmin <= f_chisq o' /\ cmem (w_st w') 8 = f_p o' 1%nat.
Proof. exact (fun y o => conj con_ok2 (conj nodup2 (run2 y o))). Qed.

(** with constraints of phase scale factors only, constants plus multiples of parameters:
    the scale factors in memory are the least squares ones, as close as stated *)
Theorem C76_scales : forall addr ph sets mem (h : list (uop R)) npar o, let st := crun (Rnum Rlit) Rbuiltins (cinit mem) (map to_cop h) in
  apart addr (atoms_in ph) (length sets) -> blocks_ok ph -> scales_only addr (length ph) st (ucons h) ->
  ready addr ph sets (cmem st) -> npar = (phase_size (atoms_in ph) + 3 * length sets)%nat -> (forall s i, In s sets -> 0 <= ts_w s i) ->
  exists f0, forall fuel, (f0 <= fuel)%nat -> exists ds0, let O := theory_object addr (Rnum Rlit) Rbuiltins fuel ph sets npar st o in
  f_theory O (pars_of st) = Ok ds0 /\ forall toler lfuel running c tx ly0 pdf0, fresh running c -> (101 <= lfuel)%nat -> ~ dependent O ds0 ->
  exists c' tx' o' w' q cmin, world_refine addr (Rnum Rlit) Rbuiltins fuel ph sets npar toler lfuel running c (tx, O, mkW st ly0 pdf0) = (false, c', (tx', o', w'), Ok tt) /\
    least O q cmin /\ spread O ds0 (f_p o') q <= spread O ds0 (f_p O) q /\
    cmin <= f_chisq o' <= cmin + / 10 ^ (c_iter c' + 2) / 4 * spread O ds0 (f_p O) q /\
    forall ip, (ip < length ph)%nat -> cmem (w_st w') (addr (PV ip FPscale)) = scale_of addr st (ucons h) (f_p o') ip.
Proof. exact scale_memory. Qed.
Print Assumptions C76_scales.
Example C76_scales_case : forall y o, scales_only row2 1 st2 (ucons h2) /\ ready row2 [half_empty] [set2 y] (cmem st2) /\ (forall s i, In s [set2 y] -> 0 <= ts_w s i) /\
  exists f0, forall fuel, (f0 <= fuel)%nat -> forall ds0, let O := theory_object row2 (Rnum Rlit) Rbuiltins fuel [half_empty] [set2 y] 34 st2 o in
  f_theory O (pars_of st2) = Ok ds0 -> ~ dependent O ds0.
Proof. exact (fun y o => conj scales2 (conj (ready2 y) (conj (weights2 y) (matters2 y o)))). Qed.
