(** Property C75: refinements of phase scale factors. *)
From Coq Require Import List ZArith Reals.
From Verif Require Import Base RSum ParamModel ParserModel ParserSpec ParserDeriv MathModel MathSpec MathProof ConModel ConSpec GaussSpec PdfModel PdfSpec PdfEx LayoutModel LayoutSpec LsModel LsSpec LsCases LinSpec TheoryModel TheorySpec ScaleSpec ScaleLin ScaleEx.
Import ListNotations.
Local Open Scope R_scope.

(** after any calls that leave only constraints of phase scale factors, each a constant
    plus multiples of parameters: the calculated PDF of each data set is the sum of the
    PDFs of the phases alone with scale factor 1, times the scale factors *)
Theorem C75_sum : forall addr ph sets mem (h : list (uop R)) npar o, let st := crun (Rnum Rlit) Rbuiltins (cinit mem) (map to_cop h) in
  apart addr (atoms_in ph) (length sets) -> blocks_ok ph -> scales_only addr (length ph) st (ucons h) ->
  ready addr ph sets (cmem st) -> npar = (phase_size (atoms_in ph) + 3 * length sets)%nat ->
  exists f0, forall fuel, (f0 <= fuel)%nat -> forall is s, nth_error sets is = Some s -> exists lo hi F, phase_parts addr ph (cmem st) fuel is s lo hi F /\
    forall p ds, f_theory (theory_object addr (Rnum Rlit) Rbuiltins fuel ph sets npar st o) p = Ok ds ->
      exists d, nth_error ds is = Some d /\ d_lo d = lo /\ d_hi d = hi /\
        forall i, (lo <= i <= hi)%nat -> d_pdf d i = lsum (fun ip => scale_of addr st (ucons h) p ip * F ip i) (seq 0 (length ph)).
Proof. exact scale_sum. Qed.
Print Assumptions C75_sum.
Example C75_sum_case : forall y, apart row2 (atoms_in [half_empty]) 1 /\ blocks_ok [half_empty] /\ scales_only row2 1 st2 (ucons h2) /\ ready row2 [half_empty] [set2 y] (cmem st2) /\
  forall p, scale_of row2 st2 (ucons h2) p 0 = p 1%nat.
Proof. exact (fun y => conj row2_apart (conj blocks2 (conj scales2 (conj (ready2 y) scale2)))). Qed.

(** such a refinement is linear: for all values of the free parameters there is a
    calculated PDF, it changes in proportion to them, with the derivatives that are
    used in the refinement as slopes *)
Theorem C75_linear : forall addr ph sets mem (h : list (uop R)) npar o, let st := crun (Rnum Rlit) Rbuiltins (cinit mem) (map to_cop h) in
  apart addr (atoms_in ph) (length sets) -> blocks_ok ph -> scales_only addr (length ph) st (ucons h) ->
  ready addr ph sets (cmem st) -> npar = (phase_size (atoms_in ph) + 3 * length sets)%nat ->
  exists f0, forall fuel, (f0 <= fuel)%nat -> exists ds0, let O := theory_object addr (Rnum Rlit) Rbuiltins fuel ph sets npar st o in
    f_setup O = Ok tt /\ linear O ds0 /\ Forall2 (fun s d => d_obs d = ts_obs s /\ d_w d = ts_w s) sets ds0.
Proof. exact scale_is_linear. Qed.
Print Assumptions C75_linear.
Example C75_linear_case : forall y, apart row2 (atoms_in [half_empty]) 1 /\ blocks_ok [half_empty] /\ scales_only row2 1 st2 (ucons h2) /\ ready row2 [half_empty] [set2 y] (cmem st2) /\
  34%nat = (phase_size (atoms_in [half_empty]) + 3 * length [set2 y])%nat.
Proof. exact (fun y => conj row2_apart (conj blocks2 (conj scales2 (conj (ready2 y) eq_refl)))). Qed.

(** and it ends with the least squares scale factors, whatever the start: within 100
    iterations, with a sum of squares as close to the smallest as stated, when no
    combination of the free parameters leaves the calculated PDFs unchanged *)
Theorem C75_refined : forall addr ph sets mem (h : list (uop R)) npar o, let st := crun (Rnum Rlit) Rbuiltins (cinit mem) (map to_cop h) in
  apart addr (atoms_in ph) (length sets) -> blocks_ok ph -> scales_only addr (length ph) st (ucons h) ->
  ready addr ph sets (cmem st) -> npar = (phase_size (atoms_in ph) + 3 * length sets)%nat -> (forall s i, In s sets -> 0 <= ts_w s i) ->
  exists f0, forall fuel, (f0 <= fuel)%nat -> exists ds0, let O := theory_object addr (Rnum Rlit) Rbuiltins fuel ph sets npar st o in
  f_theory O (pars_of st) = Ok ds0 /\ forall toler lfuel running c tx, fresh running c -> (101 <= lfuel)%nat -> ~ dependent O ds0 ->
  exists c' x' q cmin, ls_refine toler lfuel running c (tx, O) = (false, c', x', Ok tt) /\
    least O q cmin /\ (forall q' c1, least O q' c1 -> q' = q) /\
    let p := f_p (snd x') in let n := c_iter c' in
    (4 <= n <= 100)%nat /\ allowed O p /\ spread O ds0 p q <= spread O ds0 (f_p O) q /\
    cmin <= f_chisq (snd x') <= cmin + / 10 ^ (n + 2) / 4 * spread O ds0 (f_p O) q /\
    forall k, conditioned O ds0 k -> spread O ds0 p q <= (k ^ n * shrink n) * (k ^ n * shrink n) * spread O ds0 (f_p O) q.
Proof. exact scale_refined. Qed.
Print Assumptions C75_refined.
Example C75_refined_case : forall y o, (forall s i, In s [set2 y] -> 0 <= ts_w s i) /\ fresh false c_new /\
  exists f0, forall fuel, (f0 <= fuel)%nat -> forall ds0, let O := theory_object row2 (Rnum Rlit) Rbuiltins fuel [half_empty] [set2 y] 34 st2 o in
  f_theory O (pars_of st2) = Ok ds0 -> ~ dependent O ds0.
Proof. exact (fun y o => conj (weights2 y) (conj (or_introl eq_refl) (matters2 y o))). Qed.
