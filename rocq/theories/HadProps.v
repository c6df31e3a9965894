(** Property C78: derivatives with respect to shared parameters. *)
From Coq Require Import List ZArith Reals.
From Verif Require Import Base RSum ParamModel ParserModel ParserSpec ParserDeriv MathModel MathSpec MathProof ConModel ConSpec MetricModel PdfModel PdfSpec PdfEx LayoutModel LayoutSpec DerivSpec LsModel LsSpec TheoryModel TheorySpec ScaleSpec ScaleEx RunModel GradSpec GradEx HadSpec HadFinal HadEx.
Import ListNotations.
Local Open Scope R_scope.

(** after any calls: a free parameter used in any number of constraints, all of them
    those of scale factors, particle diameters, occupancies or Q-damping factors.  What
    the refinement takes for the derivative of a point of the PDF is the derivative of
    the point as it is calculated *)
Theorem C78_output : forall addr ph sets mem (h : list (uop R)) npar o p l, let st := crun (Rnum Rlit) Rbuiltins (cinit mem) (map to_cop h) in
  apart addr (atoms_in ph) (length sets) -> blocks_ok ph -> regular addr ph sets st (ucons h) p ->
  smooth_in st (ucons h) p l -> keeps_peaks addr ph sets st (ucons h) l -> npar = (phase_size (atoms_in ph) + 3 * length sets)%nat ->
  exists f0, forall fuel, (f0 <= fuel)%nat -> exists ds0, f_theory (theory_object addr (Rnum Rlit) Rbuiltins fuel ph sets npar st o) p = Ok ds0 /\ length ds0 = length sets /\
  exists eps, 0 < eps /\ forall is d i, nth_error ds0 is = Some d -> (d_lo d <= i <= d_hi d)%nat ->
    let F x := calculated addr (Rnum Rlit) Rbuiltins fuel ph sets st is i (moved p l x) in
    F (p l) = Some (d_pdf d i) /\ (forall x, Rabs (x - p l) < eps -> F x <> None) /\ derivable_pt_lim (fun x => real_of (F x)) (p l) (dpar d i l).
Proof. exact had_session_output. Qed.
Print Assumptions C78_output.
Example C78_output_case : forall y, apart row2 (atoms_in [half_empty]) 1 /\ blocks_ok [half_empty] /\ regular row2 [half_empty] [set2 y] st5 (ucons h5) p4 /\
  smooth_in st5 (ucons h5) p4 1 /\ keeps_peaks row2 [half_empty] [set2 y] st5 (ucons h5) 1 /\
  forall x, let m := along row2 [half_empty] st5 (ucons h5) p4 1 x in m (row2 (PV 0 FPscale)) = x /\ m (row2 (AV 0 0 FOcc)) = x /\ m (row2 (SV 0 FDscale)) = x * x.
Proof. exact (fun y => conj row2_apart (conj blocks2 (conj (regular5 y) (conj (smooth5 1 (conj (le_n 1) (le_S 1 1 (le_n 1)))) (conj (keeps5 y) along5))))). Qed.

(** a free parameter used in any number of constraints, of any variables whose columns
    C44 describes: the derivative, all these variables moving together, of the PDF in
    which the points that the peaks reach are kept, followed by the Qmax cutoff *)
Theorem C78_frozen : forall addr ph sets mem (h : list (uop R)) npar o p l, let st := crun (Rnum Rlit) Rbuiltins (cinit mem) (map to_cop h) in
  apart addr (atoms_in ph) (length sets) -> blocks_ok ph -> regular addr ph sets st (ucons h) p -> smooth_in st (ucons h) p l ->
  npar = (phase_size (atoms_in ph) + 3 * length sets)%nat ->
  exists f0, forall fuel, (f0 <= fuel)%nat -> exists ds0, f_theory (theory_object addr (Rnum Rlit) Rbuiltins fuel ph sets npar st o) p = Ok ds0 /\ length ds0 = length sets /\
  forall is s d, nth_error sets is = Some s -> nth_error ds0 is = Some d -> exists des lo hi W C G t,
    let mem0 := mem_at st (ucons h) p in let dd := data_in addr mem0 is s in
    Forall2 (fun q de => phase_lattice q = Ok de) (phases_in addr ph mem0) des /\ point_ranges dd lo hi (Z.of_nat (d_lo d)) (Z.of_nat (d_hi d)) /\
    right_limits dd (entries (combine (phases_in addr ph mem0) des) (ts_sel s)) W C /\
    (forall g, (lo <= g <= hi)%Z -> derivable_pt_lim (fun x => let m := along addr ph st (ucons h) p l x in
       fixed_pdf (load_set addr m is (ts_data s)) (entries (combine (load_phases addr m ph) des) (ts_sel s)) W C g) (p l) (G g)) /\
    holds_pdf dd lo hi G t /\ forall i, (d_lo d <= i <= d_hi d)%nat -> nth i t None = Some (dpar d i l).
Proof. exact had_session_frozen. Qed.
Print Assumptions C78_frozen.
Example C78_frozen_case : forall y, regular row2 [half_empty] [set2 y] st5 (ucons h5) p4 /\ smooth_in st5 (ucons h5) p4 2 /\
  forall x k, (k < 3)%nat -> along row2 [half_empty] st5 (ucons h5) p4 2 x (row2 (uii k)) = x.
Proof. exact (fun y => conj (regular5 y) (conj (smooth5 2 (conj (le_S 1 1 (le_n 1)) (le_n 2))) iso5)). Qed.
