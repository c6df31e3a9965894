(** Cases for the exceptions. *)
From Coq Require Import Ascii String.
From Coq Require Import List Arith ZArith Reals Bool Lia Lra.
From Verif Require Import Base.
From Verif Require ParamModel ParserModel ParserDeriv ConModel MetricModel MetricSpec MetricProof PdfModel SphereModel MatrixModel LsModel SessModel SessSpec.
From Verif Require Import BindModel BindSpec BindErr BindProof BindProof2.
Import ListNotations.
Local Open Scope R_scope.

(** one phase with the cell angles in variables 0, 1, 2 and one atom; one data set *)
Definition at0 : PdfModel.catom := PdfModel.mkAt (fun _ => 0) (fun _ => 1) 1 (fun _ => 1).
Definition ph0 (win : nat -> R) : PdfModel.cphase := PdfModel.mkCp (fun _ => 1) win (fun _ => 1%Z) [at0] 0 0 1 0 0 1 0.
Definition set0 (tp : ascii) : PdfModel.cset := PdfModel.mkCset (PdfModel.mkCd 0 0 1 1 0 0 0 1 tp) [Some (fun _ => false, fun _ => false)].
Definition view0 (tp : ascii) (mem : nat -> R) := ([ph0 mem], [set0 tp]).

Lemma cos90 : cos (PI / 180 * 90) = 0.
Proof. replace (PI / 180 * 90) with (PI / 2) by field. apply cos_PI2. Qed.

(** ** the session before anything has been constrained *)
Definition N0 : ParserModel.numops R := ParserDeriv.Rnum (fun m _ => Some (IZR m)).
Notation crun := (ConModel.crun N0 []).
Notation b_calc0 tp := (b_calc N0 [] (view0 tp) 100).
Definition right_angles : nat -> R := fun _ => 90.

Lemma fill_none t m mem : ConModel.fill_variables N0 [] (ConModel.mkCst t [] (MatrixModel.mkMx 0 m []) mem) =
  (ConModel.mkCst t [] (MatrixModel.mkMx 0 (length (ParamModel.pval t)) []) mem, Ok tt).
Proof.
  unfold ConModel.fill_variables, MatrixModel.mx_resize. cbn [ConModel.cdvdp ConModel.cons_ ConModel.ctab MatrixModel.mrows MatrixModel.mcols length Nat.eqb andb Nat.min].
  destruct (length (ParamModel.pval t) =? m)%nat eqn:E. apply Nat.eqb_eq in E. subst. reflexivity.
  cbn. reflexivity.
Qed.
Lemma cell90 : cell_ok (ph0 right_angles).
Proof. unfold cell_ok, ph0, right_angles. cbn. rewrite cos90. unfold MetricSpec.gram, MetricModel.double_eps. lra. Qed.
Definition flat_mem : nat -> R := ConModel.mem_set (ConModel.mem_set (ConModel.mem_set right_angles 0 0) 1 0) 2 0.
Lemma flat p : PdfModel.cp_win p 0%nat = 0 -> PdfModel.cp_win p 1%nat = 0 -> PdfModel.cp_win p 2%nat = 0 -> ~ cell_ok p.
Proof. unfold cell_ok. intros -> -> ->. rewrite Rmult_0_r, cos_0. unfold MetricSpec.gram, MetricModel.double_eps. lra. Qed.
Lemma theory_flat fuel tp mem : ~ cell_ok (ph0 mem) -> theory fuel [ph0 mem] [set0 tp] = Err ErrStructure.
Proof.
  intros H. unfold theory. cbn [map ofold]. unfold PdfModel.phase_lattice.
  destruct (MetricModel.lattice (PdfModel.cp_a0 (PdfModel.wrap_phase (ph0 mem))) (PdfModel.cp_win (PdfModel.wrap_phase (ph0 mem)))) as [l|e| |] eqn:E.
  - exfalso. apply H. unfold cell_ok. apply (MetricProof.lattice_accepts (PdfModel.cp_a0 (ph0 mem))). exists l. exact E.
  - rewrite (MetricProof.lattice_rejects _ _ _ E). reflexivity.
  - exfalso. exact (proj1 (MetricProof.lattice_total _ _) E).
  - exfalso. exact (proj2 (MetricProof.lattice_total _ _) E).
Qed.
Lemma zfloor_half : SphereModel.zfloor (0 + 1 / 2) = 0%Z.
Proof. unfold SphereModel.zfloor. rewrite <- (tech_up (0 + 1 / 2) 1); [lia| |]; cbn; lra. Qed.
Lemma zfloor_1half : SphereModel.zfloor (1 + 1 / 2) = 1%Z.
Proof. unfold SphereModel.zfloor. rewrite <- (tech_up (1 + 1 / 2) 2); [lia| |]; cbn; lra. Qed.
Lemma nint0 : PdfModel.nint_div (0 - 0) 1 = Ok 0%Z.
Proof.
  unfold PdfModel.nint_div, PdfModel.to_int, PdfModel.rnd. destruct (Req_EM_T 1 0); [lra|]. replace ((0 - 0) / 1) with 0 by field.
  destruct (Rlt_dec 0 0); [lra|]. rewrite zfloor_half. reflexivity.
Qed.
Lemma nint1 : PdfModel.nint_div (1 - 0) 1 = Ok 1%Z.
Proof.
  unfold PdfModel.nint_div, PdfModel.to_int, PdfModel.rnd. destruct (Req_EM_T 1 0); [lra|]. replace ((1 - 0) / 1) with 1 by field.
  destruct (Rlt_dec 1 0); [lra|]. rewrite zfloor_1half. reflexivity.
Qed.
Lemma theory_bad fuel tp : ~ radiation tp -> theory fuel [ph0 right_angles] [set0 tp] = Err ErrPlain.
Proof.
  intros H. unfold theory. cbn [map ofold]. unfold PdfModel.phase_lattice.
  destruct (proj2 (MetricProof.lattice_accepts (PdfModel.cp_a0 (PdfModel.wrap_phase (ph0 right_angles))) (PdfModel.cp_win (PdfModel.wrap_phase (ph0 right_angles))))) as [l E]. exact cell90.
  rewrite E. cbn [obind ofold app PdfModel.cs_data PdfModel.cs_sel set0 PdfModel.entries]. unfold determine.
  cbn [PdfModel.cd_rfmin PdfModel.cd_rmin PdfModel.cd_rfmax PdfModel.cd_deltar PdfModel.cd_type PdfModel.cd_qmax]. rewrite nint0, nint1. cbn [obind].
  unfold PdfModel.calc_range. cbn [PdfModel.cd_rfmin PdfModel.cd_rmin PdfModel.cd_rfmax PdfModel.cd_deltar PdfModel.cd_qmax]. cbv zeta. rewrite nint0, nint1. cbn [obind].
  destruct (Rlt_dec 0 0); [lra|]. cbn [Z.add Z.ltb Z.compare obind ofold PdfModel.en_ph PdfModel.cp_atoms PdfModel.wrap_phase ph0 map]. rewrite check_bad by auto. reflexivity.
Qed.

(** ** calculations that end the process *)
(** constrain to parameter 5, which is never set *)
Definition h_undef : list (ConModel.cop R) := [ConModel.CInt 7 5 1].
Lemma calc_undef : b_calc0 "N" (crun (ConModel.cinit right_angles) h_undef) = PAbort.
Proof. reflexivity. Qed.
(** set all three angles to 0 *)
Definition h_flat : list (ConModel.cop R) := [ConModel.CSetVar 0 0; ConModel.CSetVar 1 0; ConModel.CSetVar 2 0].
Lemma fit_flat fuel tp t m : fit_theory N0 [] (view0 tp) fuel (ConModel.mkCst t [] (MatrixModel.mkMx 0 m []) flat_mem) =
  (ConModel.mkCst t [] (MatrixModel.mkMx 0 (length (ParamModel.pval t)) []) flat_mem, Err ErrStructure).
Proof.
  unfold fit_theory. rewrite fill_none. cbn [obind view0 ConModel.cmem]. rewrite theory_flat; auto. apply flat; reflexivity.
Qed.
Lemma calc_flat : b_calc0 "N" (crun (ConModel.cinit right_angles) h_flat) = PAbort.
Proof.
  change (crun (ConModel.cinit right_angles) h_flat) with (ConModel.mkCst (ParamModel.ptab_init (T:=R)) [] (MatrixModel.mkMx 0 0 []) flat_mem).
  unfold b_calc, calc. cbn [view0 snd ConModel.cmem]. rewrite fit_flat. reflexivity.
Qed.
(** a data set allocated with a letter that is not a radiation type *)
Lemma not_q : ~ radiation "q".
Proof. intros [H|[H|[H|[H|[]]]]]; discriminate H. Qed.
Lemma calc_letter : b_calc0 "q" (ConModel.cinit right_angles) = PAbort.
Proof.
  unfold b_calc, calc, fit_theory. cbn [view0 snd ConModel.cmem ConModel.cinit]. unfold ConModel.cinit, MatrixModel.mx_empty. rewrite fill_none. cbn [obind view0 ConModel.cmem snd]. rewrite theory_bad by apply not_q. reflexivity.
Qed.
(** nothing allocated, and an incomplete formula *)
Lemma calc_none : b_calc N0 [] (fun _ => ([], [])) 100 (ConModel.cinit right_angles) = PExc XUnassigned.
Proof. reflexivity. Qed.
Definition h_parse : list (ConModel.cop R) := [ConModel.CStr 7 (ParserModel.chars "(")].
Lemma calc_parse : b_calc0 "N" (crun (ConModel.cinit right_angles) h_parse) = PExc XConstraint.
Proof. reflexivity. Qed.

(** a session in which the calculation cannot fail but for the formulas *)
Definition h_good : list (ConModel.cop R) := [ConModel.CPar (ParamModel.PSet 5 2); ConModel.CInt 7 5 1].
Lemma good_after : after N0 [] (view0 "X") (crun (ConModel.cinit right_angles) h_good) = ([ph0 (ConModel.mem_set right_angles 7 2)], [set0 "X"]).
Proof. reflexivity. Qed.
Lemma calc_good : Forall (refs_set (ConModel.ctab (crun (ConModel.cinit right_angles) h_good))) (ConModel.cons_ (crun (ConModel.cinit right_angles) h_good)) /\ calculable N0 [] (view0 "X") (crun (ConModel.cinit right_angles) h_good).
Proof.
  split. repeat constructor. cbn. intros H. discriminate H. unfold calculable. rewrite good_after. cbn [fst snd]. split; (constructor; [|constructor]).
  - exact cell90.
  - repeat split; cbn; auto; lra.
Qed.

(** ** refinement *)
Definition mk0 : list (Z * Z * list PdfModel.num) -> list LsModel.dsval := fun _ => [].
Definition fob (tp : ascii) (s : ConModel.cstate R) : LsModel.fobj :=
  LsModel.mkF 1 (fun _ => 0) (fun _ => true) (solver_theory N0 [] (view0 tp) 100 s mk0) (solver_setup N0 [] s 14 14)
    (fun _ _ => 0) (fun _ _ => 0) 0 0 0 0 [].
Definition s_flat : ConModel.cstate R := crun (ConModel.cinit right_angles) (ConModel.CPar (ParamModel.PSet 1 3) :: h_flat).
Lemma first_err toler st o e : LsModel.f_setup o = Ok tt -> LsModel.f_theory o (LsModel.f_p o) = Err e -> snd (LsModel.ls_step toler false (LsModel.mkC 0 0) (st, o)) = Err e.
Proof.
  intros E F. destruct o. cbn in E, F. unfold LsModel.ls_step, LsModel.refine_step. cbn [andb LsModel.c_iter]. unfold LsModel.ls_setup. cbn. rewrite E. cbn.
  unfold LsModel.mrqmin, LsModel.mrq_init. cbn. destruct (Rlt_dec (-1) 0); [|lra]. unfold LsModel.mrqcof. destruct (LsModel.mrq_zero _ _ _) as [al be]. cbn. rewrite F. reflexivity.
Qed.
Lemma step_flat toler : b_refine_step toler false (LsModel.mkC 0 0) (None, fob "N" s_flat) = PNull.
Proof.
  assert (E : solver_setup N0 [] s_flat 14 14 = Ok tt) by reflexivity.
  assert (F : forall a, solver_theory N0 [] (view0 "N") 100 s_flat mk0 a = Err ErrStructure).
  { intros a. unfold solver_theory. change s_flat with (ConModel.mkCst (ParamModel.mkPtab [3] [true] [1%Z]) [] (MatrixModel.mkMx 0 0 []) flat_mem). unfold set_pars. cbn [ConModel.ctab ConModel.cons_ ConModel.cdvdp ConModel.cmem]. rewrite fit_flat. reflexivity. }
  unfold b_refine_step. rewrite (first_err toler None (fob "N" s_flat) ErrStructure E (F _)). reflexivity.
Qed.
Definition s_parse : ConModel.cstate R := crun (ConModel.cinit right_angles) h_parse.
Lemma refine_parse toler fuel : b_refine toler (S fuel) false (LsModel.mkC 0 0) (None, fob "N" s_parse) = PAbort.
Proof. reflexivity. Qed.
Lemma step_parse toler : b_refine_step toler false (LsModel.mkC 0 0) (None, fob "N" s_parse) = PExc XConstraint.
Proof. reflexivity. Qed.
(** whatever the values of the parameters *)
Definition s_good : ConModel.cstate R := crun (ConModel.cinit right_angles) h_good.
Lemma step_good : forall a, calculable N0 [] (view0 "X") (set_pars a s_good).
Proof.
  intros a. unfold calculable. assert (E : after N0 [] (view0 "X") (set_pars a s_good) = ([ph0 (ConModel.mem_set right_angles 7 (a 1%nat))], [set0 "X"])) by reflexivity. rewrite E. cbn [fst snd]. split; (constructor; [|constructor]).
  - exact cell90.
  - repeat split; cbn; auto; lra.
Qed.
