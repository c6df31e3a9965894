(** One phase with one atom, its x coordinate the square of a parameter. *)
From Coq Require Import List ZArith Ascii Bool Lia Reals Lra.
From Verif Require Import Base ParamModel ParamProof ParserModel ParserSpec MatrixModel MatrixProof ParserDeriv MathModel MathSpec MathProof ConModel ConSpec MetricModel PdfModel LayoutModel LayoutSpec LsModel BondEx TheoryModel TheorySpec TheoryMem.
Import ListNotations.
Local Open Scope R_scope.

Definition row (v : rvar) : nat :=
  match v with PV _ f => phase_no f | AV _ _ f => (11 + atom_no_ f)%nat | SV _ f => (21 + set_no f)%nat end.
Definition one_atom : cphase :=
  mkCp (fun _ => 4) (fun _ => 90) (fun _ => 1%Z) [mkAt (fun _ => 0) (fun _ => 0) 1 (fun _ => 1)] 0 0 1 0 0 1 0.
Lemma row_apart : apart row [1%nat] 1.
Proof.
  intros v w V W E. destruct v as [ip f|ip ia f|k f], w as [ip' f'|ip' ia' f'|k' f']; cbn [exists_var row length nth] in *.
  - destruct V as [V1 V2], W as [W1 W2]. assert (ip = ip') by lia. subst. f_equal. destruct f, f'; simpl in *; try lia; auto; f_equal; lia.
  - destruct V as [V1 V2]. destruct f; simpl in *; lia.
  - destruct V as [V1 V2]. destruct f; simpl in *; lia.
  - destruct W as [W1 W2]. destruct f'; simpl in *; lia.
  - destruct V as (V1 & V2 & V3), W as (W1 & W2 & W3). assert (ip = 0%nat) by lia. assert (ip' = 0%nat) by lia. subst. cbn in V2, W2. assert (ia = ia') by lia. subst. f_equal. destruct f, f'; simpl in *; try lia; auto; f_equal; lia.
  - destruct V as (V1 & V2 & V3). destruct f; simpl in *; lia.
  - destruct W as [W1 W2]. destruct f'; simpl in *; lia.
  - destruct W as (W1 & W2 & W3). destruct f'; simpl in *; lia.
  - assert (k = k') by lia. subst. f_equal. destruct f, f'; simpl in *; auto; lia.
Qed.
(** parameter 1 is free, x of the atom is its square *)
Definition squared (mem : nat -> R) (x : R) : cstate R := mkCst (mkPtab [x] [true] [1%Z]) [mkCon 11 [] 1 FSQR true] mx_empty mem.
Lemma squared_ok mem x : wf (ctab (squared mem x)) /\ mwf (cdvdp (squared mem x)) /\ table (squared mem x) [(11%nat, KPar KSqr 1)] /\ blocks_ok [one_atom] /\
  forall p, solvable (Rnum Rlit) Rbuiltins (with_pars (squared mem x) p) [(11%nat, KPar KSqr 1)].
Proof.
  split. { unfold wf. simpl. repeat constructor; simpl; auto. } split. reflexivity. split. { split. constructor; [|constructor]. split; simpl; auto. constructor; simpl; auto. }
  split. { intros p i [<-|[]] _. simpl. lia. } intros p a c [E|[]]. inversion E; subst. simpl. discriminate.
Qed.
(** a calculation moves the atom *)
Lemma squared_moves mem x fuel ly sets : cmem (visit row (Rnum Rlit) Rbuiltins fuel ly [one_atom] sets [fun _ => 1 / 2] (squared mem x)) 11 = 1 / 4.
Proof.
  unfold visit. cbn [fold_left]. unfold theory_diff, fill_variables. cbn - [fmod Rmult Rdiv IZR]. unfold mem_set. cbn - [fmod Rmult Rdiv IZR]. rewrite fmod_small; lra.
Qed.
