(** One phase with two atoms; the scale factor is p[1]^2, a mean square displacement
    1 - p[2]. *)
From Coq Require Import List ZArith Ascii Bool Lia Reals Lra FunctionalExtensionality.
From Verif Require Import Base RSum ParamModel ParamProof ParserModel ParserSpec MatrixModel ParserDeriv MathModel MathSpec MathProof ConModel ConSpec ConProof MetricModel PdfModel PdfSpec PdfProof PdfEx PdfFinal LayoutModel LayoutSpec LsModel LsSpec LinSpec GaussSpec DerivSpec BondEx TheoryModel TheorySpec ScaleSpec ScaleLin ScaleEx RunModel GradSpec.
Import ListNotations.
Local Open Scope R_scope.

Definition u11 : rvar := AV 0 0 (FU 0).
Definition h4 : list (uop R) := [UPar (PSet 1 1); UCon 8 (KPar KSqr 1); UPar (PSet 2 (1 / 2)); UCon (row2 u11) (KPar KComp 2)].
Definition st4 : cstate R := crun (Rnum Rlit) Rbuiltins (cinit mem2) (map to_cop h4).
Definition p4 (l : nat) : R := nth (l - 1) [1; 1 / 2] 0.
Lemma st4_is : st4 = mkCst (mkPtab [1; 1 / 2] [true; true] [1%Z; 2%Z]) [mkCon 8 [] 1 FSQR true; mkCon 14 [] 2 FCOMP true] mx_empty mem2.
Proof. reflexivity. Qed.
Lemma cons4 : ucons h4 = [(8%nat, KPar KSqr 1); (14%nat, KPar KComp 2)].
Proof. reflexivity. Qed.
Lemma mem4 : mem_at st4 (ucons h4) p4 = mem2.
Proof.
  apply functional_extensionality. intros a. rewrite st4_is, cons4. unfold mem_at. cbn [last_con].
  destruct (Nat.eqb_spec 14 a) as [<-|]. unfold con_at, p4. cbn. lra.
  destruct (Nat.eqb_spec 8 a) as [<-|]. unfold con_at, p4. cbn. lra. reflexivity.
Qed.
Lemma square4 x : con_at st4 (KPar KSqr 1) (moved p4 1 x) = x * x.
Proof. rewrite st4_is. reflexivity. Qed.
Lemma compl4 x : con_at st4 (KPar KComp 2) (moved p4 2 x) = 1 - x.
Proof. rewrite st4_is. reflexivity. Qed.
Lemma regular4 y : regular row2 [half_empty] [set2 y] st4 (ucons h4) p4.
Proof.
  split. { rewrite cons4. cbn. repeat constructor; cbn; intuition discriminate. } rewrite mem4. split. { pose proof (ready2 y) as R. rewrite st2_is in R. exact R. }
  intros a c I. rewrite cons4 in I. destruct I as [E|[E|[]]]; inversion E; subst.
  - split. exact I. split. intros n [<-|[]]. lia. split. rewrite st4_is. cbn. discriminate. exists (PV 0 FPscale). split. cbn. lia. split. reflexivity.
    intros is s psel W C ES _ _ e _. exact I.
  - split. exact I. split. intros n [<-|[]]. lia. split. rewrite st4_is. cbn. discriminate. exists u11. split. cbn. lia. split. reflexivity.
    intros [|[|is]] s psel W C ES (des & DE & ->) _ e H; try discriminate. inversion ES; subst s. rewrite phases2 in *. inversion DE as [|? de ? ? Q1 Q2]; subst. inversion Q2; subst.
    cbn in H. inversion H; subst e. intros [|[|[|k]]] K; try lia; reflexivity.
Qed.
Lemma enters_scale : enters row2 st4 (ucons h4) p4 1 (PV 0 FPscale) (KPar KSqr 1).
Proof.
  rewrite st4_is, cons4. split. lia. split. reflexivity. split. left; reflexivity. split. exists 1%Z. split. left; reflexivity. reflexivity. split. exact I.
  intros a c' [E|[E|[]]] (n & N1 & N2); inversion E; subst; auto. destruct N1 as [<-|[]]. discriminate.
Qed.
Lemma enters_u : enters row2 st4 (ucons h4) p4 2 u11 (KPar KComp 2).
Proof.
  rewrite st4_is, cons4. split. lia. split. reflexivity. split. right; left; reflexivity. split. exists 2%Z. split. left; reflexivity. reflexivity. split. exact I.
  intros a c' [E|[E|[]]] (n & N1 & N2); inversion E; subst; auto. destruct N1 as [<-|[]]. discriminate.
Qed.
Lemma u11_there : exists_var (atoms_in [half_empty]) 1 u11.
Proof. cbn. lia. Qed.
