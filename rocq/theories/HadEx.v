(** One phase with two atoms; one parameter is the scale factor and an occupancy, its
    square the scale factor of the data; another is an isotropic displacement. *)
From Coq Require Import List ZArith Ascii Bool Lia Reals Lra FunctionalExtensionality.
From Verif Require Import Base RSum ParamModel ParamProof ParserModel ParserSpec MatrixModel ParserDeriv MathModel MathSpec MathProof ConModel ConSpec ConProof MetricModel PdfModel PdfSpec PdfProof PdfEx PdfFinal LayoutModel LayoutSpec LsModel LsSpec LinSpec GaussSpec DerivSpec BondEx TheoryModel TheorySpec ScaleSpec ScaleLin ScaleEx RunModel GradSpec GradEx HadSpec.
Import ListNotations.
Local Open Scope R_scope.

Definition uii (k : nat) : rvar := AV 0 0 (FU k).
Definition h5 : list (uop R) := [UPar (PSet 1 1); UCon (row2 (PV 0 FPscale)) (KPar KIdent 1); UCon (row2 (AV 0 0 FOcc)) (KPar KIdent 1); UCon (row2 (SV 0 FDscale)) (KPar KSqr 1);
  UPar (PSet 2 (1 / 2)); UCon (row2 (uii 0)) (KPar KIdent 2); UCon (row2 (uii 1)) (KPar KIdent 2); UCon (row2 (uii 2)) (KPar KIdent 2)].
Definition st5 : cstate R := crun (Rnum Rlit) Rbuiltins (cinit mem2) (map to_cop h5).
Lemma st5_is : st5 = mkCst (mkPtab [1; 1 / 2] [true; true] [1%Z; 2%Z])
  [mkCon 8 [] 1 IDENT true; mkCon 20 [] 1 IDENT true; mkCon 31 [] 1 FSQR true; mkCon 14 [] 2 IDENT true; mkCon 15 [] 2 IDENT true; mkCon 16 [] 2 IDENT true] mx_empty mem2.
Proof. reflexivity. Qed.
Lemma cons5 : ucons h5 = [(8%nat, KPar KIdent 1); (20%nat, KPar KIdent 1); (31%nat, KPar KSqr 1); (14%nat, KPar KIdent 2); (15%nat, KPar KIdent 2); (16%nat, KPar KIdent 2)].
Proof. reflexivity. Qed.
Lemma mem5 : mem_at st5 (ucons h5) p4 = mem2.
Proof.
  apply functional_extensionality. intros a. rewrite st5_is, cons5. unfold mem_at. cbn [last_con].
  destruct (Nat.eqb_spec 16 a) as [<-|]. unfold con_at, p4. cbn. lra.
  destruct (Nat.eqb_spec 15 a) as [<-|]. unfold con_at, p4. cbn. lra.
  destruct (Nat.eqb_spec 14 a) as [<-|]. unfold con_at, p4. cbn. lra.
  destruct (Nat.eqb_spec 31 a) as [<-|]. unfold con_at, p4. cbn. lra.
  destruct (Nat.eqb_spec 20 a) as [<-|]. unfold con_at, p4. cbn. lra.
  destruct (Nat.eqb_spec 8 a) as [<-|]. unfold con_at, p4. cbn. lra. reflexivity.
Qed.
Lemma regular5 y : regular row2 [half_empty] [set2 y] st5 (ucons h5) p4.
Proof.
  split. { rewrite cons5. cbn. repeat constructor; cbn; intuition discriminate. } rewrite mem5. split. { pose proof (ready2 y) as R. rewrite st2_is in R. exact R. }
  intros a c I. rewrite cons5 in I.
  set (good := fun (a : nat) v => exists_var (atoms_in [half_empty]) 1 v /\ a = row2 v /\
    forall is s psel W C, nth_error [set2 y] is = Some s -> seen_by row2 [half_empty] mem2 s psel -> right_limits (data_in row2 mem2 is s) psel W C -> claimed is (data_in row2 mem2 is s) psel W v).
  assert (U : forall k, (k < 3)%nat -> good (14 + k)%nat (uii k)).
  { intros k Hk. split. cbn. lia. split. reflexivity.
    intros [|[|is]] s psel W C ES (des & DE & ->) _ e H; try discriminate. inversion ES; subst s. rewrite phases2 in *. inversion DE as [|? de ? ? Q1 Q2]; subst. inversion Q2; subst.
    cbn in H. inversion H; subst e. intros [|[|[|k']]] K; try lia; reflexivity. }
  assert (O : good 20%nat (AV 0 0 FOcc)).
  { split. cbn. lia. split. reflexivity. intros [|[|is]] s psel W C ES (des & DE & ->) _ e H; try discriminate. inversion ES; subst s. rewrite phases2 in *. inversion DE as [|? de ? ? Q1 Q2]; subst. inversion Q2; subst.
    cbn in H. inversion H; subst e. cbn. lra. }
  assert (P : good 8%nat (PV 0 FPscale)) by (split; [cbn; lia|split; [reflexivity|intros is s psel W C ES _ _ e _; exact Logic.I]]).
  assert (S : good 31%nat (SV 0 FDscale)).
  { split. cbn. lia. split. reflexivity. intros [|[|is]] s psel W C ES _ _ H; try discriminate. inversion ES; subst s. cbn. lra. }
  destruct I as [E|[E|[E|[E|[E|[E|[]]]]]]]; inversion E; subst; (split; [exact Logic.I|split; [intros n [<-|[]]; lia|split; [rewrite st5_is; cbn; discriminate|]]]); eexists; eauto.
  - apply (U 0%nat); lia.
  - apply (U 1%nat); lia.
  - apply (U 2%nat); lia.
Qed.
Lemma smooth5 l : (1 <= l <= 2)%nat -> smooth_in st5 (ucons h5) p4 l.
Proof.
  intros H. rewrite st5_is, cons5. split. cbn. lia. split. destruct l as [|[|[|l]]]; try lia; reflexivity. intros a c I _. repeat (destruct I as [E|I]; [inversion E; subst; exact Logic.I|]). destruct I.
Qed.
Lemma keeps5 y : keeps_peaks row2 [half_empty] [set2 y] st5 (ucons h5) 1.
Proof.
  rewrite st5_is, cons5. intros a c I (n & N1 & N2). destruct I as [E|[E|[E|[E|[E|[E|[]]]]]]]; inversion E; subst; destruct N1 as [<-|[]]; try discriminate.
  - exists (PV 0 FPscale). split. cbn. lia. split; [reflexivity|exact I].
  - exists (AV 0 0 FOcc). split. cbn. lia. split; [reflexivity|exact I].
  - exists (SV 0 FDscale). split. cbn. lia. split; [reflexivity|exact I].
Qed.
(** the variables when a parameter is x *)
Lemma along5 x : let m := along row2 [half_empty] st5 (ucons h5) p4 1 x in m (row2 (PV 0 FPscale)) = x /\ m (row2 (AV 0 0 FOcc)) = x /\ m (row2 (SV 0 FDscale)) = x * x.
Proof. cbv zeta. unfold along. rewrite !mem5, !wrap2. rewrite st5_is, cons5. unfold mem_at, con_at. cbn. repeat split; lra. Qed.
Lemma iso5 x k : (k < 3)%nat -> along row2 [half_empty] st5 (ucons h5) p4 2 x (row2 (uii k)) = x.
Proof. intros H. unfold along. rewrite !mem5, !wrap2. rewrite st5_is, cons5. unfold mem_at, con_at. destruct k as [|[|[|k]]]; try lia; cbn; lra. Qed.
