(** Cases for other basis vectors. *)
From Coq Require Import List Arith ZArith Reals Bool Lia Lra.
From Verif Require Import Base RSum MathModel MetricModel MetricSpec MetricProof SphereSpec PdfModel PdfSpec PdfEx PdfFinal RelSpec RelFinal RelTheory RelEx RelAll SupSpec SupProof SupFinal SupAll SupEx AxSpec AxProof AxFinal BasSpec BasProof BasFinal BasMake.
Import ListNotations.
Local Open Scope R_scope.

Lemma rebase_same d m n v z p de de' gi gj : good_grid d -> off_origin d -> good_filter d -> inverse m n -> inverse n m -> (forall k, cp_icc p k = 1%Z) ->
  sane_phase d p -> phase_lattice p = Ok de -> one_cell p -> cp_stepcut p <= 0 ->
  no_tiny (scalar m (metric (cp_a0 p) (cp_win p))) -> phase_lattice (rebase m n v z p) = Ok de' -> one_cell (rebase m n v z p) ->
  same_pdf d [Some (mkEnt p de gi gj)] [Some (mkEnt (rebase m n v z p) de' gi gj)].
Proof.
  intros G O F MN NM I SP L OC ST NT L' OC'. assert (PR : proper p) by apply SP. pose proof (rebase_rebased m n v z p MN NM PR I) as R. apply basis_same; auto.
  - apply ready1. split; auto.
  - apply ready1. split; [exact L'|]. eapply basis_sane; eauto. apply rebase_proper; auto. intros i j Hi Hj D. pose proof (NT i j Hi Hj D) as X. rewrite <- (new_metric m n p NM PR i j Hi Hj) in X. exact X.
  - apply complete1. split; auto.
  - apply complete1. split; auto.
  - apply rel1. split; [|auto]. exists m, n, v, z. exact R.
Qed.

(** new vectors a, a + b, c *)
Definition shear : zmat := fun i j => if (i =? j)%nat then 1%Z else if ((i =? 0) && (j =? 1))%nat then 1%Z else 0%Z.
Definition unshear : zmat := fun i j => if (i =? j)%nat then 1%Z else if ((i =? 0) && (j =? 1))%nat then (-1)%Z else 0%Z.
Lemma shear_un : inverse shear unshear.
Proof. intros i j Hi Hj. destruct i as [|[|[|i]]], j as [|[|[|j]]]; try lia; reflexivity. Qed.
Lemma un_shear : inverse unshear shear.
Proof. intros i j Hi Hj. destruct i as [|[|[|i]]], j as [|[|[|j]]]; try lia; reflexivity. Qed.
Definition zero3 : v3 := fun _ => 0.
Definition stay (_ : nat) : trip := (0, 0, 0)%Z.
Definition xt : cphase := two (9 / 10) (1 / 10).
Definition sheared : cphase := rebase shear unshear zero3 stay xt.
Lemma xt_proper : proper xt. Proof. apply cub_cell. Qed.
Lemma xt_rebased : rebased shear unshear zero3 stay xt sheared.
Proof. apply rebase_rebased; [exact shear_un|exact un_shear|exact xt_proper|reflexivity]. Qed.
Lemma shear_scalar i j : (i < 3)%nat -> (j < 3)%nat -> scalar shear (metric (cp_a0 xt) (cp_win xt)) i j =
  match i, j with O, O => 100 | O, 1%nat => 100 | 1%nat, O => 100 | 1%nat, 1%nat => 200 | 2%nat, 2%nat => 100 | _, _ => 0 end.
Proof.
  intros Hi Hj. unfold scalar, dot33, xt, two. rewrite !cub_metric. destruct i as [|[|[|i]]], j as [|[|[|j]]]; try lia; unfold shear; cbn [Nat.eqb andb]; ring.
Qed.
Lemma sheared_tiny : no_tiny (scalar shear (metric (cp_a0 xt) (cp_win xt))).
Proof. intros i j Hi Hj D. rewrite shear_scalar by auto. unfold double_eps. destruct i as [|[|[|i]]], j as [|[|[|j]]]; try lia; try (left; reflexivity); right; rewrite Rabs_right; lra. Qed.
Lemma sheared_edges : cp_a0 sheared 0%nat = 10 /\ cp_a0 sheared 1%nat * cp_a0 sheared 1%nat = 200 /\ cp_a0 sheared 2%nat = 10.
Proof.
  cbn [sheared rebase recut cp_a0]. unfold new_a0. split; [|split].
  - unfold edge. rewrite shear_scalar by lia. replace 100 with (10 * 10) by ring. apply sqrt_square; lra.
  - pose proof (e_sq shear unshear xt un_shear xt_proper 1 ltac:(lia)) as E. rewrite shear_scalar in E by lia. exact E.
  - unfold edge. rewrite shear_scalar by lia. replace 100 with (10 * 10) by ring. apply sqrt_square; lra.
Qed.
Lemma sheared_lat : exists de, phase_lattice sheared = Ok de.
Proof.
  unfold phase_lattice. rewrite lattice_spec. destruct (Rle_dec _ _) as [H|H]; [exfalso|eexists; reflexivity].
  pose proof (det_metric (cp_a0 sheared) (cp_win sheared)) as D. destruct sheared_edges as (E0 & E1 & E2).
  assert (M : det33 (metric (cp_a0 sheared) (cp_win sheared)) = 1000000).
  { transitivity (det33 (scalar shear (metric (cp_a0 xt) (cp_win xt)))). apply det_ext. intros. apply xt_rebased; auto. unfold det33. rewrite !shear_scalar by lia. ring. }
  rewrite M, E0, E2 in D. unfold ccos, m_cosd, rad in *. set (g := gram _ _ _) in *. unfold double_eps in H.
  assert (1000000 = 2000000 * g). { rewrite D. transitivity (10000 * (cp_a0 sheared 1%nat * cp_a0 sheared 1%nat) * g). ring. rewrite E1. ring. } lra.
Qed.
Lemma sheared_no i : (i < 2)%nat -> atom_no sheared i = new_atom shear unshear zero3 xt (stay i) (atom_no xt i).
Proof. intros H. destruct i as [|[|i]]; [| |lia]; reflexivity. Qed.
Lemma sheared_pos i j : (i < 2)%nat -> (j < 3)%nat -> at_pos (atom_no sheared i) j = match j with O => 0 | _ => match i with O => 9 / 10 | _ => 1 / 10 end end.
Proof.
  intros Hi Hj. rewrite sheared_no by auto. cbn [new_atom at_pos]. unfold mr, xt, zero3. rewrite two_no. destruct i as [|[|i]]; [| |lia]; destruct j as [|[|[|j]]]; try lia; unfold unshear, stay; cbn [xatom at_pos Nat.eqb andb comp]; lra.
Qed.
Lemma sheared_one : one_cell sheared.
Proof.
  intros i j k Hi Hj Hk. change (natoms sheared) with 2%nat in *. rewrite !sheared_pos by auto. apply Rabs_le. destruct i as [|[|i]], j as [|[|j]], k as [|[|[|k]]]; try lia; lra.
Qed.
Lemma sheared_sane : sane_phase xdata sheared.
Proof.
  eapply basis_sane; [exact xt_rebased|apply rebase_proper; [exact shear_un|exact un_shear|exact xt_proper]| |apply two_sane].
  intros i j Hi Hj D. pose proof (sheared_tiny i j Hi Hj D) as X. destruct xt_rebased as (_ & _ & _ & _ & M & _). rewrite <- (M i j Hi Hj) in X. exact X.
Qed.
Lemma sheared_plain : plain sheared.
Proof.
  split. reflexivity. split. cbn; lra. split. intros i k Hi Hk. change (natoms sheared) with 2%nat in Hi. rewrite sheared_pos by auto. destruct k; [lra|]. destruct i; lra.
  split. exact sheared_lat. split. apply sheared_sane. split. intros; cbn; lia. cbn; lra.
Qed.
Definition one3 : zmat := fun i j => if (i =? j)%nat then 1%Z else 0%Z.
Lemma same_rebased p : (forall k, cp_icc p k = 1%Z) -> rebased one3 one3 zero3 stay p p.
Proof.
  intros I. assert (IV : inverse one3 one3). { intros i j Hi Hj. destruct i as [|[|[|i]]], j as [|[|[|j]]]; try lia; reflexivity. }
  split; auto. split; auto. split; auto. split. destruct p; reflexivity. split; [|split; auto].
  - intros i j Hi Hj. unfold scalar, dot33, one3. destruct i as [|[|[|i]]], j as [|[|[|j]]]; try lia; cbn [Nat.eqb]; ring.
  - intros i Hi. split. reflexivity. split. reflexivity. split.
    + intros j Hj. unfold mr, one3, zero3. destruct j as [|[|[|j]]]; try lia; cbn [Nat.eqb stay comp]; ring.
    + intros k j Hk Hj. unfold dot33, one3. destruct k as [|[|[|k]]], j as [|[|[|j]]]; try lia; cbn [Nat.eqb]; ring.
Qed.
(** with the first atom ignored *)
Lemma ex_basis : exists e e', ready xdata [Some e; None] /\ ready xdata [Some e'; None] /\ all_complete [Some e; None] /\ all_complete [Some e'; None] /\
  en_igni e 0 = true /\ cp_a0 (en_ph e) 1%nat = 10 /\ cp_a0 (en_ph e') 1%nat * cp_a0 (en_ph e') 1%nat = 200 /\ Forall2 (opt_rel other_basis) [Some e; None] [Some e'; None].
Proof.
  destruct (cub_lat (cp_atoms xt)) as (de & L), sheared_lat as (de' & L').
  exists (mkEnt xt de (only 0) none), (mkEnt sheared de' (only 0) none).
  split. intros e [<-|[]]. apply two_good; exact L.
  split. intros e [<-|[]]. split. exact L'. exact sheared_sane.
  split. intros e [<-|[]]. apply two_complete; lra.
  split. intros e [<-|[]]. split. exact sheared_one. cbn; lra.
  split. reflexivity. split. reflexivity. split. apply sheared_edges.
  constructor; [|constructor; [exact I|constructor]]. split. exists shear, unshear, zero3, stay. exact xt_rebased. auto.
Qed.
Lemma ex_rebase : inverse shear unshear /\ inverse unshear shear /\ (forall k, cp_icc xt k = 1%Z) /\ sane_phase xdata xt /\ (exists de, phase_lattice xt = Ok de) /\ one_cell xt /\ cp_stepcut xt <= 0 /\
  no_tiny (scalar shear (metric (cp_a0 xt) (cp_win xt))) /\ (exists de', phase_lattice (rebase shear unshear zero3 stay xt) = Ok de') /\ one_cell (rebase shear unshear zero3 stay xt).
Proof. split. exact shear_un. split. exact un_shear. split. reflexivity. split. apply two_sane. split. apply cub_lat. split. apply two_one; apply Rabs_le; lra. split. cbn; lra. split. exact sheared_tiny. split. exact sheared_lat. exact sheared_one. Qed.
Lemma ex_basis_theory : let ph := [xt; moved_two] in let ph' := [sheared; moved_two] in
  Forall2 basis_of ph ph' /\ Forall plain ph /\ Forall plain ph' /\ good_grid xdata /\ off_origin xdata /\ good_filter xdata /\ forall p, In p ph \/ In p ph' -> sane_phase xdata p.
Proof.
  destruct ex_sample as (_ & P0 & P & S0 & S & _). cbv zeta. split; [|split; [|split]].
  - constructor. exists shear, unshear, zero3, stay. exact xt_rebased. constructor; [|constructor].
    exists one3, one3, zero3, stay. apply same_rebased. apply P.
  - constructor; [exact P0|constructor; [exact P|constructor]].
  - constructor; [exact sheared_plain|constructor; [exact P|constructor]].
  - split. exact xgrid. split. exact xoff. split. exact xfilter. intros p [[<-|[<-|[]]]|[<-|[<-|[]]]]; auto. exact sheared_sane.
Qed.
(** two atoms and their mirror image *)
Lemma ex_image : (forall k, cp_icc xt k = 1%Z) /\ sane_phase xdata xt /\ (exists de, phase_lattice xt = Ok de) /\ one_cell xt /\ cp_stepcut xt <= 0.
Proof. split. reflexivity. split. apply two_sane. split. apply cub_lat. split. apply two_one; apply Rabs_le; lra. cbn; lra. Qed.
