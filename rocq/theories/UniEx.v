(** Cases for units. *)
From Coq Require Import List Arith ZArith Reals Bool Ascii Lia Lra.
From Verif Require Import Base RSum MathModel MetricModel MetricSpec MetricProof SphereSpec PdfModel PdfSpec PdfEx PdfFinal RelSpec RelFinal RelTheory RelEx RelAll SupSpec SupEx AxSpec AxFinal AxEx UniSpec UniProof.
Import ListNotations.
Local Open Scope R_scope.

Definition fm (_ : ascii) : R := 10.
Lemma fm_nz t : fm t <> 0. Proof. unfold fm. lra. Qed.
Lemma ex_units : 1 / 2 <> 0 /\ (forall t, fm t <> 0) /\ sane_phase xdata box /\ (exists de, phase_lattice box = Ok de) /\ one_cell box /\ cp_stepcut box <= 0.
Proof. split. lra. split. exact fm_nz. split. exact box_sane. split. exact box_lat. split. exact box_one. exact box_step. Qed.
Lemma ex_unit_mix : exists e e', ready xdata [Some e; Some e] /\ ready xdata [Some e; Some e'] /\ all_complete [Some e; Some e] /\ all_complete [Some e; Some e'] /\
  en_igni e 0 = true /\ cp_pscale (en_ph e) = 1 /\ cp_pscale (en_ph e') = 2 /\ Forall2 (opt_rel other_units) [Some e; Some e] [Some e; Some e'].
Proof.
  destruct box_lat as (de & L). destruct (units_lattice (1 / 2) fm box box_lat) as (de' & L').
  exists (mkEnt box de (only 0) none), (mkEnt (in_units (1 / 2) fm box) de' (only 0) none).
  assert (R : up_to_date (mkEnt box de (only 0) none) /\ sane_phase xdata box) by (split; [exact L|exact box_sane]).
  assert (C : complete (mkEnt box de (only 0) none)) by (split; [exact box_one|exact box_step]).
  assert (R' : up_to_date (mkEnt (in_units (1 / 2) fm box) de' (only 0) none) /\ sane_phase xdata (in_units (1 / 2) fm box)) by (split; [exact L'|apply un_sane; [lra|exact fm_nz|exact box_sane]]).
  assert (C' : complete (mkEnt (in_units (1 / 2) fm box) de' (only 0) none)) by (split; [apply units_one; exact box_one|exact box_step]).
  split. intros e [<-|[<-|[]]]; auto. split. intros e [<-|[<-|[]]]; auto. split. intros e [<-|[<-|[]]]; auto. split. intros e [<-|[<-|[]]]; auto.
  split. reflexivity. split. reflexivity. split. cbn. lra.
  constructor; [|constructor; [|constructor]].
  - split; auto. exists 1, (fun _ => 1). split. lra. split. intros; lra. cbn [en_ph]. unfold in_units.
    assert (M : map (unit_atom 1 (fun _ => 1)) (cp_atoms box) = cp_atoms box).
    { rewrite <- (map_id (cp_atoms box)) at 2. apply map_ext_in. intros a I. assert (S : forall a, In a (cp_atoms box) -> at_occ a = 1 /\ at_sf a = fun _ => 1).
      { clear. intros a I. cbn [box SupSpec.enlarged SupSpec.recelled cp_atoms] in I. apply in_flat_map in I. destruct I as (o & _ & I). apply in_map_iff in I. destruct I as (b & <- & I). cbn in I. destruct I as [<-|[<-|[]]]; split; reflexivity. }
      destruct (S a I) as (A & B). destruct a as [x u oc sf]. cbn in A, B. subst. unfold unit_atom. cbn. f_equal. ring.
      apply FunctionalExtensionality.functional_extensionality. intros; ring. }
    rewrite M. replace (cp_pscale box / 1) with (cp_pscale box) by field. destruct box; reflexivity.
  - split; auto. exists (1 / 2), fm. split. lra. split. exact fm_nz. reflexivity.
Qed.
Lemma ex_units_theory : let ph := [box; moved_two] in let ph' := [in_units 2 fm box; in_units (1 / 2) fm moved_two] in
  Forall2 units_of ph ph' /\ Forall plain ph /\ good_grid xdata /\ off_origin xdata /\ good_filter xdata /\ forall p, In p ph -> sane_phase xdata p.
Proof.
  destruct ex_axes_theory as (_ & H). cbv zeta. split; [|exact H].
  constructor. exists 2, fm. split. lra. split. exact fm_nz. reflexivity. constructor. exists (1 / 2), fm. split. lra. split. exact fm_nz. reflexivity. constructor.
Qed.
