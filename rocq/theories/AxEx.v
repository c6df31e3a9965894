(** Cases for axes named differently. *)
From Coq Require Import List Arith ZArith Reals Bool Lia Lra.
From Verif Require Import Base RSum MathModel MetricModel MetricSpec PdfModel PdfSpec PdfEx PdfFinal RelSpec RelFinal RelTheory RelEx RelAll SupSpec SupProof SupFinal SupAll SupEx AxSpec AxProof AxFinal.
Import ListNotations.
Local Open Scope R_scope.

(** a cell with edges 20, 10, 30 and twelve atoms *)
Definition box : cphase := enlarged k213 (two (9 / 10) (1 / 10)).
Definition cyc (j : nat) : nat := match j with 0 => 1 | 1 => 2 | _ => 0 end%nat.
Definition swp (j : nat) : nat := match j with 0 => 1 | 1 => 0 | _ => 2 end%nat.
Lemma cyc_naming : naming cyc. Proof. right. left. reflexivity. Qed.
Lemma swp_naming : naming swp. Proof. right. right. right. left. reflexivity. Qed.
Lemma box_edges : cp_a0 box 0%nat = 20 /\ cp_a0 box 1%nat = 10 /\ cp_a0 box 2%nat = 30 /\ cp_a0 (rename cyc box) 0%nat = 10 /\ cp_a0 (rename cyc box) 1%nat = 30 /\ cp_a0 (rename cyc box) 2%nat = 20.
Proof. cbn. repeat split; lra. Qed.
Lemma box_copies : copies k213 (two (9 / 10) (1 / 10)) box (fun x => x mod 2)%nat (which k213 2).
Proof. exact (enlarged_copies k213 (two (9 / 10) (1 / 10)) k213_one). Qed.
Lemma box_sane : sane_phase xdata box. Proof. eapply copies_sane; [exact box_copies|apply two_sane]. Qed.
Lemma box_lat : exists de, phase_lattice box = Ok de.
Proof.
  assert (CL : calculable (two (9 / 10) (1 / 10))). { split. apply cub_lat. split. apply cub_cell. split. intros; cbn; lia. cbn; lra. }
  destruct (copies_calculable _ _ _ _ _ box_copies CL) as (H & _). exact H.
Qed.
Lemma box_one : one_cell box.
Proof.
  destruct (cub_lat (cp_atoms (two (9 / 10) (1 / 10)))) as (de & L).
  refine (proj1 (super_complete k213 (ent (two (9 / 10) (1 / 10)) de) (ent box de) (fun _ => eq_refl) _ _)).
  apply two_complete; lra. exists (fun x => x mod 2)%nat, (which k213 2). split. exact box_copies. auto.
Qed.
Lemma box_step : cp_stepcut box <= 0. Proof. cbn; lra. Qed.
Lemma box_plain : plain box.
Proof. apply enlarged_plain. apply k213_one. apply ex_sample. Qed.
Lemma ex_rename : naming cyc /\ sane_phase xdata box /\ (exists de, phase_lattice box = Ok de) /\ one_cell box /\ cp_stepcut box <= 0 /\
  cp_a0 box 0%nat = 20 /\ cp_a0 box 1%nat = 10 /\ cp_a0 box 2%nat = 30 /\ cp_a0 (rename cyc box) 0%nat = 10 /\ cp_a0 (rename cyc box) 1%nat = 30 /\ cp_a0 (rename cyc box) 2%nat = 20.
Proof. split. exact cyc_naming. split. exact box_sane. split. exact box_lat. split. exact box_one. split. exact box_step. exact box_edges. Qed.
(** with the first atom ignored *)
Lemma ex_axes : exists e e', ready xdata [Some e; None] /\ ready xdata [Some e'; None] /\ all_complete [Some e; None] /\ all_complete [Some e'; None] /\
  en_igni e 0 = true /\ cp_a0 (en_ph e) 0%nat = 20 /\ cp_a0 (en_ph e') 0%nat = 10 /\ Forall2 (opt_rel other_axes) [Some e; None] [Some e'; None].
Proof.
  destruct box_lat as (de & L). pose proof (rename_renamed swp box swp_naming) as R.
  destruct (axes_calculable swp box _ swp_naming R (proj2 (proj2 (proj2 box_plain)))) as ((de' & L') & _).
  exists (mkEnt box de (only 0) none), (mkEnt (rename swp box) de' (only 0) none).
  split. intros e [<-|[]]. split. exact L. exact box_sane.
  split. intros e [<-|[]]. split. exact L'. eapply axes_sane; [exact swp_naming|exact R|exact box_sane].
  split. intros e [<-|[]]. split. exact box_one. exact box_step.
  split. intros e [<-|[]]. split. eapply axes_one; [exact swp_naming|exact R|exact box_one]. exact box_step.
  split. reflexivity. split. apply box_edges. split. cbn; lra.
  constructor; [|constructor; [exact I|constructor]]. split. exists swp. split. exact swp_naming. exact R. auto.
Qed.
Lemma ex_axes_theory : let ph := [box; moved_two] in let ph' := [rename cyc box; rename swp moved_two] in
  Forall2 axes_of ph ph' /\ Forall plain ph /\ good_grid xdata /\ off_origin xdata /\ good_filter xdata /\ forall p, In p ph -> sane_phase xdata p.
Proof.
  destruct ex_sample as (_ & _ & P & _ & S & _). cbv zeta. split; [|split].
  - constructor. exists cyc. split. exact cyc_naming. apply rename_renamed, cyc_naming. constructor. exists swp. split. exact swp_naming. apply rename_renamed, swp_naming. constructor.
  - constructor; [exact box_plain|constructor; [exact P|constructor]].
  - split. exact xgrid. split. exact xoff. split. exact xfilter. intros p [<-|[<-|[]]]. exact box_sane. exact S.
Qed.
