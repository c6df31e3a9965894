(** Cases for larger cells. *)
From Coq Require Import List Arith ZArith Reals Bool Lia Lra.
From Verif Require Import Base RSum MathModel MetricModel MetricSpec PdfModel PdfSpec PdfEx PdfFinal RelSpec RelFinal RelTheory RelEx RelAll SupSpec SupProof SupFinal SupAll.
Import ListNotations.
Local Open Scope R_scope.

(** twice along a, three times along c *)
Definition k213 : trip := (2, 1, 3)%Z.
Lemma k213_one j : (j < 3)%nat -> (1 <= comp k213 j)%Z.
Proof. intros H. destruct j as [|[|[|j]]]; cbn; lia. Qed.
Lemma k213_natoms : natoms (enlarged k213 (two (9 / 10) (1 / 10))) = 12%nat.
Proof. rewrite enlarged_natoms. reflexivity. Qed.
(** with the first atom ignored *)
Lemma ex_super : exists e e', ready xdata [Some e] /\ ready xdata [Some e'] /\ all_complete [Some e] /\ all_complete [Some e'] /\
  natoms (en_ph e) = 2%nat /\ natoms (en_ph e') = 12%nat /\ en_igni e 0 = true /\ Forall2 (opt_rel same_material) [Some e] [Some e'].
Proof.
  destruct (cub_lat (cp_atoms (two (9 / 10) (1 / 10)))) as (de & L). pose proof (enlarged_copies k213 (two (9 / 10) (1 / 10)) k213_one) as E.
  assert (CL : calculable (two (9 / 10) (1 / 10))). { split. eauto. split. apply cub_cell. split. intros; cbn; lia. cbn; lra. }
  destruct (copies_calculable _ _ _ _ _ E CL) as ((de' & L') & _).
  set (e := mkEnt (two (9 / 10) (1 / 10)) de (only 0) (only 0)). set (e' := mkEnt (enlarged k213 (two (9 / 10) (1 / 10))) de' (fun x => only 0 (x mod 2)) (fun x => only 0 (x mod 2))).
  assert (SC : supercell k213 e e'). { eexists. eexists. split. exact E. auto. }
  assert (C1 : complete e) by (apply two_complete; lra).
  exists e, e'. split. apply ready1. apply two_good; auto. split. apply ready1. split; [exact L'|]. eapply copies_sane; [exact E|apply two_sane].
  split. apply complete1; exact C1. split. apply complete1. apply (super_complete k213 e); [reflexivity|exact C1|exact SC]. split. reflexivity. split. apply k213_natoms. split. reflexivity.
  apply rel1. right. exists k213. exact SC.
Qed.
Lemma ex_enlarged : sane_phase xdata (two (9 / 10) (1 / 10)) /\ (exists de, phase_lattice (two (9 / 10) (1 / 10)) = Ok de) /\ (forall j, cp_icc (two (9 / 10) (1 / 10)) j = 1%Z) /\ one_cell (two (9 / 10) (1 / 10)) /\ cp_stepcut (two (9 / 10) (1 / 10)) <= 0.
Proof. split. apply two_sane. split. apply cub_lat. split. reflexivity. split. apply two_one. apply Rabs_le; lra. cbn; lra. Qed.
Lemma ex_crystal : let ph := [two (9 / 10) (1 / 10); two (9 / 10) (1 / 10)] in let ph' := [enlarged k213 (two (9 / 10) (1 / 10)); moved_two] in
  Forall2 same_crystal ph ph' /\ Forall plain ph /\ Forall plain ph' /\ forall p, In p ph \/ In p ph' -> sane_phase xdata p.
Proof.
  destruct ex_sample as (S & P & P' & SN & SN' & _). cbv zeta. split; [|split; [|split]].
  - constructor. right. exists k213. eexists. eexists. apply enlarged_copies, k213_one. constructor. left. exact S. constructor.
  - constructor; [exact P|constructor; [exact P|constructor]].
  - constructor; [apply enlarged_plain; [apply k213_one|exact P]|constructor; [exact P'|constructor]].
  - intros p [[<-|[<-|[]]]|[<-|[<-|[]]]]; auto. eapply copies_sane; [apply enlarged_copies, k213_one|exact SN].
Qed.
