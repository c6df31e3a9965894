(** Proofs: chains of descriptions. *)
From Coq Require Import List Arith ZArith Reals Bool Lia Lra.
From Verif Require Import Base RSum MathModel MetricModel MetricSpec MetricProof SphereSpec PdfModel PdfSpec PdfEx PdfFinal RelSpec RelFinal RelTheory RelEx RelAll SupSpec SupProof SupFinal SupAll SupEx AxSpec AxProof AxFinal AxEx BasSpec BasProof BasFinal BasMake BasEx.
Import ListNotations.
Local Open Scope R_scope.

Lemma thing_adds d : good_grid d -> off_origin d -> forall x y, Forall2 (opt_rel same_thing) x y -> ready d x -> ready d y -> all_complete x -> all_complete y -> Forall2 (opt_rel (adds_same d)) x y.
Proof.
  intros G O x y P. induction P as [|[e|] [e'|] l l' A P IH]; intros R R' C C'; constructor; cbn in A |- *; auto; try contradiction.
  - assert (GE : good_entry d e) by (apply R; cbn; auto). assert (GE' : good_entry d e') by (apply R'; cbn; auto). assert (CE : complete e) by (apply C; cbn; auto). assert (CE' : complete e') by (apply C'; cbn; auto).
    destruct A as [A|[A|A]]; [apply material_adds|apply axes_adds|apply basis_adds]; auto.
  - apply IH; intros q I; [apply R|apply R'|apply C|apply C']; cbn; auto.
Qed.
Lemma linked_same d x y : good_grid d -> off_origin d -> good_filter d -> linked d x y -> same_pdf d x y.
Proof.
  intros G O F L. induction L as [x y R R' C C' P|x y L IH|x y z L1 IH1 L2 IH2].
  - apply same_of; auto. apply adds_pdf; auto. apply thing_adds; auto.
  - destruct IH as (f0 & r & H). exists f0, r. intros fuel Hf. destruct (H fuel Hf); auto.
  - destruct IH1 as (f1 & r1 & H1), IH2 as (f2 & r2 & H2). exists (Nat.max f1 f2), r1. intros fuel Hf. destruct (H1 fuel ltac:(lia)) as (A & B), (H2 fuel ltac:(lia)) as (C & D). split; congruence.
Qed.
(** a sheared cell, the cell it came from, a larger one, and that with other axes *)
Lemma ex_chain : exists e e', linked xdata [Some e] [Some e'] /\ en_ph e = sheared /\ en_ph e' = rename cyc box /\ natoms (en_ph e) = 2%nat /\ natoms (en_ph e') = 12%nat.
Proof.
  destruct (cub_lat (cp_atoms xt)) as (de & L), sheared_lat as (de1 & L1), box_lat as (de2 & L2). pose proof (rename_renamed cyc box cyc_naming) as R.
  destruct (axes_calculable cyc box _ cyc_naming R (proj2 (proj2 (proj2 box_plain)))) as ((de3 & L3) & _).
  exists (mkEnt sheared de1 none none), (mkEnt (rename cyc box) de3 none none). split; [|split; [reflexivity|split; [reflexivity|split; [reflexivity|]]]].
  2: { cbn [en_ph]. transitivity (natoms box). apply map_length. apply k213_natoms. }
  assert (R0 : ready xdata [Some (mkEnt xt de none none)]) by (apply ready1; apply two_good; exact L).
  assert (C0 : all_complete [Some (mkEnt xt de none none)]) by (apply complete1; apply two_complete; lra).
  assert (R1 : ready xdata [Some (mkEnt sheared de1 none none)]) by (apply ready1; split; [exact L1|exact sheared_sane]).
  assert (C1 : all_complete [Some (mkEnt sheared de1 none none)]) by (apply complete1; split; [exact sheared_one|cbn; lra]).
  assert (R2 : ready xdata [Some (mkEnt box de2 none none)]) by (apply ready1; split; [exact L2|exact box_sane]).
  assert (C2 : all_complete [Some (mkEnt box de2 none none)]) by (apply complete1; split; [exact box_one|exact box_step]).
  assert (R3 : ready xdata [Some (mkEnt (rename cyc box) de3 none none)]) by (apply ready1; split; [exact L3|]; eapply axes_sane; [exact cyc_naming|exact R|exact box_sane]).
  assert (C3 : all_complete [Some (mkEnt (rename cyc box) de3 none none)]) by (apply complete1; split; [|exact box_step]; eapply axes_one; [exact cyc_naming|exact R|exact box_one]).
  apply (link_join xdata _ [Some (mkEnt xt de none none)]).
  - apply link_back. apply link_step; auto. apply rel1. right. right. split; auto. exists shear, unshear, zero3, stay. exact xt_rebased.
  - apply (link_join xdata _ [Some (mkEnt box de2 none none)]).
    + apply link_step; auto. apply rel1. left. right. exists k213, (fun x => x mod 2)%nat, (which k213 2). split. exact box_copies. auto.
    + apply link_step; auto. apply rel1. right. left. split; auto. exists cyc. split. exact cyc_naming. exact R.
Qed.
