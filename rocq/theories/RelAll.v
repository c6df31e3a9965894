(** Proofs: the same sample gives the same PDF. *)
From Coq Require Import List Arith ZArith Reals Bool Lia Lra Permutation.
From Verif Require Import Base RSum MathModel MetricModel MetricSpec PdfModel PdfSpec PdfProof PdfGeo PdfSum PdfPeak PdfPhase PdfTotal PdfFinal RelSpec RelProof RelFinal RelList.
Import ListNotations.
Local Open Scope R_scope.

Lemma same_of d psel psel' : good_grid d -> off_origin d -> good_filter d -> ready d psel ->
  (exists f0, forall fuel, (f0 <= fuel)%nat -> determine fuel d psel' = determine fuel d psel) -> same_pdf d psel psel'.
Proof.
  intros G O F R (f1 & A). destruct (determine_ok d psel G O F R) as (Ws & f0 & V & out & _ & _ & _ & _ & _ & D).
  exists (Nat.max f0 f1). eexists. intros fuel Hf. rewrite A by lia. split; apply D; lia.
Qed.
Lemma relisted_same d psel psel' : good_grid d -> off_origin d -> good_filter d -> ready d psel -> ready d psel' -> all_complete psel -> all_complete psel' ->
  Forall2 (opt_rel relisted) psel psel' -> same_pdf d psel psel'.
Proof.
  intros G O F R R' C C' P. apply same_of; auto. apply relisted_pdf; auto. intros e [I|I]; split; auto; [apply R|apply R']; auto.
Qed.
Lemma opt_impl (P Q : centry -> centry -> Prop) : (forall e e', P e e' -> Q e e') -> forall l l', Forall2 (opt_rel P) l l' -> Forall2 (opt_rel Q) l l'.
Proof. intros H l l' F. induction F as [|[x|] [y|] l l' A F IH]; constructor; cbn in *; auto. Qed.
Lemma via (P : centry -> centry -> Prop) : (forall e e', P e e' -> relisted e e') -> forall d psel psel', good_grid d -> off_origin d -> good_filter d -> ready d psel -> ready d psel' -> all_complete psel -> all_complete psel' ->
  Forall2 (opt_rel P) psel psel' -> same_pdf d psel psel'.
Proof. intros H d psel psel' G O F R R' C C' A. apply relisted_same; auto. revert A. apply opt_impl. exact H. Qed.
Lemma permuted_same d psel psel' : good_grid d -> off_origin d -> good_filter d -> ready d psel -> Permutation psel psel' -> same_pdf d psel psel'.
Proof. intros G O F R P. apply same_of; auto. apply permuted_pdf; auto. Qed.
Lemma shifted_via e e' : (exists v, shifted e e' v) -> relisted e e'.
Proof. intros (v & H). eapply shifted_relisted; eauto. Qed.
Lemma ready1 d e : up_to_date e /\ sane_phase d (en_ph e) -> ready d [Some e].
Proof. intros H x [<-|[]]. exact H. Qed.
Lemma complete1 e : complete e -> all_complete [Some e].
Proof. intros H x [<-|[]]. exact H. Qed.
Lemma rel1 (P : centry -> centry -> Prop) e e' : P e e' -> Forall2 (opt_rel P) [Some e] [Some e'].
Proof. repeat constructor. auto. Qed.
