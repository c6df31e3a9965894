(** Proofs: relisted phases have the same PDF. *)
From Coq Require Import List Arith ZArith Reals Bool Lia Lra Permutation.
From Verif Require Import Base RSum MathModel MetricModel MetricSpec SphereModel SphereProof PdfModel PdfSpec PdfProof PdfGeo PdfSum PdfPeak PdfPhase PdfFft PdfTotal RelSpec RelProof.
Import ListNotations.
Local Open Scope R_scope.


Section Det.
Variable d : cdata.
Hypothesis G : good_grid d.
Hypothesis O : off_origin d.
Let lo := idx d (calc_lo d).
Let hi := idx d (calc_hi d).
Let N := Z.to_nat (hi + 1).
Definition good_entry (e : centry) : Prop := up_to_date e /\ sane_phase d (en_ph e).

Lemma el_ext (t t' : list num) : length t = N -> length t' = N -> (forall g, (0 <= g <= hi)%Z -> el t g = el t' g) -> t = t'.
Proof.
  intros L L' H. apply (nth_ext t t' None None). { rewrite L, L'; auto. } intros k Hk. rewrite L in Hk. unfold N in Hk. specialize (H (Z.of_nat k) ltac:(lia)). unfold el in H. rewrite Nat2Z.id in H. auto.
Qed.
(** what a phase adds *)
Lemma adds e : good_entry e -> exists W f0 V, found_list d e W /\ (forall g, (lo <= g <= hi)%Z -> phase_pdf d e W g (V g)) /\
  forall fuel t, (f0 <= fuel)%nat -> length t = N -> exists t', add_phase fuel d (calc_lo d) (calc_hi d) lo hi t e = Ok t' /\ length t' = N /\
    forall g, (0 <= g <= hi)%Z -> el t' g = if (g <? lo)%Z then el t g else nadd (el t g) (Some (cd_dscale d * cp_pscale (en_ph e) * V g)).
Proof.
  intros (U & S). destruct (add_phase_ok d G O e U S) as (W & f0 & V & F & P & A). exists W, f0, V. split; auto. split; auto. intros fuel t Hf L.
  specialize (A (cd_dscale d) (cp_pscale (en_ph e)) fuel t Hf L). rewrite same_dscale, same_pscale in A. exact A.
Qed.
Lemma relisted_adds e e' : good_entry e -> good_entry e' -> complete e -> complete e' -> relisted e e' ->
  exists f0, forall fuel t, (f0 <= fuel)%nat -> length t = N -> exists t', length t' = N /\
  add_phase fuel d (calc_lo d) (calc_hi d) lo hi t e = Ok t' /\ add_phase fuel d (calc_lo d) (calc_hi d) lo hi t e' = Ok t'.
Proof.
  intros GE GE' C C' (m & v & (E & MV & OC) & IG). destruct (adds e GE) as (W & f0 & V & (P & _) & PV & A), (adds e' GE') as (W' & f0' & V' & (P' & _) & PV' & A').
  assert (VV : forall g, (lo <= g <= hi)%Z -> V' g = V g).
  { intros g Hg. specialize (PV g Hg). specialize (PV' g Hg). destruct GE as (_ & S), GE' as (_ & S'). pose proof (w_sum d e S) as W1. pose proof (w_sum d e' S') as W2.
    destruct e' as [p' de' gi gj]. cbn [en_ph] in *. remember (cp_atoms p') as l. clear Heql. subst p'.
    eapply (pdf_same1 d e l de' gi gj m v g); eauto. apply (flags e _ de'); auto. intros x Hx. apply MV; auto. }
  exists (Nat.max f0 f0'). intros fuel t Hf L. destruct (A fuel t ltac:(lia) L) as (t1 & E1 & L1 & X1), (A' fuel t ltac:(lia) L) as (t2 & E2 & L2 & X2).
  exists t1. split; auto. split; auto. rewrite E2. f_equal. apply el_ext; auto. intros g Hg. rewrite X1, X2 by auto. destruct (Z.ltb_spec g lo); auto. rewrite VV by lia.
  rewrite E. reflexivity.
Qed.
(** two phases may change places *)
Lemma adds_comm e e' : good_entry e -> good_entry e' -> exists f0, forall fuel t, (f0 <= fuel)%nat -> length t = N -> exists t', length t' = N /\
  obind (add_phase fuel d (calc_lo d) (calc_hi d) lo hi t e) (fun t => add_phase fuel d (calc_lo d) (calc_hi d) lo hi t e') = Ok t' /\
  obind (add_phase fuel d (calc_lo d) (calc_hi d) lo hi t e') (fun t => add_phase fuel d (calc_lo d) (calc_hi d) lo hi t e) = Ok t'.
Proof.
  intros GE GE'. destruct (adds e GE) as (W & f0 & V & (P & _) & PV & A), (adds e' GE') as (W' & f0' & V' & (P' & _) & PV' & A').
  exists (Nat.max f0 f0'). intros fuel t Hf L. destruct (A fuel t ltac:(lia) L) as (t1 & E1 & L1 & X1), (A' fuel t ltac:(lia) L) as (t2 & E2 & L2 & X2).
  destruct (A' fuel t1 ltac:(lia) L1) as (t3 & E3 & L3 & X3), (A fuel t2 ltac:(lia) L2) as (t4 & E4 & L4 & X4).
  exists t3. rewrite E1, E2. cbn [obind]. split; auto. split; auto. rewrite E4. f_equal. apply el_ext; auto. intros g Hg. rewrite X4, X3, X1, X2 by auto.
  destruct (g <? lo)%Z; auto. destruct (el t g); cbn; auto. f_equal. ring.
Qed.
Let step fuel := (fun t (pe : option centry) => match pe with Some e => add_phase fuel d (calc_lo d) (calc_hi d) lo hi t e | None => Ok t end).
Lemma fold_relisted psel psel' : Forall2 (opt_rel relisted) psel psel' ->
  (forall e, In e (selected_entries psel) \/ In e (selected_entries psel') -> good_entry e /\ complete e) ->
  exists f0, forall fuel t, (f0 <= fuel)%nat -> length t = N -> exists t', length t' = N /\ ofold (step fuel) psel t = Ok t' /\ ofold (step fuel) psel' t = Ok t'.
Proof.
  intros F. induction F as [|[e|] [e'|] l l' R F IH]; intros H; try contradiction.
  - exists 0%nat. intros fuel t _ L. exists t. auto.
  - cbn [selected_entries] in H. destruct IH as (f1 & IH). { intros x [I|I]; apply H; cbn; auto. }
    destruct (relisted_adds e e') as (f2 & A); try apply H; cbn; auto.
    exists (Nat.max f1 f2). intros fuel t Hf L. destruct (A fuel t ltac:(lia) L) as (t1 & L1 & E1 & E2). destruct (IH fuel t1 ltac:(lia) L1) as (t2 & L2 & E3 & E4).
    exists t2. cbn [ofold step]. rewrite E1, E2. cbn [obind]. auto.
  - destruct (IH H) as (f1 & IH'). exists f1. exact IH'.
Qed.
Lemma fold_total psel : (forall e, In e (selected_entries psel) -> good_entry e) ->
  exists f0, forall fuel t, (f0 <= fuel)%nat -> length t = N -> exists t', length t' = N /\ ofold (step fuel) psel t = Ok t'.
Proof.
  induction psel as [|[e|] l IH]; intros H.
  - exists 0%nat. intros fuel t _ L. exists t. auto.
  - cbn [selected_entries] in H. destruct IH as (f1 & IH). { intros; apply H; right; auto. } destruct (adds e) as (W0 & f2 & V0 & _ & _ & A). apply H; left; auto.
    exists (Nat.max f1 f2). intros fuel t Hf L. destruct (A fuel t ltac:(lia) L) as (t1 & E1 & L1 & _). destruct (IH fuel t1 ltac:(lia) L1) as (t2 & L2 & E2).
    exists t2. cbn [ofold step]. rewrite E1. cbn [obind]. auto.
  - destruct (IH H) as (f1 & IH'). exists f1. exact IH'.
Qed.
Lemma fold_perm l l' : Permutation l l' -> (forall e, In (Some e) l -> good_entry e) ->
  exists f0, forall fuel t, (f0 <= fuel)%nat -> length t = N -> exists t', length t' = N /\ ofold (step fuel) l t = Ok t' /\ ofold (step fuel) l' t = Ok t'.
Proof.
  intros P. induction P as [|a l l' P IH|a b l|l1 l2 l3 P1 IH1 P2 IH2]; intros H.
  - exists 0%nat. intros fuel t _ L. exists t. auto.
  - destruct IH as (f1 & IH). { intros; apply H; right; auto. } destruct (fold_total [a]) as (f2 & A).
    { intros e I. destruct a as [a|]; cbn in I; [|contradiction]. destruct I as [<-|[]]. apply H; left; auto. }
    exists (Nat.max f1 f2). intros fuel t Hf L. destruct (A fuel t ltac:(lia) L) as (t1 & L1 & E1). cbn [ofold] in E1. destruct (step fuel t a) as [x| | |] eqn:E; try discriminate. cbn in E1. injection E1 as ->.
    destruct (IH fuel t1 ltac:(lia) L1) as (t2 & L2 & X & Y). exists t2. cbn [ofold]. rewrite E. cbn [obind]. auto.
  - destruct (fold_total l) as (f1 & T). { intros e I. apply H. right; right. clear -I. induction l as [|[x|] l IH]; cbn in *; auto. destruct I as [->|]; auto. }
    assert (C : exists f2, forall fuel t, (f2 <= fuel)%nat -> length t = N -> exists t', length t' = N /\ obind (step fuel t b) (fun t => step fuel t a) = Ok t' /\ obind (step fuel t a) (fun t => step fuel t b) = Ok t').
    { destruct a as [a|], b as [b|].
      - destruct (adds_comm b a) as (f2 & A); try (apply H; cbn; auto). exists f2. exact A.
      - destruct (fold_total [Some a]) as (f2 & A). { intros e [<-|[]]. apply H; cbn; auto. } exists f2. intros fuel t Hf L. destruct (A fuel t Hf L) as (t1 & L1 & E1). exists t1. split; auto. cbn in E1. cbn. destruct (add_phase _ _ _ _ _ _ _ _); auto.
      - destruct (fold_total [Some b]) as (f2 & A). { intros e [<-|[]]. apply H; cbn; auto. } exists f2. intros fuel t Hf L. destruct (A fuel t Hf L) as (t1 & L1 & E1). exists t1. split; auto. cbn in E1. cbn. destruct (add_phase _ _ _ _ _ _ _ _); auto.
      - exists 0%nat. intros fuel t _ L. exists t. cbn. auto. }
    destruct C as (f2 & C). exists (Nat.max f1 f2). intros fuel t Hf L. destruct (C fuel t ltac:(lia) L) as (t1 & L1 & E1 & E2). destruct (T fuel t1 ltac:(lia) L1) as (t2 & L2 & E3). exists t2. split; auto.
    cbn [ofold]. destruct (step fuel t b) as [x| | |]; try discriminate. destruct (step fuel t a) as [y| | |]; try discriminate. cbn [obind] in *. rewrite E1, E2. auto.
  - destruct IH1 as (f1 & A1); auto. destruct IH2 as (f2 & A2). { intros e I. apply H. eapply Permutation_in; [apply Permutation_sym; eauto|auto]. }
    exists (Nat.max f1 f2). intros fuel t Hf L. destruct (A1 fuel t ltac:(lia) L) as (t1 & L1 & X1 & Y1), (A2 fuel t ltac:(lia) L) as (t2 & L2 & X2 & Y2). exists t1. split; auto. split; auto. congruence.
Qed.
(** the calculation is the fold and what follows *)
Lemma determine_fold fuel psel psel' : ofold (step fuel) psel (repeat (Some 0) N) = ofold (step fuel) psel' (repeat (Some 0) N) -> determine fuel d psel = determine fuel d psel'.
Proof.
  intros E. unfold determine. pose proof G as (D & P0 & [R1 R2] & B). pose proof (calc_order d G) as ((C1 & C2) & C3).
  rewrite (nint_grid d G (cd_rfmin d)) by lra. rewrite (nint_grid d G (cd_rfmax d)) by lra.
  rewrite (calc_range_ok d G). cbn [obind]. fold lo hi. destruct (hi + 1 <? 0)%Z; auto. fold N. unfold step in E. rewrite E. reflexivity.
Qed.
Lemma relisted_pdf psel psel' : Forall2 (opt_rel relisted) psel psel' ->
  (forall e, In e (selected_entries psel) \/ In e (selected_entries psel') -> good_entry e /\ complete e) ->
  exists f0, forall fuel, (f0 <= fuel)%nat -> determine fuel d psel' = determine fuel d psel.
Proof.
  intros F H. destruct (fold_relisted psel psel' F H) as (f0 & A). exists f0. intros fuel Hf. destruct (A fuel (repeat (Some 0) N) Hf (repeat_length _ _)) as (t & _ & E1 & E2). apply determine_fold. congruence.
Qed.
Lemma in_some e l : In (Some e) l -> In e (selected_entries l).
Proof. induction l as [|[x|] l IH]; cbn; intros I; auto; destruct I as [I|I]; try discriminate; auto. injection I as ->. auto. Qed.
Lemma permuted_pdf psel psel' : Permutation psel psel' -> (forall e, In e (selected_entries psel) -> good_entry e) ->
  exists f0, forall fuel, (f0 <= fuel)%nat -> determine fuel d psel' = determine fuel d psel.
Proof.
  intros F H. destruct (fold_perm psel psel' F) as (f0 & A). { intros e I. apply H, in_some; auto. }
  exists f0. intros fuel Hf. destruct (A fuel (repeat (Some 0) N) Hf (repeat_length _ _)) as (t & _ & E1 & E2). apply determine_fold. congruence.
Qed.
End Det.
