(** Proofs: naming the axes differently gives the same PDF. *)
From Coq Require Import List Arith ZArith Reals Bool Lia Lra Permutation.
From Verif Require Import Base RSum MathModel MetricModel MetricSpec MetricProof SphereModel SphereSpec SphereProof PdfModel PdfSpec PdfProof PdfGeo PdfSum PdfPeak PdfPhase PdfFft PdfTotal PdfFinal RelSpec RelProof RelFinal RelTheory RelAll AxSpec AxProof.
Import ListNotations.
Local Open Scope R_scope.

Section Det.
Variable d : cdata.
Hypothesis G : good_grid d.
Hypothesis O : off_origin d.
Let lo := idx d (calc_lo d).
Let hi := idx d (calc_hi d).
Let N := Z.to_nat (hi + 1).
Definition adds_same (e e' : centry) : Prop := exists f0, forall fuel t, (f0 <= fuel)%nat -> length t = N -> exists t', length t' = N /\
  add_phase fuel d (calc_lo d) (calc_hi d) lo hi t e = Ok t' /\ add_phase fuel d (calc_lo d) (calc_hi d) lo hi t e' = Ok t'.
Let step fuel := (fun t (pe : option centry) => match pe with Some e => add_phase fuel d (calc_lo d) (calc_hi d) lo hi t e | None => Ok t end).
Lemma fold_adds psel psel' : Forall2 (opt_rel adds_same) psel psel' ->
  exists f0, forall fuel t, (f0 <= fuel)%nat -> length t = N -> exists t', length t' = N /\ ofold (step fuel) psel t = Ok t' /\ ofold (step fuel) psel' t = Ok t'.
Proof.
  intros F. induction F as [|[e|] [e'|] l l' R F IH]; try contradiction.
  - exists 0%nat. intros fuel t _ L. exists t. auto.
  - destruct R as (f2 & A). destruct IH as (f1 & IH). exists (Nat.max f1 f2). intros fuel t Hf L. destruct (A fuel t ltac:(lia) L) as (t1 & L1 & E1 & E2). destruct (IH fuel t1 ltac:(lia) L1) as (t2 & L2 & E3 & E4).
    exists t2. cbn [ofold step]. rewrite E1, E2. cbn [obind]. auto.
  - destruct IH as (f1 & IH'). exists f1. exact IH'.
Qed.
Lemma adds_pdf psel psel' : Forall2 (opt_rel adds_same) psel psel' -> exists f0, forall fuel, (f0 <= fuel)%nat -> determine fuel d psel' = determine fuel d psel.
Proof.
  intros F. destruct (fold_adds psel psel' F) as (f0 & A). exists f0. intros fuel Hf. destruct (A fuel (repeat (Some 0) N) Hf (repeat_length _ _)) as (t & _ & E1 & E2). apply (determine_fold d G). fold lo hi N. unfold step in E1, E2. congruence.
Qed.
Lemma axes_adds e e' : good_entry d e -> good_entry d e' -> complete e -> complete e' -> other_axes e e' -> adds_same e e'.
Proof.
  intros GE GE' C C' ((s & NS & l & E & AT) & FL). destruct (adds d G O e GE) as (W & f0 & V & (P & _) & PV & A), (adds d G O e' GE') as (W' & f0' & V' & (P' & _) & PV' & A').
  assert (VV : forall g, (lo <= g <= hi)%Z -> V' g = V g).
  { intros g Hg. specialize (PV g Hg). specialize (PV' g Hg). destruct e' as [p' de' gi gj]. cbn [en_ph] in *. subst p'.
    eapply (ax_pdf d e s l de' gi gj g); eauto. }
  exists (Nat.max f0 f0'). intros fuel t Hf L. destruct (A fuel t ltac:(lia) L) as (t1 & E1 & L1 & X1), (A' fuel t ltac:(lia) L) as (t2 & E2 & L2 & X2).
  exists t1. split; auto. split; auto. fold lo hi in E2. rewrite E2. f_equal. apply (el_ext d); auto. intros g Hg. fold lo hi in X1, X2. rewrite X1, X2 by auto. destruct (Z.ltb_spec g lo); auto. rewrite VV by lia.
  rewrite E. reflexivity.
Qed.
End Det.

(** ** what carries over *)
Section Carry.
Variables (s : nat -> nat) (p p' : cphase).
Hypothesis NS : naming s.
Hypothesis R : renamed s p p'.
Let blank q := mkEnt q (mkDer (mkLat 0 (fun _ => 0) (fun _ => 0) (fun _ _ => 0) (fun _ _ => 0)) 0 None) (fun _ => false) (fun _ => false).
Lemma axes_sane d : sane_phase d p -> sane_phase d p'.
Proof.
  intros ((A & B & C & A1 & A2 & A3 & GR) & T & I & OC & MN & SF & U & SR). destruct R as (l & E & AT). set (e := blank p).
  pose proof (ax_metric e s l NS) as M. pose proof (ax_occ e s l AT) as X1. pose proof (ax_mean d e s l AT) as X2. pose proof (ax_n e s l AT) as X3. pose proof (ax_atom e s l AT) as X4. cbn [e blank en_ph] in *. rewrite <- E in *.
  split; [|split; [|split; [|split; [|split; [|split; [|split]]]]]].
  - rewrite E. cbn [cp_a0 cp_win]. unfold proper_cell. six NS; rewrite S0, S1, S2; repeat (split; auto);
    match goal with |- 0 < gram ?x ?y ?z => replace (gram x y z) with (gram (cos (PI / 180 * cp_win p 0%nat)) (cos (PI / 180 * cp_win p 1%nat)) (cos (PI / 180 * cp_win p 2%nat))) by (unfold gram; ring); exact GR | _ => lra end.
  - intros i j Hi Hj D. rewrite M by auto. apply T; try (apply (naming_lt s NS); auto). six NS; destruct i as [|[|[|i]]], j as [|[|[|j]]]; lia.
  - intros j. rewrite E. apply I.
  - rewrite X1; auto.
  - rewrite X2; auto.
  - rewrite X3. rewrite (rsum_ext _ _ (fun i => at_sf (atom_no p i) (cd_type d))); auto. intros i Hi. destruct (X4 i Hi) as (_ & _ & _ & ->). auto.
  - rewrite X3. intros i j h Hi Hj. set (h0 := fun k => if (k =? s 0)%nat then h 0%nat else if (k =? s 1)%nat then h 1%nat else h 2%nat).
    assert (HH : forall k, (k < 3)%nat -> h k = h0 (s k)). { intros k Hk. unfold h0. six NS; destruct k as [|[|[|k]]]; try lia; rewrite ?S0, ?S1, ?S2; reflexivity. }
    pose proof (ax_msd e s l NS h0 h HH (atom_no p i) (atom_no p j) _ _ (X4 i Hi) (X4 j Hj)) as Y. cbn [e blank en_ph] in Y. rewrite <- E in Y. rewrite Y. auto.
  - rewrite E. exact SR.
Qed.
Lemma axes_calculable : calculable p -> calculable p'.
Proof.
  intros ((de & L) & (A & B & C & A1 & A2 & A3 & GR) & I & SR). destruct R as (l & E & AT). rewrite E. split; [|split; [|split]].
  - unfold phase_lattice in *. rewrite lattice_spec in *. cbn [cp_a0 cp_win cp_icc cp_atoms]. destruct (Rle_dec _ _) as [|D] in L; try discriminate.
    destruct (Rle_dec _ _) as [D'|D']; [exfalso|eexists; reflexivity]. apply D. revert D'.
    match goal with |- gram ?x ?y ?z <= _ -> gram ?a ?b ?c <= _ => replace (gram x y z) with (gram a b c); auto end. six NS; rewrite S0, S1, S2; unfold gram; ring.
  - cbn [cp_a0 cp_win]. unfold proper_cell. six NS; rewrite S0, S1, S2; repeat (split; auto);
    match goal with |- 0 < gram ?x ?y ?z => replace (gram x y z) with (gram (cos (PI / 180 * cp_win p 0%nat)) (cos (PI / 180 * cp_win p 1%nat)) (cos (PI / 180 * cp_win p 2%nat))) by (unfold gram; ring); exact GR | _ => lra end.
  - intros j. apply I. - exact SR.
Qed.
Lemma axes_one : one_cell p -> one_cell p'.
Proof.
  intros H i j k Hi Hj Hk. destruct R as (l & E & AT). set (e := blank p). pose proof (ax_n e s l AT) as X3. pose proof (ax_atom e s l AT) as X4. cbn [e blank en_ph] in *. rewrite <- E in *. rewrite X3 in *.
  destruct (X4 i Hi) as (A & _), (X4 j Hj) as (B & _). rewrite (proj1 (A k Hk)), (proj1 (B k Hk)). apply H; auto. apply naming_lt; auto.
Qed.
Lemma axes_wrap : renamed s (wrap_phase p) (wrap_phase p').
Proof.
  destruct R as (l & E & AT). rewrite E. eexists. split. reflexivity. cbn [wrap_phase cp_atoms cp_icc]. clear E. induction AT as [|a a' l1 l2 (A & B & C & D) F IH]; cbn [map]; constructor; auto.
  split; [|split; [exact B|split; [exact C|exact D]]]. intros j Hj. cbn [at_pos at_u]. rewrite (proj1 (A j Hj)). split; auto. apply A; auto.
Qed.
Lemma axes_plain : plain p -> plain p'.
Proof.
  intros (I & ST & P & C). split; [|split; [|split]]; [destruct R as (l & -> & _); intros k; apply I|destruct R as (l & -> & _); exact ST| |apply axes_calculable; auto].
  intros i k Hi Hk. destruct R as (l & E & AT). set (e := blank p). pose proof (ax_n e s l AT) as X3. pose proof (ax_atom e s l AT) as X4. cbn [e blank en_ph] in *. rewrite <- E in *. rewrite X3 in Hi.
  destruct (X4 i Hi) as (A & _). rewrite (proj1 (A k Hk)). apply P; auto. apply naming_lt; auto.
Qed.
End Carry.
Lemma rename_renamed s p : naming s -> renamed s p (rename s p).
Proof.
  intros NS. exists (map (rename_atom s) (cp_atoms p)). split. reflexivity. induction (cp_atoms p) as [|a l IH]; cbn [map]; constructor; auto.
  split; [|split; [|split; reflexivity]].
  - intros j Hj. split; auto. destruct j as [|[|[|j]]]; [reflexivity|reflexivity|reflexivity|lia].
  - intros i j Hi Hj. destruct i as [|[|[|i]]], j as [|[|[|j]]]; try lia; reflexivity.
Qed.

Lemma axes_same d psel psel' : good_grid d -> off_origin d -> good_filter d -> ready d psel -> ready d psel' -> all_complete psel -> all_complete psel' ->
  Forall2 (opt_rel other_axes) psel psel' -> same_pdf d psel psel'.
Proof.
  intros G O F R R' C C' P. apply same_of; auto. apply adds_pdf; auto. clear F. induction P as [|[e|] [e'|] l l' A P IH]; constructor; cbn in A |- *; auto; try contradiction.
  - apply axes_adds; auto; [apply R|apply R'|apply C|apply C']; cbn; auto.
  - apply IH; intros x I; [apply R|apply R'|apply C|apply C']; cbn; auto.
Qed.
Lemma rename_same d s p de gi gj : good_grid d -> off_origin d -> good_filter d -> naming s ->
  sane_phase d p -> phase_lattice p = Ok de -> one_cell p -> cp_stepcut p <= 0 ->
  exists de', phase_lattice (rename s p) = Ok de' /\ same_pdf d [Some (mkEnt p de gi gj)] [Some (mkEnt (rename s p) de' gi gj)].
Proof.
  intros G O F NS SP L OC ST. pose proof (rename_renamed s p NS) as R.
  assert (CL : calculable p). { destruct SP as (A & _ & I & _ & _ & _ & _ & SR). split. eauto. split; auto. split; auto. lra. }
  destruct (axes_calculable s p _ NS R CL) as ((de' & L') & _). exists de'. split; auto. apply axes_same; auto.
  - apply ready1. split; auto.
  - apply ready1. split; [exact L'|]. eapply axes_sane; eauto.
  - apply complete1. split; auto.
  - apply complete1. split; [|exact ST]. eapply axes_one; eauto.
  - apply rel1. split; [|auto]. exists s. split; auto.
Qed.

Lemma entries_axes d (G : good_grid d) (O : off_origin d) : forall ph ph', Forall2 axes_of ph ph' -> forall phd phd' sel, Forall2 lat_of ph phd -> Forall2 lat_of ph' phd' -> Forall plain ph ->
  (forall p, In p ph -> sane_phase d p) -> Forall2 (opt_rel (adds_same d)) (entries phd sel) (entries phd' sel).
Proof.
  intros ph ph' F. induction F as [|p p' ph ph' (s & NS & R) F IH]; intros phd phd' sel L L' Q SN; inversion L as [|? [q de] ? phd1 (L1 & L2) L3]; subst; inversion L' as [|? [q' de'] ? phd1' (L1' & L2') L3']; subst.
  - constructor.
  - cbn [fst snd] in *. subst q q'. inversion Q as [|? ? Q1 Q2]; subst. destruct sel as [|x sel]; cbn [entries]; constructor; [|apply IH; auto; intros; apply SN; right; auto].
    destruct x as [[gi gj]|]; cbn; auto. pose proof (SN p (or_introl eq_refl)) as SP. pose proof (axes_plain s p p' NS R Q1) as Q1'.
    apply axes_adds; auto.
    + split; [exact L2|apply wrap_sane; auto]. + split; [exact L2'|apply wrap_sane; eapply axes_sane; eauto].
    + split; [apply wrap_one; auto|apply Q1]. + split; [apply wrap_one; auto|apply Q1'].
    + split; auto. exists s. split; auto. apply axes_wrap; auto.
Qed.
Lemma theory_axes ph ph' sets : Forall2 axes_of ph ph' -> Forall plain ph ->
  (forall x, In x sets -> good_grid (cs_data x) /\ off_origin (cs_data x) /\ good_filter (cs_data x) /\ forall p, In p ph -> sane_phase (cs_data x) p) ->
  exists f0, forall fuel, (f0 <= fuel)%nat -> exists n r, fit_theory fuel ph sets = Ok (map wrap_phase ph, n, r) /\ fit_theory fuel ph' sets = Ok (map wrap_phase ph', n, r).
Proof.
  intros F Q H. assert (Q' : Forall plain ph'). { clear H. induction F as [|p p' ph ph' (s & NS & R) F IH]; constructor. inversion Q; subst. eapply axes_plain; eauto. apply IH. inversion Q; auto. }
  destruct (lats ph Q) as (phd & L & E), (lats ph' Q') as (phd' & L' & E').
  destruct (sets_same phd phd' sets) as (f1 & A).
  { intros x I. destruct (H x I) as (G & O & _ & SN). apply (adds_pdf (cs_data x) G). apply (entries_axes (cs_data x) G O ph ph'); auto. }
  destruct (fit_theory_ok ph) with (sets := sets) as (f2 & B). { eapply Forall_impl; [|exact Q]. intros p Hp. apply Hp. } { apply Forall_forall. intros x I. split; apply H; auto. }
  exists (Nat.max f1 f2). intros fuel Hf. destruct (B fuel ltac:(lia)) as (ph1 & n & r & D & _). pose proof D as D0. unfold fit_theory in D. rewrite E in D. cbn [obind app] in D.
  assert (PH : ph1 = map wrap_phase ph). { destruct (ofold _ sets _); try discriminate. cbn [obind] in D. injection D; auto. } subst ph1.
  exists n, r. split; auto. unfold fit_theory. rewrite E'. cbn [obind app]. rewrite A by lia.
  destruct (ofold _ sets _); try discriminate. cbn [obind] in *. injection D as <- <-. auto.
Qed.
Lemma rename_theory s ph sets : naming s -> Forall plain ph ->
  (forall x, In x sets -> good_grid (cs_data x) /\ off_origin (cs_data x) /\ good_filter (cs_data x) /\ forall p, In p ph -> sane_phase (cs_data x) p) ->
  exists f0, forall fuel, (f0 <= fuel)%nat -> exists n r, fit_theory fuel ph sets = Ok (map wrap_phase ph, n, r) /\ fit_theory fuel (map (rename s) ph) sets = Ok (map wrap_phase (map (rename s) ph), n, r).
Proof.
  intros NS. apply theory_axes. induction ph; constructor; auto. exists s. split; auto. apply rename_renamed; auto.
Qed.
