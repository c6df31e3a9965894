(** Proofs: units of scattering factors and occupancies. *)
From Coq Require Import List Arith ZArith Reals Bool Ascii Lia Lra Permutation.
From Verif Require Import Base RSum MathModel MetricModel MetricSpec MetricProof SphereModel SphereSpec SphereProof PdfModel PdfSpec PdfProof PdfGeo PdfSum PdfPeak PdfPhase PdfFft PdfTotal PdfFinal RelSpec RelProof RelFinal RelTheory RelAll AxFinal UniSpec.
Import ListNotations.
Local Open Scope R_scope.

Section Units.
Variables (k : R) (c : ascii -> R) (d : cdata) (p : cphase).
Hypothesis (K : k <> 0) (CT : forall t, c t <> 0).
Let p' := in_units k c p.
Lemma un_n : natoms p' = natoms p. Proof. apply map_length. Qed.
Lemma un_no i : (i < natoms p)%nat -> atom_no p' i = unit_atom k c (atom_no p i).
Proof. intros H. unfold atom_no at 1. cbn [p' in_units cp_atoms]. rewrite (nth_indep _ no_atom (unit_atom k c no_atom)) by (rewrite map_length; auto). rewrite (map_nth (unit_atom k c)). reflexivity. Qed.
Lemma un_occ : occ_sum p' = k * occ_sum p.
Proof. unfold occ_sum. rewrite un_n, <- rsum_scal. apply rsum_ext. intros i Hi. rewrite un_no by auto. reflexivity. Qed.
Lemma un_mean : occ_sum p <> 0 -> mean_sf d p' = c (cd_type d) * mean_sf d p.
Proof.
  intros O. unfold mean_sf. rewrite un_occ, un_n. rewrite (rsum_ext _ _ (fun i => k * c (cd_type d) * (at_occ (atom_no p i) * at_sf (atom_no p i) (cd_type d)))).
  rewrite rsum_scal. field. auto. intros i Hi. rewrite un_no by auto. cbn [unit_atom at_occ at_sf]. ring.
Qed.
Hypothesis SN : sane_phase d p.
Lemma un_weight i : (i < natoms p)%nat -> weight_no d p' i = weight_no d p i.
Proof.
  intros Hi. destruct SN as (_ & _ & _ & O & M & _). unfold weight_no. rewrite un_mean, un_no by auto. cbn [unit_atom at_sf]. pose proof (CT (cd_type d)). field. auto.
Qed.
Lemma un_share gi gj : counted_share d p' gi gj = counted_share d p gi gj.
Proof.
  unfold counted_share. rewrite un_n. rewrite (rsum_ext _ (weight_no d p') (weight_no d p)) by (intros; apply un_weight; auto). f_equal.
  apply rsum_ext. intros i Hi. apply rsum_ext. intros j Hj. rewrite !un_weight; auto.
Qed.
Lemma un_sane : sane_phase d p'.
Proof.
  destruct SN as (A & B & C & O & M & S & U & T). split; [exact A|]. split; [exact B|]. split; [exact C|].
  split. rewrite un_occ. apply Rmult_integral_contrapositive; auto. split. rewrite un_mean by auto. apply Rmult_integral_contrapositive; auto.
  split; [|split; [|exact T]].
  - rewrite un_n. rewrite (rsum_ext _ _ (fun i => c (cd_type d) * at_sf (atom_no p i) (cd_type d))). rewrite rsum_scal. apply Rmult_integral_contrapositive; auto. intros i Hi. rewrite un_no by auto. reflexivity.
  - rewrite un_n. intros i j h Hi Hj. rewrite !un_no by auto. exact (U i j h Hi Hj).
Qed.
Variables (e e' : centry) (g : Z) (W W' : list pairT).
Hypothesis (E : en_ph e = p) (E' : en_ph e' = p').
Hypothesis FL : forall i, (i < natoms p)%nat -> en_igni e' i = en_igni e i /\ en_ignj e' i = en_ignj e i.
Hypothesis (C : complete e) (C' : complete e') (PL : pair_list d e W) (PL' : pair_list d e' W').
Lemma un_counted i j : (i < natoms p)%nat -> (j < natoms p)%nat -> counted (en_igni e') (en_ignj e') i j = counted (en_igni e) (en_ignj e) i j.
Proof. intros Hi Hj. unfold counted. destruct (FL i Hi) as (-> & ->), (FL j Hj) as (-> & ->). auto. Qed.
Lemma un_pair x : is_pair d e' x <-> is_pair d e x.
Proof.
  destruct x as [[i j] t]. unfold is_pair. rewrite E, E', un_n. split; intros (Hi & Hj & H); split; auto; split; auto; revert H; rewrite un_counted, !un_no by auto; auto.
Qed.
Lemma un_value x : is_pair d e x -> value d e' g x = k * k * value d e g x.
Proof.
  destruct x as [[i j] t]. intros (Hi & Hj & _). rewrite E in Hi, Hj. unfold value. rewrite E, E'. rewrite !un_weight, !un_no by auto.
  change (contributes d p' (unit_atom k c (atom_no p i)) (unit_atom k c (atom_no p j)) t g) with (contributes d p (atom_no p i) (atom_no p j) t g).
  change (pair_height d p' (unit_atom k c (atom_no p i)) (unit_atom k c (atom_no p j)) t g) with (pair_height d p (atom_no p i) (atom_no p j) t g).
  cbn [unit_atom at_occ]. destruct (contributes_dec d p' _ _ _ _) as [X|X], (contributes_dec d p _ _ _ _) as [Y|Y]; try ring; exfalso.
  apply Y. exact X. apply X. exact Y.
Qed.
Lemma un_sums : lsum (value d e' g) W' = k * k * lsum (value d e g) W.
Proof.
  pose proof (all_pairs d e W C PL) as A. pose proof (all_pairs d e' W' C' PL') as A'.
  transitivity (lsum (value d e' g) W).
  - apply RelProof.lsum_perm. apply NoDup_Permutation. apply PL'. apply PL. intros x. rewrite A, A'. apply un_pair.
  - rewrite <- lsum_scal. apply lsum_ext. intros x H. apply un_value. apply A; auto.
Qed.
Lemma un_pdf V V' : phase_pdf d e W g V -> phase_pdf d e' W' g V' -> V' = k * V.
Proof.
  intros (x & S & ->) (x' & S' & ->). apply radial_value in S. apply radial_value in S'. rewrite E, E' in *. rewrite S, S', un_sums.
  assert (SH : counted_share d p' (en_igni e') (en_ignj e') = counted_share d p (en_igni e) (en_ignj e)).
  { rewrite un_share. unfold counted_share. f_equal. apply rsum_ext. intros i Hi. apply rsum_ext. intros j Hj. rewrite un_counted by auto. reflexivity. }
  rewrite SH. change (envelope d p') with (envelope d p). unfold density. rewrite un_occ. change (det33 (metric (cp_a0 p') (cp_win p'))) with (det33 (metric (cp_a0 p) (cp_win p))). cbn [p' in_units cp_icc].
  unfold Rdiv. rewrite !Rinv_mult. generalize (/ occ_sum p) (/ grid d g). intros io ir. generalize (/ IZR (cp_icc p 0 * cp_icc p 1 * cp_icc p 2)). intros iv. generalize (/ sqrt (det33 (metric (cp_a0 p) (cp_win p)))). intros iq. field. auto.
Qed.
End Units.

Lemma units_adds d e e' : good_grid d -> off_origin d -> good_entry d e -> good_entry d e' -> complete e -> complete e' -> other_units e e' -> adds_same d e e'.
Proof.
  intros G O GE GE' C C' ((k & c & K & CT & E') & FL). destruct (adds d G O e GE) as (W & f0 & V & (P & _) & PV & A), (adds d G O e' GE') as (W' & f0' & V' & (P' & _) & PV' & A').
  set (lo := idx d (calc_lo d)) in *. set (hi := idx d (calc_hi d)) in *.
  assert (VV : forall g, (lo <= g <= hi)%Z -> V' g = k * V g).
  { intros g Hg. specialize (PV g Hg). specialize (PV' g Hg). eapply (un_pdf k c d (en_ph e)); eauto. apply GE. }
  exists (Nat.max f0 f0'). intros fuel t Hf L. destruct (A fuel t ltac:(lia) L) as (t1 & E1 & L1 & X1), (A' fuel t ltac:(lia) L) as (t2 & E2 & L2 & X2).
  exists t1. split; auto. split; auto. fold lo hi in E2 |- *. rewrite E2. f_equal. apply (el_ext d); auto. intros g Hg. fold lo hi in X1, X2. rewrite X1, X2 by auto. destruct (Z.ltb_spec g lo); auto. rewrite VV by lia.
  rewrite E'. cbn [in_units cp_pscale]. replace (cd_dscale d * (cp_pscale (en_ph e) / k) * (k * V g)) with (cd_dscale d * cp_pscale (en_ph e) * V g) by (field; auto). reflexivity.
Qed.
Lemma units_pdf d psel psel' : good_grid d -> off_origin d -> good_filter d -> ready d psel -> ready d psel' -> all_complete psel -> all_complete psel' ->
  Forall2 (opt_rel other_units) psel psel' -> same_pdf d psel psel'.
Proof.
  intros G O F R R' C C' P. apply same_of; auto. apply adds_pdf; auto. clear F. induction P as [|[e|] [e'|] l l' A P IH]; constructor; cbn in A |- *; auto; try contradiction.
  - apply units_adds; auto; [apply R|apply R'|apply C|apply C']; cbn; auto.
  - apply IH; intros x I; [apply R|apply R'|apply C|apply C']; cbn; auto.
Qed.
Lemma units_lattice k c p : (exists de, phase_lattice p = Ok de) -> exists de, phase_lattice (in_units k c p) = Ok de.
Proof. intros (de & H). revert H. unfold phase_lattice. cbn [in_units cp_a0 cp_win cp_icc cp_atoms]. rewrite !lattice_spec. destruct (Rle_dec _ _). discriminate. intros _. eexists. reflexivity. Qed.
Lemma units_one k c p : one_cell p -> one_cell (in_units k c p).
Proof. intros H i j l Hi Hj Hl. rewrite un_n in *. rewrite !un_no by auto. apply (H i j l); auto. Qed.
Lemma units_plain k c p : plain p -> plain (in_units k c p).
Proof.
  intros (I & ST & P & (L & A & B & S)). split; [exact I|]. split; [exact ST|]. split. intros i l Hi Hl. rewrite un_n in Hi. rewrite un_no by auto. apply P; auto.
  split. apply units_lattice; auto. split; auto.
Qed.
Lemma units_same d k c p de gi gj : good_grid d -> off_origin d -> good_filter d -> k <> 0 -> (forall t, c t <> 0) ->
  sane_phase d p -> phase_lattice p = Ok de -> one_cell p -> cp_stepcut p <= 0 ->
  exists de', phase_lattice (in_units k c p) = Ok de' /\ same_pdf d [Some (mkEnt p de gi gj)] [Some (mkEnt (in_units k c p) de' gi gj)].
Proof.
  intros G O F K CT SP L OC ST. destruct (units_lattice k c p (ex_intro _ de L)) as (de' & L'). exists de'. split; auto. apply units_pdf; auto.
  - apply ready1. split; auto.
  - apply ready1. split; [exact L'|]. apply un_sane; auto.
  - apply complete1. split; auto.
  - apply complete1. split; [|exact ST]. apply units_one; auto.
  - apply rel1. split; [|auto]. exists k, c. auto.
Qed.
Lemma wrap_units k c p : wrap_phase (in_units k c p) = in_units k c (wrap_phase p).
Proof. unfold wrap_phase, in_units. cbn [cp_a0 cp_win cp_icc cp_atoms cp_delta2 cp_delta1 cp_pscale cp_spd cp_stepcut cp_sratio cp_rcut]. f_equal. rewrite !map_map. apply map_ext. reflexivity. Qed.
Lemma entries_units d (G : good_grid d) (O : off_origin d) : forall ph ph', Forall2 units_of ph ph' -> forall phd phd' sel, Forall2 lat_of ph phd -> Forall2 lat_of ph' phd' -> Forall plain ph ->
  (forall p, In p ph -> sane_phase d p) -> Forall2 (opt_rel (adds_same d)) (entries phd sel) (entries phd' sel).
Proof.
  intros ph ph' F. induction F as [|p p' ph ph' (k & c & K & CT & ->) F IH]; intros phd phd' sel L L' Q SN; inversion L as [|? [q de] ? phd1 (L1 & L2) L3]; subst; inversion L' as [|? [q' de'] ? phd1' (L1' & L2') L3']; subst.
  - constructor.
  - cbn [fst snd] in *. subst q q'. inversion Q as [|? ? Q1 Q2]; subst. destruct sel as [|x sel]; cbn [entries]; constructor; [|apply IH; auto; intros; apply SN; right; auto].
    destruct x as [[gi gj]|]; cbn; auto. pose proof (SN p (or_introl eq_refl)) as SP. pose proof (units_plain k c p Q1) as Q1'.
    apply units_adds; auto.
    + split; [exact L2|apply wrap_sane; auto]. + split; [exact L2'|apply wrap_sane; apply un_sane; auto].
    + split; [apply wrap_one; auto|apply Q1]. + split; [apply wrap_one; auto|apply Q1'].
    + split; auto. exists k, c. split; auto. split; auto. apply wrap_units.
Qed.
Lemma theory_units ph ph' sets : Forall2 units_of ph ph' -> Forall plain ph ->
  (forall x, In x sets -> good_grid (cs_data x) /\ off_origin (cs_data x) /\ good_filter (cs_data x) /\ forall p, In p ph -> sane_phase (cs_data x) p) ->
  exists f0, forall fuel, (f0 <= fuel)%nat -> exists n r, fit_theory fuel ph sets = Ok (map wrap_phase ph, n, r) /\ fit_theory fuel ph' sets = Ok (map wrap_phase ph', n, r).
Proof.
  intros F Q H. assert (Q' : Forall plain ph'). { clear H. induction F as [|p p' ph ph' (k & c & K & CT & ->) F IH]; constructor. inversion Q; subst. apply units_plain; auto. apply IH. inversion Q; auto. }
  destruct (lats ph Q) as (phd & L & E), (lats ph' Q') as (phd' & L' & E').
  destruct (sets_same phd phd' sets) as (f1 & A).
  { intros x I. destruct (H x I) as (G & O & _ & SN). apply (adds_pdf (cs_data x) G). apply (entries_units (cs_data x) G O ph ph'); auto. }
  destruct (fit_theory_ok ph) with (sets := sets) as (f2 & B). { eapply Forall_impl; [|exact Q]. intros p Hp. apply Hp. } { apply Forall_forall. intros x I. split; apply H; auto. }
  exists (Nat.max f1 f2). intros fuel Hf. destruct (B fuel ltac:(lia)) as (ph1 & n & r & D & _). pose proof D as D0. unfold fit_theory in D. rewrite E in D. cbn [obind app] in D.
  assert (PH : ph1 = map wrap_phase ph). { destruct (ofold _ sets _); try discriminate. cbn [obind] in D. injection D; auto. } subst ph1.
  exists n, r. split; auto. unfold fit_theory. rewrite E'. cbn [obind app]. rewrite A by lia.
  destruct (ofold _ sets _); try discriminate. cbn [obind] in *. injection D as <- <-. auto.
Qed.
