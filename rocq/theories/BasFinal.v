(** Proofs: other basis vectors give the same PDF. *)
From Coq Require Import List Arith ZArith Reals Bool Lia Lra Permutation.
From Verif Require Import Base RSum MathModel MetricModel MetricSpec MetricProof SphereModel SphereSpec SphereProof PdfModel PdfSpec PdfProof PdfGeo PdfSum PdfPeak PdfPhase PdfFft PdfTotal PdfFinal RelSpec RelProof RelFinal RelTheory RelAll SupSpec SupProof SupFinal AxSpec AxProof AxFinal BasSpec BasProof.
Import ListNotations.
Local Open Scope R_scope.

Section Det.
Variable d : cdata.
Hypothesis G : good_grid d.
Hypothesis O : off_origin d.
Lemma basis_adds e e' : good_entry d e -> good_entry d e' -> complete e -> complete e' -> other_basis e e' -> adds_same d e e'.
Proof.
  intros GE GE' C C' ((m & n & v & z & RB) & FL). destruct (adds d G O e GE) as (W & f0 & V & (P & _) & PV & A), (adds d G O e' GE') as (W' & f0' & V' & (P' & _) & PV' & A').
  set (lo := idx d (calc_lo d)) in *. set (hi := idx d (calc_hi d)) in *.
  assert (VV : forall g, (lo <= g <= hi)%Z -> V' g = V g).
  { intros g Hg. specialize (PV g Hg). specialize (PV' g Hg). eapply (ba_pdf d e e' m n v z g); eauto. }
  exists (Nat.max f0 f0'). intros fuel t Hf L. destruct (A fuel t ltac:(lia) L) as (t1 & E1 & L1 & X1), (A' fuel t ltac:(lia) L) as (t2 & E2 & L2 & X2).
  exists t1. split; auto. split; auto. fold lo hi in E2 |- *. rewrite E2. f_equal. apply (el_ext d); auto. intros g Hg. fold lo hi in X1, X2. rewrite X1, X2 by auto. destruct (Z.ltb_spec g lo); auto. rewrite VV by lia.
  destruct (ba_fields e e' m n v z RB) as (_ & _ & -> & _). reflexivity.
Qed.
End Det.
Lemma basis_same d psel psel' : good_grid d -> off_origin d -> good_filter d -> ready d psel -> ready d psel' -> all_complete psel -> all_complete psel' ->
  Forall2 (opt_rel other_basis) psel psel' -> same_pdf d psel psel'.
Proof.
  intros G O F R R' C C' P. apply same_of; auto. apply adds_pdf; auto. clear F. induction P as [|[e|] [e'|] l l' A P IH]; constructor; cbn in A |- *; auto; try contradiction.
  - apply basis_adds; auto; [apply R|apply R'|apply C|apply C']; cbn; auto.
  - apply IH; intros x I; [apply R|apply R'|apply C|apply C']; cbn; auto.
Qed.

(** ** what carries over *)
Definition blank q := mkEnt q (mkDer (mkLat 0 (fun _ => 0) (fun _ => 0) (fun _ _ => 0) (fun _ _ => 0)) 0 None) (fun _ => false) (fun _ => false).
Lemma basis_sane m n v z p p' d : rebased m n v z p p' ->
  proper_cell (cp_a0 p' 0%nat) (cp_a0 p' 1%nat) (cp_a0 p' 2%nat) (cp_win p' 0%nat) (cp_win p' 1%nat) (cp_win p' 2%nat) -> no_tiny (metric (cp_a0 p') (cp_win p')) ->
  sane_phase d p -> sane_phase d p'.
Proof.
  intros RB PC NT (_ & _ & I & OC & MN & SF & U & SR). set (e := blank p). set (e' := blank p').
  pose proof (ba_occ e e' m n v z RB) as X1. pose proof (ba_mean d e e' m n v z RB) as X2. pose proof (ba_n e e' m n v z RB) as X3. pose proof (ba_atom e e' m n v z RB) as X4. pose proof (ba_icc e e' m n v z RB) as X5. cbn [e e' blank en_ph] in *.
  split; auto. split; auto. split. { intros k. rewrite (proj1 (X5 k)). lia. }
  split. rewrite X1; auto. split. rewrite X2; auto. split; [|split].
  - rewrite X3. rewrite (rsum_ext _ _ (fun i => at_sf (atom_no p i) (cd_type d))); auto. intros i Hi. destruct (X4 i Hi) as (_ & -> & _). auto.
  - rewrite X3. intros i j h Hi Hj.
    assert (Y : msd p' (atom_no p' i) (atom_no p' j) h = msd p (atom_no p i) (atom_no p j) (mr m h)).
    { apply (ba_msd e e' m n v z RB (atom_no p i) (atom_no p j) (atom_no p' i) (atom_no p' j) (z i) (z j) (mr m h) h); auto. intros k Hk. symmetry. apply mr_mr; auto. apply RB. }
    rewrite Y. auto.
  - destruct (ba_fields e e' m n v z RB) as (_ & _ & _ & _ & _ & E & _). cbn [e e' blank en_ph] in E. rewrite E. auto.
Qed.
Lemma basis_wrap m n v z p p' : rebased m n v z p p' -> exists z', rebased m n v z' (wrap_phase p) (wrap_phase p').
Proof.
  intros RB. pose proof (ba_icc (blank p) (blank p') m n v z RB) as IC. cbn [blank en_ph] in IC. destruct RB as (MN & NM & I & E & MT & N & A).
  set (w := fun q i => (fl (at_pos (atom_no q i) 0%nat), fl (at_pos (atom_no q i) 1%nat), fl (at_pos (atom_no q i) 2%nat)) : trip).
  assert (WC : forall q i j, (j < 3)%nat -> comp (w q i) j = fl (at_pos (atom_no q i) j)). { intros q i j Hj. destruct j as [|[|[|j]]]; [| | |lia]; reflexivity. }
  exists (fun i => (fun c : trip => (comp (z i) 0 + comp c 0 - comp (w p' i) 0, comp (z i) 1 + comp c 1 - comp (w p' i) 1, comp (z i) 2 + comp c 2 - comp (w p' i) 2)%Z) (mz n (w p i))).
  split; auto. split; auto. split. exact I. split.
  { rewrite E at 1. unfold wrap_phase at 1, recut. cbn [cp_a0 cp_win cp_icc cp_atoms cp_delta2 cp_delta1 cp_pscale cp_spd cp_stepcut cp_sratio cp_rcut wrap_phase]. assert (CI : cp_icc p' = cp_icc p) by (rewrite E; reflexivity). rewrite CI. reflexivity. }
  split. exact MT. split. { rewrite !wrap_natoms. auto. }
  rewrite wrap_natoms. intros i Hi. destruct (A i Hi) as (B1 & B2 & B3 & B4). rewrite !wrap_no by lia.
  split. exact B1. split. exact B2. split; [|exact B4]. intros j Hj. cbn [at_pos].
  rewrite (proj1 (IC j)), fmod_fl, (B3 j Hj).
  match goal with |- _ = _ + IZR (comp (?a, ?b, ?c) j) => replace (comp (a, b, c) j) with (comp (z i) j + comp (mz n (w p i)) j - comp (w p' i) j)%Z by (destruct j as [|[|[|j]]]; [| | |lia]; reflexivity) end.
  rewrite minus_IZR, plus_IZR, mz_mr, WC by auto. unfold mr. cbn [at_pos]. rewrite (proj2 (IC 0%nat)), (proj2 (IC 1%nat)), (proj2 (IC 2%nat)), !fmod_fl, !WC by lia. rewrite (B3 j Hj). unfold mr. ring.
Qed.
Lemma entries_basis d (G : good_grid d) (O : off_origin d) : forall ph ph', Forall2 basis_of ph ph' -> forall phd phd' sel, Forall2 lat_of ph phd -> Forall2 lat_of ph' phd' -> Forall plain ph -> Forall plain ph' ->
  (forall p, In p ph \/ In p ph' -> sane_phase d p) -> Forall2 (opt_rel (adds_same d)) (entries phd sel) (entries phd' sel).
Proof.
  intros ph ph' F. induction F as [|p p' ph ph' (m & n & v & z & R) F IH]; intros phd phd' sel L L' Q Q' SN; inversion L as [|? [q de] ? phd1 (L1 & L2) L3]; subst; inversion L' as [|? [q' de'] ? phd1' (L1' & L2') L3']; subst.
  - constructor.
  - cbn [fst snd] in *. subst q q'. inversion Q as [|? ? Q1 Q2]; subst. inversion Q' as [|? ? Q1' Q2']; subst. destruct sel as [|x sel]; cbn [entries]; constructor; [|apply IH; auto; intros y [Y|Y]; apply SN; cbn; auto].
    destruct x as [[gi gj]|]; cbn; auto. destruct (basis_wrap m n v z p p' R) as (z' & R').
    apply basis_adds; auto.
    + split; [exact L2|apply wrap_sane, SN; cbn; auto]. + split; [exact L2'|apply wrap_sane, SN; cbn; auto].
    + split; [apply wrap_one; auto|apply Q1]. + split; [apply wrap_one; auto|apply Q1'].
    + split; auto. exists m, n, v, z'. exact R'.
Qed.
Lemma theory_basis ph ph' sets : Forall2 basis_of ph ph' -> Forall plain ph -> Forall plain ph' ->
  (forall x, In x sets -> good_grid (cs_data x) /\ off_origin (cs_data x) /\ good_filter (cs_data x) /\ forall p, In p ph \/ In p ph' -> sane_phase (cs_data x) p) ->
  exists f0, forall fuel, (f0 <= fuel)%nat -> exists n r, fit_theory fuel ph sets = Ok (map wrap_phase ph, n, r) /\ fit_theory fuel ph' sets = Ok (map wrap_phase ph', n, r).
Proof.
  intros F Q Q' H.
  destruct (lats ph Q) as (phd & L & E), (lats ph' Q') as (phd' & L' & E').
  destruct (sets_same phd phd' sets) as (f1 & A).
  { intros x I. destruct (H x I) as (G & O & _ & SN). apply (adds_pdf (cs_data x) G). apply (entries_basis (cs_data x) G O ph ph'); auto. }
  destruct (fit_theory_ok ph) with (sets := sets) as (f2 & B). { eapply Forall_impl; [|exact Q]. intros p Hp. apply Hp. } { apply Forall_forall. intros x I. split; apply H; auto. }
  exists (Nat.max f1 f2). intros fuel Hf. destruct (B fuel ltac:(lia)) as (ph1 & n & r & D & _). pose proof D as D0. unfold fit_theory in D. rewrite E in D. cbn [obind app] in D.
  assert (PH : ph1 = map wrap_phase ph). { destruct (ofold _ sets _); try discriminate. cbn [obind] in D. injection D; auto. } subst ph1.
  exists n, r. split; auto. unfold fit_theory. rewrite E'. cbn [obind app]. rewrite A by lia.
  destruct (ofold _ sets _); try discriminate. cbn [obind] in *. injection D as <- <-. auto.
Qed.

(** ** mirror images *)
Lemma image_rebased v p : (forall k, cp_icc p k = 1%Z) -> rebased mirror mirror v (fun _ => (0, 0, 0)%Z) p (image v p).
Proof.
  intros I. assert (IV : inverse mirror mirror). { intros i j Hi Hj. destruct i as [|[|[|i]]], j as [|[|[|j]]]; try lia; reflexivity. }
  assert (N : natoms (image v p) = natoms p) by apply map_length.
  split; auto. split; auto. split; auto. split. reflexivity. split; [|split; auto].
  - intros i j Hi Hj. cbn [image with_atoms cp_a0 cp_win]. unfold scalar, dot33, mirror. destruct i as [|[|[|i]]], j as [|[|[|j]]]; try lia; cbn [Nat.eqb]; ring.
  - intros i Hi. unfold atom_no at 2. cbn [image with_atoms cp_atoms]. set (f a := mkAt (fun j => v j - at_pos a j) (at_u a) (at_occ a) (at_sf a)).
    rewrite (nth_indep _ no_atom (f no_atom)) by (rewrite map_length; auto). rewrite (map_nth f). fold (atom_no p i). split. reflexivity. split. reflexivity. split.
    + intros j Hj. unfold f. cbn [at_pos]. unfold mr, mirror. destruct j as [|[|[|j]]]; try lia; cbn [Nat.eqb comp]; ring.
    + intros k j Hk Hj. change (tensor (image v p) (f (atom_no p i))) with (tensor p (atom_no p i)). unfold dot33, mirror. destruct k as [|[|[|k]]], j as [|[|[|j]]]; try lia; cbn [Nat.eqb]; ring.
Qed.
Lemma image_lattice v p de : phase_lattice p = Ok de -> exists de', phase_lattice (image v p) = Ok de'.
Proof.
  unfold phase_lattice. cbn [image with_atoms cp_a0 cp_win cp_icc cp_atoms]. rewrite !lattice_spec. destruct (Rle_dec _ _). discriminate. intros _. eexists. reflexivity.
Qed.
Lemma image_one v p : one_cell p -> one_cell (image v p).
Proof.
  intros H i j k Hi Hj Hk. assert (N : natoms (image v p) = natoms p) by apply map_length. rewrite N in *. unfold atom_no. cbn [image with_atoms cp_atoms].
  set (f a := mkAt (fun j => v j - at_pos a j) (at_u a) (at_occ a) (at_sf a)). rewrite !(nth_indep _ no_atom (f no_atom)) by (rewrite map_length; auto). rewrite !(map_nth f). unfold f. cbn [at_pos].
  replace (_ - _) with (at_pos (atom_no p j) k - at_pos (atom_no p i) k) by (unfold atom_no; ring). auto.
Qed.
Lemma image_same d v p de gi gj : good_grid d -> off_origin d -> good_filter d -> (forall k, cp_icc p k = 1%Z) ->
  sane_phase d p -> phase_lattice p = Ok de -> one_cell p -> cp_stepcut p <= 0 ->
  exists de', phase_lattice (image v p) = Ok de' /\ same_pdf d [Some (mkEnt p de gi gj)] [Some (mkEnt (image v p) de' gi gj)].
Proof.
  intros G O F I SP L OC ST. pose proof (image_rebased v p I) as R. destruct (image_lattice v p de L) as (de' & L'). exists de'. split; auto. apply basis_same; auto.
  - apply ready1. split; auto.
  - apply ready1. split; [exact L'|]. eapply basis_sane; eauto. apply SP. apply SP.
  - apply complete1. split; auto.
  - apply complete1. split; [|exact ST]. apply image_one; auto.
  - apply rel1. split; [|auto]. exists mirror, mirror, v, (fun _ => (0, 0, 0)%Z). exact R.
Qed.
