(** Cases in which a column is not the derivative. *)
From Coq Require Import List Arith ZArith Reals Bool Lia Lra Psatz Ascii.
From Verif Require Import Base RSum MathModel ParserDeriv MathProof MetricModel MetricSpec MetricProof SphereModel SphereSpec SphereProof PdfModel PdfSpec PdfProof PdfGeo PdfSum PdfPeak PdfPhase PdfFft PdfTotal PdfSafe PdfEx PdfFinal LayoutModel LayoutSpec LayoutProof DerivModel DerivSpec DerivRow DerivPair DerivCalc DerivPeak DerivGeo DerivSetup DerivPhase DerivOps DerivOne DerivSets DerivFinal DerivWit.
Import ListNotations.
Local Open Scope R_scope.

(** *** an angle of 120 degrees: the derivative with respect to u11 *)
Lemma oblique_wrong : exists de, phase_lattice (row 120 1 [1]) = Ok de /\ column_wrong (AV 0 0 (FU 0)) (rdata 0) [Some (ent (row 120 1 [1]) de)].
Proof.
  assert (HG : 0 < 120 < 180) by lra. assert (HT : cos (PI / 180 * 120) = 0 \/ cos (PI / 180 * 120) = - (1 / 2)) by (right; apply c120).
  assert (HC : - (1 / 2) <= cos (PI / 180 * 120) <= 0) by (rewrite c120; lra). assert (HO : [1] = [1] \/ [1] = [1; 0]) by auto.
  assert (LX : exists de, phase_lattice (row 120 1 [1]) = Ok de) by (apply row_lat; auto). destruct LX as (de & L). exists de. split. exact L.
  set (p := row 120 1 [1]) in *. set (e := ent p de).
  assert (SP : sane_phase (rdata 0) p) by (apply row_sane; auto).
  set (m := row_m 120) in *. set (s := row_s 120 0). set (N0 := row_n 120 0). set (u' := 2 / 3).
  assert (MP : 0 < m) by (apply row_m_pos; auto). assert (S0 : 0 < s) by (apply row_s_pos; auto). assert (NP : 0 < N0) by (apply row_n_pos; auto).
  set (k := slope N0 (3 - 3) s (sqrt m) 1 0 u' 0 0).
  assert (K : k <> 0). { unfold k, slope, wslope, u'. pose proof (sqrt_lt_R0 m MP). replace (_ * _) with (- (N0 / (3 * (sqrt m * sqrt m)))) by (field; lra). rewrite sqrt_sqrt by lra.
    intros Q. apply Ropp_eq_0_compat in Q. rewrite Ropp_involutive in Q. apply Rmult_integral in Q as [Q|Q]. lra. apply (Rinv_neq_0_compat (3 * m)); auto. lra. }
  apply (single_wrong _ _ _ 1 2 (1 / 2) (fun pts => facp (rdata 0) e 2 * (1 / (occ_sum p * grid (rdata 0) 2) * half_sum (rdata 0) e (pts 0%nat) 2 (wk (rdata 0) e (fun _ => k)) - 4 * PI * grid (rdata 0) 2 * 0 * counted_share (rdata 0) p none none))).
  { apply rgrid. } { apply roff. } { apply rfilter. } { cbn; lra. } { exact L. } { exact SP. } { apply row_one; auto. } { cbn; lra. } { reflexivity. } { cbn; repeat split; lia. } { reflexivity. }
  { rewrite ri3, ri4. lia. } { lia. } { intros e' E. injection E as <-. cbn. reflexivity. }
  intros pts PL. split.
  - apply (dterm (rdata 0) 0 e pts 2 (rgrid 0) (roff 0) SP); try reflexivity. rewrite ri3; lia.
    + intros y. apply same_atom; [cbn; lia|discriminate].
    + apply (dens_const e); try reflexivity. intros y. apply same_atom; [cbn; lia|discriminate].
    + intros i j t Hij IW IR CT. cbn [natoms e ent en_ph p row cp_atoms map length] in Hij. assert (i = 0%nat) by lia. assert (j = 0%nat) by lia. subst i j.
      assert (N00 : (0 < natoms p)%nat) by (cbn; lia).
      assert (NX : next t) by (apply (row_next_of 120 1 0 [1]) with (de := de) (i := 0%nat) (j := 0%nat); auto).
      destruct (row_values 120 1 0 [1] HC HT HO 0 0 t N00 N00 NX) as (V1 & V2 & V3 & V4 & V5). fold p in V1, V2, V3, V4, V5. fold m in V2. fold s in V3. fold N0 in V5.
      set (Ph := fun y => change (AV 0 0 (FU 0)) y p). set (Dd := fun y : R => data_with 0 (AV 0 0 (FU 0)) y (rdata 0)).
      assert (PX : Ph (1 / 2) = p). { exact (set_phase_atom_same 0 (FU 0) p). }
      assert (GE : forall y, sep (Ph y) (atom_no (Ph y) 0) (atom_no (Ph y) 0) t = sep p (atom_no p 0) (atom_no p 0) t) by reflexivity.
      assert (LE : forall y h, length_of (Ph y) h = length_of p h) by reflexivity.
      pose proof (dheight Dd Ph (1 / 2) 0 0 t 2 0 u' 0 0) as DH. cbv beta zeta in DH. rewrite PX in DH.
      change (Dd (1 / 2)) with (rdata 0) in DH. rewrite V1, V2, V3, V4, V5, rg2 in DH. apply DH.
      * intros y. exact (rg2 0).
      * exact MP.
      * pose proof (row_wf 120 1 0 [1]) as WF. fold p in WF. rewrite WF. lra.
      * lra.
      * apply (dcst _ 3). intros y. rewrite (GE y), (LE y). exact V1.
      * assert (MY : forall y, msd (Ph y) (atom_no (Ph y) 0) (atom_no (Ph y) 0) (sep (Ph y) (atom_no (Ph y) 0) (atom_no (Ph y) 0) t) = u' * y + 4 / 3).
        { intros y. change (sep (Ph y)) with (sep p). change (msd (Ph y)) with (msd p). rewrite (row_msd_next 120 1 [1] HC HT); auto. rewrite c120. cbn. unfold u'. field. cbn. ring. }
        apply dlim_ext with (f := fun y => u' * y + 4 / 3). { intros y. rewrite (MY y). reflexivity. }
        eapply dl_eq. apply dp. apply dcm. apply did. apply dlim_const. ring.
      * apply (dcst _ (width_factor (rdata 0) p 3)). intros y. rewrite (GE y), (LE y), V1. reflexivity.
      * apply (dcst _ (ph_now p 3)). intros y. rewrite (GE y), (LE y), V1. reflexivity.
  - set (HS := half_sum (rdata 0) e (pts 0%nat) 2 (fun _ => 1)).
    assert (H1 : 1 <= HS). { exact (row_pairs_there 120 1 0 [1] HC HT HO de (pts 0%nat) PL). }
    assert (CW : half_sum (rdata 0) e (pts 0%nat) 2 (wk (rdata 0) e (fun _ => k)) = k * HS).
    { apply half_const. intros i j t Hij _ _. cbn [natoms e ent en_ph p row cp_atoms map length] in Hij. assert (i = 0%nat) by lia. assert (j = 0%nat) by lia. subst i j. unfold wk. assert (B : pbase (rdata 0) e 0 0 = 1 * 1) by (apply (row_base 120 1 0 [1] HO de 0 0); cbn; lia). rewrite B. ring. }
    assert (FP : facp (rdata 0) e 2 = 1) by (apply (row_facp 120 1 0 [1] de)).
    assert (OS : occ_sum p = 1) by (apply row_occ; auto). rewrite CW, FP, rg2, OS. 
    rewrite (half_effect (rdata 0) 0 0 e (pts 0%nat) (AV 0 0 (FU 0)) 2 (fun _ => 0)).
    + rewrite half_zero. rewrite op_times_atom; [|apply rgrid|apply roff|exact L|exact SP|rewrite ri3; lia|cbn; lia|reflexivity|discriminate].
      intros Q. injection Q as Q. apply K. nra.
    + intros i j t Hij IR CT x. assert (Hi : (i < natoms p)%nat /\ (j < natoms p)%nat) by (change (en_ph e) with p in Hij; lia). destruct Hi as [Hi Hj].
      assert (NX : next t) by (apply (row_next_of 120 1 0 [1]) with (de := de) (i := i) (j := j); auto).
      rewrite eff_u; auto; try lia. f_equal. f_equal. f_equal.
      assert (D0 : dd p (atom_no p i) (atom_no p j) t 0%nat * cp_a0 p 0%nat = 0). { destruct (row_no 120 1 [1] HO i Hi) as (o & EI). destruct (row_no 120 1 [1] HO j Hj) as (o' & EJ). fold p in EI, EJ. rewrite EI, EJ. destruct NX as [-> | ->]; cbn; ring. }
      unfold uform. change (en_ph e) with p. rewrite D0. unfold slope, wslope, Rdiv. ring.
Qed.

(** *** right angles: the derivative with respect to an angle *)
Section Angle.
Let p := row 90 1 [1].
Let Ph (y : R) := set_phase_field (FWin 0) y p.
Let ca (y : R) := cos (PI / 180 * y).
Let gy (y : R) := metric (cp_a0 (Ph y)) (cp_win (Ph y)).
Lemma ang_metric y : gy y 0%nat 0%nat = 10000 /\ gy y 1%nat 1%nat = 9 /\ gy y 2%nat 2%nat = 10000 /\ gy y 0%nat 1%nat = 0 /\ gy y 1%nat 0%nat = 0 /\
  gy y 0%nat 2%nat = 0 /\ gy y 2%nat 0%nat = 0 /\ gy y 1%nat 2%nat = 300 * ca y /\ gy y 2%nat 1%nat = 300 * ca y.
Proof.
  unfold gy, metric, cell_cos, ca, set_v3. cbn [Ph p row set_phase_field cp_a0 cp_win]. unfold set_v3. cbn [vec3 Nat.eqb Nat.add]. rewrite c90. repeat split; ring.
Qed.
Lemma ang_det y : det33 (gy y) = 900000000 * (1 - ca y * ca y).
Proof. pose proof (ang_metric y) as (E0 & E1 & E2 & E3 & E4 & E5 & E6 & E7 & E8). unfold det33. rewrite E0, E1, E2, E3, E4, E5, E6, E7, E8. ring. Qed.
Lemma ang_len y a b t : (forall k, at_pos a k = 0) -> (forall k, at_pos b k = 0) -> next t -> length_of (Ph y) (sep (Ph y) a b t) = 3.
Proof.
  intros PA PB NX. pose proof (ang_metric y) as (E0 & E1 & E2 & E3 & E4 & E5 & E6 & E7 & E8).
  unfold length_of, dot33. fold (gy y). rewrite E0, E1, E2, E3, E4, E5, E6, E7, E8. transitivity (sqrt (3 * 3)); [|apply sqrt_square; lra]. f_equal.
  destruct NX as [-> | ->]; unfold sep; rewrite !PA, !PB; cbn [vec3]; unfold vec3; cbn [Ph p row set_phase_field cp_icc]; ring.
Qed.
Lemma ang_msd y t : ca y * ca y < 1 -> next t -> msd (Ph y) (rowat 1) (rowat 1) (sep (Ph y) (rowat 1) (rowat 1) t) = (1 + ca y * ca y + ca y) / (1 - ca y * ca y).
Proof.
  intros C NX. pose proof (ang_metric y) as (E0 & E1 & E2 & E3 & E4 & E5 & E6 & E7 & E8).
  set (w := sqrt (1 - ca y * ca y)). assert (W : 0 < w) by (apply sqrt_lt_R0; lra). assert (WW : w * w = 1 - ca y * ca y) by (apply sqrt_sqrt; lra).
  assert (R1 : sqrt (rmetric (cp_a0 (Ph y)) (cp_win (Ph y)) 1 1) = 1 / (3 * w)).
  { transitivity (sqrt (1 / (3 * w) * (1 / (3 * w)))). f_equal. unfold rmetric. cbv zeta. fold (gy y). rewrite ang_det. cbn [Nat.add Nat.modulo Nat.divmod fst snd Nat.sub]. rewrite E0, E2, E5, E6, <- WW. field. lra.
    apply sqrt_square. apply Rlt_le, Rdiv_lt_0_compat; lra. }
  assert (R2 : sqrt (rmetric (cp_a0 (Ph y)) (cp_win (Ph y)) 2 2) = 1 / (100 * w)).
  { transitivity (sqrt (1 / (100 * w) * (1 / (100 * w)))). f_equal. unfold rmetric. cbv zeta. fold (gy y). rewrite ang_det. cbn [Nat.add Nat.modulo Nat.divmod fst snd Nat.sub]. rewrite E0, E1, E3, E4, <- WW. field. lra.
    apply sqrt_square. apply Rlt_le, Rdiv_lt_0_compat; lra. }
  assert (H0 : sep (Ph y) (rowat 1) (rowat 1) t 0%nat = 0) by (destruct NX as [-> | ->]; cbn; ring).
  assert (H2 : sep (Ph y) (rowat 1) (rowat 1) t 2%nat = 0) by (destruct NX as [-> | ->]; cbn; ring).
  assert (H1 : sep (Ph y) (rowat 1) (rowat 1) t 1%nat * sep (Ph y) (rowat 1) (rowat 1) t 1%nat = 1) by (destruct NX as [-> | ->]; cbn; ring).
  unfold msd. cbv zeta. fold (gy y). rewrite (ang_len y) by auto. rewrite H0, H2, E0, E1, E2, E3, E4, E5, E6, E7, E8, R1, R2. set (h := sep (Ph y) (rowat 1) (rowat 1) t 1%nat) in *.
  cbn [rowat at_u rowu]. rewrite <- WW. set (s0 := sqrt _). set (c := ca y).
  transitivity ((1 + c * c + c) * (h * h) / (w * w)). field. lra. rewrite H1. field. lra.
Qed.
Lemma ang_wrong : exists de, phase_lattice p = Ok de /\ column_wrong (PV 0 (FWin 0)) (rdata 0) [Some (ent p de)].
Proof.
  assert (HG : 0 < 90 < 180) by lra. assert (HT : cos (PI / 180 * 90) = 0 \/ cos (PI / 180 * 90) = - (1 / 2)) by (left; apply c90).
  assert (HC : - (1 / 2) <= cos (PI / 180 * 90) <= 0) by (rewrite c90; lra). assert (HO : [1] = [1] \/ [1] = [1; 0]) by auto.
  assert (LX : exists de, phase_lattice (row 90 1 [1]) = Ok de) by (apply row_lat; auto). destruct LX as (de & L). exists de. split. exact L.
  set (e := ent p de).
  assert (SP : sane_phase (rdata 0) p) by (apply row_sane; auto).
  set (m := row_m 90) in *. set (s := row_s 90 0). set (N0 := row_n 90 0). set (u' := - (PI / 180)).
  assert (MP : 0 < m) by (apply row_m_pos; auto). assert (S0 : 0 < s) by (apply row_s_pos; auto). assert (NP : 0 < N0) by (apply row_n_pos; auto).
  set (k := slope N0 (3 - 3) s (sqrt m) 1 0 u' 0 0).
  assert (K : 0 < k). { unfold k, slope, wslope, u'. pose proof (sqrt_lt_R0 m MP). pose proof PI_RGT_0. replace (_ * _) with (N0 * PI * / 360 * / (sqrt m * sqrt m)) by (field; lra). rewrite sqrt_sqrt by lra.
    pose proof (Rinv_0_lt_compat m MP). assert (0 < N0 * PI) by (apply Rmult_lt_0_compat; auto). apply Rmult_lt_0_compat; auto. lra. }
  assert (C0 : ca 90 = 0) by apply c90.
  assert (DC : dl ca 90 (- (PI / 180))).
  { apply dlim_ext with (f := comp cos (fun y => PI / 180 * y)). reflexivity. eapply dl_eq. apply derivable_pt_lim_comp. apply dcm. apply did. apply derivable_pt_lim_cos.
    replace (PI / 180 * 90) with (PI / 2) by field. rewrite sin_PI2. ring. }
  apply (single_wrong _ _ _ 1 2 90 (fun pts => facp (rdata 0) e 2 * (1 / (occ_sum p * grid (rdata 0) 2) * half_sum (rdata 0) e (pts 0%nat) 2 (wk (rdata 0) e (fun _ => k)) - 4 * PI * grid (rdata 0) 2 * 0 * counted_share (rdata 0) p none none))).
  { apply rgrid. } { apply roff. } { apply rfilter. } { cbn; lra. } { exact L. } { exact SP. } { apply row_one; auto. } { cbn; lra. } { reflexivity. } { cbn; repeat split; lia. } { reflexivity. }
  { rewrite ri3, ri4. lia. } { lia. } { intros e' E. injection E as <-. cbn. reflexivity. }
  intros pts PL. split.
  - apply (dterm (rdata 0) 0 e pts 2 (rgrid 0) (roff 0) SP); try reflexivity. rewrite ri3; lia.
    + intros y. apply same_field.
    + assert (DE : forall y, density (Ph y) = 1 / sqrt (900000000 * (1 - ca y * ca y))).
      { intros y. unfold density. fold (gy y). rewrite ang_det. assert (OC : occ_sum (Ph y) = 1) by (exact (row_occ 90 1 [1] HO)). rewrite OC. cbn [Ph p row set_phase_field cp_icc]. rewrite Z.mul_1_r, Rmult_1_l. reflexivity. }
      apply dlim_ext with (f := fun y => 1 / sqrt (900000000 * (1 - ca y * ca y))). { intros y. symmetry. exact (DE y). }
      eapply dl_eq. apply (ddv (fun _ => 1) (fun y => sqrt (900000000 * (1 - ca y * ca y)))). 3: apply (dsq (fun y => 900000000 * (1 - ca y * ca y))). 4: apply dcm. 4: apply (dmi (fun _ => 1)). 5: apply dm; exact DC.
      2: apply dlim_const. 3: apply dlim_const. all: rewrite C0. apply Rgt_not_eq. apply sqrt_lt_R0. lra. lra.
      assert (0 < sqrt (900000000 * (1 - 0 * 0))) by (apply sqrt_lt_R0; lra). field. lra.
    + intros i j t Hij IW IR CT. cbn [natoms e ent en_ph p row cp_atoms map length] in Hij. assert (i = 0%nat) by lia. assert (j = 0%nat) by lia. subst i j.
      assert (N00 : (0 < natoms p)%nat) by (cbn; lia).
      assert (NX : next t) by (apply (row_next_of 90 1 0 [1]) with (de := de) (i := 0%nat) (j := 0%nat); auto).
      destruct (row_values 90 1 0 [1] HC HT HO 0 0 t N00 N00 NX) as (V1 & V2 & V3 & V4 & V5). fold p in V1, V2, V3, V4, V5. fold m in V2. fold s in V3. fold N0 in V5.
      set (Dd := fun y : R => data_with 0 (PV 0 (FWin 0)) y (rdata 0)).
      assert (PX : Ph 90 = p). { exact (set_phase_same (FWin 0) p). }
      assert (LE : forall y, length_of (Ph y) (sep (Ph y) (atom_no (Ph y) 0) (atom_no (Ph y) 0) t) = 3). { intros y. apply ang_len; auto; intros; reflexivity. }
      pose proof (dheight Dd Ph 90 0 0 t 2 0 u' 0 0) as DH. cbv beta zeta in DH. rewrite PX in DH.
      change (Dd 90) with (rdata 0) in DH. rewrite V1, V2, V3, V4, V5, rg2 in DH. apply DH.
      * intros y. exact (rg2 0).
      * exact MP.
      * pose proof (row_wf 90 1 0 [1]) as WF. fold p in WF. rewrite WF. lra.
      * lra.
      * apply (dcst _ 3). exact LE.
      * apply dl_local with (eps0 := 90) (f := fun y => (1 + ca y * ca y + ca y) / (1 - ca y * ca y)). lra.
        { intros y Hy. symmetry. apply (ang_msd y t); auto. apply Rabs_def2 in Hy. assert (SI : 0 < sin (PI / 180 * y)). { pose proof PI_RGT_0. apply sin_gt_0; nra. }
          pose proof (sin2_cos2 (PI / 180 * y)) as SC. unfold Rsqr in SC. unfold ca. nra. }
        eapply dl_eq. apply (ddv (fun y => 1 + ca y * ca y + ca y) (fun y => 1 - ca y * ca y)). rewrite C0. lra.
        apply dp. apply (dp (fun _ => 1)). apply dlim_const. apply dm; exact DC. exact DC. apply (dmi (fun _ => 1)). apply dlim_const. apply dm; exact DC.
        cbv beta. rewrite C0. unfold u'. field.
      * apply (dcst _ (width_factor (rdata 0) p 3)). intros y. rewrite (LE y). reflexivity.
      * apply (dcst _ (ph_now p 3)). intros y. rewrite (LE y). reflexivity.
  - set (HS := half_sum (rdata 0) e (pts 0%nat) 2 (fun _ => 1)).
    assert (H1 : 1 <= HS). { exact (row_pairs_there 90 1 0 [1] HC HT HO de (pts 0%nat) PL). }
    assert (CW : half_sum (rdata 0) e (pts 0%nat) 2 (wk (rdata 0) e (fun _ => k)) = k * HS).
    { apply half_const. intros i j t Hij _ _. cbn [natoms e ent en_ph p row cp_atoms map length] in Hij. assert (i = 0%nat) by lia. assert (j = 0%nat) by lia. subst i j. unfold wk. assert (B : pbase (rdata 0) e 0 0 = 1 * 1) by (apply (row_base 90 1 0 [1] HO de 0 0); cbn; lia). rewrite B. ring. }
    assert (FP : facp (rdata 0) e 2 = 1) by (apply (row_facp 90 1 0 [1] de)).
    assert (OS : occ_sum p = 1) by (apply row_occ; auto). rewrite CW, FP, rg2, OS.
    rewrite (half_effect (rdata 0) 0 0 e (pts 0%nat) (PV 0 (FWin 0)) 2 (fun _ => 0)).
    + rewrite half_zero. rewrite op_ang; [|apply rgrid|apply roff|exact L|exact SP|rewrite ri3; lia|lia|].
      2:{ apply Rgt_not_eq. apply (v_pos p de L). apply SP. }
      cbv zeta. cbn [e ent en_ph Nat.add Nat.modulo Nat.divmod fst snd Nat.sub]. change (cp_win p) with (vec3 90 90 90). cbn [vec3]. rewrite cosd90. 
      intros Q. injection Q as Q. nra.
    + intros i j t Hij IR CT x. assert (Hi : (i < natoms p)%nat /\ (j < natoms p)%nat) by (change (en_ph e) with p in Hij; lia). destruct Hi as [Hi Hj].
      assert (NX : next t) by (apply (row_next_of 90 1 0 [1]) with (de := de) (i := i) (j := j); auto).
      rewrite eff_ang; auto; try lia. f_equal. f_equal. f_equal.
      assert (D0 : dd p (atom_no p i) (atom_no p j) t 2%nat * cp_a0 p 2%nat = 0). { destruct (row_no 90 1 [1] HO i Hi) as (o & EI). destruct (row_no 90 1 [1] HO j Hj) as (o' & EJ). fold p in EI, EJ. rewrite EI, EJ. destruct NX as [-> | ->]; cbn; ring. }
      unfold ang_slope. cbv zeta. change (en_ph e) with p. rewrite D0. unfold slope, wslope, Rdiv. ring.
Qed.
End Angle.

(** *** two phases with different scale factors: the derivative with respect to qbroad *)
Lemma qbroad_wrong : exists de1 de2, phase_lattice (row 90 1 [1]) = Ok de1 /\ phase_lattice (row 90 2 [1]) = Ok de2 /\
  column_wrong (SV 0 FQbroad) (rdata 1) [Some (ent (row 90 1 [1]) de1); Some (ent (row 90 2 [1]) de2)].
Proof.
  assert (HG : 0 < 90 < 180) by lra. assert (HT : cos (PI / 180 * 90) = 0 \/ cos (PI / 180 * 90) = - (1 / 2)) by (left; apply c90).
  assert (HC : - (1 / 2) <= cos (PI / 180 * 90) <= 0) by (rewrite c90; lra). assert (HO : [1] = [1] \/ [1] = [1; 0]) by auto.
  assert (LX : exists de, phase_lattice (row 90 1 [1]) = Ok de) by (apply row_lat; auto). destruct LX as (de1 & L1).
  assert (LX : exists de, phase_lattice (row 90 2 [1]) = Ok de) by (apply row_lat; auto). destruct LX as (de2 & L2).
  exists de1, de2. split; auto. split; auto.
  set (d := rdata 1). set (e1 := ent (row 90 1 [1]) de1). set (e2 := ent (row 90 2 [1]) de2). set (psel := [Some e1; Some e2]).
  assert (SP : forall e, In e (selected_entries psel) -> up_to_date e /\ sane_phase d (en_ph e)).
  { intros e [<-|[<-|[]]]; (split; [assumption|apply row_sane; auto]). }
  assert (GE : forall x, In x (numbered 0 psel) -> up_to_date (snd x) /\ sane_phase d (en_ph (snd x))).
  { intros x [<-|[<-|[]]]; apply SP; cbn; auto. }
  assert (LOI : (idx d (calc_lo d) <= 2)%Z) by (unfold d; rewrite ri3; lia).
  apply (wrong_from _ _ _ [1%nat; 1%nat] 1 0 2 1 (fun pts => lsum (fun x => qb_part d (fst x) (snd x) pts 2 * fac_r d x 2) (numbered 0 psel))).
  { apply rgrid. } { apply roff. } { apply rfilter. } { cbn; lra. } { exact SP. }
  { intros e [<-|[<-|[]]]; (split; [apply row_one; auto|cbn; lra]). }
  { intros [|[|ip]] e' E; cbn in E; try (injection E as <-; reflexivity). destruct ip; discriminate. }
  { lia. } { cbn; repeat split; lia. } { unfold d. rewrite ri3, ri4. lia. } { lia. } { intros _. reflexivity. }
  intros pts RL. split.
  - apply (pdf_ext d 0 psel pts (SV 0 FQbroad) (fun _ => 0)).
    apply (dsum (numbered 0 psel) (fun x y => term d (fst x) (snd x) pts 2 (fun y => data_with 0 (SV 0 FQbroad) y d) (fun y => chg (SV 0 FQbroad) (fst x) y (en_ph (snd x))) y)).
    intros b Ib. apply (qb_deriv d 0 psel pts (rgrid 1) (roff 1) GE b 2 Ib LOI).
  - rewrite (qb_row d 0 psel pts (rgrid 1) (roff 1) GE 2 LOI). cbn [psel numbered fold_left]. rewrite !lsum_cons, !lsum_nil. cbn [fst snd].
    assert (F1 : fac_r d (0%nat, e1) 2 = 1 / 3). { unfold fac_r. cbn [snd]. assert (F : facp d e1 2 = 1) by (exact (row_facp 90 1 1 [1] de1)). assert (N : occ_sum (en_ph e1) = 1) by (exact (row_occ 90 1 [1] HO)). rewrite F, N. unfold d. rewrite rg2. field. }
    assert (F2 : fac_r d (1%nat, e2) 2 = 2 / 3). { unfold fac_r. cbn [snd]. assert (F : facp d e2 2 = 2) by (exact (row_facp 90 2 1 [1] de2)). assert (N : occ_sum (en_ph e2) = 1) by (exact (row_occ 90 2 [1] HO)). rewrite F, N. unfold d. rewrite rg2. field. }
    rewrite F1, F2. set (q1 := qb_part d 0 e1 pts 2). set (q2 := qb_part d 1 e2 pts 2).
    assert (Q1 : q1 <> 0).
    { set (m := row_m 90). set (s := row_s 90 1). set (N0 := row_n 90 1).
      assert (MP : 0 < m) by (apply row_m_pos; auto). assert (S0 : 0 < s) by (apply row_s_pos; auto). assert (NP : 0 < N0) by (apply row_n_pos; auto).
      set (HS := half_sum d e1 (pts 0%nat) 2 (fun _ => 1)).
      assert (H1 : 1 <= HS). { destruct (RL 0%nat e1 eq_refl) as [PL _]. exact (row_pairs_there 90 1 1 [1] HC HT HO de1 (pts 0%nat) PL). }
      assert (E : q1 = slope N0 (3 - 3) s (sqrt m) 1 0 0 (2 * 1 * (3 * 3)) 0 * HS).
      { apply half_const. intros i j t Hij IR CT. cbn [natoms e1 ent en_ph row cp_atoms map length] in Hij. assert (i = 0%nat) by lia. assert (j = 0%nat) by lia. subst i j.
        assert (N00 : (0 < natoms (row 90 1%R [1%R]))%nat) by (cbn; lia).
        assert (NX : next t) by (apply (row_next_of 90 1 1 [1]) with (de := de1) (i := 0%nat) (j := 0%nat); auto).
        destruct (row_values 90 1 1 [1] HC HT HO 0 0 t N00 N00 NX) as (V1 & V2 & V3 & V4 & V5).
        assert (B : pbase d e1 0 0 = 1 * 1) by (apply (row_base 90 1 1 [1] HO de1 0 0); cbn; lia).
        unfold wk. rewrite B. unfold qb_slope, sl0, pt_width, pt_msd, pt_len. change (en_ph e1) with (row 90 1 [1]). unfold d. rewrite V1, V2, V3, V4, rg2. cbn [rdata cd_qbroad]. fold m s. fold N0. change (normal s (3 - 3)) with N0. ring. }
      rewrite E. intros Q. apply Rmult_integral in Q as [Q|Q]; [|lra]. revert Q. unfold slope, wslope. pose proof (sqrt_lt_R0 m MP).
      replace (_ * _) with (- (9 * N0 * (sqrt m * sqrt m) * / (s * s))) by (field; lra). rewrite sqrt_sqrt by lra. intros Q.
      assert (P : 0 < 9 * N0 * m * / (s * s)). { apply Rmult_lt_0_compat. apply Rmult_lt_0_compat; lra. apply Rinv_0_lt_compat. apply Rmult_lt_0_compat; auto. } lra. }
    intros Q. injection Q as Q. apply Q1. lra.
Qed.

(** *** an empty site: the derivative with respect to its occupancy *)
Lemma leffect_strict v l : (forall q : rvar * (num -> num), In q l -> snd q (None : num) = None) -> leffect v l (None : num) = None.
Proof.
  induction l as [|a l IH]; intros H; auto. change (leffect v l (if veqb (fst a) v then snd a (None : num) else None) = None).
  replace (if veqb (fst a) v then snd a (None : num) else None) with (None : num). apply IH; intros; apply H; right; auto.
  destruct (veqb (fst a) v); auto. symmetry. apply (H a (or_introl eq_refl)).
Qed.
Lemma leffect_gone v l1 l2 l3 x : (forall y, leffect v l2 y = None) -> (forall q, In q l3 -> snd q None = None) -> leffect v (l1 ++ l2 ++ l3) x = None.
Proof. intros H S. rewrite !leffect_app, H. apply leffect_strict. auto. Qed.
Lemma pt_strict d ip is e i j t g q : In q (pt_labs d ip is e i j t g) -> snd q None = None.
Proof.
  unfold pt_labs, pair_labs. destruct q as [w f]. intros H. apply in_combine_r in H. cbn [snd]. unfold pair_edits in H. cbv zeta in H. cbn [app map snd In] in H.
  repeat (destruct H as [<-|H]; [reflexivity|]). destruct H.
Qed.
Lemma flat_split {A B} (h : A -> list B) l a : In a l -> exists l1 l2, flat_map h l = flat_map h l1 ++ h a ++ flat_map h l2.
Proof. intros I. apply in_split in I as (l1 & l2 & ->). exists l1, l2. rewrite flat_map_app. reflexivity. Qed.
Lemma phase_gone d ip is e pts g v i j t x : (i <= j < natoms (en_ph e))%nat -> counted (en_igni e) (en_ignj e) i j = true -> In t pts -> in_reach d (pt_len e i j t) ->
  contributes d (en_ph e) (atom_no (en_ph e) i) (atom_no (en_ph e) j) t g -> (forall y, leffect v (pt_labs d ip is e i j t g) y = None) ->
  leffect v (phase_labs d ip is e pts g) x = None.
Proof.
  intros Hij CO IT IR CT H. unfold phase_labs.
  set (h := fun ij : nat * nat => if counted (en_igni e) (en_ignj e) (fst ij) (snd ij) then flat_map (fun t => pt_edits d ip is e (fst ij) (snd ij) t g) pts else []).
  assert (SE : forall a b c q, In q (pt_edits d ip is e a b c g) -> snd q None = None). { intros a b c q. unfold pt_edits. destruct (in_reach_dec _ _); [|intros []]. destruct (contributes_dec _ _ _ _ _ _); [|intros []]. apply pt_strict. }
  assert (SH : forall ij q, In q (h ij) -> snd q None = None). { intros ij q. unfold h. destruct (counted (en_igni e) (en_ignj e) (fst ij) (snd ij)); intros I; [|destruct I]. apply in_flat_map in I as (c & _ & I). eapply SE; eauto. }
  assert (IL : In (i, j) (half_loop (natoms (en_ph e)))). { apply half_in. auto. }
  destruct (flat_split h _ _ IL) as (l1 & l2 & ->). apply leffect_gone.
  - intros y. unfold h. cbn [fst snd]. rewrite CO. destruct (flat_split (fun t => pt_edits d ip is e i j t g) pts t IT) as (k1 & k2 & ->). apply leffect_gone.
    + intros z. unfold pt_edits. destruct (in_reach_dec _ _); [|contradiction]. destruct (contributes_dec _ _ _ _ _ _); [|contradiction]. apply H.
    + intros q I. apply in_flat_map in I as (c & _ & I). eapply SE; eauto.
  - intros q I. apply in_flat_map in I as (c & _ & I). eapply SH; eauto.
Qed.
Lemma occ_last d ip e pts g ia : (ia < natoms (en_ph e))%nat -> leffect (AV ip ia FOcc) (last_labs d pts (ip, e) g) None = None.
Proof. intros I. rewrite pick_setup_atom by auto. unfold phase_setup. cbv zeta. cbn [flat_map combine seq map app snd fst firstn nth af_no Nat.add].
  assert (M : forall a, nmul a (None : num) = None) by (intros [a|]; reflexivity). rewrite M. reflexivity. Qed.
Lemma occ_pair d ip is e i t g y : at_occ (atom_no (en_ph e) i) = 0 -> leffect (AV ip i FOcc) (pt_labs d ip is e i i t g) y = None.
Proof.
  intros Z. unfold pt_labs, pair_labs. rewrite pick_atom; [|reflexivity|apply edits_len]. rewrite Nat.eqb_refl. cbn [af_no Nat.mul Nat.add]. unfold pair_edits; cbv zeta; cbn [app map snd nth]. unfold plus_. cbn [nmul]. rewrite Z.
  assert (D : forall a, ndiv (Some a) (Some 0) = None). { intros a. unfold ndiv. destruct (Req_EM_T 0 0); auto. contradiction. } rewrite D. destruct y; reflexivity.
Qed.
Lemma empty_wrong : exists de, phase_lattice (row 90 1 [1; 0]) = Ok de /\ column_wrong (AV 0 1 FOcc) (rdata 0) [Some (ent (row 90 1 [1; 0]) de)].
Proof.
  assert (HG : 0 < 90 < 180) by lra. assert (HT : cos (PI / 180 * 90) = 0 \/ cos (PI / 180 * 90) = - (1 / 2)) by (left; apply c90).
  assert (HC : - (1 / 2) <= cos (PI / 180 * 90) <= 0) by (rewrite c90; lra). assert (HO : [1; 0] = [1] \/ [1; 0] = [1; 0]) by auto.
  assert (LX : exists de, phase_lattice (row 90 1 [1; 0]) = Ok de) by (apply row_lat; auto). destruct LX as (de & L). exists de. split. exact L.
  set (p := row 90 1 [1; 0]) in *. set (e := ent p de).
  assert (SP : sane_phase (rdata 0) p) by (apply row_sane; auto).
  assert (LOI : (idx (rdata 0) (calc_lo (rdata 0)) <= 2)%Z) by (rewrite ri3; lia).
  assert (N1 : (1 < natoms p)%nat) by (cbn; lia).
  eapply (single_wrong _ _ _ 2 2 0).
  { apply rgrid. } { apply roff. } { apply rfilter. } { cbn; lra. } { exact L. } { exact SP. } { apply row_one; auto. } { cbn; lra. } { reflexivity. } { cbn; repeat split; lia. } { reflexivity. }
  { rewrite ri3, ri4. lia. } { lia. } { intros e' E. injection E as <-. cbn. reflexivity. }
  intros pts PL. split.
  - exact (occ_slope (rdata 0) 0 0 e pts 2 (rgrid 0) (roff 0) SP LOI 1 N1).
  - rewrite (phase_gone (rdata 0) 0 0 e (pts 0%nat) 2 (AV 0 1 FOcc) 1 1 (0, 1, 0)%Z).
    + rewrite occ_last by auto. discriminate.
    + cbn; lia.
    + reflexivity.
    + destruct PL as (_ & _ & CO).
      assert (I : In (1%nat, 1%nat, (0, 1, 0)%Z) (pair_W (rdata 0) e (pts 0%nat))).
      { apply CO. apply row_one; auto. split; [exact N1|]. split; [exact N1|]. split; [reflexivity|]. pose proof (row_pt_len 90 1 [1; 0] HO de 1 1 (0, 1, 0)%Z N1 N1 (or_introl eq_refl)) as LN. unfold in_reach. rewrite rlo, rhi. fold p in LN. fold e in LN. match goal with |- _ <= ?x /\ _ => change x with (pt_len e 1 1 (0, 1, 0)%Z) end. rewrite LN. lra. intros Q. cbn in Q. lra. }
      unfold pair_W in I. apply in_flat_map in I as ([i j] & _ & I). unfold pair_block in I. destruct (counted _ _ _ _); [|destruct I]. apply in_flat_map in I as (t & It & I).
      destruct (in_reach_dec _ _); [|destruct I]. destruct (Nat.eqb_spec i j) as [Q|Q].
      * destruct I as [I|[]]. injection I as _ I. subst t. exact It.
      * destruct I as [I|[I|[]]]; exfalso; apply Q; injection I; intros; congruence.
    + pose proof (row_pt_len 90 1 [1; 0] HO de 1 1 (0, 1, 0)%Z N1 N1 (or_introl eq_refl)) as LN. unfold in_reach. rewrite rlo, rhi. fold p in LN. fold e in LN. match goal with |- _ <= ?x /\ _ => change x with (pt_len e 1 1 (0, 1, 0)%Z) end. rewrite LN. lra.
    + apply (row_contrib 90 1 0 [1; 0] HC HT HO 1 1 (0, 1, 0)%Z N1 N1). left; auto.
    + intros y. apply occ_pair. reflexivity.
Qed.
