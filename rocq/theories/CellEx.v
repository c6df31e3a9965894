(** Examples and counterexamples for the quantities of a cell. *)
From Coq Require Import Ascii String.
From Coq Require Import List Arith ZArith Reals Bool Lia Lra Psatz.
From Verif Require Import Base MathModel MathProof MetricModel MetricSpec MetricProof DerivCalc CellModel CellSpec CellProof CellFinal.
From Verif Require BondModel BondErr.
Import ListNotations.
Local Open Scope R_scope.

Lemma cell_accepts a0 win da0 dwin icc occ docc :
  (double_eps < gw win -> exists c, cell a0 win da0 dwin icc occ docc = Ok c) /\ (gw win <= double_eps -> cell a0 win da0 dwin icc occ docc = Err ErrStructure).
Proof.
  unfold cell. cbv zeta. rewrite voll_eq. split; intros H; destruct (Rle_dec _ _) as [L|L]; try lra; eauto.
Qed.
Lemma cell_same a0 win da0 dwin icc occ docc :
  (forall c, cell a0 win da0 dwin icc occ docc = Ok c ->
     exists l, lattice a0 win = Ok l /\ ce_v c = l_v l /\ ce_ar c = l_ar l /\ ce_wrez c = l_wrez l /\ ce_gten c = l_gten l /\ ce_rten c = l_rten l) /\
  (forall l, lattice a0 win = Ok l -> exists c, cell a0 win da0 dwin icc occ docc = Ok c).
Proof.
  split. intros c. apply get_lattice. intros l L. apply cell_accepts. assert (A : exists l, lattice a0 win = Ok l) by eauto. apply lattice_accepts in A. exact A.
Qed.
(** angles 90, 90 and 60 degrees, edges 1 *)
Definition ones : v3 := fun _ => 1.
Definition zero3 : v3 := fun _ => 0.
Lemma plain60 : plain_cell ones cell60.
Proof. intros k K. unfold ones, cell60. split. lra. destruct (lt3 k K) as [-> | [-> | ->]]; simpl; lra. Qed.
Lemma gw60 : gw cell60 = 3 / 4. Proof. exact gram60. Qed.
Lemma cell60_ok da dw icc occ docc : exists c, cell ones cell60 da dw icc occ docc = Ok c.
Proof. apply cell_accepts. rewrite gw60. unfold double_eps. lra. Qed.
(** the hexagonal cell *)
Definition hexa : v3 := fun k => match k with 2%nat => 120 | _ => 90 end.
Lemma cosd120 : m_cosd 120 = -1 / 2.
Proof. unfold m_cosd, rad. replace (PI / 180 * 120) with (2 * (PI / 3)) by field. apply cos_2PI3. Qed.
Lemma plain_hexa : plain_cell ones hexa.
Proof. intros k K. unfold ones, hexa. split. lra. destruct (lt3 k K) as [-> | [-> | ->]]; lra. Qed.
Lemma gw_hexa : gw hexa = 3 / 4.
Proof. unfold gw, gram, hexa. rewrite cosd90, cosd120. field. Qed.
Definition beta_only : v3 := fun k => match k with 1%nat => 1 / 100 | _ => 0 end.
Lemma angles_refuted : exists a w da dw icc occ docc c, plain_cell a w /\ (forall k, 0 <= da k /\ 0 <= dw k) /\
  cell a w da dw icc occ docc = Ok c /\ ce_dwrez c 0%nat < 0 /\ ~ bounds a w da dw (rangle 0) (ce_dwrez c 0%nat).
Proof.
  destruct (proj1 (cell_accepts ones hexa zero3 beta_only (fun _ => 1%Z) [] [])) as (c & OK). rewrite gw_hexa. unfold double_eps. lra.
  exists ones, hexa, zero3, beta_only, (fun _ => 1%Z), [], [], c. split. apply plain_hexa. split. intros k. unfold zero3, beta_only. destruct k as [|[|k]]; lra. split; auto.
  assert (N : ce_dwrez c 0%nat < 0).
  { rewrite (get_dwrez _ _ _ _ _ _ _ _ OK). destruct (is_fine _ _ _ _ _ _ _ _ plain_hexa OK) as [P _]. destruct (P 2%nat) as [_ S2]; [lia|]. cbn [hexa] in S2.
    assert (A : carg_of hexa 0 = 0). { unfold carg_of, carg. cbn [j1 j2 Nat.add Nat.modulo Nat.divmod fst snd Nat.sub hexa]. rewrite cosd90. unfold Rdiv. ring. }
    rewrite A. cbn [j1 j2 Nat.add Nat.modulo Nat.divmod fst snd Nat.sub hexa beta_only]. rewrite sind90, cosd90, cosd120. replace (1 - 0 * 0) with 1 by ring. rewrite sqrt_1. pose proof rad_pos as RP.
    match goal with |- ?x < 0 => replace x with (- (1 / 200 * / m_sind 120)) by (field; lra) end. pose proof (Rinv_0_lt_compat _ S2). lra. }
  split; auto. intros B. destruct (B zero3 zero3) as (l & _ & L). { intros k K. unfold zero3, beta_only. rewrite Rabs_R0. destruct k as [|[|k]]; lra. } pose proof (Rabs_pos l). lra.
Qed.
(** an off-diagonal element of the reciprocal metric *)
Definition a_only : v3 := fun k => match k with 0%nat => 1 / 100 | _ => 0 end.
Lemma rtensor_refuted : exists a w da dw icc occ docc c, plain_cell a w /\ (forall k, 0 <= da k /\ 0 <= dw k) /\
  cell a w da dw icc occ docc = Ok c /\ ce_drten c 0%nat 1%nat = 0 /\ ~ bounds a w da dw (fun a w => rmetric a w 0 1) (ce_drten c 0%nat 1%nat).
Proof.
  destruct (cell60_ok a_only zero3 (fun _ => 1%Z) [] []) as (c & OK).
  exists ones, cell60, a_only, zero3, (fun _ => 1%Z), [], [], c. split. apply plain60. split. intros k. unfold zero3, a_only. destruct k as [|k]; lra. split; auto.
  pose proof (is_fine _ _ _ _ _ _ _ _ plain60 OK) as F. assert (S60 : 0 < sqrt (3 / 4)) by (apply sqrt_lt_R0; lra). assert (SQ : sqrt (3 / 4) * sqrt (3 / 4) = 3 / 4) by (apply sqrt_sqrt; lra).
  assert (V : ce_v c = sqrt (3 / 4)). { rewrite (get_v _ _ _ _ _ _ _ _ OK), gw60. unfold ones. ring. }
  assert (W0 : dvoll cell60 zero3 = 0) by (unfold dvoll, zero3; rewrite !Rmult_0_r, !Rabs_R0; ring).
  assert (DV : ce_dv c = sqrt (3 / 4) * (1 / 100)). { rewrite (get_dv _ _ _ _ _ _ _ _ OK), gw60, W0. unfold ones, a_only. field. lra. }
  assert (R0 : ce_drten c 0%nat 1%nat = 0).
  { destruct (get_dtens _ _ _ _ _ _ _ _ OK) as [_ ->]. unfold BondModel.dtensor. cbn [Nat.eqb Nat.add Nat.sub].
    assert (C2 : m_cosd (ce_wrez c 2%nat) = -1 / 2).
    { rewrite (get_wrez _ _ _ _ _ _ _ _ OK). assert (E : carg_of cell60 2 = -1 / 2). { unfold carg_of, carg. cbn [j1 j2 Nat.add Nat.modulo Nat.divmod fst snd Nat.sub cell60]. unfold cell60. cbn [Nat.eqb]. rewrite cosd90, cosd60, sind90. field. }
      rewrite E. apply cosd_acosd. lra. }
    assert (A0 : forall i, (i < 3)%nat -> 0 < ce_ar c i).
    { intros i I. rewrite (edge_value _ _ _ _ _ _ _ _ plain60 OK i I), (redge_eq i _ _ I F). destruct F as [P G]. destruct (P i I). apply Rdiv_lt_0_compat; auto. apply Rmult_lt_0_compat; auto. apply sqrt_lt_R0; auto. }
    assert (D0 : forall i, (i < 3)%nat -> 0 <= ce_dar c i).
    { intros i I. destruct (edge_bounds _ _ _ _ _ _ _ _ plain60 OK i I zero3 zero3) as (l & _ & L). intros k K. unfold zero3, a_only. rewrite Rabs_R0. destruct k; lra. pose proof (Rabs_pos l). lra. }
    assert (W : ce_dwrez c 2%nat = 0). { rewrite (get_dwrez _ _ _ _ _ _ _ _ OK). unfold zero3. rewrite !Rmult_0_r, !Rplus_0_r. unfold Rdiv. ring. }
    rewrite C2, W. destruct (Rlt_dec _ _) as [L|L]; auto. exfalso. apply L. pose proof (A0 0%nat ltac:(lia)). pose proof (A0 1%nat ltac:(lia)). pose proof (D0 0%nat ltac:(lia)). pose proof (D0 1%nat ltac:(lia)).
    assert (0 <= ce_dar c 0%nat * ce_ar c 1%nat) by (apply Rmult_le_pos; lra). assert (0 <= ce_ar c 0%nat * ce_dar c 1%nat) by (apply Rmult_le_pos; lra). pose proof eps_pos. lra. }
  split; auto. rewrite R0. intros B. destruct (B a_only zero3) as (l & L & LE). { intros k K. unfold zero3, a_only. rewrite Rabs_R0. split; [|lra]. destruct k; [rewrite Rabs_right; lra|rewrite Rabs_R0; lra]. }
  assert (l = 0) by (destruct (Req_dec l 0) as [|NE]; auto; pose proof (Rabs_pos_lt l NE); lra). subst l.
  assert (K : derivable_pt_lim (fun s => -1 / 2 / (3 / 4) / (1 + s * (1 / 100))) 0 (1 / 150)).
  { eapply dl_eq. apply (ddv (fun _ => -1 / 2 / (3 / 4)) (fun s => 1 + s * (1 / 100))). lra. apply derivable_pt_lim_const. apply BondErr.dlin. field. }
  assert (E : derivable_pt_lim (fun s => rmetric (moved ones a_only s) (moved cell60 zero3 s) 0 1) 0 (1 / 150)).
  { eapply dl_local; [| |exact K]. exact Rlt_0_1. intros s SB. apply Rabs_def2 in SB.
    unfold rmetric. rewrite det_metric. unfold metric, cell_cos, ccos. cbn [Nat.add Nat.modulo Nat.divmod fst snd Nat.sub Nat.eqb].
    assert (MZ : forall k, moved cell60 zero3 s k = cell60 k) by (intros; unfold moved, zero3; ring). rewrite !MZ.
    change (cos (PI / 180 * cell60 0%nat)) with (m_cosd (cell60 0%nat)). change (cos (PI / 180 * cell60 1%nat)) with (m_cosd (cell60 1%nat)). change (cos (PI / 180 * cell60 2%nat)) with (m_cosd (cell60 2%nat)).
    rewrite gram60. unfold cell60. cbn [Nat.eqb]. rewrite cosd90, cosd60. unfold moved, ones, a_only. field. lra. }
  pose proof (uniqueness_limite _ _ _ _ L E). lra.
Qed.
(** the density of a block of two cells *)
Lemma density_refuted : exists a w da dw icc occ docc c, plain_cell a w /\ (forall k, (k < 3)%nat -> (1 <= icc k)%Z) /\ cell a w da dw icc occ docc = Ok c /\
  forall p q, derivable_pt_lim (fun n => n / (ncells icc * volume a w)) (total occ) p -> derivable_pt_lim (fun v => total occ / (ncells icc * v)) (volume a w) q ->
  ce_drho0 c = 2 * sqrt ((p * total docc) ^ 2 + (q * ce_dv c) ^ 2) /\ 0 < ce_drho0 c.
Proof.
  destruct (cell60_ok a_only zero3 (fun k => match k with 0%nat => 2 | _ => 1 end%Z) [1] [1 / 10]) as (c & OK).
  exists ones, cell60, a_only, zero3, (fun k => match k with 0%nat => 2 | _ => 1 end%Z), [1], [1 / 10], c. split. apply plain60.
  assert (B : forall k, (k < 3)%nat -> (1 <= match k with 0%nat => 2 | _ => 1 end)%Z) by (intros [|k] K; lia). split; auto. split; auto.
  intros p q Dp Dq. destruct (density_dev _ _ _ _ _ _ _ _ plain60 OK B) as (p' & q' & Ep & Eq & E). rewrite <- (uniqueness_limite _ _ _ _ Dp Ep), <- (uniqueness_limite _ _ _ _ Dq Eq) in E.
  assert (N2 : ncells (fun k => match k with 0%nat => 2 | _ => 1 end%Z) = 2) by (unfold ncells; apply f_equal; reflexivity). rewrite N2 in E at 1. split. exact E.
  rewrite (proj2 (get_rho _ _ _ _ _ _ _ _ OK)). cbn [fold_left]. destruct (vol_ok _ _ _ _ _ _ _ _ plain60 OK) as [_ VP]. apply sqrt_lt_R0.
  assert (0 < m_sqr ((0 + 1 / 10) / ce_v c)). { unfold m_sqr. assert (0 < (0 + 1 / 10) / ce_v c) by (apply Rdiv_lt_0_compat; lra). nra. }
  assert (0 <= m_sqr (ce_dv c * (0 + 1) / m_sqr (ce_v c))) by (unfold m_sqr; apply Rle_0_sqr). lra.
Qed.
(** a rhombohedral cell with acute angles *)
Definition rhomb : v3 := fun _ => 60.
Lemma plain_rhomb : plain_cell ones rhomb. Proof. intros k K. unfold ones, rhomb. lra. Qed.
Lemma gw_rhomb : gw rhomb = 1 / 2. Proof. unfold gw, gram, rhomb. rewrite cosd60. lra. Qed.
Lemma acute_cell : exists a w, plain_cell a w /\ (forall i, (i < 3)%nat -> 90 <= rangle i a w) /\ exists c, cell a w a_only beta_only (fun _ => 1%Z) [] [] = Ok c.
Proof.
  exists ones, rhomb. split. apply plain_rhomb. split.
  - intros i I. rewrite rangle_eq; auto. 2:{ apply plain_fine. apply plain_rhomb. rewrite gw_rhomb. lra. }
    unfold rhomb. rewrite cosd60. pose proof (sincosd 60) as SC. rewrite cosd60 in SC. replace (m_sind 60 * m_sind 60) with (3 / 4) by lra. replace ((1 / 2 * (1 / 2) - 1 / 2) / (3 / 4)) with (- (1 / 3)) by field.
    pose proof PI_RGT_0 as P. rewrite acos_opp. assert (B : acos (1 / 3) <= PI / 2).
    { destruct (Rle_dec (acos (1 / 3)) (PI / 2)) as [|N]; auto. exfalso. pose proof (acos_bound (1 / 3)). assert (C : cos (acos (1 / 3)) <= 0) by (apply cos_le_0; lra). rewrite cos_acos in C by lra. lra. }
    replace 90 with (180 / PI * (PI / 2)) by (field; lra). apply Rmult_le_compat_l. apply Rlt_le, Rdiv_lt_0_compat; lra. lra.
  - apply cell_accepts. rewrite gw_rhomb. unfold double_eps. lra.
Qed.
