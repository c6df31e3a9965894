(** C70: the volume, the reciprocal cell, the density and their standard deviations. *)
From Coq Require Import Ascii String.
From Coq Require Import List Arith ZArith Reals Lia Lra.
From Verif Require Import Base MetricModel MetricSpec MetricProof CellModel CellSpec CellProof CellFinal CellEx.
From Verif Require Import ParserModel DataModel FmtModel OutModel OutSpec.
Import ListNotations.
Local Open Scope R_scope.

(** the same volume, reciprocal cell and tensors as those of C31 *)
Theorem C70_same : forall a0 win da0 dwin icc occ docc,
  (forall c, cell a0 win da0 dwin icc occ docc = Ok c ->
     exists l, lattice a0 win = Ok l /\ ce_v c = l_v l /\ ce_ar c = l_ar l /\ ce_wrez c = l_wrez l /\ ce_gten c = l_gten l /\ ce_rten c = l_rten l) /\
  (forall l, lattice a0 win = Ok l -> exists c, cell a0 win da0 dwin icc occ docc = Ok c).
Proof. exact cell_same. Qed.
Print Assumptions C70_same.
Example C70_same_ex : exists c, cell ones cell60 a_only beta_only (fun _ => 1%Z) [1; 1 / 2] [0; 1 / 10] = Ok c.
Proof. exact (cell60_ok _ _ _ _ _). Qed.

Theorem C70_volume : forall a0 win da0 dwin icc occ docc c, plain_cell a0 win -> cell a0 win da0 dwin icc occ docc = Ok c ->
  (ce_v c = volume a0 win /\ 0 < ce_v c) /\ bounds a0 win da0 dwin volume (ce_dv c).
Proof. exact (fun a w da dw i o d c P H => conj (vol_ok a w da dw i o d c P H) (vol_bounds a w da dw i o d c P H)). Qed.
Print Assumptions C70_volume.
(** such a cell and changes within the deviations *)
Example C70_volume_ex : plain_cell ones cell60 /\ (exists c, cell ones cell60 a_only beta_only (fun _ => 1%Z) [] [] = Ok c) /\
  (forall k, (k < 3)%nat -> Rabs (a_only k) <= a_only k /\ Rabs (beta_only k) <= beta_only k) /\ a_only 0%nat <> 0 /\ beta_only 1%nat <> 0.
Proof.
  split. exact plain60. split. exact (cell60_ok _ _ _ _ _). split. intros k K. unfold a_only, beta_only. destruct k as [|[|k]]; split; rewrite Rabs_right; lra.
  unfold a_only, beta_only. split; lra.
Qed.

Theorem C70_rvolume : forall a0 win da0 dwin icc occ docc c, plain_cell a0 win -> cell a0 win da0 dwin icc occ docc = Ok c ->
  ce_vr c = 1 / volume a0 win /\ bounds a0 win da0 dwin (fun a w => 1 / volume a w) (ce_dvr c).
Proof. exact rvol_bounds. Qed.
Print Assumptions C70_rvolume.
Example C70_rvolume_ex : plain_cell ones hexa /\ exists c, cell ones hexa a_only beta_only (fun _ => 1%Z) [] [] = Ok c.
Proof. split. exact plain_hexa. apply cell_accepts. rewrite gw_hexa. unfold double_eps. lra. Qed.

Theorem C70_edges : forall a0 win da0 dwin icc occ docc c i, plain_cell a0 win -> cell a0 win da0 dwin icc occ docc = Ok c -> (i < 3)%nat ->
  (ce_ar c i = redge i a0 win /\ bounds a0 win da0 dwin (redge i) (ce_dar c i)) /\
  (ce_rten c i i = rmetric a0 win i i /\ bounds a0 win da0 dwin (fun a w => rmetric a w i i) (ce_drten c i i)).
Proof.
  exact (fun a w da dw ic o d c i P H I => conj (conj (edge_value a w da dw ic o d c P H i I) (edge_bounds a w da dw ic o d c P H i I)) (rten_bounds a w da dw ic o d c P H i I)).
Qed.
Print Assumptions C70_edges.
Example C70_edges_ex : plain_cell ones hexa /\ exists c, cell ones hexa a_only beta_only (fun _ => 1%Z) [] [] = Ok c.
Proof. exact C70_rvolume_ex. Qed.

(** the deviations of the reciprocal angles, when the reciprocal angles that matter are
    not acute *)
Theorem C70_angles : forall a0 win da0 dwin icc occ docc c i, plain_cell a0 win -> cell a0 win da0 dwin icc occ docc = Ok c -> (i < 3)%nat ->
  ce_wrez c i = rangle i a0 win /\
  ((dwin ((i + 1) mod 3)%nat = 0 \/ 90 <= rangle ((i + 2) mod 3) a0 win) -> (dwin ((i + 2) mod 3)%nat = 0 \/ 90 <= rangle ((i + 1) mod 3) a0 win) ->
   bounds a0 win da0 dwin (rangle i) (ce_dwrez c i)).
Proof. exact (fun a w da dw ic o d c i P H I => conj (angle_value a w da dw ic o d c P H i I) (angle_bounds a w da dw ic o d c P H i I)). Qed.
Print Assumptions C70_angles.
(** a cell with all angles acute has obtuse reciprocal angles *)
Example C70_angles_ex : exists a w, plain_cell a w /\ (forall i, (i < 3)%nat -> 90 <= rangle i a w) /\ exists c, cell a w a_only beta_only (fun _ => 1%Z) [] [] = Ok c.
Proof. exact acute_cell. Qed.
(** the deviations are not larger than needed: they are attained, that of the volume if no
    angle is acute, that of a reciprocal edge if only the edge has a deviation *)
Theorem C70_attained : forall a0 win da0 dwin icc occ docc c, plain_cell a0 win -> cell a0 win da0 dwin icc occ docc = Ok c ->
  (forall k, (k < 3)%nat -> 0 <= da0 k /\ 0 <= dwin k) ->
  ((forall k, (k < 3)%nat -> 90 <= win k) -> attained a0 win da0 dwin volume (ce_dv c)) /\
  (forall i, (i < 3)%nat -> (forall k, (k < 3)%nat -> dwin k = 0 /\ (k <> i -> da0 k = 0)) -> attained a0 win da0 dwin (redge i) (ce_dar c i)) /\
  (forall i, (i < 3)%nat -> attained a0 win da0 dwin (rangle i) (ce_dwrez c i)).
Proof.
  exact (fun a w da dw ic o d c P H D => conj (vol_attained a w da dw ic o d c P H D) (conj (edge_attained a w da dw ic o d c P H D) (angle_attained a w da dw ic o d c P H D))).
Qed.
Print Assumptions C70_attained.
Example C70_attained_ex : plain_cell ones hexa /\ (forall k, (k < 3)%nat -> 90 <= hexa k) /\ (exists c, cell ones hexa a_only zero3 (fun _ => 1%Z) [] [] = Ok c) /\
  (forall k, (k < 3)%nat -> 0 <= a_only k /\ 0 <= zero3 k) /\ (forall k, (k < 3)%nat -> zero3 k = 0 /\ (k <> 0%nat -> a_only k = 0)).
Proof.
  split. exact plain_hexa. split. intros k K. unfold hexa. destruct k as [|[|[|k]]]; lra. split. apply cell_accepts. rewrite gw_hexa. unfold double_eps. lra.
  unfold a_only, zero3. split; intros [|k] K; split; try lra; intros; lra || congruence.
Qed.
(** not in general: a negative deviation *)
Theorem C70_angles_refuted : exists a w da dw icc occ docc c, plain_cell a w /\ (forall k, 0 <= da k /\ 0 <= dw k) /\
  cell a w da dw icc occ docc = Ok c /\ ce_dwrez c 0%nat < 0 /\ ~ bounds a w da dw (rangle 0) (ce_dwrez c 0%nat).
Proof. exact angles_refuted. Qed.
Print Assumptions C70_angles_refuted.
(** an off-diagonal element of the reciprocal metric that changes, without deviation *)
Theorem C70_rtensor_refuted : exists a w da dw icc occ docc c, plain_cell a w /\ (forall k, 0 <= da k /\ 0 <= dw k) /\
  cell a w da dw icc occ docc = Ok c /\ ce_drten c 0%nat 1%nat = 0 /\ ~ bounds a w da dw (fun a w => rmetric a w 0 1) (ce_drten c 0%nat 1%nat).
Proof. exact rtensor_refuted. Qed.
Print Assumptions C70_rtensor_refuted.

Theorem C70_density : forall a0 win da0 dwin icc occ docc c, plain_cell a0 win -> cell a0 win da0 dwin icc occ docc = Ok c -> (forall k, (k < 3)%nat -> (1 <= icc k)%Z) ->
  ce_rho0 c * (ncells icc * volume a0 win) = total occ /\
  exists p q, derivable_pt_lim (fun n => n / (ncells icc * volume a0 win)) (total occ) p /\ derivable_pt_lim (fun v => total occ / (ncells icc * v)) (volume a0 win) q /\
    ce_drho0 c = ncells icc * sqrt ((p * total docc) ^ 2 + (q * ce_dv c) ^ 2).
Proof. exact (fun a w da dw i o d c P H B => conj (density_value a w da dw i o d c P H B) (density_dev a w da dw i o d c P H B)). Qed.
Print Assumptions C70_density.
Example C70_density_ex : plain_cell ones cell60 /\ (exists c, cell ones cell60 a_only beta_only (fun _ => 1%Z) [1; 1 / 2] [0; 1 / 10] = Ok c) /\ total [1; 1 / 2] = 3 / 2.
Proof. split. exact plain60. split. exact (cell60_ok _ _ _ _ _). cbn. lra. Qed.
(** for a block of two cells the deviation is twice the propagated one *)
Theorem C70_density_refuted : exists a w da dw icc occ docc c, plain_cell a w /\ (forall k, (k < 3)%nat -> (1 <= icc k)%Z) /\ cell a w da dw icc occ docc = Ok c /\
  forall p q, derivable_pt_lim (fun n => n / (ncells icc * volume a w)) (total occ) p -> derivable_pt_lim (fun v => total occ / (ncells icc * v)) (volume a w) q ->
  ce_drho0 c = 2 * sqrt ((p * total docc) ^ 2 + (q * ce_dv c) ^ 2) /\ 0 < ce_drho0 c.
Proof. exact density_refuted. Qed.
Print Assumptions C70_density_refuted.

Theorem C70_text : forall n name a0 win da0 dwin c, one_line name ->
  exists r1 r2, lines (show_lattice n name a0 win da0 dwin c) =
    [chars " Phase number           : " ++ int_text n; chars " Phase title            : " ++ name; []] ++ r1 ++ [[]] ++ r2 ++ [[]] /\
    Forall2 row_says (cell_rows a0 da0 win dwin (ce_v c) (ce_dv c) (ce_rho0 c) (ce_drho0 c) (ce_gten c) (ce_dgten c)) r1 /\
    Forall2 row_says (recip_rows (ce_ar c) (ce_dar c) (ce_wrez c) (ce_dwrez c) (ce_vr c) (ce_dvr c) (ce_rten c) (ce_drten c)) r2.
Proof. exact lattice_text. Qed.
Print Assumptions C70_text.
Example C70_text_ex : one_line (chars "Ni fcc") /\ exists c, cell ones cell60 a_only beta_only (fun _ => 1%Z) [1; 1 / 2] [0; 1 / 10] = Ok c.
Proof. split. intros H. cbn in H. intuition discriminate. exact (cell60_ok _ _ _ _ _). Qed.
