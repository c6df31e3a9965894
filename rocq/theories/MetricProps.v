(** C31: unit cell and metric tensors. *)
From Coq Require Import List Arith Reals Lra Lia.
From Verif Require Import Base MathModel MetricModel MetricSpec MetricProof.
Import ListNotations.
Local Open Scope R_scope.

(** a cell is accepted exactly when the squared volume of the cell with unit
    edges exceeds double_eps; otherwise structureError is raised *)
Theorem C31_accepted_cells :
  forall a0 win,
  ((exists l, lattice a0 win = Ok l) <->
   double_eps < gram (cos (PI / 180 * win 0%nat)) (cos (PI / 180 * win 1%nat)) (cos (PI / 180 * win 2%nat))) /\
  ((forall l, lattice a0 win <> Ok l) -> lattice a0 win = Err ErrStructure).
Proof. exact lattice_decides. Qed.
Print Assumptions C31_accepted_cells.

(** angles that do not close to a cell are rejected *)
Theorem C31_angles_close :
  forall a0 win l, (forall k, (k < 3)%nat -> 0 < win k < 180) -> lattice a0 win = Ok l ->
  win 0%nat < win 1%nat + win 2%nat /\ win 1%nat < win 0%nat + win 2%nat /\ win 2%nat < win 0%nat + win 1%nat /\
  win 0%nat + win 1%nat + win 2%nat < 360.
Proof. exact lattice_angles. Qed.
Print Assumptions C31_angles_close.

(** gten holds the scalar products of the cell edges (up to double_eps where an
    off-diagonal one is tiny), and both tensors are symmetric *)
Theorem C31_metric_near :
  forall a0 win l, lattice a0 win = Ok l ->
  (forall i j, l_gten l i j = l_gten l j i /\ l_rten l i j = l_rten l j i) /\
  (forall i j, (i < 3)%nat -> (j < 3)%nat -> Rabs (l_gten l i j - metric a0 win i j) < double_eps).
Proof. intros a0 win l H. exact (conj (lattice_sym a0 win l H) (lattice_near a0 win l H)). Qed.
Print Assumptions C31_metric_near.

(** when none is tiny: it is the metric, the squared volume is its determinant
    and every vector but zero has positive squared length *)
Theorem C31_metric :
  forall a0 win l, (forall k, (k < 3)%nat -> a0 k <> 0) -> lattice a0 win = Ok l -> no_tiny (metric a0 win) ->
  (forall i j, (i < 3)%nat -> (j < 3)%nat -> l_gten l i j = metric a0 win i j) /\
  l_v l * l_v l = det33 (l_gten l) /\
  (forall h k, skalpro (l_gten l) h k = dot33 (metric a0 win) h k) /\
  (forall h, 0 <= skalpro (l_gten l) h h /\ (skalpro (l_gten l) h h = 0 -> h 0%nat = 0 /\ h 1%nat = 0 /\ h 2%nat = 0)).
Proof. exact lattice_metric. Qed.
Print Assumptions C31_metric.

(** and when the same holds for the reciprocal cell, gten and rten are inverse *)
Theorem C31_inverse :
  forall a0 win l, (forall k, (k < 3)%nat -> a0 k <> 0) -> lattice a0 win = Ok l ->
  no_tiny (metric a0 win) -> no_tiny (rmetric a0 win) -> forall i j, (i < 3)%nat -> (j < 3)%nat ->
  mul33 (l_gten l) (l_rten l) i j = one33 i j /\ mul33 (l_rten l) (l_gten l) i j = one33 i j.
Proof. exact lattice_inverse. Qed.
Print Assumptions C31_inverse.

(** edges 4, angles 90, 90, 60 *)
Example C31_case : (exists l, lattice (fun _ => 4) cell60 = Ok l) /\ no_tiny (metric (fun _ => 4) cell60) /\ no_tiny (rmetric (fun _ => 4) cell60) /\
  (forall k, (k < 3)%nat -> 0 < cell60 k < 180).
Proof.
  split; [|split; [|split]].
  - apply lattice_accepts. change (double_eps < gram (m_cosd (cell60 0)) (m_cosd (cell60 1)) (m_cosd (cell60 2))). rewrite gram60. unfold double_eps. lra.
  - intros i j Hi Hj N. rewrite metric60 by auto. destruct (Nat.eqb_spec i j); [contradiction|]. destruct (i + j =? 1)%nat; auto.
    right. unfold double_eps. rewrite Rabs_right; lra.
  - intros i j Hi Hj N. rewrite rmetric60 by (auto; lra). destruct (Nat.eqb_spec i j); [contradiction|]. destruct (i + j =? 1)%nat; auto.
    right. unfold double_eps. rewrite Rabs_left; lra.
  - intros k Hk. destruct k as [|[|[|k]]]; cbn; try lia; lra.
Qed.

(** without the last condition the tensors need not be inverse: for edges of
    10000 and angles 90, 90, 60 the first diagonal element of the product is 4/3 *)
Theorem C31_inverse_refuted :
  exists a0 win l, (forall k, (k < 3)%nat -> 0 < a0 k) /\ (forall k, (k < 3)%nat -> 0 < win k < 180) /\
  lattice a0 win = Ok l /\ mul33 (l_gten l) (l_rten l) 0 0 = 4 / 3.
Proof.
  destruct big_cell as (l & H & E). exists (fun _ => 10000), cell60, l. split. intros; lra. split; auto.
  intros k Hk. destruct k as [|[|[|k]]]; cbn; try lia; lra.
Qed.
Print Assumptions C31_inverse_refuted.

(** a cell with a zero edge, whose volume is zero, is accepted *)
Theorem C31_zero_edge_refuted :
  exists a0 win l, a0 0%nat = 0 /\ lattice a0 win = Ok l /\ l_v l = 0.
Proof. exact zero_edge. Qed.
Print Assumptions C31_zero_edge_refuted.
