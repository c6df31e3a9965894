(** C32, C33: the lattice point iterator. *)
From Coq Require Import List ZArith Reals Lra.
From Verif Require Import Base MetricModel MetricSpec SphereModel SphereSpec SphereProof.
Import ListNotations.
Local Open Scope R_scope.

(** for every proper cell and every range the iterator ends; it gives no point
    twice, no point at rmax or beyond, and all points with rmin <= r < rmax *)
Theorem C32_complete_enumeration :
  forall a b c alpha beta gamma rmin rmax, proper_cell a b c alpha beta gamma ->
  exists fuel0 L,
    (forall fuel, (fuel0 <= fuel)%nat -> points_in_sphere fuel rmin rmax (lp_make a b c alpha beta gamma) = Ok L) /\
    NoDup L /\
    (forall m n o, In (m, n, o) L -> node_dist a b c alpha beta gamma m n o < rmax) /\
    (forall m n o, rmin <= node_dist a b c alpha beta gamma m n o < rmax -> In (m, n, o) L).
Proof.
  intros a b c alpha beta gamma rmin rmax P. destruct (sphere_points a b c alpha beta gamma rmin rmax P) as (f & L & H1 & H2 & H3 & H4 & _).
  exists f, L. exact (conj H1 (conj H2 (conj H3 H4))).
Qed.
Print Assumptions C32_complete_enumeration.

(** the distance reported by r() is the distance of the point *)
Theorem C32_reported_distance :
  forall a b c alpha beta gamma m n o, proper_cell a b c alpha beta gamma ->
  lp_r (lp_make a b c alpha beta gamma) m n o = node_dist a b c alpha beta gamma m n o.
Proof.
  intros a b c alpha beta gamma m n o P. destruct (node_dist_form a b c alpha beta gamma 0 0 P m n o) as [E1 E2]. exact (eq_trans E2 (eq_sym E1)).
Qed.
Print Assumptions C32_reported_distance.

(** no visited point is inside rmin, provided no lattice point is exactly at rmin *)
Theorem C33_inner_radius :
  forall a b c alpha beta gamma rmin rmax fuel L, proper_cell a b c alpha beta gamma ->
  points_in_sphere fuel rmin rmax (lp_make a b c alpha beta gamma) = Ok L ->
  (forall m n o, node_dist a b c alpha beta gamma m n o <> rmin) ->
  forall m n o, In (m, n, o) L -> rmin < node_dist a b c alpha beta gamma m n o.
Proof. exact inner_radius. Qed.
Print Assumptions C33_inner_radius.

(** with points at rmin: for rmin any multiple of the edge c the origin is visited *)
Theorem C33_origin_visited :
  forall a b c alpha beta gamma rmax j, proper_cell a b c alpha beta gamma -> (0 < j)%Z -> IZR j * c < rmax ->
  exists fuel L, points_in_sphere fuel (IZR j * c) rmax (lp_make a b c alpha beta gamma) = Ok L /\ In (0, 0, 0)%Z L.
Proof. exact origin_visited. Qed.
Print Assumptions C33_origin_visited.

(** the inner radius claim without the proviso is false: cubic cell with edge 1,
    range 1..2, the origin (distance 0) is visited *)
Theorem C33_inner_radius_refuted :
  exists a b c alpha beta gamma rmin rmax fuel L,
    proper_cell a b c alpha beta gamma /\ points_in_sphere fuel rmin rmax (lp_make a b c alpha beta gamma) = Ok L /\
    exists m n o, In (m, n, o) L /\ node_dist a b c alpha beta gamma m n o < rmin.
Proof. exact inner_radius_fails. Qed.
Print Assumptions C33_inner_radius_refuted.

(** a skewed cell; no lattice point at the distance 1 *)
Example C32_case : proper_cell 4 4 4 90 90 60 /\ (forall m n o, node_dist 4 4 4 90 90 60 m n o <> 1).
Proof. exact case60. Qed.
