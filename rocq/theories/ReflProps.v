(** C86: the reflections of a crystal. *)
From Coq Require Import List ZArith Reals Lra.
From Verif Require Import Base MetricModel MetricSpec SphereModel SphereSpec PdfModel ReflModel ReflSpec ReflProof ReflFinal ReflEx.
Local Open Scope R_scope.

(** reciprocal() gives the parameters of a cell, whose metric is the inverse of the
    metric of the crystal *)
Theorem C86_reciprocal :
  forall a b c alpha beta gamma, proper_cell a b c alpha beta gamma ->
  exists a' b' c' alpha' beta' gamma', proper_cell a' b' c' alpha' beta' gamma' /\
  lp_reciprocal (lp_make a b c alpha beta gamma) = lp_make a' b' c' alpha' beta' gamma' /\
  forall i j, (i < 3)%nat -> (j < 3)%nat ->
    mul33 (metric (vec3 a b c) (vec3 alpha beta gamma)) (metric (vec3 a' b' c') (vec3 alpha' beta' gamma')) i j = one33 i j.
Proof. exact recip_cell. Qed.
Print Assumptions C86_reciprocal.

(** d() is the distance of the planes (h k l) and Q() is 2 pi over it *)
Theorem C86_spacing :
  forall a b c alpha beta gamma h k l, proper_cell a b c alpha beta gamma -> (h, k, l) <> (0, 0, 0)%Z ->
  exists d, plane_spacing a b c alpha beta gamma h k l d /\
    refl_d (lp_make a b c alpha beta gamma) h k l = Some d /\
    refl_Q (lp_make a b c alpha beta gamma) h k l = 2 * PI / d.
Proof. exact spacing_reported. Qed.
Print Assumptions C86_spacing.

(** the sequencer ends; it gives no reflection twice, none at qmax or beyond, and
    all from qmin to qmax.  None is below qmin unless some reflection is just at
    qmin. *)
Theorem C86_reflections :
  forall a b c alpha beta gamma qmin qmax, proper_cell a b c alpha beta gamma ->
  exists fuel0 L,
    (forall fuel, (fuel0 <= fuel)%nat -> refl_points fuel qmin qmax (lp_make a b c alpha beta gamma) = Ok L) /\ NoDup L /\
    (forall h k l q, scattering a b c alpha beta gamma h k l q -> In (h, k, l) L -> q < qmax) /\
    (forall h k l q, scattering a b c alpha beta gamma h k l q -> qmin <= q < qmax -> In (h, k, l) L) /\
    ((forall h k l, ~ scattering a b c alpha beta gamma h k l qmin) ->
     forall h k l q, scattering a b c alpha beta gamma h k l q -> In (h, k, l) L -> qmin < q).
Proof. exact reflections_found. Qed.
Print Assumptions C86_reflections.

(** every triple of indices has exactly one length of the scattering vector, the
    one that Q() gives *)
Theorem C86_scattering :
  forall a b c alpha beta gamma h k l q, proper_cell a b c alpha beta gamma ->
  (scattering a b c alpha beta gamma h k l q <-> q = refl_Q (lp_make a b c alpha beta gamma) h k l).
Proof.
  intros a b c alpha beta gamma h k l q P. split; intros H.
  - exact (scattering_unique _ _ _ _ _ _ _ _ _ _ _ H (q_scattering _ _ _ _ _ _ _ _ _ P)).
  - rewrite H. exact (q_scattering _ _ _ _ _ _ _ _ _ P).
Qed.
Print Assumptions C86_scattering.

(** the same with the limits given as spacings *)
Theorem C86_spacings :
  forall a b c alpha beta gamma dmax dmin, proper_cell a b c alpha beta gamma -> 0 < dmax -> 0 < dmin ->
  exists fuel0 L,
    (forall fuel, (fuel0 <= fuel)%nat -> dspacing_points fuel dmax dmin (lp_make a b c alpha beta gamma) = Ok L) /\ NoDup L /\
    (forall h k l d, plane_spacing a b c alpha beta gamma h k l d -> In (h, k, l) L -> dmin < d) /\
    (forall h k l d, plane_spacing a b c alpha beta gamma h k l d -> dmin < d <= dmax -> In (h, k, l) L) /\
    ((forall h k l, ~ plane_spacing a b c alpha beta gamma h k l dmax) -> ~ In (0, 0, 0)%Z L /\
     forall h k l d, plane_spacing a b c alpha beta gamma h k l d -> In (h, k, l) L -> d < dmax).
Proof. exact spacings_found. Qed.
Print Assumptions C86_spacings.

(** with dmax the spacing of (0 0 j) all reflections (0 0 l) come, however large
    their spacing, and so does (0 0 0) *)
Theorem C86_limit_line :
  forall a b c alpha beta gamma, proper_cell a b c alpha beta gamma ->
  forall dmax dmin j, (0 < j)%Z -> plane_spacing a b c alpha beta gamma 0 0 j dmax -> 0 < dmin < dmax ->
  forall l, (l = 0%Z \/ exists d, plane_spacing a b c alpha beta gamma 0 0 l d /\ dmin < d) ->
  exists fuel0 L, (forall fuel, (fuel0 <= fuel)%nat -> dspacing_points fuel dmax dmin (lp_make a b c alpha beta gamma) = Ok L) /\ In (0, 0, l)%Z L.
Proof. exact limit_line. Qed.
Print Assumptions C86_limit_line.

(** that no reflection has a spacing beyond dmax is false without the proviso *)
Theorem C86_dmax_refuted :
  exists a b c alpha beta gamma dmax dmin fuel L, proper_cell a b c alpha beta gamma /\ 0 < dmin < dmax /\
  dspacing_points fuel dmax dmin (lp_make a b c alpha beta gamma) = Ok L /\
  exists h k l d, In (h, k, l) L /\ plane_spacing a b c alpha beta gamma h k l d /\ dmax < d.
Proof. exact spacing_beyond. Qed.
Print Assumptions C86_dmax_refuted.

(** a skewed cell with a family of planes *)
Example C86_case : proper_cell 4 4 4 90 90 60 /\ exists d, plane_spacing 4 4 4 90 90 60 1 (-1) 2 d.
Proof. exact case_skew. Qed.

(** a cell and a spacing that no family of planes has *)
Example C86_gap_case : proper_cell 4 4 4 90 90 90 /\ forall h k l, ~ plane_spacing 4 4 4 90 90 90 h k l 5.
Proof. exact case_gap. Qed.

(** a cell with the planes (0 0 2) and (0 0 1) *)
Example C86_line_case : proper_cell 4 4 4 90 90 90 /\ plane_spacing 4 4 4 90 90 90 0 0 2 (4 / IZR 2) /\ plane_spacing 4 4 4 90 90 90 0 0 1 (4 / IZR 1).
Proof. exact case_line. Qed.
