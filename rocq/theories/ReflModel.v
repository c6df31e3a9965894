(** Model of the sequencers of reflections (PointsInSphere.cc:203-241,
    PointsInSphere.h:123-173). *)
From Coq Require Import List ZArith Reals.
From Verif Require Import Base MathModel MetricModel SphereModel PdfModel.
Local Open Scope R_scope.

(** models PointsInSphere.cc:207-222, the constructors, and
    PointsInSphere.h:131-143 rewind, next and finished: the reflections (h, k, l)
    seen by for (ref.rewind(); !ref.finished(); ref.next()).  M_1_PI is 1/pi. *)
Definition refl_points (fuel : nat) (qmin qmax : R) (l : latpar) : outcome (list (Z * Z * Z)) :=
  points_in_sphere fuel (qmin * (1 / PI) / 2) (qmax * (1 / PI) / 2) (lp_reciprocal l).

(** models PointsInSphere.h:153-156 *)
Definition refl_Q (l : latpar) (h k o : Z) : R := 2 * PI * lp_r (lp_reciprocal l) h k o.

(** models PointsInSphere.h:157-160; None for 1.0/0.0, an infinity *)
Definition refl_d (l : latpar) (h k o : Z) : num := ndiv (Some 1) (Some (lp_r (lp_reciprocal l) h k o)).

(** models PointsInSphere.cc:229-241, ReflectionsInDmaxDmin.  A zero spacing makes
    a limit infinite; its conversion to int in the search is undefined. *)
Definition dspacing_points (fuel : nat) (dmax dmin : R) (l : latpar) : outcome (list (Z * Z * Z)) :=
  if Req_EM_T dmax 0 then UB
  else if Req_EM_T dmin 0 then UB
  else refl_points fuel (2 * PI / dmax) (2 * PI / dmin) l.
