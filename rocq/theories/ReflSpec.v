(** Specification vocabulary for the reflections of a crystal. *)
From Coq Require Import ZArith Reals.
From Verif Require Import MetricModel MetricSpec SphereSpec.
Local Open Scope R_scope.

(** length of the vector x a + y b + z c *)
Definition vec_len (a b c alpha beta gamma : R) (X : v3) : R :=
  sqrt (dot33 (metric (vec3 a b c) (vec3 alpha beta gamma)) X X).

(** the plane of the family (h k l) next to the one through the origin; for the
    indices 0 0 0 there is none *)
Definition on_plane (h k l : Z) (X : v3) : Prop :=
  IZR h * X 0%nat + IZR k * X 1%nat + IZR l * X 2%nat = 1.

(** d is the distance of that plane from the origin *)
Definition plane_spacing (a b c alpha beta gamma : R) (h k l : Z) (d : R) : Prop :=
  0 < d /\
  (exists X, on_plane h k l X /\ vec_len a b c alpha beta gamma X = d) /\
  (forall X, on_plane h k l X -> d <= vec_len a b c alpha beta gamma X).

(** length of the scattering vector of the reflection (h k l) *)
Definition scattering (a b c alpha beta gamma : R) (h k l : Z) (q : R) : Prop :=
  ((h, k, l) = (0, 0, 0)%Z /\ q = 0) \/
  (exists d, plane_spacing a b c alpha beta gamma h k l d /\ q = 2 * PI / d).
