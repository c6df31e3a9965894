(** Specification vocabulary for the lattice point iterator. *)
From Coq Require Import ZArith Reals.
From Verif Require Import MetricModel MetricSpec.
Local Open Scope R_scope.

Definition vec3 (x y z : R) : v3 := fun i => match i with 0%nat => x | 1%nat => y | _ => z end.

(** edges positive, angles proper, and the angles close to a cell *)
Definition proper_cell (a b c alpha beta gamma : R) : Prop :=
  0 < a /\ 0 < b /\ 0 < c /\ 0 < alpha < 180 /\ 0 < beta < 180 /\ 0 < gamma < 180 /\
  0 < gram (cos (PI / 180 * alpha)) (cos (PI / 180 * beta)) (cos (PI / 180 * gamma)).

(** distance of the lattice point (m, n, o) from the origin *)
Definition node_dist (a b c alpha beta gamma : R) (m n o : Z) : R :=
  let h := vec3 (IZR m) (IZR n) (IZR o) in
  sqrt (dot33 (metric (vec3 a b c) (vec3 alpha beta gamma)) h h).
