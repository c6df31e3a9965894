(** Specification vocabulary for the cell geometry. *)
From Coq Require Import List Arith Reals.
From Verif Require Import MathModel MetricModel.
Local Open Scope R_scope.

(** squared volume of the cell with unit edges *)
Definition gram (ca cb cg : R) : R := 1 - ca * ca - cb * cb - cg * cg + 2 * ca * cb * cg.

(** scalar product of the basis vectors i and j; win i is the angle between the
    other two *)
Definition cell_cos (win : v3) (i j : nat) : R :=
  cos (PI / 180 * win (if (i + j =? 1)%nat then 2 else if (i + j =? 2)%nat then 1 else 0)%nat).
Definition metric (a0 win : v3) (i j : nat) : R :=
  if (i =? j)%nat then a0 i * a0 i else a0 i * a0 j * cell_cos win i j.

(** product of two 3x3 matrices, determinant, scalar product *)
Definition mul33 (s t : t33) (i j : nat) : R := s i 0%nat * t 0%nat j + s i 1%nat * t 1%nat j + s i 2%nat * t 2%nat j.
Definition one33 (i j : nat) : R := if (i =? j)%nat then 1 else 0.
Definition det33 (t : t33) : R :=
  t 0%nat 0%nat * (t 1%nat 1%nat * t 2%nat 2%nat - t 1%nat 2%nat * t 2%nat 1%nat)
  - t 0%nat 1%nat * (t 1%nat 0%nat * t 2%nat 2%nat - t 1%nat 2%nat * t 2%nat 0%nat)
  + t 0%nat 2%nat * (t 1%nat 0%nat * t 2%nat 1%nat - t 1%nat 1%nat * t 2%nat 0%nat).
Definition dot33 (t : t33) (h k : v3) : R :=
  h 0%nat * k 0%nat * t 0%nat 0%nat + h 0%nat * k 1%nat * t 0%nat 1%nat + h 0%nat * k 2%nat * t 0%nat 2%nat
  + h 1%nat * k 0%nat * t 1%nat 0%nat + h 1%nat * k 1%nat * t 1%nat 1%nat + h 1%nat * k 2%nat * t 1%nat 2%nat
  + h 2%nat * k 0%nat * t 2%nat 0%nat + h 2%nat * k 1%nat * t 2%nat 1%nat + h 2%nat * k 2%nat * t 2%nat 2%nat.

(** no off-diagonal element is so small that it is replaced by zero *)
Definition no_tiny (t : t33) : Prop :=
  forall i j, (i < 3)%nat -> (j < 3)%nat -> i <> j -> t i j = 0 \/ double_eps <= Rabs (t i j).

(** reciprocal metric: scalar products of the reciprocal basis vectors, which are
    (up to the volume) the cofactors of the metric *)
Definition rmetric (a0 win : v3) (i j : nat) : R :=
  let g := metric a0 win in
  let i1 := ((i + 1) mod 3)%nat in let i2 := ((i + 2) mod 3)%nat in
  let j1 := ((j + 1) mod 3)%nat in let j2 := ((j + 2) mod 3)%nat in
  (g i1 j1 * g i2 j2 - g i1 j2 * g i2 j1) / det33 g.
