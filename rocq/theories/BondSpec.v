(** Specification vocabulary for bond lengths and angles. *)
From Coq Require Import Ascii String List Arith ZArith Reals.
From Verif Require Import Base MathModel MetricModel MetricSpec SphereSpec PdfModel PdfSpec ParserModel ElementTable ScatSpec BondModel.
Local Open Scope R_scope.

(** the tensors are those of the current cell, as after reading a structure and
    after a calculation *)
Definition fresh (b : bphase) : Prop := lattice (cp_a0 (bp_ph b)) (cp_win (bp_ph b)) = Ok (bp_lat b).
(** edges and angles of a cell with a volume, scalar products of basis vectors that
    are not rounded to zero, at least one cell *)
Definition good_cell (p : cphase) : Prop :=
  proper_cell (cp_a0 p 0%nat) (cp_a0 p 1%nat) (cp_a0 p 2%nat) (cp_win p 0%nat) (cp_win p 1%nat) (cp_win p 2%nat) /\
  no_tiny (metric (cp_a0 p) (cp_win p)) /\ forall k, (1 <= cp_icc p k)%Z.
Definition right_angles (p : cphase) : Prop := forall k, (k < 3)%nat -> cp_win p k = 90.

(** the vector from an image of atom j to atom i, and its length *)
Definition joins (p : cphase) (x : pairT) : v3 := let '(i, j, t) := x in sep p (atom_no p i) (atom_no p j) t.
Definition apart (p : cphase) (x : pairT) : R := length_of p (joins p x).
(** atom i is not in the place of an image of atom j *)
Definition distinct (p : cphase) (i j : nat) : Prop := forall t, exists k, (k < 3)%nat /\ joins p (i, j, t) k <> 0.
(** numbers of existing atoms, counted from 1 *)
Definition number (p : cphase) (ia : Z) (i : nat) : Prop := (i < natoms p)%nat /\ ia = (Z.of_nat i + 1)%Z.

(** the word names atoms; the word asks for atom i *)
Definition known (q : text) : Prop := same_but_case q (chars "all") \/ exists e, means q e.
Definition asked (b : bphase) (q : text) (i : nat) : Prop :=
  (i < natoms (bp_ph b))%nat /\
  (same_but_case q (chars "all") \/ exists e, means q e /\ bp_sym b i = chars (el_symbol e)).
(** shorter first, those of equal length in the order of the atom numbers *)
Definition before (p : cphase) (x y : pairT) : Prop :=
  let '(i, j, _) := x in let '(i', j', _) := y in
  apart p x < apart p y \/ apart p x = apart p y /\ ((i < i')%nat \/ i = i' /\ (j <= j')%nat).
(** an entry of the result *)
Definition entry (p : cphase) (x : pairT) (r : pair_dist) : Prop :=
  let '(i, j, _) := x in
  pd_dij r = Some (apart p x) /\ pd_i r = (Z.of_nat i + 1)%Z /\ pd_j r = (Z.of_nat j + 1)%Z.

(** x less a multiple of n is between 0 and n/2 *)
Definition low_half (x n : R) : Prop := exists z : Z, 0 <= x - IZR z * n <= n / 2.

(** scalar product of two vectors of the structure *)
Definition along (p : cphase) (h k : v3) : R := dot33 (metric (cp_a0 p) (cp_win p)) h k.

(** ** standard deviations *)
(** the standard deviation of the metric is made of those of the edges (da) and of
    the angles (dw) *)
Definition fresh_err (b : bphase) (da dw : v3) : Prop := bp_dgten b = dtensor (cp_a0 (bp_ph b)) (cp_win (bp_ph b)) da dw.
(** a change of the cell and of the atoms that stays within the standard deviations *)
Definition change : Type := v3 * v3 * (nat -> v3).
Definition within (b : bphase) (da dw : v3) (c : change) : Prop :=
  let '(ea, ew, ep) := c in
  (forall k, (k < 3)%nat -> Rabs (ea k) <= da k /\ Rabs (ew k) <= dw k) /\
  (forall i k, (k < 3)%nat -> Rabs (ep i k) <= bp_dpos b i k).
(** metric and vector after the part s of the change *)
Definition metric_at (p : cphase) (c : change) (s : R) : t33 :=
  let '(ea, ew, _) := c in metric (fun k => cp_a0 p k + s * ea k) (fun k => cp_win p k + s * ew k).
Definition joins_at (p : cphase) (c : change) (x : pairT) (s : R) : v3 :=
  let '(_, _, ep) := c in let '(i, j, _) := x in fun k => joins p x k + s * (ep i k - ep j k).
Definition apart_at (p : cphase) (c : change) (x : pairT) (s : R) : R :=
  sqrt (dot33 (metric_at p c s) (joins_at p c x s) (joins_at p c x s)).
(** angle between the vectors x and y, in degrees *)
Definition angle_at (p : cphase) (c : change) (x y : pairT) (s : R) : R :=
  acos (dot33 (metric_at p c s) (joins_at p c x s) (joins_at p c y s) / (apart_at p c x s * apart_at p c y s)) * (180 / PI).
(** to first order, no change within the standard deviations changes f by more than d *)
Definition covers (b : bphase) (da dw : v3) (f : change -> R -> R) (d : R) : Prop :=
  forall c, within b da dw c -> exists l, derivable_pt_lim (f c) 0 l /\ Rabs l <= d.
(** no angle above 90 degrees, and no standard deviation of the metric that is rounded to zero *)
Definition no_obtuse (p : cphase) : Prop := forall k, (k < 3)%nat -> cp_win p k <= 90.
Definition no_tiny_err (p : cphase) (da dw : v3) : Prop :=
  forall i j, (i < 3)%nat -> (j < 3)%nat -> i <> j ->
  let k := (3 - (i + j))%nat in
  let x := (da i * cp_a0 p j + cp_a0 p i * da j) * cos (PI / 180 * cp_win p k) + cp_a0 p i * cp_a0 p j * sin (PI / 180 * cp_win p k) * (PI / 180) * dw k in
  x = 0 \/ double_eps <= Rabs x.
