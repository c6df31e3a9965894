(** Specification vocabulary: the same crystal described with a larger cell. *)
From Coq Require Import List Arith ZArith Reals Bool.
From Verif Require Import Base RSum MetricModel PdfModel PdfSpec RelSpec.
Import ListNotations.
Local Open Scope R_scope.

Definition trip : Type := Z * Z * Z.
Definition comp (t : trip) (j : nat) : Z := let '(a, b, c) := t in match j with O => a | 1%nat => b | _ => c end.
(** cells of the larger cell: k0 * k1 * k2 of them *)
Definition cell_in (k o : trip) : Prop := forall j, (j < 3)%nat -> (0 <= comp o j < comp k j)%Z.

(** p with edges multiplied by k and other atoms *)
Definition recelled (k : trip) (p : cphase) (l : list catom) : cphase :=
  mkCp (fun j => IZR (comp k j) * cp_a0 p j) (cp_win p) (cp_icc p) l (cp_delta2 p) (cp_delta1 p) (cp_pscale p) (cp_spd p) (cp_stepcut p) (cp_sratio p) (cp_rcut p).
(** a' is the copy of a in cell o of the larger cell, in fractions of its edges *)
Definition copy_of (k : trip) (icc : nat -> Z) (o : trip) (a a' : catom) : Prop :=
  at_u a' = at_u a /\ at_sf a' = at_sf a /\ at_occ a' = at_occ a /\
  forall j, (j < 3)%nat -> at_pos a' j = (at_pos a j + IZR (comp o j) * IZR (icc j)) / IZR (comp k j).
(** atom x of p' is the copy of atom m x of p in cell o x; there is exactly one copy
    of every atom in every cell, in any order *)
Definition copies (k : trip) (p p' : cphase) (m : nat -> nat) (o : nat -> trip) : Prop :=
  (forall j, (j < 3)%nat -> (1 <= comp k j)%Z) /\ p' = recelled k p (cp_atoms p') /\
  (forall x, (x < natoms p')%nat -> (m x < natoms p)%nat /\ cell_in k (o x) /\ copy_of k (cp_icc p) (o x) (atom_no p (m x)) (atom_no p' x)) /\
  (forall i c, (i < natoms p)%nat -> cell_in k c -> exists x, (x < natoms p')%nat /\ m x = i /\ o x = c) /\
  (forall x y, (x < natoms p')%nat -> (y < natoms p')%nat -> m x = m y -> o x = o y -> x = y).
(** copies of ignored atoms are ignored *)
Definition supercell (k : trip) (e e' : centry) : Prop :=
  exists m o, copies k (en_ph e) (en_ph e') m o /\
  forall x, (x < natoms (en_ph e'))%nat -> en_igni e' x = en_igni e (m x) /\ en_ignj e' x = en_ignj e (m x).

(** one way to write it: the atoms cell by cell *)
Definition upto (n : Z) : list Z := map Z.of_nat (seq 0 (Z.to_nat n)).
Definition cells (k : trip) : list trip := list_prod (list_prod (upto (comp k 0)) (upto (comp k 1))) (upto (comp k 2)).
Definition copy (k : trip) (icc : nat -> Z) (o : trip) (a : catom) : catom :=
  mkAt (fun j => (at_pos a j + IZR (comp o j) * IZR (icc j)) / IZR (comp k j)) (at_u a) (at_occ a) (at_sf a).
Definition enlarged (k : trip) (p : cphase) : cphase :=
  recelled k p (flat_map (fun o => map (copy k (cp_icc p) o) (cp_atoms p)) (cells k)).

(** the same crystal in two cells, one k times the other; or in one cell, listed
    differently *)
Definition same_crystal (p p' : cphase) : Prop := same_sample p p' \/ exists k m o, copies k p p' m o.
Definition same_material (e e' : centry) : Prop := relisted e e' \/ exists k, supercell k e e'.
