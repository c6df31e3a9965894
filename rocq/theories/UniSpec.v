(** Specification vocabulary: units of scattering factors and occupancies. *)
From Coq Require Import List Arith ZArith Reals Bool Ascii.
From Verif Require Import Base RSum MetricModel PdfModel PdfSpec RelSpec.
Import ListNotations.
Local Open Scope R_scope.

(** occupancies times k, scattering factors for radiation t times c t *)
Definition unit_atom (k : R) (c : ascii -> R) (a : catom) : catom := mkAt (at_pos a) (at_u a) (k * at_occ a) (fun t => c t * at_sf a t).
(** and the scale factor divided by k *)
Definition in_units (k : R) (c : ascii -> R) (p : cphase) : cphase :=
  mkCp (cp_a0 p) (cp_win p) (cp_icc p) (map (unit_atom k c) (cp_atoms p)) (cp_delta2 p) (cp_delta1 p) (cp_pscale p / k) (cp_spd p) (cp_stepcut p) (cp_sratio p) (cp_rcut p).
Definition units_of (p p' : cphase) : Prop := exists k c, k <> 0 /\ (forall t, c t <> 0) /\ p' = in_units k c p.
Definition other_units (e e' : centry) : Prop :=
  units_of (en_ph e) (en_ph e') /\ forall i, (i < natoms (en_ph e))%nat -> en_igni e' i = en_igni e i /\ en_ignj e' i = en_ignj e i.
