(** Specification vocabulary: the axes of a cell named differently. *)
From Coq Require Import List Arith ZArith Reals Bool.
From Verif Require Import Base RSum MetricModel PdfModel PdfSpec RelSpec.
Import ListNotations.
Local Open Scope R_scope.

(** new axis j is old axis s j *)
Definition naming (s : nat -> nat) : Prop := In (s 0, s 1, s 2)%nat [(0, 1, 2); (1, 2, 0); (2, 0, 1); (1, 0, 2); (0, 2, 1); (2, 1, 0)]%nat.
(** place of element ij (i <> j) of a displacement tensor: u12, u13, u23 follow u11, u22, u33 *)
Definition off (i j : nat) : nat := (i + j + 2)%nat.
Definition renamed_atom (s : nat -> nat) (a a' : catom) : Prop :=
  (forall j, (j < 3)%nat -> at_pos a' j = at_pos a (s j) /\ at_u a' j = at_u a (s j)) /\
  (forall i j, (i < j)%nat -> (j < 3)%nat -> at_u a' (off i j) = at_u a (off (s i) (s j))) /\
  at_occ a' = at_occ a /\ at_sf a' = at_sf a.
(** edges, angles (each opposite to its edge), blocks of cells and atoms *)
Definition renamed (s : nat -> nat) (p p' : cphase) : Prop :=
  exists l, p' = mkCp (fun j => cp_a0 p (s j)) (fun j => cp_win p (s j)) (fun j => cp_icc p (s j)) l (cp_delta2 p) (cp_delta1 p) (cp_pscale p) (cp_spd p) (cp_stepcut p) (cp_sratio p) (cp_rcut p) /\
  Forall2 (renamed_atom s) (cp_atoms p) l.
Definition other_axes (e e' : centry) : Prop :=
  (exists s, naming s /\ renamed s (en_ph e) (en_ph e')) /\
  forall i, (i < natoms (en_ph e))%nat -> en_igni e' i = en_igni e i /\ en_ignj e' i = en_ignj e i.
(** the phase written with the axes in the other order *)
Definition rename_atom (s : nat -> nat) (a : catom) : catom :=
  mkAt (fun j => at_pos a (s j))
       (fun k => match k with 3%nat => at_u a (off (s 0%nat) (s 1%nat)) | 4%nat => at_u a (off (s 0%nat) (s 2%nat)) | 5%nat => at_u a (off (s 1%nat) (s 2%nat)) | _ => at_u a (s k) end)
       (at_occ a) (at_sf a).
Definition rename (s : nat -> nat) (p : cphase) : cphase :=
  mkCp (fun j => cp_a0 p (s j)) (fun j => cp_win p (s j)) (fun j => cp_icc p (s j)) (map (rename_atom s) (cp_atoms p))
       (cp_delta2 p) (cp_delta1 p) (cp_pscale p) (cp_spd p) (cp_stepcut p) (cp_sratio p) (cp_rcut p).
Definition axes_of (p p' : cphase) : Prop := exists s, naming s /\ renamed s p p'.
