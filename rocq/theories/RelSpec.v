(** Specification vocabulary: the same sample, listed differently. *)
From Coq Require Import List Arith ZArith Reals Bool Permutation.
From Verif Require Import Base RSum MetricModel PdfModel PdfSpec.
Import ListNotations.
Local Open Scope R_scope.

Definition with_atoms (p : cphase) (l : list catom) : cphase :=
  mkCp (cp_a0 p) (cp_win p) (cp_icc p) l (cp_delta2 p) (cp_delta1 p) (cp_pscale p) (cp_spd p) (cp_stepcut p) (cp_sratio p) (cp_rcut p).

(** a' is on the same kind of site as a, moved by v and translations of the crystal;
    occupancies may differ *)
Definition moved (icc : nat -> Z) (v : v3) (a a' : catom) : Prop :=
  at_u a' = at_u a /\ at_sf a' = at_sf a /\
  forall k, (k < 3)%nat -> exists z : Z, at_pos a' k = at_pos a k + v k + IZR z * IZR (icc k).

(** every atom x of p' is on the site of atom m x of p, and the occupancies of the
    atoms on a site add up to its occupancy: sites may be listed in another order, be
    split, or be left out when they are empty *)
Definition placed (p p' : cphase) (m : nat -> nat) (v : v3) : Prop :=
  p' = with_atoms p (cp_atoms p') /\
  (forall x, (x < natoms p')%nat -> (m x < natoms p)%nat /\ moved (cp_icc p) v (atom_no p (m x)) (atom_no p' x)) /\
  (forall i, (i < natoms p)%nat -> at_occ (atom_no p i) = rsum (natoms p') (fun x => if (m x =? i)%nat then at_occ (atom_no p' x) else 0)).
Definition all_counted (e : centry) : Prop :=
  forall i, (i < natoms (en_ph e))%nat -> en_igni e i = false /\ en_ignj e i = false.
(** the ignored atoms are those on the ignored sites *)
Definition same_ignored (e e' : centry) (m : nat -> nat) : Prop :=
  natoms (en_ph e') = natoms (en_ph e) /\
  (forall x y, (x < natoms (en_ph e'))%nat -> (y < natoms (en_ph e'))%nat -> m x = m y -> x = y) /\
  forall x, (x < natoms (en_ph e'))%nat -> en_igni e' x = en_igni e (m x) /\ en_ignj e' x = en_ignj e (m x).
Definition relisted (e e' : centry) : Prop :=
  exists m v, placed (en_ph e) (en_ph e') m v /\ (all_counted e /\ all_counted e' \/ same_ignored e e' m).

(** all pairs are looked at: atoms listed in one cell, no stepcut *)
Definition complete (e : centry) : Prop := one_cell (en_ph e) /\ cp_stepcut (en_ph e) <= 0.
Definition opt_rel (P : centry -> centry -> Prop) (x y : option centry) : Prop :=
  match x, y with None, None => True | Some e, Some e' => P e e' | _, _ => False end.

(** ** ways to list a sample *)
(** the atoms with whether they are ignored *)
Definition sites (e : centry) : list (catom * bool * bool) :=
  map (fun i => (atom_no (en_ph e) i, en_igni e i, en_ignj e i)) (seq 0 (natoms (en_ph e))).
Definition reordered (e e' : centry) : Prop :=
  en_ph e' = with_atoms (en_ph e) (cp_atoms (en_ph e')) /\ Permutation (sites e) (sites e').
(** all atoms moved by v *)
Definition shifted (e e' : centry) (v : v3) : Prop :=
  (exists l, en_ph e' = with_atoms (en_ph e) l /\
     Forall2 (fun a a' => at_u a' = at_u a /\ at_sf a' = at_sf a /\ at_occ a' = at_occ a /\ forall k, (k < 3)%nat -> at_pos a' k = at_pos a k + v k) (cp_atoms (en_ph e)) l) /\
  forall i, (i < natoms (en_ph e))%nat -> en_igni e' i = en_igni e i /\ en_ignj e' i = en_ignj e i.
Definition with_occ (a : catom) (o : R) : catom := mkAt (at_pos a) (at_u a) o (at_sf a).
(** an atom listed as two that share its occupancy *)
Definition site_split (e e' : centry) : Prop :=
  all_counted e /\ all_counted e' /\ exists l1 a o l2, cp_atoms (en_ph e) = l1 ++ a :: l2 /\
  en_ph e' = with_atoms (en_ph e) (l1 ++ with_occ a o :: with_occ a (at_occ a - o) :: l2).
(** an atom with occupancy 0 left out *)
Definition empty_dropped (e e' : centry) : Prop :=
  all_counted e /\ all_counted e' /\ exists l1 a l2, cp_atoms (en_ph e) = l1 ++ a :: l2 /\ at_occ a = 0 /\ en_ph e' = with_atoms (en_ph e) (l1 ++ l2).

(** ** whole calculations *)
(** one unit cell, coordinates not negative, no stepcut *)
Definition plain (p : cphase) : Prop :=
  (forall k, cp_icc p k = 1%Z) /\ cp_stepcut p <= 0 /\ (forall i k, (i < natoms p)%nat -> (k < 3)%nat -> 0 <= at_pos (atom_no p i) k) /\ calculable p.
Definition same_sample (p p' : cphase) : Prop := exists m v, placed p p' m v.
(** no atom is ignored in the phases of a data set *)
Definition everything (s : cset) : Prop := forall gi gj i, In (Some (gi, gj)) (cs_sel s) -> gi i = false /\ gj i = false.

(** ** the calculated PDF is the same *)
Definition ready (d : cdata) (psel : list (option centry)) : Prop :=
  forall e, In e (selected_entries psel) -> up_to_date e /\ sane_phase d (en_ph e).
Definition same_pdf (d : cdata) (psel psel' : list (option centry)) : Prop :=
  exists f0 r, forall fuel, (f0 <= fuel)%nat -> determine fuel d psel = Ok r /\ determine fuel d psel' = Ok r.
Definition all_complete (psel : list (option centry)) : Prop := forall e, In e (selected_entries psel) -> complete e.
