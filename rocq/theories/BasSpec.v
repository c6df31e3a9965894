(** Specification vocabulary: the same crystal described with other basis vectors. *)
From Coq Require Import List Arith ZArith Reals Bool.
From Verif Require Import Base RSum MetricModel MetricSpec PdfModel PdfSpec RelSpec SupSpec AxSpec.
Import ListNotations.
Local Open Scope R_scope.

(** column j of m is the new basis vector j in the old basis *)
Definition zmat : Type := nat -> nat -> Z.
Definition mz (m : zmat) (t : trip) : trip :=
  let f i := (m i 0%nat * comp t 0 + m i 1%nat * comp t 1 + m i 2%nat * comp t 2)%Z in (f 0%nat, f 1%nat, f 2%nat).
Definition mr (m : zmat) (h : v3) (i : nat) : R := IZR (m i 0%nat) * h 0%nat + IZR (m i 1%nat) * h 1%nat + IZR (m i 2%nat) * h 2%nat.
(** both sets of vectors span the same lattice *)
Definition inverse (m n : zmat) : Prop :=
  forall i j, (i < 3)%nat -> (j < 3)%nat -> (m i 0%nat * n 0%nat j + m i 1%nat * n 1%nat j + m i 2%nat * n 2%nat j = if (i =? j)%nat then 1 else 0)%Z.
(** scalar products of the vectors m in the metric g *)
Definition scalar (m : zmat) (g : t33) (i j : nat) : R := dot33 g (fun k => IZR (m k i)) (fun k => IZR (m k j)).
(** displacement tensor of an atom as a bilinear form on reciprocal vectors: the
    elements in the structure refer to reciprocal basis vectors of unit length *)
Definition tensor (p : cphase) (a : catom) (i j : nat) : R :=
  at_u a (if (i =? j)%nat then i else off i j) * (sqrt (rmetric (cp_a0 p) (cp_win p) i i) * sqrt (rmetric (cp_a0 p) (cp_win p) j j)).

(** a' is the atom a in the new coordinates, up to a translation of the lattice and a
    shift v common to all atoms *)
Definition rebased_atom (m n : zmat) (v : v3) (p p' : cphase) (z : trip) (a a' : catom) : Prop :=
  at_occ a' = at_occ a /\ at_sf a' = at_sf a /\
  (forall j, (j < 3)%nat -> at_pos a' j = mr n (at_pos a) j + v j + IZR (comp z j)) /\
  (forall i j, (i < 3)%nat -> (j < 3)%nat -> tensor p a i j = dot33 (tensor p' a') (fun k => IZR (m i k)) (fun k => IZR (m j k))).
Definition recut (p : cphase) (a0 win : v3) (l : list catom) : cphase :=
  mkCp a0 win (cp_icc p) l (cp_delta2 p) (cp_delta1 p) (cp_pscale p) (cp_spd p) (cp_stepcut p) (cp_sratio p) (cp_rcut p).
Definition rebased (m n : zmat) (v : v3) (z : nat -> trip) (p p' : cphase) : Prop :=
  inverse m n /\ inverse n m /\ (forall k, cp_icc p k = 1%Z) /\ p' = recut p (cp_a0 p') (cp_win p') (cp_atoms p') /\
  (forall i j, (i < 3)%nat -> (j < 3)%nat -> metric (cp_a0 p') (cp_win p') i j = scalar m (metric (cp_a0 p) (cp_win p)) i j) /\
  natoms p' = natoms p /\ forall i, (i < natoms p)%nat -> rebased_atom m n v p p' (z i) (atom_no p i) (atom_no p' i).
Definition other_basis (e e' : centry) : Prop :=
  (exists m n v z, rebased m n v z (en_ph e) (en_ph e')) /\
  forall i, (i < natoms (en_ph e))%nat -> en_igni e' i = en_igni e i /\ en_ignj e' i = en_ignj e i.
Definition basis_of (p p' : cphase) : Prop := exists m n v z, rebased m n v z p p'.

(** inversion at the point v / 2 *)
Definition mirror : zmat := fun i j => if (i =? j)%nat then (-1)%Z else 0%Z.
Definition image (v : v3) (p : cphase) : cphase :=
  with_atoms p (map (fun a => mkAt (fun j => v j - at_pos a j) (at_u a) (at_occ a) (at_sf a)) (cp_atoms p)).

(** the structure written in the basis m, with inverse n *)
Definition edge (m : zmat) (g : t33) (j : nat) : R := sqrt (scalar m g j j).
Definition angle (m : zmat) (g : t33) (i j : nat) : R := 180 / PI * acos (scalar m g i j / (edge m g i * edge m g j)).
Definition new_a0 (m : zmat) (p : cphase) : v3 := edge m (metric (cp_a0 p) (cp_win p)).
Definition new_win (m : zmat) (p : cphase) : v3 :=
  let g := metric (cp_a0 p) (cp_win p) in fun k => match k with O => angle m g 1 2 | 1%nat => angle m g 0 2 | _ => angle m g 0 1 end.
Definition new_atom (m n : zmat) (v : v3) (p : cphase) (z : trip) (a : catom) : catom :=
  let s k := sqrt (rmetric (new_a0 m p) (new_win m p) k k) in
  let u k l := dot33 (tensor p a) (fun i => IZR (n k i)) (fun i => IZR (n l i)) / (s k * s l) in
  mkAt (fun j => mr n (at_pos a) j + v j + IZR (comp z j))
       (fun k => match k with 0 => u 0 0 | 1 => u 1 1 | 2 => u 2 2 | 3 => u 0 1 | 4 => u 0 2 | _ => u 1 2 end%nat) (at_occ a) (at_sf a).
Definition rebase (m n : zmat) (v : v3) (z : nat -> trip) (p : cphase) : cphase :=
  recut p (new_a0 m p) (new_win m p) (map (fun i => new_atom m n v p (z i) (atom_no p i)) (seq 0 (natoms p))).

(** descriptions of the same sample that follow from each other step by step, each
    of them one that can be calculated *)
Definition same_thing (e e' : centry) : Prop := same_material e e' \/ other_axes e e' \/ other_basis e e'.
Inductive linked (d : cdata) : list (option centry) -> list (option centry) -> Prop :=
  | link_step x y : ready d x -> ready d y -> all_complete x -> all_complete y -> Forall2 (opt_rel same_thing) x y -> linked d x y
  | link_back x y : linked d x y -> linked d y x
  | link_join x y z : linked d x y -> linked d y z -> linked d x z.
