(** Properties of bond lengths, bond angles and their standard deviations: C34, C35, C36, C57. *)
From Coq Require Import Ascii String List Arith ZArith Reals Bool Sorted.
From Verif Require Import Base MathModel MetricModel MetricSpec PdfModel PdfSpec ParserModel BondModel BondSpec BondProof BondNear BondAngle BondErr BondEx BondFinal.
Import ListNotations.
Local Open Scope R_scope.

(** ** C34: bonds between two kinds of atoms *)
Theorem C34_bonds : forall b q1 q2 lo hi, fresh b -> good_cell (bp_ph b) -> known q1 -> known q2 -> exists f0 W rv,
  (forall f, (f0 <= f)%nat -> bond_length_types f b q1 q2 lo hi = Ok rv) /\ Forall2 (entry (bp_ph b)) W rv /\
  NoDup W /\ StronglySorted (before (bp_ph b)) W /\
  (forall i j t, In (i, j, t) W -> asked b q1 i /\ asked b q2 j /\ lo <= apart (bp_ph b) (i, j, t) <= hi) /\
  (forall i j t, asked b q1 i -> asked b q2 j -> lo <= apart (bp_ph b) (i, j, t) <= hi ->
     (forall k, (k < 3)%nat -> Rabs (at_pos (atom_no (bp_ph b) i) k - at_pos (atom_no (bp_ph b) j) k) <= 1) -> In (i, j, t) W).
Proof. exact bonds. Qed.
Print Assumptions C34_bonds.
Example C34_bonds_ex : exists b f0 W rv, fresh b /\ good_cell (bp_ph b) /\ known (chars "all") /\ known (chars "c") /\ asked b (chars "c") 1 /\ asked b (chars "all") 0 /\
  (forall f, (f0 <= f)%nat -> bond_length_types f b (chars "c") (chars "all") (5 / 10) 2 = Ok rv) /\ Forall2 (entry (bp_ph b)) W rv /\ In (1%nat, 0%nat, (0, 0, 0)%Z) W.
Proof. exact sample_bonds. Qed.

Theorem C34_unknown : forall f b q1 q2 lo hi, ~ known q1 \/ ~ known q2 -> bond_length_types f b q1 q2 lo hi = Err ErrValue.
Proof. exact types_unknown. Qed.
Print Assumptions C34_unknown.
Example C34_unknown_ex : ~ known (chars "Xx"). Proof. exact unknown_word. Qed.

(** in a block of two cells with both atoms inside it, a bond of length 1 through the
    end of the block is not found *)
Theorem C34_refuted : exists b x f0 W rv, fresh b /\ good_cell (bp_ph b) /\ x = (0%nat, 1%nat, (-1, 0, 0)%Z) /\
  asked b (chars "all") 0 /\ asked b (chars "all") 1 /\ 5 / 10 <= apart (bp_ph b) x <= 15 / 10 /\
  (forall k, (k < 3)%nat -> 0 <= at_pos (atom_no (bp_ph b) 0) k < IZR (cp_icc (bp_ph b) k) /\ 0 <= at_pos (atom_no (bp_ph b) 1) k < IZR (cp_icc (bp_ph b) k)) /\
  (forall f, (f0 <= f)%nat -> bond_length_types f b (chars "all") (chars "all") (5 / 10) (15 / 10) = Ok rv) /\
  Forall2 (entry (bp_ph b)) W rv /\ ~ In x W /\ forall r, In r rv -> ~ (pd_i r = 1%Z /\ pd_j r = 2%Z).
Proof. exact block_misses. Qed.
Print Assumptions C34_refuted.

(** ** C35: distance of two atoms *)
(** the distance of some image; in a cell with right angles the shortest one exactly
    when the coordinates differ by at most half a block, up to whole blocks, counted
    without sign; in other cells not longer than that of the image in the negative octant *)
Theorem C35_image : forall b f ia ja i j, fresh b -> good_cell (bp_ph b) -> number (bp_ph b) ia i -> number (bp_ph b) ja j -> (3 <= f)%nat -> exists r t,
  bond_length_atoms f b ia ja = Ok r /\ entry (bp_ph b) (i, j, t) r /\
  (right_angles (bp_ph b) -> (forall t', apart (bp_ph b) (i, j, t) <= apart (bp_ph b) (i, j, t')) <->
     (forall k, (k < 3)%nat -> low_half (Rabs (at_pos (atom_no (bp_ph b) i) k - at_pos (atom_no (bp_ph b) j) k)) (IZR (cp_icc (bp_ph b) k)))) /\
  (~ right_angles (bp_ph b) -> forall t', (forall k, (k < 3)%nat -> - IZR (cp_icc (bp_ph b) k) < joins (bp_ph b) (i, j, t') k <= 0) ->
     apart (bp_ph b) (i, j, t) <= apart (bp_ph b) (i, j, t')).
Proof. exact lengths. Qed.
Print Assumptions C35_image.
Example C35_image_ex : exists b, fresh b /\ good_cell (bp_ph b) /\ right_angles (bp_ph b) /\ number (bp_ph b) 2 1 /\ number (bp_ph b) 1 0 /\
  (forall k, (k < 3)%nat -> low_half (Rabs (at_pos (atom_no (bp_ph b) 1) k - at_pos (atom_no (bp_ph b) 0) k)) (IZR (cp_icc (bp_ph b) k))).
Proof. exact low_case. Qed.

(** atoms on a line along an edge, in a cell with an oblique angle: the shortest of the
    images on that line *)
Theorem C35_edge : forall b, fresh b -> good_cell (bp_ph b) -> forall f ia ja i j q t0, ~ right_angles (bp_ph b) -> number (bp_ph b) ia i -> number (bp_ph b) ja j -> (3 <= f)%nat -> (q < 3)%nat ->
  (forall k, (k < 3)%nat -> k <> q -> joins (bp_ph b) (i, j, t0) k = 0) ->
  exists r t, bond_length_atoms f b ia ja = Ok r /\ pd_dij r = Some (apart (bp_ph b) (i, j, t)) /\
    forall t', (forall k, (k < 3)%nat -> k <> q -> joins (bp_ph b) (i, j, t') k = 0) -> apart (bp_ph b) (i, j, t) <= apart (bp_ph b) (i, j, t').
Proof. exact axis_shortest. Qed.
Print Assumptions C35_edge.
Example C35_edge_ex : exists b, fresh b /\ good_cell (bp_ph b) /\ ~ right_angles (bp_ph b) /\ number (bp_ph b) 1 0 /\ number (bp_ph b) 2 1 /\
  (forall k, (k < 3)%nat -> k <> 0%nat -> joins (bp_ph b) (0%nat, 1%nat, (0, 0, 0)%Z) k = 0) /\ 0 < apart (bp_ph b) (0%nat, 1%nat, (0, 0, 0)%Z).
Proof. exact sample_oblique. Qed.

(** in a cell with right angles the order of the atoms does not matter *)
Theorem C35_symmetric : forall b, fresh b -> good_cell (bp_ph b) -> forall f ia ja, right_angles (bp_ph b) -> (3 <= f)%nat ->
  match bond_length_atoms f b ia ja, bond_length_atoms f b ja ia with
  | Ok r, Ok r' => pd_dij r = pd_dij r' | Err e, Err e' => e = e' | _, _ => False end.
Proof. exact right_sym. Qed.
Print Assumptions C35_symmetric.
Example C35_symmetric_ex : exists b, fresh b /\ good_cell (bp_ph b) /\ right_angles (bp_ph b).
Proof. exact symmetric_sample. Qed.

Theorem C35_errors : forall b f ia ja, (forall i, ~ number (bp_ph b) ia i) \/ (forall i, ~ number (bp_ph b) ja i) -> bond_length_atoms f b ia ja = Err ErrValue.
Proof. exact length_bad. Qed.
Print Assumptions C35_errors.
Example C35_errors_ex : forall b i, natoms (bp_ph b) = 3%nat -> ~ number (bp_ph b) 4 i /\ ~ number (bp_ph b) 0 i.
Proof. exact no_such_atom. Qed.

(** right angles: 3.2 is reported although an image is at 0.8 *)
Theorem C35_refuted : exists b f, fresh b /\ good_cell (bp_ph b) /\ right_angles (bp_ph b) /\ exists r x, bond_length_atoms f b 1 2 = Ok r /\ fst x = (0%nat, 1%nat) /\
  pd_dij r = Some (32 / 10) /\ apart (bp_ph b) x = 8 / 10.
Proof. exact wrapped_far. Qed.
Print Assumptions C35_refuted.
(** an angle of 60 degrees: 3.6 is reported, 0.4 for the same atoms in the other order *)
Theorem C35_order_refuted : exists b f, fresh b /\ good_cell (bp_ph b) /\ exists r r' x, bond_length_atoms f b 1 2 = Ok r /\ bond_length_atoms f b 2 1 = Ok r' /\ fst x = (0%nat, 1%nat) /\
  pd_dij r = Some (36 / 10) /\ pd_dij r' = Some (4 / 10) /\ apart (bp_ph b) x = 4 / 10.
Proof. exact oblique_far. Qed.
Print Assumptions C35_order_refuted.
(** after the edges were changed by setvar the distance is still that of the old cell *)
Theorem C35_stale_refuted : exists b f old, lattice old (cp_win (bp_ph b)) = Ok (bp_lat b) /\ good_cell (bp_ph b) /\ exists r, bond_length_atoms f b 1 2 = Ok r /\
  forall t, pd_dij r <> Some (apart (bp_ph b) (0%nat, 1%nat, t)).
Proof. exact stale_length. Qed.
Print Assumptions C35_stale_refuted.

(** ** C36: bond angles *)
Theorem C36_angle : forall b f ia ja ka i j k, fresh b -> good_cell (bp_ph b) -> number (bp_ph b) ia i -> number (bp_ph b) ja j -> number (bp_ph b) ka k ->
  i <> j -> i <> k -> j <> k -> (3 <= f)%nat -> exists t u ang dang,
  bond_angle f b ia ja ka = Ok (ang, dang) /\
  (forall r, bond_length_atoms f b ja ia = Ok r -> pd_dij r = Some (apart (bp_ph b) (j, i, t))) /\
  (forall r, bond_length_atoms f b ja ka = Ok r -> pd_dij r = Some (apart (bp_ph b) (j, k, u))) /\
  (distinct (bp_ph b) j i -> distinct (bp_ph b) j k -> exists a, ang = Some a /\ 0 <= a <= 180 /\
     along (bp_ph b) (joins (bp_ph b) (j, i, t)) (joins (bp_ph b) (j, k, u)) = apart (bp_ph b) (j, i, t) * apart (bp_ph b) (j, k, u) * cos (PI / 180 * a)).
Proof. exact angles. Qed.
Print Assumptions C36_angle.
Example C36_angle_ex : exists b, fresh b /\ good_cell (bp_ph b) /\ right_angles (bp_ph b) /\ no_obtuse (bp_ph b) /\ fresh_err b dev1 (fun _ => 0) /\ no_tiny_err (bp_ph b) dev1 (fun _ => 0) /\
  number (bp_ph b) 1 0 /\ number (bp_ph b) 2 1 /\ number (bp_ph b) 3 2 /\
  distinct (bp_ph b) 1 0 /\ distinct (bp_ph b) 1 2 /\ (exists r, bond_length_atoms 3 b 2 1 = Ok r /\ pd_dij r = Some 1) /\ exists d, bond_angle 3 b 1 2 3 = Ok (Some 90, d).
Proof. exact sample. Qed.

(** reading the angle from the other end changes neither it nor its standard deviation *)
Theorem C36_symmetric : forall b da dw f ia ja ka, fresh b -> good_cell (bp_ph b) -> fresh_err b da dw -> (3 <= f)%nat -> bond_angle f b ia ja ka = bond_angle f b ka ja ia.
Proof. exact angle_sym. Qed.
Print Assumptions C36_symmetric.
Example C36_symmetric_ex : exists b, fresh b /\ good_cell (bp_ph b) /\ right_angles (bp_ph b) /\ no_obtuse (bp_ph b) /\ fresh_err b dev1 (fun _ => 0) /\ no_tiny_err (bp_ph b) dev1 (fun _ => 0) /\
  number (bp_ph b) 1 0 /\ number (bp_ph b) 2 1 /\ number (bp_ph b) 3 2 /\
  distinct (bp_ph b) 1 0 /\ distinct (bp_ph b) 1 2 /\ (exists r, bond_length_atoms 3 b 2 1 = Ok r /\ pd_dij r = Some 1) /\ exists d, bond_angle 3 b 1 2 3 = Ok (Some 90, d).
Proof. exact sample. Qed.

Theorem C36_errors : forall b f ia ja ka, (forall i, ~ number (bp_ph b) ia i) \/ (forall i, ~ number (bp_ph b) ja i) \/ (forall i, ~ number (bp_ph b) ka i) \/ ia = ja \/ ia = ka \/ ja = ka ->
  bond_angle f b ia ja ka = Err ErrValue.
Proof. exact angle_bad. Qed.
Print Assumptions C36_errors.
Example C36_errors_ex : forall b i, natoms (bp_ph b) = 3%nat -> ~ number (bp_ph b) 4 i /\ ~ number (bp_ph b) 0 i.
Proof. exact no_such_atom. Qed.

(** no number when the vertex coincides with an image of another of the atoms *)
Theorem C36_coincident : forall b f ia ja ka i j k t, fresh b -> good_cell (bp_ph b) -> number (bp_ph b) ia i -> number (bp_ph b) ja j -> number (bp_ph b) ka k ->
  i <> j -> i <> k -> j <> k -> (3 <= f)%nat -> (forall n, (n < 3)%nat -> joins (bp_ph b) (j, i, t) n = 0) \/ (forall n, (n < 3)%nat -> joins (bp_ph b) (j, k, t) n = 0) ->
  bond_angle f b ia ja ka = Ok (None, None).
Proof. exact coincident. Qed.
Print Assumptions C36_coincident.
Example C36_coincident_ex : exists b, fresh b /\ good_cell (bp_ph b) /\ number (bp_ph b) 1 0 /\ number (bp_ph b) 2 1 /\ number (bp_ph b) 3 2 /\
  (forall n, (n < 3)%nat -> joins (bp_ph b) (1%nat, 0%nat, (1, 0, 0)%Z) n = 0).
Proof. exact same_place. Qed.

(** the shortest bonds make an angle of 180 degrees, 0 is reported *)
Theorem C36_nearest_refuted : exists b f t u, fresh b /\ good_cell (bp_ph b) /\ natoms (bp_ph b) = 3%nat /\ (exists d, bond_angle f b 1 2 3 = Ok (Some 0, d)) /\
  (forall t', apart (bp_ph b) (1%nat, 0%nat, t) <= apart (bp_ph b) (1%nat, 0%nat, t')) /\ (forall u', apart (bp_ph b) (1%nat, 2%nat, u) <= apart (bp_ph b) (1%nat, 2%nat, u')) /\
  forall c, angle_at (bp_ph b) c (1%nat, 0%nat, t) (1%nat, 2%nat, u) 0 = 180.
Proof. exact angle_far. Qed.
Print Assumptions C36_nearest_refuted.

(** ** C57: standard deviations *)
(** to first order no change of edges, angles and coordinates within their standard
    deviations changes the distance by more than the standard deviation reported *)
Theorem C57_length : forall b da dw f ia ja i j, fresh b -> good_cell (bp_ph b) -> fresh_err b da dw -> no_obtuse (bp_ph b) -> no_tiny_err (bp_ph b) da dw ->
  number (bp_ph b) ia i -> number (bp_ph b) ja j -> (3 <= f)%nat -> exists r t,
  bond_length_atoms f b ia ja = Ok r /\ entry (bp_ph b) (i, j, t) r /\
  (distinct (bp_ph b) i j -> covers b da dw (fun c => apart_at (bp_ph b) c (i, j, t)) (pd_ddij r)).
Proof. exact length_dev. Qed.
Print Assumptions C57_length.
Example C57_length_ex : exists b, fresh b /\ good_cell (bp_ph b) /\ right_angles (bp_ph b) /\ no_obtuse (bp_ph b) /\ fresh_err b dev1 (fun _ => 0) /\ no_tiny_err (bp_ph b) dev1 (fun _ => 0) /\
  number (bp_ph b) 1 0 /\ number (bp_ph b) 2 1 /\ number (bp_ph b) 3 2 /\
  distinct (bp_ph b) 1 0 /\ distinct (bp_ph b) 1 2 /\ (exists r, bond_length_atoms 3 b 2 1 = Ok r /\ pd_dij r = Some 1) /\ exists d, bond_angle 3 b 1 2 3 = Ok (Some 90, d).
Proof. exact sample. Qed.

Theorem C57_bonds : forall b da dw q1 q2 lo hi, fresh b -> good_cell (bp_ph b) -> fresh_err b da dw -> no_obtuse (bp_ph b) -> no_tiny_err (bp_ph b) da dw ->
  known q1 -> known q2 -> exists f0 W rv,
  (forall f, (f0 <= f)%nat -> bond_length_types f b q1 q2 lo hi = Ok rv) /\
  Forall2 (fun x r => entry (bp_ph b) x r /\ (0 < apart (bp_ph b) x -> covers b da dw (fun c => apart_at (bp_ph b) c x) (pd_ddij r))) W rv.
Proof. exact types_dev. Qed.
Print Assumptions C57_bonds.
Example C57_bonds_ex : exists b f0 W rv, fresh b /\ good_cell (bp_ph b) /\ known (chars "all") /\ known (chars "c") /\ asked b (chars "c") 1 /\ asked b (chars "all") 0 /\
  (forall f, (f0 <= f)%nat -> bond_length_types f b (chars "c") (chars "all") (5 / 10) 2 = Ok rv) /\ Forall2 (entry (bp_ph b)) W rv /\ In (1%nat, 0%nat, (0, 0, 0)%Z) W.
Proof. exact sample_bonds. Qed.

(** angles up to 90 degrees *)
Theorem C57_angle : forall b da dw f ia ja ka i j k, fresh b -> good_cell (bp_ph b) -> fresh_err b da dw -> no_obtuse (bp_ph b) -> no_tiny_err (bp_ph b) da dw ->
  number (bp_ph b) ia i -> number (bp_ph b) ja j -> number (bp_ph b) ka k -> i <> j -> i <> k -> j <> k -> (3 <= f)%nat -> exists t u ang dang,
  bond_angle f b ia ja ka = Ok (ang, dang) /\
  (distinct (bp_ph b) j i -> distinct (bp_ph b) j k -> exists a, ang = Some a /\
   (forall c, angle_at (bp_ph b) c (j, i, t) (j, k, u) 0 = a) /\
   (0 < a <= 90 -> exists d, dang = Some d /\ covers b da dw (fun c => angle_at (bp_ph b) c (j, i, t) (j, k, u)) d)).
Proof. exact angle_dev. Qed.
Print Assumptions C57_angle.
Example C57_angle_ex : exists b, fresh b /\ good_cell (bp_ph b) /\ right_angles (bp_ph b) /\ no_obtuse (bp_ph b) /\ fresh_err b dev1 (fun _ => 0) /\ no_tiny_err (bp_ph b) dev1 (fun _ => 0) /\
  number (bp_ph b) 1 0 /\ number (bp_ph b) 2 1 /\ number (bp_ph b) 3 2 /\
  distinct (bp_ph b) 1 0 /\ distinct (bp_ph b) 1 2 /\ (exists r, bond_length_atoms 3 b 2 1 = Ok r /\ pd_dij r = Some 1) /\ exists d, bond_angle 3 b 1 2 3 = Ok (Some 90, d).
Proof. exact sample. Qed.

(** an angle of the cell above 90 degrees: too small *)
Theorem C57_obtuse_refuted : exists b da dw x f r, fresh b /\ good_cell (bp_ph b) /\ fresh_err b da dw /\ no_tiny_err (bp_ph b) da dw /\
  bond_length_atoms f b 1 2 = Ok r /\ fst x = (0%nat, 1%nat) /\ pd_dij r = Some (apart (bp_ph b) x) /\ 0 < apart (bp_ph b) x /\
  ~ covers b da dw (fun c => apart_at (bp_ph b) c x) (pd_ddij r).
Proof. exact obtuse_small. Qed.
Print Assumptions C57_obtuse_refuted.
(** a bond angle above 90 degrees: too small *)
Theorem C57_angle_refuted : exists b da dw x y f ang dang, fresh b /\ good_cell (bp_ph b) /\ fresh_err b da dw /\ no_obtuse (bp_ph b) /\ no_tiny_err (bp_ph b) da dw /\
  bond_angle f b 1 2 3 = Ok (Some ang, Some dang) /\ fst x = (1%nat, 0%nat) /\ fst y = (1%nat, 2%nat) /\
  (forall c, angle_at (bp_ph b) c x y 0 = ang) /\ 0 < ang < 180 /\ ~ covers b da dw (fun c => angle_at (bp_ph b) c x y) dang.
Proof. exact angle_small. Qed.
Print Assumptions C57_angle_refuted.
(** an angle of 180 degrees: not a number *)
Theorem C57_straight_refuted : exists b f, fresh b /\ good_cell (bp_ph b) /\ natoms (bp_ph b) = 3%nat /\ bond_angle f b 1 2 3 = Ok (Some 180, None).
Proof. exact straight. Qed.
Print Assumptions C57_straight_refuted.
