(** Printed bond lengths and angles: C69. *)
From Coq Require Import Ascii String.
From Coq Require Import List Arith ZArith Reals Bool Sorted.
From Verif Require Import Base ParserModel DataModel FmtModel BlenModel BlenSpec BlenProof BlenEnd BlenEx.
From Verif Require ReportModel ReportSpec PdfModel PdfSpec PyModel.
From Verif Require Import BindModel BondModel BondSpec.
Import ListNotations.
Local Open Scope R_scope.

(** ** C69: what blen and bang print *)
(** two atoms: one line with the names and numbers of the atoms and the length *)
Theorem C69_atoms : forall fuel b i j ki kj r, ordinary b -> number (bp_ph b) i ki -> number (bp_ph b) j kj -> bond_length_atoms fuel b i j = Ok r ->
  exists l, blen fuel (Some b) [AInt i; AInt j] = ([l], BDone) /\
  bond_line (ReportModel.upper (bp_sym b ki)) i (ReportModel.upper (bp_sym b kj)) j (pd_dij r) (Some (pd_ddij r)) l.
Proof. exact atoms_shown. Qed.
Print Assumptions C69_atoms.
Example C69_atoms_ex : exists b, ordinary b /\ fresh b /\ good_cell (bp_ph b) /\ number (bp_ph b) 1 0 /\ number (bp_ph b) 2 1 /\ number (bp_ph b) 3 2 /\
  kinds (map (bp_sym b) (seq 0 (BlenSpec.natoms b))) [chars "C"; chars "Na"] /\
  (exists r, bond_length_atoms 3 b 2 1 = Ok r /\ pd_dij r = Some 1) /\ (exists d, bond_angle 3 b 1 2 3 = Ok (Some 90, d)) /\ forall n, ~ number (bp_ph b) 4 n.
Proof. exact sample. Qed.

(** two kinds of atoms: the title, one line for each bond in order of length, an empty
    line; a notice exactly if there is no bond *)
Theorem C69_types : forall b q1 q2 a3 a4 lo hi, ordinary b -> fresh b -> good_cell (bp_ph b) -> known q1 -> known q2 -> as_real a3 = inr lo -> as_real a4 = inr hi ->
  exists f0 W rv h ls, (forall f, (f0 <= f)%nat -> blen f (Some b) [AText q1; AText q2; a3; a4] = (h :: ls ++ [] :: match W with [] => [chars "   *** No pairs found ***"] | _ => [] end, BDone)) /\
  header_says q1 q2 lo hi h /\ Forall2 (entry (bp_ph b)) W rv /\ Forall2 (bond_shown b) rv ls /\
  NoDup W /\ StronglySorted (before (bp_ph b)) W /\
  (forall i j t, In (i, j, t) W -> asked b q1 i /\ asked b q2 j /\ lo <= apart (bp_ph b) (i, j, t) <= hi) /\
  (forall i j t, asked b q1 i -> asked b q2 j -> lo <= apart (bp_ph b) (i, j, t) <= hi ->
     (forall k, (k < 3)%nat -> Rabs (PdfModel.at_pos (PdfSpec.atom_no (bp_ph b) i) k - PdfModel.at_pos (PdfSpec.atom_no (bp_ph b) j) k) <= 1) -> In (i, j, t) W).
Proof. exact bonds_shown. Qed.
Print Assumptions C69_types.
Example C69_types_ex : known (chars "c") /\ known (chars "all") /\ ~ known (chars "Xx").
Proof. exact known_words. Qed.

Theorem C69_angle : forall fuel b i j k ki kj kk r, ordinary b -> number (bp_ph b) i ki -> number (bp_ph b) j kj -> number (bp_ph b) k kk -> bond_angle fuel b i j k = Ok r ->
  exists l, bang fuel (Some b) (AInt i) (AInt j) (AInt k) = ([l], BDone) /\
  angle_line (ReportModel.upper (bp_sym b ki)) i (ReportModel.upper (bp_sym b kj)) j (ReportModel.upper (bp_sym b kk)) k (fst r) (snd r) l.
Proof. exact bang_shown. Qed.
Print Assumptions C69_angle.
Example C69_angle_ex : exists b, ordinary b /\ fresh b /\ good_cell (bp_ph b) /\ number (bp_ph b) 1 0 /\ number (bp_ph b) 2 1 /\ number (bp_ph b) 3 2 /\
  kinds (map (bp_sym b) (seq 0 (BlenSpec.natoms b))) [chars "C"; chars "Na"] /\
  (exists r, bond_length_atoms 3 b 2 1 = Ok r /\ pd_dij r = Some 1) /\ (exists d, bond_angle 3 b 1 2 3 = Ok (Some 90, d)) /\ forall n, ~ number (bp_ph b) 4 n.
Proof. exact sample. Qed.

(** a call that raises has printed nothing, whatever the arguments; no IndexError and
    no AssertionError *)
Theorem C69_silent : forall fuel c args a1 a2 a3 p x, p = blen fuel c args \/ p = bang fuel c a1 a2 a3 -> snd p = BRaised x ->
  fst p = [] /\ (x = BEng XValue /\ c <> None \/ x = BEng XUnassigned /\ c = None \/ x = BType \/ x = BOverflow).
Proof. exact ends_properly. Qed.
Print Assumptions C69_silent.
Example C69_silent_ex : forall fuel, snd (blen fuel None []) = BRaised BType. Proof. exact no_args. Qed.

Theorem C69_unassigned : forall f i j k q1 q2 a3 a4, PyModel.c_int i = true -> PyModel.c_int j = true -> PyModel.c_int k = true ->
  blen f None [AInt i; AInt j] = ([], BRaised (BEng XUnassigned)) /\
  blen f None [q1; q2; a3; a4] = ([], BRaised (BEng XUnassigned)) /\
  bang f None (AInt i) (AInt j) (AInt k) = ([], BRaised (BEng XUnassigned)).
Proof. exact no_phase. Qed.
Print Assumptions C69_unassigned.
Example C69_unassigned_ex : PyModel.c_int 1 = true /\ PyModel.c_int 4 = true. Proof. exact small_ints. Qed.

Theorem C69_no_atom : forall f b i j, PyModel.c_int i = true -> PyModel.c_int j = true -> (forall k, ~ number (bp_ph b) i k) \/ (forall k, ~ number (bp_ph b) j k) ->
  blen f (Some b) [AInt i; AInt j] = ([], BRaised (BEng XValue)).
Proof. exact bad_atoms. Qed.
Print Assumptions C69_no_atom.
Example C69_no_atom_ex : exists b, ordinary b /\ fresh b /\ good_cell (bp_ph b) /\ number (bp_ph b) 1 0 /\ number (bp_ph b) 2 1 /\ number (bp_ph b) 3 2 /\
  kinds (map (bp_sym b) (seq 0 (BlenSpec.natoms b))) [chars "C"; chars "Na"] /\
  (exists r, bond_length_atoms 3 b 2 1 = Ok r /\ pd_dij r = Some 1) /\ (exists d, bond_angle 3 b 1 2 3 = Ok (Some 90, d)) /\ forall n, ~ number (bp_ph b) 4 n.
Proof. exact sample. Qed.

Theorem C69_no_kind : forall f b q1 q2 a3 a4 lo hi, as_real a3 = inr lo -> as_real a4 = inr hi -> ~ known q1 \/ ~ known q2 ->
  blen f (Some b) [AText q1; AText q2; a3; a4] = ([], BRaised (BEng XValue)).
Proof. exact bad_types. Qed.
Print Assumptions C69_no_kind.
Example C69_no_kind_ex : known (chars "c") /\ known (chars "all") /\ ~ known (chars "Xx").
Proof. exact known_words. Qed.

Theorem C69_no_angle : forall f b i j k, PyModel.c_int i = true -> PyModel.c_int j = true -> PyModel.c_int k = true ->
  (forall n, ~ number (bp_ph b) i n) \/ (forall n, ~ number (bp_ph b) j n) \/ (forall n, ~ number (bp_ph b) k n) \/ i = j \/ i = k \/ j = k ->
  bang f (Some b) (AInt i) (AInt j) (AInt k) = ([], BRaised (BEng XValue)).
Proof. exact bad_angle. Qed.
Print Assumptions C69_no_angle.
Example C69_no_angle_ex : exists b, ordinary b /\ fresh b /\ good_cell (bp_ph b) /\ number (bp_ph b) 1 0 /\ number (bp_ph b) 2 1 /\ number (bp_ph b) 3 2 /\
  kinds (map (bp_sym b) (seq 0 (BlenSpec.natoms b))) [chars "C"; chars "Na"] /\
  (exists r, bond_length_atoms 3 b 2 1 = Ok r /\ pd_dij r = Some 1) /\ (exists d, bond_angle 3 b 1 2 3 = Ok (Some 90, d)) /\ forall n, ~ number (bp_ph b) 4 n.
Proof. exact sample. Qed.

Theorem C69_count : forall f c args, length args <> 2%nat -> length args <> 4%nat -> blen f c args = ([], BRaised BType).
Proof. exact bad_count. Qed.
Print Assumptions C69_count.
Example C69_count_ex : length [AInt 1; AInt 2; AInt 3] <> 2%nat /\ length [AInt 1; AInt 2; AInt 3] <> 4%nat. Proof. exact three_args. Qed.

(** arguments of other types *)
Theorem C69_not_int : forall f c a x b d i j, match a with AInt n => x = BOverflow /\ ~ (-2147483648 <= n <= 2147483647)%Z | _ => x = BType end ->
  (-2147483648 <= i <= 2147483647)%Z -> (-2147483648 <= j <= 2147483647)%Z ->
  blen f c [a; b] = ([], BRaised x) /\ blen f c [AInt i; a] = ([], BRaised x) /\
  bang f c a b d = ([], BRaised x) /\ bang f c (AInt i) a d = ([], BRaised x) /\ bang f c (AInt i) (AInt j) a = ([], BRaised x).
Proof. exact no_int_refused. Qed.
Print Assumptions C69_not_int.
Example C69_not_int_ex : no_int (AReal 1) BType /\ no_int (AInt 2147483648) BOverflow. Proof. exact other_args. Qed.
Theorem C69_not_word : forall f b x t q1 q2 a3 a4 lo, as_real a3 = inr lo ->
  blen f (Some b) [AReal x; AText q2; a3; a4] = ([], BRaised BType) /\ blen f (Some b) [AText q1; AReal x; a3; a4] = ([], BRaised BType) /\
  blen f (Some b) [AText q1; AText q2; AText t; a4] = ([], BRaised BType) /\ blen f (Some b) [AText q1; AText q2; a3; AText t] = ([], BRaised BType).
Proof. exact no_word_refused. Qed.
Print Assumptions C69_not_word.
Example C69_not_word_ex : as_real (AReal 1) = inr 1. Proof. exact one_real. Qed.

(** the number of an element, in order of first occurrence, stands for its symbol *)
Theorem C69_index : forall f b ts k t a a3 a4, kinds (map (bp_sym b) (seq 0 (BlenSpec.natoms b))) ts -> nth_error ts k = Some t ->
  blen f (Some b) [AInt (Z.of_nat k + 1); a; a3; a4] = blen f (Some b) [AText (ReportModel.upper t); a; a3; a4] /\
  blen f (Some b) [a; AInt (Z.of_nat k + 1); a3; a4] = blen f (Some b) [a; AText (ReportModel.upper t); a3; a4].
Proof. exact named_as. Qed.
Print Assumptions C69_index.
Example C69_index_ex : exists b, ordinary b /\ fresh b /\ good_cell (bp_ph b) /\ number (bp_ph b) 1 0 /\ number (bp_ph b) 2 1 /\ number (bp_ph b) 3 2 /\
  kinds (map (bp_sym b) (seq 0 (BlenSpec.natoms b))) [chars "C"; chars "Na"] /\
  (exists r, bond_length_atoms 3 b 2 1 = Ok r /\ pd_dij r = Some 1) /\ (exists d, bond_angle 3 b 1 2 3 = Ok (Some 90, d)) /\ forall n, ~ number (bp_ph b) 4 n.
Proof. exact sample. Qed.

(** a number that no element has is not refused: 0 is the last element, one above the
    number of elements prints nothing and raises nothing *)
Theorem C69_index_refuted : exists b, ordinary b /\ kinds (map (bp_sym b) (seq 0 (BlenSpec.natoms b))) [chars "C"; chars "Na"] /\
  (forall f a lo hi, blen f (Some b) [AInt 0; a; lo; hi] = blen f (Some b) [AText (chars "NA"); a; lo; hi]) /\
  (forall f a lo hi, blen f (Some b) [AInt 3; a; lo; hi] = ([], BDone)).
Proof. exact index_refuted. Qed.
Print Assumptions C69_index_refuted.
